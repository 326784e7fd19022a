(** * Scenario: demand functions with several nodes, and saving and loading of scenarios.

    uxsim/scenario_reader_writer.py, and uxsim.py 2021-2195, 2587-2618.  Left out: pickling itself, meta data, user attributes,
    auto_rename, and the two demand functions that draw random numbers (adddemand_area2area2, adddemand_nodes2nodes2). *)
From Verif Require Import Base Types Sim Build Registry.
Local Open Scope nat_scope.

(** ** Nodes by position *)
Definition sqdist (w : world) (x y : Q) (n : nid) : Q := ((n_x (N w n) - x) * (n_x (N w n) - x) + (n_y (N w n) - y) * (n_y (N w n) - y))%Q.
(** [get_nearest_node], 2587-2610; [None] when every node is farther than 10^5 *)
Definition nearer_node (w : world) (x y : Q) (best : Q * option nid) (n : nid) : Q * option nid :=
  let d := sqdist w x y n in if qlt d (fst best) then (d, Some n) else best.
Definition nearest_node (w : world) (x y : Q) : option nid :=
  snd (fold_left (nearer_node w x y) (seq 0 (w_nn w)) ((10000000000 # 1)%Q, None)).
(** [get_nodes_in_area], 2612-2618 *)
Definition in_area (w : world) (x y r : Q) : list nid := filter (fun n => qlt (sqdist w x y n) (r * r)%Q) (seq 0 (w_nn w)).

(** ** Calls of the demand functions.  Nodes are given by their names; a Node object of another World is looked up by its name, too (2552). *)
Inductive dcall : Type :=
| DOd (o d : string) (t0 t1 flow volume : Q)
| DPoint (x1 y1 x2 y2 : Q) (t0 t1 flow volume : Q)
| DArea (x1 y1 r1 x2 y2 r2 : Q) (t0 t1 flow volume : Q)
| DNodes (os ds : list string) (t0 t1 flow volume : Q).
(** the name of the function *)
Definition kind (d : dcall) : nat := match d with DOd _ _ _ _ _ _ => 0 | DPoint _ _ _ _ _ _ _ _ => 1 | DArea _ _ _ _ _ _ _ _ _ _ => 2 | DNodes _ _ _ _ _ _ => 3 end.

(** an unknown name fails when the first vehicle is added, so it becomes an unknown number *)
Definition node_id (w : world) (s : string) : nid := match dict_get (node_dict w) s with Some n => n | None => w_nn w end.
Fixpoint node_ids (w : world) (ss : list string) : result (list nid) :=
  match ss with [] => Ok [] | s :: ss => n <- of_opt Exception_ (dict_get (node_dict w) s) ;; ns <- node_ids w ss ;; Ok (n :: ns) end.
Definition nonempty {A} (l : list A) : bool := match l with [] => false | _ => true end.

(** the common part of 2134-2145 and 2183-2192 *)
Definition share (q : Q) (k : nat) : result Q := if qeq q (-1) then Ok q else qdiv q (Qof_nat k).
Definition demand_pairs (c : cfg) (os ds : list nid) (t0 t1 flow volume : Q) (w : world) : result world :=
  fl <- share flow (List.length os * List.length ds) ;;
  vol <- share volume (List.length os * List.length ds) ;;
  foldM (fun p => adddemand c (fst p) (snd p) t0 t1 fl vol) (list_prod os ds) w.

(** a missing nearest node is treated as a failure here; UXsim fails later *)
Definition or_nearest (w : world) (x y : Q) (ns : list nid) : result (list nid) :=
  match ns with [] => n <- of_opt AttributeError (nearest_node w x y) ;; Ok [n] | _ => Ok ns end.

Definition call_demand (c : cfg) (d : dcall) (w : world) : result world :=
  match d with
  | DOd o d t0 t1 fl vol => adddemand c (node_id w o) (node_id w d) t0 t1 fl vol w
  | DPoint x1 y1 x2 y2 t0 t1 fl vol =>
      o <- of_opt AttributeError (nearest_node w x1 y1) ;;
      d <- of_opt AttributeError (nearest_node w x2 y2) ;;
      adddemand c o d t0 t1 fl vol w
  | DArea x1 y1 r1 x2 y2 r2 t0 t1 fl vol =>
      os <- or_nearest w x1 y1 (filter (fun n => nonempty (n_out (N w n))) (in_area w x1 y1 r1)) ;;
      ds <- or_nearest w x2 y2 (filter (fun n => nonempty (n_in (N w n))) (in_area w x2 y2 r2)) ;;
      demand_pairs c os ds t0 t1 fl vol w
  | DNodes os ds t0 t1 fl vol =>
      os <- node_ids w os ;;
      ds <- node_ids w ds ;;
      demand_pairs c (filter (fun n => nonempty (n_out (N w n))) os) (filter (fun n => nonempty (n_in (N w n))) ds) t0 t1 fl vol w
  end.

(** ** [W.demand_info]: a dictionary from function names to the calls, in the order of the first call; scenario_reader_writer.py 10-40 *)
Definition info : Type := list (nat * list dcall).
Fixpoint record_call (d : dcall) (i : info) : info :=
  match i with
  | [] => [(kind d, [d])]
  | (k, ds) :: i => if Nat.eqb k (kind d) then (k, ds ++ [d]) :: i else (k, ds) :: record_call d i
  end.

(** a World under construction, with its record of calls *)
Inductive act : Type := AOp (o : op) | ADemand (d : dcall).
Definition perform (c : cfg) (a : act) (s : world * info) : result (world * info) :=
  match a with
  | AOp o => w <- apply_op c o (fst s) ;; Ok (w, snd s)
  | ADemand d => w <- call_demand c d (fst s) ;; Ok (w, record_call d (snd s))
  end.

(** ** [save_scenario], 99-149.  [instance_to_arg_dict] (42-97) takes the constructor arguments from the attributes of the same names,
    nodes by their names; an argument that equals its default is omitted, which makes no difference when loading. *)
Definition save_node (nd : node) : node_args :=
  mkNodeArgs (n_name nd) (n_x nd) (n_y nd) (n_signal nd) (n_offset nd) None (n_fcap nd) (n_lanes nd).
(** the arguments of a link: start and end by name, and the other ones *)
Definition saved_link : Type := string * string * (nid -> nid -> link_args).
Definition save_link (w : world) (k : link) : saved_link :=
  (n_name (N w (l_start k)), n_name (N w (l_end k)),
   fun a b => mkLinkArgs (Some (l_name k)) a b (l_len k) (l_ffs k) (l_jam k) (l_jampl k) (l_lanes k) (l_prio k)
                (l_group k) (Some (l_cout k)) (l_cin k) (l_toll k) (l_eulardx k)).
Record scenario : Type := mkScenario { sc_nodes : list node_args; sc_links : list saved_link; sc_demand : info }.
Definition save (s : world * info) : scenario :=
  let w := fst s in
  mkScenario (map (fun n => save_node (N w n)) (seq 0 (w_nn w))) (map (fun l => save_link w (L w l)) (seq 0 (w_nl w))) (snd s).

(** ** [load_scenario], 152-222 *)
Definition load_link (c : cfg) (k : saved_link) (w : world) : result world :=
  let '(a, b, mk) := k in
  a <- of_opt Exception_ (dict_get (node_dict w) a) ;;
  b <- of_opt Exception_ (dict_get (node_dict w) b) ;;
  add_link c (mk a b) w.
(** the calls in the order of the dictionary *)
Definition calls_of (i : info) : list dcall := flat_map snd i.
Definition load (c : cfg) (sc : scenario) (s : world * info) : result (world * info) :=
  w <- foldM (add_node c) (sc_nodes sc) (fst s) ;;
  w <- foldM (load_link c) (sc_links sc) w ;;
  foldM (perform c) (map ADemand (calls_of (sc_demand sc))) (w, snd s).
