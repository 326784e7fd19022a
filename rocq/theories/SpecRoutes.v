(** * SpecRoutes: routes between nodes, as the enumerations of Utilities promise them (C50). *)
From Verif Require Import Base Types Sim Build Steps Spec SpecDuo.
Local Open Scope nat_scope.

(** the links [r], in this order, lead from [s] to [t] *)
Fixpoint leads (w : world) (s t : nid) (r : list lid) : Prop :=
  match r with
  | [] => s = t
  | l :: tl => exists_link w l /\ l_start (L w l) = s /\ leads w (l_end (L w l)) t tl
  end.
(** the nodes on the way *)
Definition visited (w : world) (s : nid) (r : list lid) : list nid := s :: map (fun l => l_end (L w l)) r.
(** no node is visited twice *)
Definition simple_route (w : world) (s t : nid) (r : list lid) : Prop := leads w s t r /\ NoDup (visited w s r).
Definition cost (f : lid -> Q) (r : list lid) : Q := qsum (map f r).
(** no two links join the same nodes in the same direction *)
Definition single_links (w : world) : Prop := forall i j, List.length (links_between w i j) <= 1.
(** some link starts or ends at node [n] *)
Definition linked (w : world) (n : nid) : Prop := exists l, exists_link w l /\ (l_start (L w l) = n \/ l_end (L w l) = n).
(** costs in increasing order *)
Fixpoint rising (cs : list Q) : Prop :=
  match cs with [] => True | x :: tl => (forall y, In y tl -> (x <= y)%Q) /\ rising tl end.

(** [rs] are [k] routes of least cost among the simple ones from [s] to [t] (all of them if there are fewer), with costs [cs] *)
Record k_least (w : world) (f : lid -> Q) (s t : nid) (k : nat) (rs : list (list lid)) (cs : list Q) : Prop := mkKLeast {
  kl_routes : Forall (simple_route w s t) rs;
  kl_once : NoDup rs;
  kl_number : List.length rs <= k;
  kl_costs : Forall2 (fun r x => (x == cost f r)%Q) rs cs;
  kl_order : rising cs;
  kl_best : forall r, simple_route w s t r -> ~ In r rs -> List.length rs = k /\ forall r', In r' rs -> (cost f r' <= cost f r)%Q }.

(** ** What networkx is relied on for: paths are lists of nodes, an edge has a weight *)
Definition graph := nid -> nid -> option Q.
Fixpoint steps_ok (e : graph) (p : list nid) : Prop :=
  match p with a :: ((b :: _) as tl) => e a b <> None /\ steps_ok e tl | _ => True end.
Fixpoint weight (e : graph) (p : list nid) : Q :=
  match p with a :: ((b :: _) as tl) => (match e a b with Some q => q | None => 0 end + weight e tl)%Q | _ => 0%Q end.
Definition simple_path (e : graph) (s t : nid) (p : list nid) : Prop :=
  hd_error p = Some s /\ last_opt p = Some t /\ NoDup p /\ steps_ok e p.
Definition within (n : nat) (e : graph) : Prop := forall i j, e i j <> None -> i < n /\ j < n.
Definition in_graph (e : graph) (i : nid) : Prop := exists j, e i j <> None \/ e j i <> None.

(** shortest_simple_paths: all simple paths, in the order of their weights *)
Record lists_paths (e : graph) (s t : nid) (ps : list (list nid)) : Prop := mkLists {
  lp_sound : forall p, In p ps -> simple_path e s t p;
  lp_complete : forall p, simple_path e s t p -> In p ps;
  lp_once : NoDup ps;
  lp_order : rising (map (weight e) ps) }.
Definition correct_ssp (ssp : nat -> graph -> nid -> nid -> list (list nid)) : Prop :=
  forall n e s t, within n e -> lists_paths e s t (ssp n e s t).

(** all_pairs_dijkstra_path: for all nodes of the graph, a path of least weight to every node that can be reached *)
Record lists_least (e : graph) (es : list ((nid * nid) * list nid)) : Prop := mkLeast {
  ll_sound : forall s t p, In ((s, t), p) es -> in_graph e s /\ simple_path e s t p;
  ll_least : forall s t p q, In ((s, t), p) es -> simple_path e s t q -> (weight e p <= weight e q)%Q;
  ll_complete : forall s t q, in_graph e s -> simple_path e s t q -> In (s, t) (map fst es);
  ll_once : NoDup (map fst es) }.
Definition no_minus (e : graph) : Prop := forall i j q, e i j = Some q -> (0 <= q)%Q.
Definition correct_apd (apd : nat -> graph -> list ((nid * nid) * list nid)) : Prop :=
  forall n e, within n e -> no_minus e -> lists_least e (apd n e).
