(** * SpecDuo: route search and DUO preferences, as the properties state them. *)
From Verif Require Import Base Types Sim Build Steps Spec Paths.
Local Open Scope nat_scope.

(** ** Preferences *)

(** weights between 0 and 1, also per timestep when preferences are updated gradually *)
Definition good_weights (c : cfg) : Prop :=
  (0 <= c_duo_weight c)%Q /\ (c_duo_weight c <= 1)%Q /\
  (0 <= duo_weight0 c)%Q /\ (duo_weight0 c <= 1)%Q.

(** no two links from node [n] lead to the same node *)
Definition no_parallel (w : world) (n : nid) : Prop :=
  NoDup (map (fun l => l_end (L w l)) (n_out (N w n))).

(** the preference of the links leaving [n], for the travelers to [k] *)
Definition out_pref (w : world) (k n : nid) : Q := qsum (map (w_rcpref w k) (n_out (N w n))).

(** each search made so far found a way from [n] to [k] *)
Definition always_reached (w : world) (n k : nid) : Prop :=
  forall t d, In (t, d) (w_rcrec w) -> d n k <> None.
(** a search, hence an update of the preferences, has been made *)
Definition searched (w : world) : Prop := w_rcrec w <> [].

(** preferences given by the user between 0 and 1 *)
Definition unit_prefs (d : list (lid * Q)) : Prop := Forall (fun lp => (0 <= snd lp)%Q /\ (snd lp <= 1)%Q) d.
Definition sound_prefs (o : op) (w : world) : Prop :=
  match o with OAddVehicle a => match va_pref a with Some d => unit_prefs d | None => True end | _ => True end.

(** ** Costs *)
Definition joins (w : world) (i j : nid) (l : lid) : bool :=
  Nat.eqb (l_start (L w l)) i && Nat.eqb (l_end (L w l)) j.
(** the links from [i] to [j] *)
Definition links_between (w : world) (i j : nid) : list lid := filter (joins w i j) (seq 0 (w_nl w)).
(** inflow forbidden, 1619 *)
Definition closed (k : link) : bool := match l_cin k with Some q => qeq q 0 | None => false end.
(** the last instantaneous travel time *)
Definition last_tt (k : link) : Q := match last_opt (l_tti k) with Some q => q | None => 0%Q end.
(** what the search charges for link [l]: link number [l] uses the [l]-th draw of the search *)
Definition link_cost (c : cfg) (w : world) (l : lid) : Q :=
  ((if c_det c then last_tt (L w l)
    else last_tt (L w l) * (1 + c_duo_noise c * qmax 0 (qmin 1 (c_orcq c (w_draw w + l)%nat))))
   + get_toll (L w l) (now c w))%Q.

Definition cost_matrix (c : cfg) (w : world) (m : nid -> nid -> option Q) : Prop :=
  forall i j,
    (links_between w i j = [] -> m i j = Some 0%Q) /\
    ((exists l, In l (links_between w i j) /\ closed (L w l) = true) -> m i j = None) /\
    (links_between w i j <> [] -> (forall l, In l (links_between w i j) -> closed (L w l) = false) ->
     exists q, m i j = Some q /\
       (q == qsum (map (link_cost c w) (links_between w i j)) / Qof_nat (List.length (links_between w i j)))%Q).

(** ** Least-cost paths: an entry 0 of the matrix is "no edge" *)
Inductive path (n : nat) (m : nid -> nid -> option Q) : nid -> nid -> Q -> Prop :=
| p_here : forall i, i < n -> path n m i i 0%Q
| p_edge : forall i j k q r, i < n -> m i j = Some q -> ~ (q == 0)%Q -> path n m j k r -> path n m i k (q + r)%Q.
Definition least (n : nat) (m : nid -> nid -> option Q) (i k : nid) (x : Q) : Prop :=
  (exists y, path n m i k y /\ (y == x)%Q) /\ (forall y, path n m i k y -> (x <= y)%Q).
Definition no_negative (n : nat) (m : nid -> nid -> option Q) : Prop :=
  forall i j q, i < n -> j < n -> m i j = Some q -> (0 <= q)%Q.

(** correct results of the shortest path routine for a graph of [n] nodes *)
Record paths_ok (n : nat) (m : nid -> nid -> option Q) (d : nid -> nid -> option Q) (nx : nid -> nid -> option nid) : Prop := mkPathsOk {
  po_least : forall i k x, i < n -> k < n -> d i k = Some x -> least n m i k x;
  po_none : forall i k x, i < n -> k < n -> d i k = None -> ~ path n m i k x;
  po_next : forall i k x, i < n -> k < n -> i <> k -> d i k = Some x ->
     exists j q y, nx i k = Some j /\ j < n /\ m i j = Some q /\ ~ (q == 0)%Q /\ d j k = Some y /\ (x == q + y)%Q;
  po_stay : forall i k, i < n -> k < n -> i = k \/ d i k = None -> nx i k = None }.
(** the routine is correct on matrices without negative entries *)
Definition correct_routine (c : cfg) : Prop :=
  forall n m d nx, c_dijkstra c n m = (d, nx) -> no_negative n m -> paths_ok n m d nx.

(** lengths, speeds and tolls are not negative *)
Definition sound_costs (o : op) (w : world) : Prop :=
  sound_links o w /\
  match o with
  | OAddLink a => match la_toll a with Some f => forall t, (0 <= f t)%Q | None => True end
  | OSetToll _ (Some f) => forall t, (0 <= f t)%Q
  | _ => True
  end.
Definition good_noise (c : cfg) : Prop := (0 <= c_duo_noise c)%Q.
