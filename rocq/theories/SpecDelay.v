(** * SpecDelay: free-flow travel times between nodes, delays and distances, in terms of the vehicles and routes. *)
From Verif Require Import Base Types Sim Build Steps Spec Paths SpecDuo SpecStats SpecRoutes.
Local Open Scope nat_scope.

(** no two links join the same nodes in the same direction; inflow is permitted everywhere; all lengths are positive *)
Definition single_links (w : world) : Prop := forall l k, exists_link w l -> exists_link w k ->
  l_start (L w l) = l_start (L w k) -> l_end (L w l) = l_end (L w k) -> l = k.
Definition open_links (w : world) : Prop := forall l, exists_link w l -> closed (L w l) = false.
Definition long_links (w : world) : Prop := forall l, exists_link w l -> (0 < l_len (L w l))%Q.
Definition plain_net (w : world) : Prop := single_links w /\ open_links w /\ long_links w /\ fast_links w.

(** [x] is the free-flow travel time of the fastest route from [i] to [k] *)
Definition fastest (w : world) (i k : nid) (x : Q) : Prop :=
  (exists r, leads w i k r /\ (free_time w r == x)%Q) /\ (forall r, leads w i k r -> (x <= free_time w r)%Q).
(** [x] is the length of the shortest route from [i] to [k] *)
Definition shortest (w : world) (i k : nid) (x : Q) : Prop :=
  (exists r, leads w i k r /\ (total_length w r == x)%Q) /\ (forall r, leads w i k r -> (x <= total_length w r)%Q).

(** the vehicles of the group of [v]: same origin and same destination *)
Definition same_trip (w : world) (v u : vid) : bool :=
  match v_dest (V w v), v_dest (V w u) with
  | Some a, Some b => Nat.eqb (v_orig (V w v)) (v_orig (V w u)) && Nat.eqb a b
  | _, _ => false
  end.
(** some vehicle of the group has completed the trip *)
Definition served (w : world) (v : vid) : bool := existsb (fun u => same_trip w v u && has_ended w u) (vehicles w).
(** the distances of the vehicles of the served groups *)
Definition served_distance (w : world) : Q := qsum (map (fun v => v_dist (V w v)) (filter (served w) (vehicles w))).
Definition all_distance (w : world) : Q := qsum (map (fun v => v_dist (V w v)) (filter (has_dest w) (vehicles w))).
