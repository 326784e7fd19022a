(** * SpecLone: vocabulary of the ride of a lone vehicle (C63). *)
From Verif Require Import Base Types Sim Build Steps Spec.
Local Open Scope nat_scope.

(** Vehicle [v] is the only one. *)
Definition alone (w : world) (v : vid) : Prop := exists_veh w v /\ forall u, exists_veh w u -> u = v.
(** The scenario is built before the simulation starts; afterwards only routes, preferences and tolls are
    set. No free flow speed and no capacity is ever changed. *)
Definition settled (o : op) (w : world) : Prop :=
  keep_speed o w /\ (forall l q, o <> OSetCapIn l q /\ o <> OSetCapOut l q) /\
  (w_final w = true ->
   match o with OFinalize _ | OExec _ | OEnforceRoute _ _ _ | OSetPrefer _ _ | OSetAvoid _ _ | OSetToll _ _ => True | _ => False end).
(** One platoon per timestep can enter and leave the link. *)
Definition ample (c : cfg) (k : link) : Prop :=
  exists q, l_cin k = Some q /\ (dN c <= q * dt c)%Q /\ (dN c <= l_cout k * dt c)%Q.
(** Nothing holds a vehicle back: the capacities of the links are ample, no node has a signal or a flow
    capacity, every link takes at least one timestep and leads to another node. *)
Definition free_net (c : cfg) (w : world) : Prop :=
  (forall l, exists_link w l -> ample c (L w l) /\ l_start (L w l) <> l_end (L w l) /\
     (0 < l_u (L w l))%Q /\ (l_u (L w l) * dt c <= l_len (L w l))%Q) /\
  (forall n, n < w_nn w -> List.length (n_signal (N w n)) <= 1 /\ n_fcap (N w n) = None).
(** The only dead end is the destination of vehicle [v], which does not start there. *)
Definition way_on (w : world) (v : vid) : Prop :=
  forall n, n < w_nn w -> n_out (N w n) = [] -> v_dest (V w v) = Some n /\ v_orig (V w v) <> n.
(** The same, for links that may take less than a timestep. *)
Definition open_net (c : cfg) (w : world) : Prop :=
  (forall l, exists_link w l -> ample c (L w l) /\ l_start (L w l) <> l_end (L w l) /\ (0 < l_u (L w l))%Q) /\
  (forall n, n < w_nn w -> List.length (n_signal (N w n)) <= 1 /\ n_fcap (N w n) = None).
