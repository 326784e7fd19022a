(** * SpecArea: demand between groups of nodes (property C46). *)
From Verif Require Import Base Types Sim Build Registry Spatial Spec.
Local Open Scope nat_scope.

(** the nodes with an outlink (inlink) among those given by [ks] *)
Definition origins (w : world) (ks : list key) (os : list nid) : Prop :=
  forall n, In n os <-> n_out (N w n) <> [] /\ exists_node w n /\ exists k, In k ks /\ get_node w k = Ok (Some n).
Definition destinations (w : world) (ks : list key) (ds : list nid) : Prop :=
  forall n, In n ds <-> n_in (N w n) <> [] /\ exists_node w n /\ exists k, In k ks /\ get_node w k = Ok (Some n).
(** the nodes with [p] in a circle; the node nearest to its center if there are none *)
Definition area (w : world) (p : nid -> Prop) (x y r : Q) (ns : list nid) : Prop :=
  (forall n, In n ns -> exists_node w n) /\
  ((exists n, exists_node w n /\ p n /\ (dist2 w n x y < r * r)%Q) /\ (forall n, In n ns <-> exists_node w n /\ p n /\ (dist2 w n x y < r * r)%Q) \/
   ~ (exists n, exists_node w n /\ p n /\ (dist2 w n x y < r * r)%Q) /\ exists n, ns = [n] /\ get_nearest_node w x y = Some n).

(** [a] travels from [o] to [d], departing from timestep [z0] on, before timestep [z1] *)
Definition trip (o d : nid) (z0 z1 : Z) (a : vehicle) : Prop :=
  v_orig a = o /\ v_dest a = Some d /\ v_state a = Home /\ v_mode a = SingleTrip /\ (z0 <= v_dep a < z1)%Z.
(** every pair gets [m] platoons *)
Definition shares (os ds : list nid) (m : nat) (z0 z1 : Z) (w w' : world) : Prop :=
  w_nv w' = w_nv w + (List.length os * List.length ds) * m /\ (forall v, v < w_nv w -> V w' v = V w v) /\
  forall i o d j, nth_error (list_prod os ds) i = Some (o, d) -> j < m -> trip o d z0 z1 (V w' (w_nv w + i * m + j)).

(** [t] is the i-th of [size] evenly spaced times from [t0] to [t1] *)
Definition evenly (t0 t1 : Q) (size i : nat) (t : Q) : Prop :=
  if size <=? 1 then (t == t0)%Q else (t * Qof_nat (size - 1) == t0 * Qof_nat (size - 1) + Qof_nat i * (t1 - t0))%Q.
Definition scattered (c : cfg) (os ds : list nid) (t : Q) (a : vehicle) : Prop :=
  In (v_orig a) os /\ (exists d, v_dest a = Some d /\ In d ds /\ d <> v_orig a) /\ v_state a = Home /\ v_mode a = SingleTrip /\
  (inject_Z (v_dep a) * dt c <= t)%Q /\ (t < (inject_Z (v_dep a) + 1) * dt c)%Q.
(** [size] platoons between random nodes, evenly spaced in time *)
Definition scattering (c : cfg) (os ds : list nid) (t0 t1 : Q) (size : nat) (w w' : world) : Prop :=
  w_nv w' = w_nv w + size /\ (forall v, v < w_nv w -> V w' v = V w v) /\
  forall i, i < size -> exists t, evenly t0 t1 size i t /\ scattered c os ds t (V w' (w_nv w + i)).
(** the volume asked for *)
Definition volume_asked (t0 t1 flow volume vol : Q) : Prop :=
  (0 <= flow /\ volume == -1 /\ vol == flow * (t1 - t0))%Q \/ (~ (0 <= flow /\ volume == -1) /\ vol == volume)%Q.
