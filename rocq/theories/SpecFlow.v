(** * SpecFlow: what flow conservation at a node means.

    Counted in vehicles of the simulation (platoons); a platoon stands for [c_deltan] vehicles on the cumulative curves. *)
From Verif Require Import Base Types Sim Spec.
Local Open Scope nat_scope.

(** [f 0 + ... + f (k-1)] *)
Fixpoint upto (f : nat -> Z) (k : nat) : Z :=
  match k with 0 => 0%Z | S j => (upto f j + f j)%Z end.
Definition ind (b : bool) : Z := if b then 1%Z else 0%Z.

(** vehicles that have left the links entering [n] *)
Definition flow_in (w : world) (n : nid) : Z :=
  upto (fun l => ind (Nat.eqb (l_end (L w l)) n) * latest (l_cd (L w l)))%Z (w_nl w).
(** vehicles that have entered the links leaving [n] *)
Definition flow_out (w : world) (n : nid) : Z :=
  upto (fun l => ind (Nat.eqb (l_start (L w l)) n) * latest (l_ca (L w l)))%Z (w_nl w).
Definition started_b (a : vehicle) : bool := match v_state a with Home | Wait => false | _ => true end.
(** platoons that have started their trip at [n] *)
Definition started (w : world) (n : nid) : Z :=
  upto (fun v => ind (Nat.eqb (v_orig (V w v)) n && started_b (V w v))) (w_nv w).
(** platoons that have reached their destination [n] *)
Definition arrived (w : world) (n : nid) : Z :=
  upto (fun v => ind (match v_state (V w v), v_dest (V w v) with End_, Some m => Nat.eqb m n | _, _ => false end)) (w_nv w).
(** platoons that have given up at [n], when platoon [v] gave up at [pl v] *)
Definition gave_up (pl : vid -> nid) (w : world) (n : nid) : Z :=
  upto (fun v => ind (match v_state (V w v) with Abort => Nat.eqb (pl v) n | _ => false end)) (w_nv w).
(** every vehicle makes a single trip *)
Definition single_trips (w : world) : Prop := forall v, v < w_nv w -> v_mode (V w v) = SingleTrip.

(** at node [n] the vehicles that came in or started are those that went out, arrived or gave up *)
Definition conserved (c : cfg) (pl : vid -> nid) (w : world) (n : nid) : Prop :=
  (flow_in w n + c_deltan c * started w n =
   flow_out w n + c_deltan c * arrived w n + c_deltan c * gave_up pl w n)%Z.
(** vehicles give up at dead ends only *)
Definition at_dead_ends (pl : vid -> nid) (w : world) : Prop :=
  forall v, v < w_nv w -> v_state (V w v) = Abort -> pl v < w_nn w /\ n_out (N w (pl v)) = [].
