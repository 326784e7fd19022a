(** * SpecCpp: what agreement of the two engines means (property C65). *)
From Verif Require Import Base Types Sim.
Local Open Scope nat_scope.

(** the same world: the same vehicles, and the same everything else *)
Definition same_world (w1 w2 : world) : Prop :=
  (forall v, V w1 v = V w2 v) /\ forall f, sw_vehs f w1 = sw_vehs f w2.

(** position [i] of an array after the events: the travel time of the last event that starts at or before [i] *)
Fixpoint last_before (evs : list (nat * Q)) (i : nat) (x0 : Q) : Q :=
  match evs with
  | [] => x0
  | (s, x) :: rest => last_before rest i (if s <=? i then x else x0)
  end.

(** no vehicle would be pushed backwards by the free-flow speed of a link *)
Definition forward (c : cfg) (w : world) : Prop := forall l, l < w_nl w -> (0 <= l_u (L w l) * dt c)%Q.
