(** * SpecProgress: vocabulary of progress at nodes (C62). *)
From Verif Require Import Base Types Sim Spec.
Local Open Scope nat_scope.

(** In the transfers that lead from [w] to [w'], vehicle [u], which waited at node [m] for link [out],
    has entered [out]: it is on [out] and its link_arrival_time is the present time. *)
Definition passed (c : cfg) (w w' : world) (m : nid) (u : vid) (out : lid) : Prop :=
  In u (n_incoming (N w m)) /\ v_next (V w u) = Some (Some out) /\
  v_state (V w' u) = Run /\ v_link (V w' u) = Some out /\ v_larr (V w' u) = now c w /\ In u (l_vehs (L w' out)).
(** The flow capacity of node [n] is used up. *)
Definition node_spent (c : cfg) (w : world) (n : nid) : Prop := (n_fcapr (N w n) < dN c)%Q.
