(** * Properties of capacities: inflow (C07), outflow and node capacity (C08). *)
From Coq Require Import Qminmax.
From Verif Require Import Base Types Sim Build Reach Steps Spec Paths Demo Origin Bucket Outflow FlowDemo.
Local Open Scope nat_scope.

(** C07: between any two states of a run, the number of vehicles that entered link [l] is zero or at most capacity_in*DELTAT per timestep plus the allowance at the beginning *)
Theorem C07_window : forall c l w w' q, reach c w -> later c (keep_cin l) w w' -> l < w_nl w ->
  l_cin (L w l) = Some q -> (0 <= q)%Q -> (0 <= dt c)%Q ->
  let entered := inject_Z (latest (l_ca (L w' l)) - latest (l_ca (L w l))) in
  let k := Qof_nat (w_T w' - w_T w) in
  (entered == 0 \/ entered <= q * dt c * k + l_cinr (L w l))%Q.
Proof. exact inflow_lemma. Qed.
Print Assumptions C07_window.

(** C07: that allowance is at most DELTAN*lanes + capacity_in*DELTAT or the initial one (which is capacity_in itself if none was given), unless capacity_in was assigned *)
Theorem C07_bound : forall c l w w' q, reachP c (keep_cin l) w -> later c (keep_cin l) w w' -> l < w_nl w ->
  l_cin (L w l) = Some q -> (0 <= q)%Q -> (0 <= dt c)%Q -> (0 <= dN c)%Q ->
  let entered := inject_Z (latest (l_ca (L w' l)) - latest (l_ca (L w l))) in
  let k := Qof_nat (w_T w' - w_T w) in
  (entered <= q * dt c * k + Qmax q (dN c * Qof_nat (l_lanes (L w l)) + q * dt c))%Q.
Proof. exact inflow_bound_lemma. Qed.
Print Assumptions C07_bound.

(** C07: a link with capacity_in=0 never receives any vehicle *)
Theorem C07_closed : forall c l w, reachP c (keep_cin l) w -> l < w_nl w -> (exists q, l_cin (L w l) = Some q /\ (q == 0)%Q) -> (0 < dN c)%Q ->
  latest (l_ca (L w l)) = 0%Z /\ l_vehs (L w l) = [].
Proof. exact closed_lemma. Qed.
Print Assumptions C07_closed.

(** C07, the other way of closing: assigning capacity_in=0 during the run leaves the allowance; a platoon still enters later *)
Theorem C07_closed_later_refuted : exists w, reachable cfg0 w /\
  (match l_cin (L w 0) with Some q => Qeq_bool q 0 | None => false end && Z.eqb (nth 2 (l_ca (L w 0)) 0%Z) 0 &&
   Z.eqb (latest (l_ca (L w 0))) 5)%bool = true.
Proof. exact closing_example. Qed.
Print Assumptions C07_closed_later_refuted.

(** a narrow entrance *)
Example C07_example : exists w, reachable cfg0 w /\
  (Z.eqb (latest (l_ca (L w 0))) 10 && (List.length (n_queue (N w 0)) =? 2) && (w_T w =? 11))%bool = true.
Proof. exact inflow_example. Qed.

(** C08: transfers out of link [l] *)
Theorem C08_link : forall c l w w' k, reachP c (keep_cout l) w ->
  tally c (keep_cout l) (fun a b => List.length (crossed c a b l)) w w' k ->
  l < w_nl w -> (0 <= l_cout (L w l))%Q -> (0 < dt c)%Q -> (0 <= dN c)%Q ->
  (Qof_nat k * dN c <= l_cout (L w l) * dt c * Qof_nat (w_T w' - w_T w) + l_coutr (L w l))%Q /\
  (l_coutr (L w l) <= dN c * Qof_nat (l_lanes (L w l)) + l_cout (L w l) * dt c)%Q.
Proof. exact outflow_bound_lemma. Qed.
Print Assumptions C08_link.

(** C08: the same from any reachable state (capacity_out assigned earlier), with the allowance at the beginning *)
Theorem C08_link_window : forall c l w w' k, reach c w -> tally c (keep_cout l) (fun a b => List.length (crossed c a b l)) w w' k ->
  l < w_nl w -> (0 <= l_cout (L w l))%Q -> (0 < dt c)%Q -> (0 <= dN c)%Q ->
  k = 0 \/ (Qof_nat k * dN c <= l_cout (L w l) * dt c * Qof_nat (w_T w' - w_T w) + l_coutr (L w l))%Q.
Proof. exact outflow_lemma. Qed.
Print Assumptions C08_link_window.

(** C08: transfers through node [n] *)
Theorem C08_node : forall c P n fc w w' k, reach c w -> w_final w = true ->
  tally c P (fun a b => List.length (crossed_at c a b n)) w w' k ->
  n < w_nn w -> n_fcap (N w n) = Some fc -> (0 <= fc)%Q -> (0 < dt c)%Q -> (0 <= dN c)%Q ->
  exists m, n_lanes (N w n) = Some m /\
   (Qof_nat k * dN c <= fc * dt c * Qof_nat (w_T w' - w_T w) + n_fcapr (N w n))%Q /\
   (n_fcapr (N w n) <= dN c * Qof_nat m + fc * dt c)%Q.
Proof. exact node_lemma. Qed.
Print Assumptions C08_node.

(** a vehicle crosses the node *)
Example C08_example : exists w, reachable cfg0 w /\ 
  (nlist_eqb (crossing cfg0 0 w) [0] && nlist_eqb (crossing_at cfg0 1 w) [0])%bool = true.
Proof. exact outflow_example. Qed.

(** a link with capacity_out=0 keeps its vehicle *)
Example C08_shut_example : exists w, reachable cfg0 w /\ (nlist_eqb (l_vehs (L w 0)) [0] && (w_T w =? 19))%bool = true.
Proof. exact shut_example. Qed.

(** capacity_out limits transfers only: the trip of a vehicle ends on a link with capacity_out=0 *)
Example C08_trip_end_example : exists w, reachable cfg0 w /\ (nlist_eqb (l_vehs (L w 0)) [] && vstate_eqb (v_state (V w 0)) End_)%bool = true.
Proof. exact shut_end_example. Qed.

