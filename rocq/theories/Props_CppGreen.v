(** * Props_CppGreen: signals and capacities in the compiled engine (C72). *)
From Coq Require Import Qminmax.
From Verif Require Import Base Types Sim Build Reach Steps Spec Signal Demo MotionDemo Cpp SpecCpp CppLoop CppInv CppSafe CppGreen CppFlow CppOut CppSignal CppNode CppGreenDemo.
Local Open Scope nat_scope.

(** C72: a vehicle enters another link, even if its trip ends in the same timestep, only if the node it passes has at most one phase or shows a phase of the signal group of its link *)
Theorem C72_green : forall c w w' v l, creach c w -> cpp_tick c w = Ok w' -> exists_veh w v -> on_link w v l ->
  (exists l', on_link w' v l' /\ l' <> l) \/ v_larr (V w' v) <> v_larr (V w v) ->
  List.length (n_signal (N w' (l_end (L w l)))) <= 1 \/ In (n_phase (N w' (l_end (L w l)))) (l_group (L w l)).
Proof. exact cpp_green. Qed.
Print Assumptions C72_green.

(** C72: a node has noted down only vehicles at the end of a link that leads to it *)
Theorem C72_noted : forall c w n v, creach c w -> In v (n_incoming (N w n)) -> exists_veh w v /\
  exists l, on_link w v l /\ (v_x (V w v) == l_len (L w l))%Q /\ l_end (L w l) = n.
Proof. exact cpp_noted. Qed.
Print Assumptions C72_noted.

(** C72: the recorded phases follow the plan *)
Theorem C72_signal_plan : forall c w w' n, (0 < dt c)%Q -> creach c w -> exists_node w n ->
  (forall g, In g (n_signal (N w n)) -> (0 <= g)%Q) -> n_phase (N w n) < List.length (n_signal (N w n)) ->
  claterP c (no_override n) w w' ->
  n_siglog (N w' n) = n_siglog (N w n) ++
    map (signal_plan (dt c) (n_signal (N w n)) (n_phase (N w n)) (n_sigt (N w n))) (seq 0 (w_T w' - w_T w)).
Proof. exact cpp_signal_plan. Qed.
Print Assumptions C72_signal_plan.

(** C72: the phase is an index of the list of green times *)
Theorem C72_phase_valid : forall c w n, creachP c phase_safe w -> exists_node w n -> n_phase (N w n) < List.length (n_signal (N w n)).
Proof. exact cpp_phase_valid. Qed.
Print Assumptions C72_phase_valid.

(** C72: what enters a link in a stretch of time, from any state *)
Theorem C72_inflow : forall c l w w' q, creach c w -> claterP c (keep_cin l) w w' -> l < w_nl w ->
  l_cin (L w l) = Some q -> (0 <= q)%Q -> (q < 10e9)%Q -> (0 <= dt c)%Q ->
  let entered := inject_Z (latest (l_ca (L w' l)) - latest (l_ca (L w l))) in
  let k := Qof_nat (w_T w' - w_T w) in
  (entered == 0 \/ entered <= q * dt c * k + l_cinr (L w l))%Q.
Proof. exact cpp_inflow. Qed.
Print Assumptions C72_inflow.

(** C72: the same with the largest allowance there can be *)
Theorem C72_inflow_bound : forall c l w w' q, creachP c (keep_cin l) w -> claterP c (keep_cin l) w w' -> l < w_nl w ->
  l_cin (L w l) = Some q -> (0 <= q)%Q -> (q < 10e9)%Q -> (0 <= dt c)%Q -> (0 <= dN c)%Q ->
  let entered := inject_Z (latest (l_ca (L w' l)) - latest (l_ca (L w l))) in
  let k := Qof_nat (w_T w' - w_T w) in
  (entered <= q * dt c * k + Qmax q (dN c * Qof_nat (l_lanes (L w l)) + q * dt c))%Q.
Proof. exact cpp_inflow_bound. Qed.
Print Assumptions C72_inflow_bound.

(** C72: nothing ever enters a link with capacity_in=0 *)
Theorem C72_closed : forall c l w, creachP c (keep_cin l) w -> l < w_nl w -> (exists q, l_cin (L w l) = Some q /\ (q == 0)%Q) -> (0 < dN c)%Q ->
  latest (l_ca (L w l)) = 0%Z /\ l_vehs (L w l) = [].
Proof. exact cpp_closed. Qed.
Print Assumptions C72_closed.

(** C72: transfers out of a link in a stretch of time, from any state *)
Theorem C72_outflow : forall c l w w' k, creach c w -> ctally c (keep_cout l) (fun a b => List.length (crossed c a b l)) w w' k ->
  l < w_nl w -> (0 <= l_cout (L w l))%Q -> (l_cout (L w l) < 10e9)%Q -> (0 < dt c)%Q -> (0 <= dN c)%Q ->
  k = 0 \/ (Qof_nat k * dN c <= l_cout (L w l) * dt c * Qof_nat (w_T w' - w_T w) + l_coutr (L w l))%Q.
Proof. exact cpp_outflow. Qed.
Print Assumptions C72_outflow.

(** C72: the same with the largest allowance there can be *)
Theorem C72_outflow_bound : forall c l w w' k, creachP c (keep_cout l) w ->
  ctally c (keep_cout l) (fun a b => List.length (crossed c a b l)) w w' k ->
  l < w_nl w -> (0 <= l_cout (L w l))%Q -> (l_cout (L w l) < 10e9)%Q -> (0 < dt c)%Q -> (0 <= dN c)%Q ->
  (Qof_nat k * dN c <= l_cout (L w l) * dt c * Qof_nat (w_T w' - w_T w) + l_coutr (L w l))%Q /\
  (l_coutr (L w l) <= dN c * Qof_nat (l_lanes (L w l)) + l_cout (L w l) * dt c)%Q.
Proof. exact cpp_outflow_bound. Qed.
Print Assumptions C72_outflow_bound.

(** C72: transfers through a node in a stretch of time *)
Theorem C72_node : forall c P n fc w w' k, creach c w -> w_final w = true ->
  ctally c P (fun a b => List.length (crossed_at c a b n)) w w' k ->
  n < w_nn w -> n_fcap (N w n) = Some fc -> (0 <= fc)%Q -> (0 < dt c)%Q -> (0 <= dN c)%Q ->
  (Qof_nat k * dN c <= fc * dt c * Qof_nat (w_T w' - w_T w) + n_fcapr (N w n))%Q /\
  (n_fcapr (N w n) <= dN c * Qof_nat (node_lanes (N w n)) + fc * dt c)%Q.
Proof. exact cpp_node. Qed.
Print Assumptions C72_node.

(** a vehicle crosses in the first timestep of its phase *)
Example C72_green_example : exists w, creachP cfg0 phase_safe w /\
  (match cpp_tick cfg0 w with
   | Ok w' => opt_eqb (v_link (V w 1)) (Some 1) && Qeq_bool (v_x (V w 1)) 100 && opt_eqb (v_link (V w' 1)) (Some 2) && Nat.eqb (l_end (L w 1)) 2 && (List.length (n_signal (N w' 2)) =? 2) &&
              Nat.eqb (n_phase (N w 2)) 0 && Nat.eqb (n_phase (N w' 2)) 1 && nlist_eqb (l_group (L w 1)) [1] && nlist_eqb (n_siglog (N w' 2)) [0; 0; 0; 1]
   | Err _ => false
   end)%bool = true.
Proof. exact cpp_green_example. Qed.

(** a narrow entrance *)
Example C72_inflow_example : exists w, creachP cfg0 (keep_cin 0) w /\
  (Z.eqb (latest (l_ca (L w 0))) 15 && (List.length (n_queue (N w 0)) =? 1) && (w_T w =? 15) && Qeq_bool (l_cinr (L w 0)) 1)%bool = true.
Proof. exact cpp_inflow_example. Qed.

(** a closed link *)
Example C72_closed_example : exists w, creachP cfg0 (keep_cin 0) w /\
  (Z.eqb (latest (l_ca (L w 0))) 0 && (List.length (n_queue (N w 0)) =? 1) && (w_T w =? 15) && match l_cin (L w 0) with Some q => Qeq_bool q 0 | None => false end)%bool = true.
Proof. exact cpp_closed_example. Qed.

(** a transfer *)
Example C72_outflow_example : exists w, creachP cfg0 (keep_cout 0) w /\
  (match cpp_tick cfg0 w with
   | Ok w' => nlist_eqb (crossed cfg0 w w' 0) [0] && Qeq_bool (l_coutr (L w 0)) 8 && Qeq_bool (l_coutr (L w' 0)) 3
   | Err _ => false
   end)%bool = true.
Proof. exact cpp_outflow_example. Qed.

(** one of two vehicles crosses a narrow node, the other waits *)
Example C72_node_example : exists w w', creach cfg0 w /\ clater cfg0 w w' /\
  ((List.length (n_incoming (N w 2)) =? 2) && (List.length (crossed_at cfg0 w w' 2) =? 1) && (List.length (n_incoming (N w' 2)) =? 1) && w_final w && (w_T w' =? S (w_T w)) &&
   match n_fcap (N w 2) with Some q => Qeq_bool q (1#5) | None => false end && (node_lanes (N w 2) =? 1))%bool = true.
Proof. exact cpp_node_example. Qed.
