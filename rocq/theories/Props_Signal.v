(** * Properties of traffic signals (C10, C11). *)
From Verif Require Import Base Types Sim Build Reach Steps Spec Signal SignalDemo Demo Green RouteDemo.
Local Open Scope nat_scope.

(** C10: from any state of any run, as long as nobody calls override_signal on the node, the phases recorded
    by the node in the following timesteps are those of [signal_plan]: the phases in cyclic order, phase
    [i] shown for [floor(g_i / DELTAT) + 1] timesteps (the current one for the timesteps left). *)
Theorem C10_signal_plan : forall c w w' n, (0 < dt c)%Q -> reach c w -> exists_node w n ->
  (forall g, In g (n_signal (N w n)) -> (0 <= g)%Q) -> n_phase (N w n) < List.length (n_signal (N w n)) ->
  later c (no_override n) w w' ->
  n_siglog (N w' n) = n_siglog (N w n) ++
    map (signal_plan (dt c) (n_signal (N w n)) (n_phase (N w n)) (n_sigt (N w n))) (seq 0 (w_T w' - w_T w)).
Proof. exact signal_plan_lemma. Qed.
Print Assumptions C10_signal_plan.

(** C10: a new node starts at the position of the cycle given by signal_offset: [offset] seconds before
    the start of phase 0. *)
Theorem C10_start : forall c a, (forall g, In g (na_signal a) -> (0 <= g)%Q) -> (0 < qsum (na_signal a))%Q ->
  (na_offset a <= qsum (na_signal a))%Q -> na_offset_old a = None ->
  exists nd, new_node c a = Ok nd /\ n_signal nd = na_signal a /\
    cycle_position (na_signal a) (qsum (na_signal a) - na_offset a) (n_phase nd) (n_sigt nd).
Proof. exact offset_lemma. Qed.
Print Assumptions C10_start.

Example C10_not_vacuous : exists w, reachable cfg0 w /\
  ((2 <? w_nn w) && (1 <? List.length (n_signal (N w 2))) && (n_phase (N w 2) =? 1) && qlt 0 (n_sigt (N w 2)) && (w_T w =? 6))%bool = true.
Proof. exact signal_running. Qed.
Example C10_start_not_vacuous : exists nd, new_node cfg0 (mkNodeArgs "A"%string 0 0 [30%Q; 20%Q] 15 None None None) = Ok nd /\
  n_phase nd = 1 /\ n_sigt nd = 5%Q.
Proof. exact offset_example. Qed.

(** C10 as it is usually understood is violated: with green times [10; 10] and timesteps of 5 s each phase is
    active for 3 timesteps, 15 s. *)
Theorem C10_nominal_refuted : exists w, reachable cfg0 w /\
  ((w_T w =? 21) && nlist_eqb (firstn 9 (n_siglog (N w 2))) [0;0;0;1;1;1;0;0;0])%bool = true.
Proof. exact green_too_long. Qed.
Print Assumptions C10_nominal_refuted.

(** C10: with an offset longer than the cycle the node does not start within the cycle. *)
Theorem C10_long_offset_refuted : exists nd, new_node cfg0 (mkNodeArgs "A"%string 0 0 [10%Q; 5%Q] 25 None None None) = Ok nd /\
  n_phase nd = 0 /\ n_sigt nd = (-10)%Q.
Proof. exact offset_negative. Qed.
Print Assumptions C10_long_offset_refuted.

(** C10: with only zero green times the search for the starting position never ends, however many iterations are allowed. *)
Theorem C10_zero_cycle_loops : forall fuel, signal_start fuel [0%Q; 0%Q] 0 0 = Err Nontermination.
Proof. exact zero_cycle_loops. Qed.
Print Assumptions C10_zero_cycle_loops.

(** C11: the phase is an index of the signal list in every state reached without an override_signal to an
    empty list, or without reset while the current phase is not an index of the new list. *)
Theorem C11_phase_valid : forall c w n, reachP c phase_safe w -> exists_node w n ->
  n_phase (N w n) < List.length (n_signal (N w n)).
Proof. exact phase_valid_lemma. Qed.
Print Assumptions C11_phase_valid.

Example C11_not_vacuous : exists w, reachP cfg0 phase_safe w /\
  ((2 <? w_nn w) && (List.length (n_signal (N w 2)) =? 1) && (n_phase (N w 2) =? 0) &&
    nlist_eqb (n_siglog (N w 2)) [0;0;0;1;1;1;1;2;2;0;0;0;0;0])%bool = true.
Proof. exact phases_running. Qed.

(** C11 is violated by override_signal called with its default reset=False; the next timestep fails. *)
Theorem C11_refuted : exists w, reachable cfg0 w /\
  ((2 <? w_nn w) && (List.length (n_signal (N w 2)) <=? n_phase (N w 2)) && w_final w &&
   match exec_simulation cfg0 (UntilT 30) w with Err IndexError => true | _ => false end)%bool = true.
Proof. exact override_breaks. Qed.
Print Assumptions C11_refuted.

(** C09: a vehicle on link [l] that in one timestep enters a link (its link changes, or it enters its link
    anew at another time, or a link is added to its record, which also covers vehicles whose trip ends in
    the same timestep) does so while the signal at the end of [l] has at most one phase or shows a phase
    in the signal group of [l]. *)
Theorem C09_green : forall c w w' v l, reach c w -> w_final w = true -> tick c w = Ok w' -> exists_veh w v ->
  on_link w v l ->
  (exists l', on_link w' v l' /\ (l' <> l \/ v_larr (V w' v) <> v_larr (V w v))) \/
  links_of (v_tlog (V w' v)) <> links_of (v_tlog (V w v)) ->
  List.length (n_signal (N w' (l_end (L w l)))) <= 1 \/ In (n_phase (N w' (l_end (L w l)))) (l_group (L w l)).
Proof. exact green_lemma. Qed.
Print Assumptions C09_green.

(** such a timestep, at a signal with two phases *)
Example C09_not_vacuous : exists w, reachable cfg0 w /\
  (w_final w &&
   match tick cfg0 w with
   | Ok w' => existsb (fun v => vstate_eqb (v_state (V w v)) Run && vstate_eqb (v_state (V w' v)) Run &&
                opt_eqb (v_link (V w v)) (Some 0) && opt_eqb (v_link (V w' v)) (Some 2)) (seq 0 (w_nv w)) &&
              (1 <? List.length (n_signal (N w' 2)))
   | Err _ => false end)%bool = true.
Proof. exact crossing_example. Qed.
