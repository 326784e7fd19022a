(** * Properties of running the simulation (C18, C19, C21). *)
From Verif Require Import Base Types Sim Build Reach Steps Spec Exec ExecDemo Demo.
Local Open Scope nat_scope.

(** C18: any two sequences of exec_simulation calls that reach the same timestep reach the same state,
    except for W.TIME and the values of the time stamps of trip requests ([same_state]).  If the scenario is
    not finalized yet, both sequences must contain a call. *)
Theorem C18_split : forall c w args1 args2 w1 w2, reachable c w ->
  (w_final w = true \/ (args1 <> [] /\ args2 <> [])) ->
  calls c (map OExec args1) w = Ok w1 -> calls c (map OExec args2) w = Ok w2 ->
  w_T w1 = w_T w2 -> same_state w1 w2.
Proof. exact split_lemma. Qed.
Print Assumptions C18_split.

(** C18: a run that succeeds also succeeds when it is interrupted at any earlier timestep. *)
Theorem C18_stop_on_the_way : forall c w t0 t r w', reachable c w ->
  exec_simulation c (UntilT t) w = Ok (r, w') ->
  (Z.of_nat (w_T w) <= qtrunc (t0 / dt c) < qtrunc (t / dt c))%Z ->
  exists w1 w2, exec_simulation c (UntilT t0) w = Ok w1 /\ exec_simulation c (UntilT t) (snd w1) = Ok (r, w2) /\ same_state w' w2.
Proof. exact stop_on_the_way_lemma. Qed.
Print Assumptions C18_stop_on_the_way.

Example C18_not_vacuous : exists w, reachable cfg0 w /\ two_ways_test w = true.
Proof. exact two_ways. Qed.

(** C18 fails for the time stamps of trip requests: the passenger picked up in the first timestep of a
    second call gets on at time 5 instead of 0. *)
Theorem C18_request_times_refuted : exists w, reachable cfg0 w /\
  match pickup [UntilT 100] w, pickup [UntilT 0; UntilT 100] w with
  | Some a, Some b => qeq a 0 && qeq b 5
  | _, _ => false
  end = true.
Proof. exact pickup_differs. Qed.
Print Assumptions C18_request_times_refuted.

(** C19: W.T never exceeds TSIZE. *)
Theorem C19_clock_bounded : forall c w, reachable c w -> w_final w = true -> w_T w <= w_tsize w.
Proof. exact clock_le_lemma. Qed.
Print Assumptions C19_clock_bounded.

(** C19: exec_simulation returns 1 iff the end is reached, and 0 otherwise. *)
Theorem C19_return_value : forall c a w r w', reachable c w -> exec_simulation c a w = Ok (r, w') ->
  w_final w' = true /\ (r = 1%Z \/ r = 0%Z) /\ (r = 1%Z <-> w_T w' = w_tsize w') /\ w_T w <= w_T w'.
Proof. exact returns_one_lemma. Qed.
Print Assumptions C19_return_value.

(** C19: check_simulation_ongoing() is true iff timesteps remain. *)
Theorem C19_ongoing : forall w, check_ongoing w = true <-> (w_final w = true -> w_T w < w_tsize w).
Proof. exact ongoing_lemma. Qed.
Print Assumptions C19_ongoing.

(** C19: the loop [while check_simulation_ongoing(): exec_simulation(duration_t2=d)] with d >= DELTAT ends after at
    most one iteration per remaining timestep, having executed exactly the remaining timesteps (or with the error raised by one
    of them). *)
Theorem C19_loop : forall c d w fuel, (0 < dt c)%Q -> (dt c <= d)%Q -> w_final w = true -> w_T w <= w_tsize w ->
  w_tsize w - w_T w <= fuel ->
  same_result (iterM (tick c) (w_tsize w - w_T w) w) (run_loop c d fuel w).
Proof. exact run_loop_lemma. Qed.
Print Assumptions C19_loop.

Example C19_not_vacuous : exists w, reachable cfg0 w /\ loop_test w = true.
Proof. exact loop_runs. Qed.

(** C19: with d < DELTAT the call raises. *)
Theorem C19_short_duration_raises : forall c d w, (0 < dt c)%Q -> (0 <= d < dt c)%Q -> w_final w = true -> w_T w < w_tsize w ->
  exec_simulation c (DurationT2 d) w = Err Exception_.
Proof. exact short_duration_lemma. Qed.
Print Assumptions C19_short_duration_raises.

(** C21: with hard_deterministic_mode every sequence of public calls has the same outcome (state or error) for
    every random generator. *)
Theorem C21_deterministic : forall c o q, c_det c = true -> forall os w, calls (reseed o q c) os w = calls c os w.
Proof. exact calls_seed. Qed.
Print Assumptions C21_deterministic.

Example C21_not_vacuous : exists w, reachable cfg_det w /\ seeds_test w = true.
Proof. exact seeds_run. Qed.
