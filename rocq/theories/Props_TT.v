(** * Props_TT: actual travel times of links (C35). *)
From Verif Require Import Base Types Sim Build Inv Reach Steps Spec SpecTT LinkQueries Paths Demo MotionDemo TTActual LogsDemo TTDemo.
Local Open Scope nat_scope.

(** C35: in any world after finalize_scenario, actual_travel_time for [t] is the time spent by the last vehicle that left the link among those that entered it at or before [t]; the initial value if there is none *)
Theorem C35_value : forall c P w0 w l n ff, (0 < dt c)%Q -> reach c w0 -> w_final w0 = true -> l_tta (L w0 l) = repeat ff n ->
  later c P w0 w -> exists g, exits c P l w0 w g /\
  forall t, (0 <= t)%Q -> (t < Qof_nat n * dt c)%Q ->
    actual_travel_time c (L w l) t = Ok (match last_exit t g with Some x => spent x | None => ff end).
Proof. exact actual_value. Qed.
Print Assumptions C35_value.

(** C35: the initial value is the free-flow travel time *)
Theorem C35_free_flow : forall c tm w w' l, finalize c tm w = Ok w' -> l < w_nl w ->
  exists n ff, l_tta (L w' l) = repeat ff n /\ n = Z.to_nat (qtrunc (match w_tmax w' with Some t => t | None => 0%Q end / dt c)) /\ w_tsize w' = n /\
    (0 < n -> ~ (l_u (L w l) == 0)%Q /\ ff = (l_len (L w l) / l_u (L w l))%Q).
Proof. exact finalize_tta. Qed.
Print Assumptions C35_free_flow.

(** C35: times before 0 and after the end are read as the first and the last timestep *)
Theorem C35_clamped : forall c k t, (0 < dt c)%Q -> l_tta k <> [] ->
  ((t < 0)%Q -> actual_travel_time c k t = actual_travel_time c k 0) /\
  ((Qof_nat (List.length (l_tta k)) * dt c <= t)%Q ->
     actual_travel_time c k t = actual_travel_time c k (Qof_nat (List.length (l_tta k) - 1) * dt c)).
Proof. exact actual_clamped. Qed.
Print Assumptions C35_clamped.

(** C35: departures of vehicles that entered after [t] leave the value for [t] as it is *)
Theorem C35_kept : forall c w w' l t, (0 < dt c)%Q -> (0 <= t)%Q -> reach c w -> w_final w = true -> tick c w = Ok w' ->
  exists g, exits_in c l w w' g /\ (Forall (fun x => (t < entered x)%Q) g ->
    nth_error (l_tta (L w' l)) (Z.to_nat (slot c t)) = nth_error (l_tta (L w l)) (Z.to_nat (slot c t))).
Proof. exact actual_kept. Qed.
Print Assumptions C35_kept.

(** travel times after a trip *)
Example C35_example : exists w, reachable cfg_det w /\
  (state_eqb (v_state (V w 0)) End_ && att_is cfg_det w 0 0 26 && att_is cfg_det w 0 (49 # 10) 26 && att_is cfg_det w 0 5 30 &&
   att_is cfg_det w 0 190 30 && att_is cfg_det w 0 5000 30 && att_is cfg_det w 1 30 25 && att_is cfg_det w 1 35 25 &&
   att_is cfg_det w 1 (-7) 25)%bool = true.
Proof. exact actual_example. Qed.

(** travel times during a trip *)
Example C35_before_example : exists w, reachable cfg_det w /\
  (state_eqb (v_state (V w 0)) Run && att_is cfg_det w 0 5 30 && att_is cfg_det w 1 35 25)%bool = true.
Proof. exact actual_before_example. Qed.
