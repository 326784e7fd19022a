(** * Props_Average: Analyzer.average_speed (C39). *)
From Verif Require Import Base Types Sim Build Inv Reach Steps Spec SpecAvg Paths Average Demo MotionDemo AverageDemo.
Local Open Scope nat_scope.

(** C39: as long as no vehicle has been recorded waiting, average_speed is the average of the recorded speeds *)
Theorem C39_average : forall c w, reach c w -> all_waits w = 0 -> all_speeds w <> [] ->
  (w_avgspd w == mean_speed w)%Q /\ (w_avgspd w == mean_run_speed w)%Q.
Proof. exact average_lemma. Qed.
Print Assumptions C39_average.

(** C39: average_speed_count is the number of recorded vehicle-timesteps of driving and waiting vehicles *)
Theorem C39_count : forall c w, reach c w -> w_avgcnt w = List.length (all_speeds w) + all_waits w.
Proof. exact average_count. Qed.
Print Assumptions C39_count.

(** a vehicle on a fast and a slow link *)
Example C39_example : exists w, reachable cfg_det w /\
  (Nat.eqb (all_waits w) 0 && Nat.eqb (List.length (all_speeds w)) 16 && Qeq_bool (mean_speed w) (w_avgspd w) && Qeq_bool (w_avgspd w) (111 # 8))%bool = true.
Proof. exact average_example. Qed.

(** C39 fails once a vehicle has been recorded waiting: the average is neither that of all vehicle-timesteps (waiting with speed 0) nor that of the driving ones *)
Theorem C39_waiting_refuted : exists w, reachable cfg_det w /\
  (Nat.eqb (all_waits w) 3 && Qeq_bool (mean_speed w) (215 # 12) && Qeq_bool (mean_run_speed w) (215 # 11) && Qeq_bool (w_avgspd w) (235 # 12))%bool = true.
Proof. exact average_refuted. Qed.
Print Assumptions C39_waiting_refuted.
