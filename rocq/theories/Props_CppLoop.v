(** * Props_CppLoop: calls of exec_simulation with the compiled engine (C68). *)
From Verif Require Import Base Types Sim Build Reach Steps Spec FrameBase Demo Cpp CppLoop CppLoopDemo.
Local Open Scope nat_scope.

(** C68: a call runs the same timesteps and returns the same number as the loop of the Python engine, whatever the timestep does *)
Theorem C68_exec : forall tk c time a w, (0 < dt c)%Q -> advances tk -> w_T w <= w_tsize w -> cpp_exec tk c time a w = exec_with tk c a w.
Proof. exact exec_agrees. Qed.
Print Assumptions C68_exec.

(** C68 for the timesteps of the two engines *)
Theorem C68_exec_both : forall c time a w, (0 < dt c)%Q -> w_T w <= w_tsize w ->
  cpp_exec (tick c) c time a w = exec_until c (end_of_arg c w a) w /\ cpp_exec (cpp_tick c) c time a w = exec_with (cpp_tick c) c a w.
Proof. exact exec_agrees_both. Qed.
Print Assumptions C68_exec_both.

(** four calls *)
Example C68_exec_example : exists w, reachable cfg_det w /\ w_T w = 5 /\ w_tsize w = 20 /\
  (exists x, cpp_exec (cpp_tick cfg_det) cfg_det 20 (UntilT 42) w = Ok (0%Z, x) /\ w_T x = 9) /\
  (exists x, cpp_exec (cpp_tick cfg_det) cfg_det 20 (DurationT2 30) w = Ok (0%Z, x) /\ w_T x = 11) /\
  (exists x, cpp_exec (cpp_tick cfg_det) cfg_det 20 (DurationT 30) w = Ok (0%Z, x) /\ w_T x = 12) /\
  (exists x, cpp_exec (cpp_tick cfg_det) cfg_det 20 ToEnd w = Ok (1%Z, x) /\ w_T x = 20).
Proof. exact exec_example. Qed.

(** a timestep of the compiled engine keeps everything static: network, parameters, origins, routes, clock *)
Theorem C68_static : forall c w w', cpp_body c w = Ok w' -> fr w w'.
Proof. exact cpp_body_fr. Qed.
Print Assumptions C68_static.

(** the durations of main_loop itself: the first call runs one timestep more than later ones *)
Theorem C68_duration : forall c total n d, (0 < dt c)%Q -> (0 <= d)%Q -> n + Z.to_nat (Qfloor (d / dt c)) < total ->
  (main_end c total 0 d (-1) = Ok (Qfloor (d / dt c) + 1)%Z) /\
  (main_end c total (Qof_nat n * dt c) d (-1) = Ok (Z.of_nat (S n) + Qfloor (d / dt c))%Z).
Proof. exact main_duration. Qed.
Print Assumptions C68_duration.

(** calls of main_loop with the same duration do not run the same number of timesteps *)
Theorem C68_duration_refuted : exists c total d, (0 < dt c)%Q /\ main_end c total 0 d (-1) = Ok 21%Z /\ main_steps 0 21 = 21 /\
  main_end c total (Qof_nat 20 * dt c) d (-1) = Ok 41%Z /\ main_steps 21 41 = 20.
Proof. exact duration_refuted. Qed.
Print Assumptions C68_duration_refuted.

(** C68: the departure buckets let the vehicles depart by the rule of the vehicle, in the order of their ids *)
Theorem C68_departures : forall c start total n homes, (0 < dt c)%Q -> Forall (fun h => (0 <= snd h)%Q) homes -> start + n <= total ->
  map (bucket c start total homes) (seq start n) = scan c start n homes.
Proof. exact buckets_scan. Qed.
Print Assumptions C68_departures.

(** C68: splitting a call does not change the departures *)
Theorem C68_split : forall c start total n m homes, (0 < dt c)%Q -> Forall (fun h => (0 <= snd h)%Q) homes -> start + (n + m) <= total ->
  map (bucket c start total homes) (seq start (n + m)) =
  map (bucket c start total homes) (seq start n) ++ map (bucket c (start + n) total (still c start n homes)) (seq (start + n) m).
Proof. exact buckets_split. Qed.
Print Assumptions C68_split.

(** four vehicles *)
Example C68_departures_example : map (bucket cfg_det 1 20 [(0, 0%Q); (1, 7%Q); (2, 12%Q); (3, 3%Q)]) (seq 1 4) = [[0; 3]; [1]; [2]; []] /\
  still cfg_det 1 2 [(0, 0%Q); (1, 7%Q); (2, 12%Q); (3, 3%Q)] = [(2, 12%Q)].
Proof. exact bucket_example. Qed.

(** C68: a vehicle departs in the first timestep of the call that is not before its departure time *)
Theorem C68_when : forall c start total homes ts v d, (0 < dt c)%Q -> (0 <= d)%Q -> In (v, d) homes -> start <= ts -> ts < total ->
  (d <= Qof_nat ts * dt c)%Q -> (forall u, start <= u -> u < ts -> (Qof_nat u * dt c < d)%Q) -> In v (bucket c start total homes ts).
Proof. exact bucket_when. Qed.
Print Assumptions C68_when.

(** C68: never before its time and never twice *)
Theorem C68_once : forall c start total d t1 t2, (0 < dt c)%Q -> (0 <= d)%Q ->
  departs c start total d t1 = true -> t1 < total /\ start <= t1 /\ (d <= Qof_nat t1 * dt c)%Q /\ (departs c start total d t2 = true -> t2 = t1).
Proof. exact bucket_once. Qed.
Print Assumptions C68_once.

(** a vehicle added after its departure time *)
Example C68_past_due_example : bucket cfg_det 7 20 [(4, 3%Q)] 7 = [4] /\ bucket cfg_det 7 20 [(4, 3%Q)] 8 = [].
Proof. exact past_due_example. Qed.
