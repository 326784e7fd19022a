(** * Props_Logs: the log of a vehicle (C43). *)
From Verif Require Import Base Types Sim Build Inv Reach Steps Spec SpecLogs Paths Demo MotionDemo Logs LogsDemo Traj.
Local Open Scope nat_scope.

(** C43: a vehicle without log entries in [w0] has in every later world one row for each timestep since then; after its trip one more *)
Theorem C43_one_row_per_timestep : forall c w0 w v, c_logint c = 1%Z -> reach c w0 -> v < w_nv w0 -> later c any_op w0 w ->
  v_log (V w0 v) = [] -> alive (v_state (V w0 v)) -> log_ok c (w_T w0) w v.
Proof. exact log_lemma. Qed.
Print Assumptions C43_one_row_per_timestep.

(** C43: so every vehicle of every reachable world has such a log *)
Theorem C43_every_vehicle : forall c w v, c_logint c = 1%Z -> reach c w -> v < w_nv w -> exists b, log_ok c b w v.
Proof. exact log_exists. Qed.
Print Assumptions C43_every_vehicle.

(** C43: the row of a timestep gives the state, link and position of the vehicle at that time *)
Theorem C43_row_contents : forall c w w' v, c_logint c = 1%Z -> reach c w -> v < w_nv w -> tick c w = Ok w' -> log_step c w w' v.
Proof. exact tick_log_lemma. Qed.
Print Assumptions C43_row_contents.

(** the log of a completed trip *)
Example C43_example : exists w, reachable cfg_det w /\
  (Z.eqb (c_logint cfg_det) 1 && state_eqb (v_state (V w 0)) End_ && Nat.eqb (w_T w) 17 &&
   rows_are [(0, Home, None); (5, Run, Some (0%nat, 0)); (10, Run, Some (0%nat, 100)); (15, Run, Some (0%nat, 200)); (20, Run, Some (0%nat, 300));
     (25, Run, Some (0%nat, 400)); (30, Run, Some (0%nat, 500)); (35, Run, Some (1%nat, 80)); (40, Run, Some (1%nat, 180)); (45, Run, Some (1%nat, 280));
     (50, Run, Some (1%nat, 380)); (55, Run, Some (1%nat, 480)); (55, End_, None)]%Q (v_log (V w 0)))%bool = true.
Proof. exact log_example. Qed.

(** the log of a trip in progress *)
Example C43_running_example : exists w, reachable cfg_det w /\
  (state_eqb (v_state (V w 0)) Run && Nat.eqb (w_T w) 4 &&
   rows_are [(0, Home, None); (5, Run, Some (0%nat, 0)); (10, Run, Some (0%nat, 100)); (15, Run, Some (0%nat, 200))]%Q (v_log (V w 0)))%bool = true.
Proof. exact log_running_example. Qed.

(** C43: the positions in the rows are on their links; on a link just entered it is at most the left-over distance of the previous link, scaled by the ratio of the speeds *)
Theorem C43_row_position : forall c w w' v, c_logint c = 1%Z -> (0 <= dt c)%Q -> reachP c sound_links w -> exists_veh w v -> tick c w = Ok w' ->
  exists rows, v_log (V w' v) = v_log (V w v) ++ rows /\ forall r l x, In r rows -> g_link r = Some l -> g_x r = Some x ->
    exists_link w l /\ (0 <= x <= l_len (L w l))%Q /\
    (forall k, on_link w v k -> k <> l -> ~ (l_u (L w k) == 0)%Q /\ (x <= v_remain (V w v) * l_u (L w l) / l_u (L w k))%Q).
Proof. exact row_position_lemma. Qed.
Print Assumptions C43_row_position.
