(** * Props_Gps: places of the vehicles and the table of trips (C58). *)
From Verif Require Import Base Types Sim Build Inv Reach Steps Spec Trials Paths Demo MotionDemo SpecLogs Logs SpecStats LinkStatsDemo LogsDemo SpecGps Gps GpsDemo.
Local Open Scope nat_scope.

(** C58: the present place of a vehicle on a link divides the line between the nodes of the link like its position divides the length; other vehicles are nowhere *)
Theorem C58_now : forall c w v, (0 <= dt c)%Q -> reachP c sound_links w -> long_links w -> exists_veh w v ->
  (forall l, on_link w v l -> get_xy c w v (-1) = Ok (place w l (v_x (V w v))) /\ divides w l (place w l (v_x (V w v))) (v_x (V w v) / l_len (L w l)) /\
     (0 <= v_x (V w v) <= l_len (L w l))%Q) /\
  (v_state (V w v) <> Run -> get_xy c w v (-1) = Ok nowhere).
Proof. exact xy_now. Qed.
Print Assumptions C58_now.

(** C58: with every timestep logged and all vehicles added before the first timestep, the table has the rows of the logs with a link *)
Theorem C58_table : forall c w0 w, c_logint c = 1%Z -> (0 < dt c)%Q -> at_start c w0 w -> reachP c sound_links w -> long_links w ->
  exists tabs, gps_log c w = Ok (List.concat tabs) /\ Forall2 (gps_rows c w) (vehicles w) tabs.
Proof. exact gps_lemma. Qed.
Print Assumptions C58_table.

(** C58: every row is a place on the link on which the vehicle was at that time *)
Theorem C58_places : forall c w0 w out g, c_logint c = 1%Z -> (0 < dt c)%Q -> at_start c w0 w -> reachP c sound_links w -> long_links w ->
  gps_log c w = Ok out -> In g out -> exists v r l x, exists_veh w v /\ gp_name g = v_name (V w v) /\ In r (v_log (V w v)) /\ g_t r = gp_t g /\
    g_link r = Some l /\ g_x r = Some x /\ exists_link w l /\ (0 <= x <= l_len (L w l))%Q /\ gp_at g = place w l x /\ divides w l (gp_at g) (x / l_len (L w l)).
Proof. exact gps_places. Qed.
Print Assumptions C58_places.

(** one platoon on two links *)
Example C58_table_example : exists w0 w, at_start cfg_det w0 w /\ long_links w /\ reachP cfg_det sound_links w /\ (Z.eqb (c_logint cfg_det) 1 && qlt 0 (dt cfg_det))%bool = true /\
  gps_b cfg_det w (fun out => match out with
    | [g0; g1; g2; g3; g4; g5; g6; g7] => row_is g0 5 0 0 (Some 20%Q) && row_is g1 10 60 80 (Some 20%Q) && row_is g4 25 240 320 (Some 20%Q) && row_is g5 30 300 400 (Some 20%Q) &&
        row_is g6 35 300 200 (Some 20%Q) && row_is g7 35 300 200 None
    | _ => false end)%bool = true.
Proof. exact gps_example. Qed.

(** C58: the last time of a trip appears twice, the second time without a speed *)
Theorem C58_twice_refuted : exists w0 w out g h, at_start cfg_det w0 w /\ long_links w /\ reachP cfg_det sound_links w /\ gps_log cfg_det w = Ok out /\
  In g out /\ In h out /\ gp_name g = gp_name h /\ (gp_t g == gp_t h)%Q /\ gp_v g <> None /\ gp_v h = None.
Proof. exact twice_refuted. Qed.
Print Assumptions C58_twice_refuted.

(** C58: a vehicle at the point (-1, -1) is missing *)
Theorem C58_hidden_refuted : exists w0 w out r, at_start cfg_det w0 w /\ long_links w /\ reachP cfg_det sound_links w /\ exists_veh w 0 /\ gps_log cfg_det w = Ok out /\
  In r (v_log (V w 0)) /\ g_state r = Run /\ g_link r = Some 0 /\ forall g, In g out -> ~ (gp_t g == g_t r)%Q.
Proof. exact hidden_refuted. Qed.
Print Assumptions C58_hidden_refuted.

(** C58: a vehicle added in timestep 2 or later makes the table fail *)
Theorem C58_late : forall c w0 w v, c_logint c = 1%Z -> (0 < dt c)%Q -> reach c w0 -> exists_veh w0 v -> v_log (V w0 v) = [] -> alive (v_state (V w0 v)) -> later c any_op w0 w ->
  2 <= w_T w0 -> w_T w0 < w_T w -> reachP c sound_links w -> long_links w -> gps_log c w = Err IndexError.
Proof. exact gps_late. Qed.
Print Assumptions C58_late.

(** C58: so there is no table for some reachable worlds *)
Theorem C58_late_refuted : exists w0 w, reachP cfg_det sound_links w /\ long_links w /\ reach cfg_det w0 /\ later cfg_det any_op w0 w /\ exists_veh w0 0 /\ v_log (V w0 0) = [] /\ alive (v_state (V w0 0)) /\
  2 <= w_T w0 /\ w_T w0 < w_T w /\ on_link w 0 0 /\ gps_log cfg_det w = Err IndexError.
Proof. exact late_refuted. Qed.
Print Assumptions C58_late_refuted.

(** C58: a vehicle added in timestep 1 may be listed at wrong places *)
Theorem C58_shifted_refuted : exists w out g r, reachP cfg_det sound_links w /\ long_links w /\ gps_log cfg_det w = Ok out /\ In g out /\ In r (v_log (V w 0)) /\ w_nv w = 1 /\
  (g_t r == gp_t g)%Q /\ g_link r = Some 0 /\ g_x r = Some 0%Q /\ ~ (fst (gp_at g) == fst (place w 0 0))%Q.
Proof. exact shifted_refuted. Qed.
Print Assumptions C58_shifted_refuted.

(** C58: with a logging interval of 2 the last row of a trip shows an older place *)
Theorem C58_interval_refuted : exists w0 w out g r, at_start (cfg_log 2) w0 w /\ long_links w /\ reachP (cfg_log 2) sound_links w /\ w_nv w = 1 /\ gps_log (cfg_log 2) w = Ok out /\ In g out /\ In r (v_log (V w 0)) /\
  (g_t r < gp_t g)%Q /\ g_link r = Some 1 /\ g_x r <> None /\ (forall x, g_x r = Some x -> gp_at g = place w 1 x).
Proof. exact interval_refuted. Qed.
Print Assumptions C58_interval_refuted.

(** C58: the table of trips has the attributes of the vehicles; the state is that of the vehicle, or the vehicle has become ready to depart since the last row of its log *)
Theorem C58_trips : forall c w, c_logint c = 1%Z -> reach c w -> (forall v, exists_veh w v -> v_log (V w v) <> []) ->
  exists rows, trip_table c w = Ok rows /\ Forall2 (trip_of c w) (vehicles w) rows.
Proof. exact trips_lemma. Qed.
Print Assumptions C58_trips.

(** C58: it fails if a vehicle has no log yet *)
Theorem C58_trips_empty : forall c w v, exists_veh w v -> v_log (V w v) = [] -> trip_table c w = Err IndexError.
Proof. exact trips_empty. Qed.
Print Assumptions C58_trips_empty.

(** three platoons *)
Example C58_trips_example : exists w, reach cfg_det w /\ (forall v, exists_veh w v -> v_log (V w v) <> []) /\ w_nv w = 3 /\
  trip_b cfg_det w (fun rows => forallb (fun r => state_eqb (tr_state r) End_ && qlt 0 (tr_tt r) && qeq (tr_dist r) 500 && match tr_speed r with Some q => qlt 0 q | None => false end) rows)%bool = true.
Proof. exact trips_example. Qed.

(** C58: the state need not be the present one *)
Theorem C58_state_refuted : exists w rows r, reach cfg_det w /\ trip_table cfg_det w = Ok rows /\ nth_error rows 0 = Some r /\ v_state (V w 0) = Wait /\ tr_state r = Home.
Proof. exact state_refuted. Qed.
Print Assumptions C58_state_refuted.

(** C58: the average speed of a completed trip need not be its distance divided by its travel time *)
Theorem C58_speed_refuted : exists w rows r q, reach cfg_det w /\ trip_table cfg_det w = Ok rows /\ In r rows /\ tr_state r = End_ /\ tr_speed r = Some q /\ (tr_dist r / tr_tt r < q)%Q.
Proof. exact speed_refuted. Qed.
Print Assumptions C58_speed_refuted.
