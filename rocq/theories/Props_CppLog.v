(** * Props_CppLog: logs of vehicles in the compiled engine (C67). *)
From Verif Require Import Base Types Sim Build Inv Reach Steps Spec SpecLogs Demo CppLog CppLogDemo.
Local Open Scope nat_scope.

(** C67: the rows read off the stored columns, counters and first and last timestep are the rows that were noted *)
Theorem C67_read_back : forall c st es k m e b ends, ride_shape st (map snd es) k m e ->
  map fst es = seq b (1 + k + m) ++ ends -> List.length ends = e -> Forall (fun x => g_t (snd x) = at_step c (fst x)) es ->
  cpp_rows c (noted es) st = map snd es.
Proof. exact read_back. Qed.
Print Assumptions C67_read_back.

(** every vehicle of every simulation has been created in some timestep, and its log has the states home, waiting, driving and over in this order *)
Theorem C67_created : forall c w v, c_logint c = 1%Z -> reach c w -> v < w_nv w -> exists b, created c w v b.
Proof. exact reach_created. Qed.
Print Assumptions C67_created.

(** C67: a vehicle at home has no log; any other one has that of the Python engine, preceded by rows at home for the timesteps before it was created *)
Theorem C67_log : forall c w v b, (0 < dt c)%Q -> created c w v b ->
  exists ts, map (at_step c) ts = map g_t (stored_rows (V w v)) /\
    cpp_log c (noted (combine ts (stored_rows (V w v)))) (v_state (V w v)) =
      match v_state (V w v) with Home => [] | _ => home_rows c b ++ v_log (V w v) end.
Proof. exact cpp_log_exact. Qed.
Print Assumptions C67_log.

(** a vehicle that was created in timestep 0 *)
Example C67_log_example : exists w ts, reachable cfg_det w /\ map (at_step cfg_det) ts = map g_t (stored_rows (V w 0)) /\
  ts = [2; 3; 4; 5; 6; 6] /\ map code (v_log (V w 0)) = [0; 0; 0; 10; 10; 11; 11; 2] /\ map code (cpp_of w 0 ts) = [0; 0; 0; 10; 10; 11; 11; 2].
Proof. exact log_same_example. Qed.

(** C67 fails for a vehicle that has not departed: no rows against one per timestep *)
Theorem C67_log_home_refuted : exists w, reachable cfg_det w /\ v_state (V w 1) = Home /\ List.length (v_log (V w 1)) = 13 /\ stored_rows (V w 1) = [] /\ cpp_of w 1 [] = [].
Proof. exact log_home_refuted. Qed.
Print Assumptions C67_log_home_refuted.

(** C67 fails for a vehicle added during the simulation: rows for timesteps before it existed *)
Theorem C67_log_late_refuted : exists w ts, reachable cfg_det w /\ map (at_step cfg_det) ts = map g_t (stored_rows (V w 2)) /\
  map code (v_log (V w 2)) = [0; 0; 10; 10; 11; 11; 2] /\ map code (cpp_of w 2 ts) = [0; 0; 0; 0; 0; 0; 0; 10; 10; 11; 11; 2].
Proof. exact log_late_refuted. Qed.
Print Assumptions C67_log_late_refuted.

(** C67: the list of the links entered, which the Python engine keeps, is read off the stored columns *)
Theorem C67_links : forall c w v, (0 < dt c)%Q -> c_logint c = 1%Z -> reach c w -> v < w_nv w ->
  exists t0 ts, map (at_step c) ts = map g_t (stored_rows (V w v)) /\
    cpp_log_t_link t0 (inject_Z (v_arr (V w v)) * dt c) (v_state (V w v)) (cpp_rows c (noted (combine ts (stored_rows (V w v)))) (v_state (V w v))) = v_tlog (V w v).
Proof. exact cpp_entered. Qed.
Print Assumptions C67_links.

(** a trip over two links *)
Example C67_links_example : exists w t0 ts, reachable cfg_det w /\ v_state (V w 0) = End_ /\ map (at_step cfg_det) ts = map g_t (stored_rows (V w 0)) /\
  cpp_log_t_link t0 (inject_Z (v_arr (V w 0)) * dt cfg_det) End_ (cpp_rows cfg_det (noted (combine ts (stored_rows (V w 0)))) End_) = v_tlog (V w 0) /\
  Spec.links_of (v_tlog (V w 0)) = [0; 1].
Proof. exact log_links_example. Qed.
