(** * GpsDemo: scenarios for the places of vehicles and the table of trips. *)
From Verif Require LogRoute.
From Verif Require Import Base Types Sim Build Inv Tac LogsDemo Life Reach Steps Lists Spec Registry Route Trials Paths Demo MotionDemo DuoDemo DueDemo DsoDemo DelayDemo NetDemo LinkStatsDemo Edie SpecEdie EdieOK Traj SpecLogs Logs SpecStats SpecGps Gps.
Local Open Scope string_scope.
Local Open Scope nat_scope.

(** a run in two parts *)
Lemma stage_witness : forall c ops1 ops2 tm (t : world -> world -> bool),
  match playP c speed_b ops1 (empty_world tm) with
  | Some w0 => match playP c speed_b ops2 w0 with Some w => t w0 w | None => false end
  | None => false end = true ->
  exists w0 w, reach c w0 /\ later c any_op w0 w /\ reachP c sound_links w /\ t w0 w = true.
Proof.
  intros c ops1 ops2 tm t H. destruct (playP c speed_b ops1 (empty_world tm)) as [w0|] eqn:E1; [|discriminate H].
  destruct (playP c speed_b ops2 w0) as [w|] eqn:E2; [|discriminate H]. exists w0, w.
  assert (F : forall x : world, keep_speed (OFinalize None) x) by (intro x; split; [exact Logic.I|discriminate]).
  pose proof (playP_later c keep_speed speed_b ops1 _ _ speed_b_ok F E1) as K1. pose proof (playP_later c keep_speed speed_b ops2 _ _ speed_b_ok F E2) as K2.
  split; [|split; [|split; [|exact H]]].
  - apply (reachP_reach c keep_speed). exists tm. exact K1.
  - eapply later_weaken; [|exact K2]. intros o x _. exact Logic.I.
  - exists tm. eapply later_weaken; [|exact (later_trans _ _ _ _ _ K1 K2)]. intros o x [A _]. exact A.
Qed.
Definition long_b (w : world) : bool := links_b (fun l => qlt 0 (l_len (L w l))) w.
Lemma long_b_ok : forall w, long_b w = true -> long_links w.
Proof. intros w H l Hl. apply qlt_iff. exact (links_b_ok _ _ H l Hl). Qed.
Definition map_net : list op := [ node_at "a" 0 0; node_at "b" 300 400; node_at "c" 300 0; link_ "ab" 0 1 500; link_ "bc" 1 2 200; veh_ 0 2 0 ].
Definition row_is (g : gps_row) (t x y : Q) (v : option Q) : bool :=
  qeq (gp_t g) t && qeq (fst (gp_at g)) x && qeq (snd (gp_at g)) y && match gp_v g, v with Some a, Some b => qeq a b | None, None => true | _, _ => false end.
Definition start_b (w0 w : world) : bool := (w_T w0 =? 0) && (w_nv w =? w_nv w0) && long_b w.
Lemma start_b_ok : forall c w0 w, reach c w0 -> later c any_op w0 w -> start_b w0 w = true -> at_start c w0 w /\ long_links w.
Proof.
  intros c w0 w R K H. unfold start_b in H. apply andb_true_iff in H. destruct H as [H H3]. apply andb_true_iff in H. destruct H as [H1 H2].
  split; [constructor; auto; [apply Nat.eqb_eq; exact H1|apply Nat.eqb_eq; exact H2]|apply long_b_ok; exact H3].
Qed.
Definition gps_b (c : cfg) (w : world) (p : list gps_row -> bool) : bool := match gps_log c w with Ok out => p out | Err _ => false end.
Definition trip_b (c : cfg) (w : world) (p : list trip_row -> bool) : bool := match trip_table c w with Ok out => p out | Err _ => false end.

(** one platoon on two links *)
Lemma gps_example : exists w0 w, at_start cfg_det w0 w /\ long_links w /\ reachP cfg_det sound_links w /\ (Z.eqb (c_logint cfg_det) 1 && qlt 0 (dt cfg_det))%bool = true /\
  gps_b cfg_det w (fun out => match out with
    | [g0; g1; g2; g3; g4; g5; g6; g7] => row_is g0 5 0 0 (Some 20%Q) && row_is g1 10 60 80 (Some 20%Q) && row_is g4 25 240 320 (Some 20%Q) && row_is g5 30 300 400 (Some 20%Q) &&
        row_is g6 35 300 200 (Some 20%Q) && row_is g7 35 300 200 None
    | _ => false end)%bool = true.
Proof.
  destruct (stage_witness cfg_det map_net [OExec (UntilT 100)] (Some 200%Q) (fun w0 w => start_b w0 w && gps_b cfg_det w (fun out => match out with
    | [g0; g1; g2; g3; g4; g5; g6; g7] => row_is g0 5 0 0 (Some 20%Q) && row_is g1 10 60 80 (Some 20%Q) && row_is g4 25 240 320 (Some 20%Q) && row_is g5 30 300 400 (Some 20%Q) &&
        row_is g6 35 300 200 (Some 20%Q) && row_is g7 35 300 200 None
    | _ => false end))%bool) as (w0 & w & R & K & P & H). { vm_compute. reflexivity. }
  apply andb_true_iff in H. destruct H as [H1 H2]. destruct (start_b_ok _ _ _ R K H1) as [A B]. exists w0, w.
  split; [exact A|]. split; [exact B|]. split; [exact P|]. split; [reflexivity|exact H2].
Qed.

(** The last time of a trip is listed twice, the second time without a speed. *)
Lemma twice_refuted : exists w0 w out g h, at_start cfg_det w0 w /\ long_links w /\ reachP cfg_det sound_links w /\ gps_log cfg_det w = Ok out /\
  In g out /\ In h out /\ gp_name g = gp_name h /\ (gp_t g == gp_t h)%Q /\ gp_v g <> None /\ gp_v h = None.
Proof.
  destruct (stage_witness cfg_det map_net [OExec (UntilT 100)] (Some 200%Q) (fun w0 w => start_b w0 w && gps_b cfg_det w (fun out => match out with
    | [g0; g1; g2; g3; g4; g5; g6; g7] => String.eqb (gp_name g6) (gp_name g7) && row_is g6 35 300 200 (Some 20%Q) && row_is g7 35 300 200 None
    | _ => false end))%bool) as (w0 & w & R & K & P & H). { vm_compute. reflexivity. }
  apply andb_true_iff in H. destruct H as [H1 H2]. destruct (start_b_ok _ _ _ R K H1) as [A B].
  unfold gps_b in H2. destruct (gps_log cfg_det w) as [out|] eqn:E; [|discriminate H2].
  destruct out as [|g0 [|g1 [|g2 [|g3 [|g4 [|g5 [|g6 [|g7 [|]]]]]]]]]; try discriminate H2.
  apply andb_true_iff in H2. destruct H2 as [H2 H4]. apply andb_true_iff in H2. destruct H2 as [H2 H3].
  exists w0, w, [g0; g1; g2; g3; g4; g5; g6; g7], g6, g7. split; [exact A|]. split; [exact B|]. split; [exact P|]. split; [exact E|].
  split; [cbn; tauto|]. split; [cbn; tauto|]. split; [apply String.eqb_eq; exact H2|].
  unfold row_is in H3, H4. rewrite !andb_true_iff in H3, H4. destruct H3 as [[[X1 _] _] X2]. destruct H4 as [[[Y1 _] _] Y2]. apply qeq_iff in X1, Y1.
  split; [rewrite X1, Y1; reflexivity|]. destruct (gp_v g6); [|discriminate X2]. destruct (gp_v g7); [discriminate Y2|]. split; [discriminate|reflexivity].
Qed.

(** A vehicle at the point (-1, -1) is not listed. *)
Definition hidden_net : list op := [ node_at "a" (-1) (-1); node_at "b" 300 400; link_ "ab" 0 1 500; veh_ 0 1 0 ].
Lemma hidden_refuted : exists w0 w out r, at_start cfg_det w0 w /\ long_links w /\ reachP cfg_det sound_links w /\ exists_veh w 0 /\ gps_log cfg_det w = Ok out /\
  In r (v_log (V w 0)) /\ g_state r = Run /\ g_link r = Some 0 /\ forall g, In g out -> ~ (gp_t g == g_t r)%Q.
Proof.
  destruct (stage_witness cfg_det hidden_net [OExec (UntilT 20)] (Some 200%Q) (fun w0 w => start_b w0 w && ((w_nv w =? 1) && match nth_error (v_log (V w 0)) 1 with
    | Some r => state_eqb (g_state r) Run && opt_eqb (g_link r) (Some 0) && gps_b cfg_det w (fun out => forallb (fun g => negb (qeq (gp_t g) (g_t r))) out)
    | None => false end))%bool) as (w0 & w & R & K & P & H). { vm_compute. reflexivity. }
  apply andb_true_iff in H. destruct H as [H1 H2]. destruct (start_b_ok _ _ _ R K H1) as [A B]. apply andb_true_iff in H2. destruct H2 as [H2 H3].
  destruct (nth_error (v_log (V w 0)) 1) as [r|] eqn:En; [|discriminate H3]. apply nth_error_In in En.
  unfold gps_b in H3. destruct (gps_log cfg_det w) as [out|] eqn:E; [|rewrite andb_false_r in H3; discriminate H3].
  apply andb_true_iff in H3. destruct H3 as [H3 H5]. apply andb_true_iff in H3. destruct H3 as [H3 H4].
  exists w0, w, out, r. apply Nat.eqb_eq in H2. split; [exact A|]. split; [exact B|]. split; [exact P|]. split; [unfold exists_veh; rewrite H2; exact (le_n 1)|]. split; [exact E|].
  split; [exact En|]. split; [destruct (g_state r); try discriminate H3; reflexivity|]. split; [apply LogRoute.opt_eqb_some; exact H4|].
  rewrite forallb_forall in H5. intros g Hg X. specialize (H5 g Hg). apply negb_true_iff in H5. rewrite (proj2 (qeq_iff _ _) X) in H5. discriminate H5.
Qed.

(** A vehicle added while the simulation runs: the table fails. *)
Definition wait_net : list op := [ node_at "a" 0 0; node_at "b" 300 400; link_ "ab" 0 1 500 ].
Lemma late_refuted : exists w0 w, reachP cfg_det sound_links w /\ long_links w /\ reach cfg_det w0 /\ later cfg_det any_op w0 w /\ exists_veh w0 0 /\ v_log (V w0 0) = [] /\ alive (v_state (V w0 0)) /\
  2 <= w_T w0 /\ w_T w0 < w_T w /\ on_link w 0 0 /\ gps_log cfg_det w = Err IndexError.
Proof.
  destruct (stage_witness cfg_det (wait_net ++ [OExec (UntilT 5); veh_ 0 1 3]) [OExec (UntilT 30)] (Some 200%Q) (fun w0 w => long_b w && ((w_nv w0 =? 1) && match v_log (V w0 0) with [] => true | _ => false end &&
    state_eqb (v_state (V w0 0)) Home && (2 <=? w_T w0) && (w_T w0 <? w_T w) && state_eqb (v_state (V w 0)) Run && opt_eqb (v_link (V w 0)) (Some 0) &&
    match gps_log cfg_det w with Err IndexError => true | _ => false end))%bool) as (w0 & w & R & K & P & H). { vm_compute. reflexivity. }
  rewrite !andb_true_iff in H. destruct H as (H0 & ((((((H1 & H2) & H3) & H4) & H5) & H6) & H7) & H8).
  exists w0, w. split; [exact P|]. split; [apply long_b_ok; exact H0|]. split; [exact R|]. split; [exact K|]. apply Nat.eqb_eq in H1. apply Nat.leb_le in H4. apply Nat.ltb_lt in H5.
  split; [unfold exists_veh; rewrite H1; exact (le_n 1)|]. split; [destruct (v_log (V w0 0)); [reflexivity|discriminate H2]|].
  split; [unfold alive; destruct (v_state (V w0 0)); try discriminate H3; tauto|]. split; [exact H4|]. split; [exact H5|].
  split; [split; [destruct (v_state (V w 0)); try discriminate H6; reflexivity|apply LogRoute.opt_eqb_some; exact H7]|].
  destruct (gps_log cfg_det w) as [|e]; [discriminate H8|]. destruct e; try discriminate H8. reflexivity.
Qed.

(** A vehicle added in timestep 1 (here shown at 10 s): it is listed at the places of the following timestep. *)
Lemma shifted_refuted : exists w out g r, reachP cfg_det sound_links w /\ long_links w /\ gps_log cfg_det w = Ok out /\ In g out /\ In r (v_log (V w 0)) /\ w_nv w = 1 /\
  (g_t r == gp_t g)%Q /\ g_link r = Some 0 /\ g_x r = Some 0%Q /\ ~ (fst (gp_at g) == fst (place w 0 0))%Q.
Proof.
  destruct (stage_witness cfg_det (wait_net ++ [OExec (UntilT 0); veh_ 0 1 1]) [OExec (UntilT 100)] (Some 200%Q) (fun w0 w => long_b w && (w_nv w =? 1) && gps_b cfg_det w (fun out => match out, v_log (V w 0) with
    | g0 :: g1 :: _, r0 :: r1 :: _ => qeq (g_t r1) (gp_t g1) && opt_eqb (g_link r1) (Some 0) && match g_x r1 with Some x => (Qnum x =? 0)%Z && (Qden x =? 1)%positive | None => false end && negb (qeq (fst (gp_at g1)) (fst (place w 0 0)))
    | _, _ => false end))%bool) as (w0 & w & R & K & P & H). { vm_compute. reflexivity. }
  apply andb_true_iff in H. destruct H as [H H2]. apply andb_true_iff in H. destruct H as [H0 H1]. unfold gps_b in H2.
  destruct (gps_log cfg_det w) as [out|] eqn:E; [|discriminate H2]. destruct out as [|g0 [|g1 out]]; try discriminate H2.
  destruct (v_log (V w 0)) as [|r0 [|r1 rs]] eqn:El; try discriminate H2. rewrite !andb_true_iff in H2. destruct H2 as (((H2 & H3) & H4) & H5).
  exists w, (g0 :: g1 :: out), g1, r1. split; [exact P|]. split; [apply long_b_ok; exact H0|]. split; [exact E|]. split; [cbn; tauto|]. split; [try rewrite El; cbn; tauto|].
  split; [apply Nat.eqb_eq; exact H1|]. split; [apply qeq_iff; exact H2|]. split; [apply LogRoute.opt_eqb_some; exact H3|].
  split. { destruct (g_x r1) as [[n d]|]; [|discriminate H4]. apply andb_true_iff in H4. destruct H4 as [N D]. change (n =? 0 = true)%Z in N; change (d =? 1 = true)%positive in D. apply Z.eqb_eq in N. apply Pos.eqb_eq in D. subst. reflexivity. }
  intro X. rewrite (proj2 (qeq_iff _ _) X) in H5. discriminate H5.
Qed.

(** Two platoons: the second waits at its origin and is held up; the mean of its speeds is not its distance divided by its travel time. *)
Definition two_net : list op := [ node_at "a" 0 0; node_at "b" 300 400; link_ "ab" 0 1 500; veh_ 0 1 0; veh_ 0 1 0; veh_ 0 1 0 ].
Lemma trips_example : exists w, reach cfg_det w /\ (forall v, exists_veh w v -> v_log (V w v) <> []) /\ w_nv w = 3 /\
  trip_b cfg_det w (fun rows => forallb (fun r => state_eqb (tr_state r) End_ && qlt 0 (tr_tt r) && qeq (tr_dist r) 500 && match tr_speed r with Some q => qlt 0 q | None => false end) rows)%bool = true.
Proof.
  destruct (stage_witness cfg_det two_net [OExec (UntilT 200)] (Some 200%Q) (fun w0 w => forallb (fun v => match v_log (V w v) with [] => false | _ => true end) (seq 0 (w_nv w)) && (w_nv w =? 3) &&
    trip_b cfg_det w (fun rows => forallb (fun r => state_eqb (tr_state r) End_ && qlt 0 (tr_tt r) && qeq (tr_dist r) 500 && match tr_speed r with Some q => qlt 0 q | None => false end) rows))%bool) as (w0 & w & R & K & P & H). { vm_compute. reflexivity. }
  apply andb_true_iff in H. destruct H as [H H2]. apply andb_true_iff in H. destruct H as [H0 H1]. exists w.
  split; [exact (reachP_reach _ _ _ P)|]. split.
  { intros v Hv. rewrite forallb_forall in H0. specialize (H0 v). rewrite in_seq in H0. unfold exists_veh in Hv. specialize (H0 (conj (Nat.le_0_l v) Hv)). intro X. rewrite X in H0. discriminate H0. }
  split; [apply Nat.eqb_eq; exact H1|exact H2].
Qed.
Lemma speed_refuted : exists w rows r q, reach cfg_det w /\ trip_table cfg_det w = Ok rows /\ In r rows /\ tr_state r = End_ /\ tr_speed r = Some q /\ (tr_dist r / tr_tt r < q)%Q.
Proof.
  destruct (stage_witness cfg_det two_net [OExec (UntilT 200)] (Some 200%Q) (fun w0 w => trip_b cfg_det w (fun rows => match nth_error rows 2 with
    | Some r => state_eqb (tr_state r) End_ && match tr_speed r with Some q => qlt (tr_dist r / tr_tt r) q | None => false end | None => false end))%bool) as (w0 & w & R & K & P & H). { vm_compute. reflexivity. }
  unfold trip_b in H. destruct (trip_table cfg_det w) as [rows|] eqn:E; [|discriminate H]. destruct (nth_error rows 2) as [r|] eqn:En; [|discriminate H].
  apply andb_true_iff in H. destruct H as [H1 H2]. destruct (tr_speed r) as [q|] eqn:Eq; [|discriminate H2].
  exists w, rows, r, q. split; [exact (reachP_reach _ _ _ P)|]. split; [exact E|]. split; [exact (nth_error_In _ _ En)|].
  split; [destruct (tr_state r); try discriminate H1; reflexivity|]. split; [exact Eq|]. apply qlt_iff. exact H2.
Qed.
(** The state is that of the last row of the log, which may be older: the vehicle is waiting, the table says "home". *)
Lemma state_refuted : exists w rows r, reach cfg_det w /\ trip_table cfg_det w = Ok rows /\ nth_error rows 0 = Some r /\ v_state (V w 0) = Wait /\ tr_state r = Home.
Proof.
  destruct (stage_witness cfg_det two_net [OExec (UntilT 0)] (Some 200%Q) (fun w0 w => state_eqb (v_state (V w 0)) Wait && trip_b cfg_det w (fun rows => match nth_error rows 0 with
    | Some r => state_eqb (tr_state r) Home | None => false end))%bool) as (w0 & w & R & K & P & H). { vm_compute. reflexivity. }
  apply andb_true_iff in H. destruct H as [H0 H]. unfold trip_b in H. destruct (trip_table cfg_det w) as [rows|] eqn:E; [|discriminate H]. destruct (nth_error rows 0) as [r|] eqn:En; [|discriminate H].
  exists w, rows, r. split; [exact (reachP_reach _ _ _ P)|]. split; [exact E|]. split; [exact En|]. split; [destruct (v_state (V w 0)); try discriminate H0; reflexivity|].
  destruct (tr_state r); try discriminate H; reflexivity.
Qed.

(** With a logging interval of 2 timesteps the last row of a trip shows the place of an earlier time. *)
Lemma interval_refuted : exists w0 w out g r, at_start (cfg_log 2) w0 w /\ long_links w /\ reachP (cfg_log 2) sound_links w /\ w_nv w = 1 /\ gps_log (cfg_log 2) w = Ok out /\ In g out /\ In r (v_log (V w 0)) /\
  (g_t r < gp_t g)%Q /\ g_link r = Some 1 /\ g_x r <> None /\ (forall x, g_x r = Some x -> gp_at g = place w 1 x).
Proof.
  destruct (stage_witness (cfg_log 2) map_net [OExec (UntilT 100)] (Some 200%Q) (fun w0 w => start_b w0 w && ((w_nv w =? 1) && gps_b (cfg_log 2) w (fun out => match last_opt out, nth_error (v_log (V w 0)) 3 with
    | Some g, Some r => qlt (g_t r) (gp_t g) && opt_eqb (g_link r) (Some 1) && match g_x r with Some x => let p := place w 1 x in
        (Z.eqb (Qnum (fst p)) (Qnum (fst (gp_at g))) && Pos.eqb (Qden (fst p)) (Qden (fst (gp_at g))) && Z.eqb (Qnum (snd p)) (Qnum (snd (gp_at g))) && Pos.eqb (Qden (snd p)) (Qden (snd (gp_at g)))) | None => false end
    | _, _ => false end)))%bool) as (w0 & w & R & K & P & H). { vm_compute. reflexivity. }
  apply andb_true_iff in H. destruct H as [H1 H]. apply andb_true_iff in H. destruct H as [H2 H3]. destruct (start_b_ok _ _ _ R K H1) as [A B].
  unfold gps_b in H3. destruct (gps_log (cfg_log 2) w) as [out|] eqn:E; [|discriminate H3]. destruct (last_opt out) as [g|] eqn:El; [|discriminate H3].
  destruct (nth_error (v_log (V w 0)) 3) as [r|] eqn:En; [|discriminate H3]. apply andb_true_iff in H3. destruct H3 as [H3 H5]. apply andb_true_iff in H3. destruct H3 as [H3 H4].
  exists w0, w, out, g, r. split; [exact A|]. split; [exact B|]. split; [exact P|]. split; [apply Nat.eqb_eq; exact H2|]. split; [exact E|].
  split; [rewrite last_opt_nth in El; exact (nth_error_In _ _ El)|]. split; [exact (nth_error_In _ _ En)|]. split; [apply qlt_iff; exact H3|]. split; [apply LogRoute.opt_eqb_some; exact H4|].
  destruct (g_x r) as [x|]; [|discriminate H5]. split; [discriminate|]. intros y Ey. injection Ey as <-. cbv zeta in H5.
  destruct (gp_at g) as [[n1 d1] [n2 d2]]. destruct (place w 1 x) as [[n3 d3] [n4 d4]]. cbn [fst snd Qnum Qden] in H5. rewrite !andb_true_iff in H5. destruct H5 as (((X1 & X2) & X3) & X4).
  apply Z.eqb_eq in X1, X3. apply Pos.eqb_eq in X2, X4. subst. reflexivity.
Qed.
