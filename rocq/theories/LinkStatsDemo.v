(** * LinkStatsDemo: scenarios for the statistics of links and areas. *)
From Verif Require Import Base Types Sim Build Tac Reach Steps Lists Spec Registry Route Paths SpecDuo PathsOK Demo MotionDemo DuoDemo DueDemo DsoDemo DelayDemo SpecStats SpecDelay Delay SpecTT SpecLinks TTActual LinkStats AreaStats.
Local Open Scope string_scope.
Local Open Scope nat_scope.

(** nodes a, b, c and links of the given lengths between them *)
Definition net (a b : Q) : list op := [ node_ "a"; node_ "b"; node_ "c"; link_ "ab" 0 1 a; link_ "bc" 1 2 b; veh_ 0 2 0 ].
(** a log entry every 20 timesteps *)
Definition cfg_log (z : Z) : cfg :=
  mkCfg 5 1 20 (1#2) (1#100) HomogeneousDUO false 1 false false z false true 120
        (fun k => Nat.modulo (7 * k + 3) 11) (fun k => (1#2)%Q) shortest_paths.

(** finalised by a call and run for [n] timesteps *)
Lemma run_witness : forall c (P : op -> world -> Prop) ops tm n (t : world -> world -> world -> bool),
  match play c ops (empty_world tm) with
  | Some w1 => negb (w_final w1) && match finalize c None w1 with
               | Ok w0 => match iterM (tick c) n w0 with Ok w => t w1 w0 w | Err _ => false end
               | Err _ => false end
  | None => false end = true ->
  exists w1 w0 w, reach c w1 /\ w_final w1 = false /\ finalize c None w1 = Ok w0 /\ later c P w0 w /\ reach c w /\ t w1 w0 w = true.
Proof.
  intros c P ops tm n t H. destruct (play c ops (empty_world tm)) as [w1|] eqn:E; [|discriminate H].
  apply andb_true_iff in H. destruct H as [Hf H]. apply negb_true_iff in Hf. destruct (finalize c None w1) as [w0|] eqn:E0; [|discriminate H].
  destruct (iterM (tick c) n w0) as [w|] eqn:E1; [|discriminate H].
  assert (R1 : reach c w1) by (apply reachable_reach; eapply play_reachable; [constructor|exact E]). clear E.
  assert (R0 : reach c w0). { eapply rc_op with (o := OFinalize None); [exact R1|exact Hf|intros a; discriminate|exact E0]. }
  assert (K : later c P w0 w) by (eapply ticks_later; [eapply finalize_final; exact E0|exact E1]).
  exists w1, w0, w. split; [exact R1|]. split; [exact Hf|]. split; [exact E0|]. split; [exact K|]. split; [eapply later_reach; [exact R0|exact K]|exact H].
Qed.

Definition row_b (w : world) (l : lid) (p : link_row -> bool) : bool := match link_row_of (L w l) with Ok r => p r | Err _ => false end.
Definition area_b (c : cfg) (w : world) (t : table) (areas : list (list nid)) (border : bool) (p : area_row -> bool) : bool :=
  match area_to_pandas c w t areas border with Ok (r :: _, _) => p r | _ => false end.

(** a link which one platoon has left *)
Theorem link_example : exists w1 w0 w r, reach c0 w1 /\ w_final w1 = false /\ finalize c0 None w1 = Ok w0 /\ later c0 keep_speed w0 w /\ exists_link w 0 /\
  link_row_of (L w 0) = Ok r /\ r_volume r = 5%Z /\ r_remain r = 0%Z /\ (r_free r == 26)%Q /\ (r_ave r == 299 # 10)%Q.
Proof.
  destruct (run_witness c0 keep_speed (net 520 540) (Some 200%Q) 40 (fun _ _ w => (0 <? w_nl w) && row_b w 0 (fun r => Z.eqb (r_volume r) 5 && Z.eqb (r_remain r) 0 && qeq (r_free r) 26 && qeq (r_ave r) (299 # 10)))) as (w1 & w0 & w & R1 & Hf & E0 & K & _ & H). { vm_compute. reflexivity. }
  apply andb_true_iff in H. destruct H as [H1 H]. unfold row_b in H. destruct (link_row_of (L w 0)) as [r|] eqn:E; [|discriminate H]. splits.
  exists w1, w0, w, r. split; [exact R1|]. split; [exact Hf|]. split; [exact E0|]. split; [exact K|]. split; [apply Nat.ltb_lt; exact H1|]. split; [exact E|].
  split; [apply Z.eqb_eq; assumption|]. split; [apply Z.eqb_eq; assumption|]. split; apply qeq_iff; assumption.
Qed.

(** The average travel time of a link is not the mean of the vehicles that left it. *)
Theorem mean_refuted : exists c w1 w0 w l g r, reach c w1 /\ w_final w1 = false /\ finalize c None w1 = Ok w0 /\ later c keep_speed w0 w /\ exists_link w l /\
  exits c keep_speed l w0 w g /\ g <> [] /\ link_row_of (L w l) = Ok r /\ r_volume r = (c_deltan c * Z.of_nat (List.length g))%Z /\ ~ (r_ave r == mean_spent g)%Q.
Proof.
  destruct (run_witness c0 keep_speed (net 520 540) (Some 200%Q) 40 (fun w1 w0 w => (0 <? w_nl w) && Z.eqb (last0 (l_cd (L w 0))) 5 && (w_tsize w0 =? 40) &&
     qeq (l_len (L w1 0) / l_u (L w1 0)) 26 && match nth_error (l_tta (L w 0)) 39 with Some q => qeq q 30 | None => false end && row_b w 0 (fun r => Z.eqb (r_volume r) 5 && qeq (r_ave r) (299 # 10)))) as (w1 & w0 & w & R1 & Hf & E0 & K & _ & H). { vm_compute. reflexivity. }
  apply andb_true_iff in H. destruct H as [H X6]. apply andb_true_iff in H. destruct H as [H X5]. apply andb_true_iff in H. destruct H as [H X4]. apply andb_true_iff in H. destruct H as [H X3]. apply andb_true_iff in H. destruct H as [X1 X2].
  apply Nat.ltb_lt in X1. apply Z.eqb_eq in X2. apply Nat.eqb_eq in X3. apply qeq_iff in X4. destruct (nth_error (l_tta (L w 0)) 39) as [q|] eqn:Eq; [|discriminate X5]. apply qeq_iff in X5.
  unfold row_b in X6. destruct (link_row_of (L w 0)) as [r|] eqn:E; [|discriminate X6]. apply andb_true_iff in X6. destruct X6 as [X6 X7]. apply Z.eqb_eq in X6. apply qeq_iff in X7.
  assert (Hd : (0 < dt c0)%Q) by reflexivity.
  destruct (link_history c0 keep_speed None w1 w0 w 0 Hd R1 Hf E0 K X1) as (g & n & ff & G1 & _ & G3 & _ & G5 & G6 & G7).
  rewrite X2 in G7. change (c_deltan c0) with 5%Z in G7. destruct g as [|x [|y g]]; cbn [List.length] in G7; [lia| |lia].
  rewrite X3 in G3. subst n. destruct (G5 ltac:(lia)) as [_ ->].
  assert (Sx : (spent x == 30)%Q).
  { rewrite G6 in Eq. cbn [seq map] in Eq. cbn [nth_error] in Eq. injection Eq as <-. unfold travel_at in X5. destruct (last_exit _ [x]) as [y|] eqn:Ey.
    - apply last_opt_in, filter_In in Ey. destruct Ey as [[<-|[]] _]. exact X5.
    - rewrite X4 in X5. discriminate X5. }
  exists c0, w1, w0, w, 0, [x], r. split; [exact R1|]. split; [exact Hf|]. split; [exact E0|]. split; [exact K|]. split; [exact X1|]. split; [exact G1|].
  split; [discriminate|]. split; [exact E|]. split; [exact X6|]. rewrite X7. unfold mean_spent, mean. cbn [map qsum fold_right List.length]. rewrite Sx. intro Y. discriminate Y.
Qed.

(** It can be below the free-flow travel time: the ratio of delay is negative. *)
Theorem free_refuted : exists c w1 w0 w l r q, reach c w1 /\ w_final w1 = false /\ finalize c None w1 = Ok w0 /\ later c keep_speed w0 w /\ plain_net w /\ exists_link w l /\
  link_row_of (L w l) = Ok r /\ (0 < r_volume r)%Z /\ (r_ave r < r_free r)%Q /\ r_ratio r = Some q /\ (q < 1)%Q.
Proof.
  destruct (run_witness c0 keep_speed (net 520 540) (Some 200%Q) 40 (fun _ _ w => single_b w && open_b w && long_b w && fast_b w && ((1 <? w_nl w) && row_b w 1 (fun r => Z.ltb 0 (r_volume r) && qlt (r_ave r) (r_free r) && match r_ratio r with Some q => qlt q 1 | None => false end)))) as (w1 & w0 & w & R1 & Hf & E0 & K & _ & H). { vm_compute. reflexivity. }
  apply andb_true_iff in H. destruct H as [H0 H]. apply andb_true_iff in H. destruct H as [H1 H]. unfold row_b in H. destruct (link_row_of (L w 1)) as [r|] eqn:E; [|discriminate H]. apply andb_true_iff in H. destruct H as [H H4]. apply andb_true_iff in H. destruct H as [H2 H3].
  destruct (r_ratio r) as [q|] eqn:Eq; [|discriminate H4].
  exists c0, w1, w0, w, 1, r, q. split; [exact R1|]. split; [exact Hf|]. split; [exact E0|]. split; [exact K|]. split; [apply plain_ok; exact H0|]. split; [apply Nat.ltb_lt; exact H1|]. split; [exact E|].
  split; [apply Z.ltb_lt; exact H2|]. split; [apply qlt_iff; exact H3|]. split; [exact Eq|apply qlt_iff; exact H4].
Qed.

Definition free_b (w : world) : bool := links_b (fun l => negb (smem (l_name (L w l)) ["waiting_at_origin_node"; "trip_aborted"; "trip_end"])) w.
Lemma free_ok : forall w, free_b w = true -> free_names w.
Proof.
  intros w H l X C. pose proof (links_b_ok _ _ H l X) as Y. cbv beta in Y. apply negb_true_iff in Y.
  destruct C as [C|[C|C]]; rewrite C in Y; vm_compute in Y; discriminate Y.
Qed.

(** an area which two platoons have passed *)
Theorem area_example : exists w rows t r, reach c0 w /\ c_logint c0 = 1%Z /\ free_names w /\ area_to_pandas c0 w None [[0]; [1]] true = Ok (rows, t) /\
  nth_error rows 1 = Some r /\ ar_volume r = 10%Z /\ visitors w [1] true = 2 /\ inside w [1] true = 0 /\ (0 < ar_time r)%Q.
Proof.
  destruct (play_witness c0 plain_run (Some 200%Q) (fun w => free_b w && (match area_to_pandas c0 w None [[0]; [1]] true with Ok ([_; r], _) => Z.eqb (ar_volume r) 10 && qlt 0 (ar_time r) | _ => false end && (visitors w [1] true =? 2) && (inside w [1] true =? 0)))) as (w & R & H). { vm_compute. reflexivity. }
  apply andb_true_iff in H. destruct H as [H1 H]. apply andb_true_iff in H. destruct H as [H H4]. apply andb_true_iff in H. destruct H as [H2 H3].
  destruct (area_to_pandas c0 w None [[0]; [1]] true) as [[rows t]|] eqn:E; [|discriminate H2]. destruct rows as [|r0 [|r [|r2 rows]]]; try discriminate H2. apply andb_true_iff in H2. destruct H2 as [H2 H5].
  exists w, [r0; r], t, r. split; [apply reachable_reach; exact R|]. split; [reflexivity|]. split; [apply free_ok; exact H1|]. split; [exact E|]. split; [reflexivity|].
  split; [apply Z.eqb_eq; exact H2|]. split; [apply Nat.eqb_eq; exact H3|]. split; [apply Nat.eqb_eq; exact H4|apply qlt_iff; exact H5].
Qed.

(** The total travel time of an area with vehicles inside can be negative: the remaining vehicles are subtracted from those that left. *)
Theorem negative_refuted : exists c w rows t r, reachP c keep_speed w /\ plain_net w /\ free_names w /\ area_to_pandas c w None [[0]] true = Ok (r :: rows, t) /\
  (0 < ar_volume r)%Z /\ (ar_time r < 0)%Q.
Proof.
  destruct (playP_witness c0 keep_speed speed_b (row_net ++ [veh_ 0 2 0; veh_ 0 2 0; OExec (UntilT 35)])%list (Some 200%Q) (fun w => single_b w && open_b w && long_b w && fast_b w && (free_b w && area_b c0 w None [[0]] true (fun r => Z.ltb 0 (ar_volume r) && qlt (ar_time r) 0)))) as (w & R & H).
  { apply speed_b_ok. } { intro w. split; [exact Logic.I|discriminate]. } { vm_compute. reflexivity. }
  apply andb_true_iff in H. destruct H as [H0 H]. apply andb_true_iff in H. destruct H as [H1 H]. unfold area_b in H.
  destruct (area_to_pandas c0 w None [[0]] true) as [[[|r rows] t]|] eqn:E; try discriminate H. apply andb_true_iff in H. destruct H as [H2 H3].
  exists c0, w, rows, t, r. split; [exact R|]. split; [apply plain_ok; exact H0|]. split; [apply free_ok; exact H1|]. split; [exact E|]. split; [apply Z.ltb_lt; exact H2|apply qlt_iff; exact H3].
Qed.

(** With a longer logging interval vehicles are missed. *)
Theorem interval_refuted : exists c w rows t r, reachP c keep_speed w /\ plain_net w /\ free_names w /\ area_to_pandas c w None [[0]] true = Ok (r :: rows, t) /\
  (ar_volume r < c_deltan c * Z.of_nat (visitors w [0%nat] true))%Z.
Proof.
  destruct (playP_witness (cfg_log 20) keep_speed speed_b plain_run (Some 200%Q) (fun w => single_b w && open_b w && long_b w && fast_b w && (free_b w && area_b (cfg_log 20) w None [[0]] true (fun r => Z.ltb (ar_volume r) (5 * Z.of_nat (visitors w [0] true)))))) as (w & R & H).
  { apply speed_b_ok. } { intro w. split; [exact Logic.I|discriminate]. } { vm_compute. reflexivity. }
  apply andb_true_iff in H. destruct H as [H0 H]. apply andb_true_iff in H. destruct H as [H1 H]. unfold area_b in H.
  destruct (area_to_pandas (cfg_log 20) w None [[0]] true) as [[[|r rows] t]|] eqn:E; try discriminate H.
  exists (cfg_log 20), w, rows, t, r. split; [exact R|]. split; [apply plain_ok; exact H0|]. split; [apply free_ok; exact H1|]. split; [exact E|]. apply Z.ltb_lt; exact H.
Qed.

(** A second call during the simulation still counts the vehicles of the first one. *)
Theorem stale_refuted : exists c w w' rows rows' t t' r, c_logint c = 1%Z /\ reach c w /\ later c keep_speed w w' /\ free_names w' /\
  area_to_pandas c w None [[2]] true = Ok (rows, t) /\ area_to_pandas c w' t [[2]] true = Ok (r :: rows', t') /\
  ar_volume r <> (c_deltan c * Z.of_nat (visitors w' [2%nat] true))%Z.
Proof.
  destruct (run_witness c0 keep_speed (net 520 540) (Some 200%Q) 2 (fun _ _ w => w_final w && match area_to_pandas c0 w None [[2]] true, iterM (tick c0) 30 w with Ok (_, t), Ok w' => free_b w' && area_b c0 w' t [[2]] true (fun r => negb (Z.eqb (ar_volume r) (5 * Z.of_nat (visitors w' [2] true)))) | _, _ => false end)) as (w1 & w0 & w & _ & _ & _ & _ & R & H). { vm_compute. reflexivity. }
  apply andb_true_iff in H. destruct H as [F H]. destruct (area_to_pandas c0 w None [[2]] true) as [[rows t]|] eqn:E; [|discriminate H]. destruct (iterM (tick c0) 30 w) as [w'|] eqn:E1; [|discriminate H].
  apply andb_true_iff in H. destruct H as [H1 H]. unfold area_b in H. destruct (area_to_pandas c0 w' t [[2]] true) as [[[|r rows'] t']|] eqn:E2; try discriminate H.
  exists c0, w, w', rows, rows', t, t', r. split; [reflexivity|]. split; [exact R|]. split; [eapply ticks_later; [exact F|exact E1]|]. split; [apply free_ok; exact H1|]. split; [exact E|]. split; [exact E2|].
  apply negb_true_iff, Z.eqb_neq in H. exact H.
Qed.

(** A link named like the rows of arrived vehicles counts these vehicles. *)
Definition named_net : list op := [ node_ "a"; node_ "b"; node_ "c"; link_ "ab" 0 1 500; link_ "trip_end" 1 2 500; veh_ 0 1 0; OExec (UntilT 200) ].
Theorem name_refuted : exists c w rows t r, c_logint c = 1%Z /\ reach c w /\ area_to_pandas c w None [[2]] true = Ok (r :: rows, t) /\
  (0 < ar_volume r)%Z /\ visitors w [2] true = 0.
Proof.
  destruct (play_witness c0 named_net (Some 200%Q) (fun w => area_b c0 w None [[2]] true (fun r => Z.ltb 0 (ar_volume r)) && (visitors w [2] true =? 0))) as (w & R & H). { vm_compute. reflexivity. }
  apply andb_true_iff in H. destruct H as [H H1]. unfold area_b in H. destruct (area_to_pandas c0 w None [[2]] true) as [[[|r rows] t]|] eqn:E; try discriminate H.
  exists c0, w, rows, t, r. split; [reflexivity|]. split; [apply reachable_reach; exact R|]. split; [exact E|]. split; [apply Z.ltb_lt; exact H|apply Nat.eqb_eq; exact H1].
Qed.
