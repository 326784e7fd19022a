(** * MfdDemo: scenarios for the network averages and the table of cumulative counts. *)
From Verif Require Import Base Types Sim Build Tac Reach Steps Lists Spec Registry Route Trials Paths Demo MotionDemo DuoDemo DueDemo DsoDemo DelayDemo LinkStatsDemo Edie SpecEdie EdieOK Traj SpecTT SpecLinks SpecMfd Mfd.
Local Open Scope string_scope.
Local Open Scope nat_scope.

(** time slices of [e] seconds *)
Definition cfg_e (e : Q) : cfg :=
  mkCfg 5 1 20 (1#2) (1#100) HomogeneousDUO false 1 false false 1 false true e
        (fun k => Nat.modulo (7 * k + 3) 11) (fun k => (1#2)%Q) shortest_paths.

Definition tidy_b (w : world) : bool := (w_final w && links_b (fun l => negb (Nat.eqb (l_start (L w l)) (l_end (L w l)))) w &&
  forallb (fun v => match v_mode (V w v) with SingleTrip => true | _ => false end) (seq 0 (w_nv w)))%bool.
Lemma tidy_ok : forall w, tidy_b w = true -> w_final w = true /\ no_loops w /\ Singles w.
Proof.
  intros w H. unfold tidy_b in H. apply andb_true_iff in H. destruct H as [H H3]. apply andb_true_iff in H. destruct H as [H1 H2].
  split; [exact H1|]. split.
  - intros l Hl E. pose proof (links_b_ok _ _ H2 l Hl) as X. cbv beta in X. rewrite E, Nat.eqb_refl in X. discriminate X.
  - intros v Hv. rewrite forallb_forall in H3. specialize (H3 v). rewrite in_seq in H3. specialize (H3 ltac:(lia)). destruct (v_mode (V w v)); [reflexivity|discriminate H3].
Qed.
Definition oq (o : option Q) (q : Q) : bool := match o with Some x => qeq x q | None => false end.
Definition mfd_b (r : result (list (option Q * option Q) * mstate)) (p : list (option Q * option Q) -> bool) : bool := match r with Ok (vs, _) => p vs | Err _ => false end.
Definition tm_b (w : world) (q : Q) : bool := match w_tmax w with Some t => qeq t q | None => false end.

(** one platoon on two links of 500 m, time slices of 50 s *)
Theorem mfd_example : exists w tm vs st, reachP (cfg_e 50) keep_speed w /\ w_final w = true /\ no_loops w /\ Singles w /\ w_tmax w = Some tm /\ (tm == 200)%Q /\
  (0 < area_time (cfg_e 50) w (link_key w None))%Q /\ (forall l, exists_link w l -> l_len (L w l) == Qof_nat 5 * dx_of w l)%Q /\ (now (cfg_e 50) w <= tm)%Q /\
  compute_mfd (cfg_e 50) w fresh_mstate None = Ok (vs, st) /\ List.length vs = 4 /\
  match vs with (Some k, Some q) :: (Some k1, Some q1) :: _ => (k == 9 # 2000)%Q /\ (q == 9 # 100)%Q /\ (k1 == 1 # 2000)%Q /\ (q1 == 1 # 100)%Q | _ => False end.
Proof.
  destruct (playP_witness (cfg_e 50) keep_speed speed_b (net 500 500 ++ [OExec (UntilT 200)]) (Some 200%Q) (fun w => tidy_b w && (tm_b w 200 &&
    (qlt 0 (area_time (cfg_e 50) w (link_key w None)) && (links_b (fun l => qeq (l_len (L w l)) (Qof_nat 5 * dx_of w l)) w && (qle (now (cfg_e 50) w) 200 &&
    mfd_b (compute_mfd (cfg_e 50) w fresh_mstate None) (fun vs => (List.length vs =? 4) && match vs with (a, b) :: (x, y) :: _ => oq a (9 # 2000) && oq b (9 # 100) && oq x (1 # 2000) && oq y (1 # 100) | _ => false end))))))) as (w & R & H).
  { apply speed_b_ok. } { intro w. split; [exact Logic.I|discriminate]. } { vm_compute. reflexivity. }
  apply andb_true_iff in H. destruct H as [H0 H]. apply andb_true_iff in H. destruct H as [H1 H]. apply andb_true_iff in H. destruct H as [H2 H].
  apply andb_true_iff in H. destruct H as [H3 H]. apply andb_true_iff in H. destruct H as [H4 H].
  destruct (tidy_ok w H0) as (T1 & T2 & T3). unfold tm_b in H1. destruct (w_tmax w) as [tm|] eqn:Et; [|discriminate H1]. apply qeq_iff in H1.
  unfold mfd_b in H. destruct (compute_mfd _ _ _ _) as [[vs st]|] eqn:Em; [|discriminate H]. apply andb_true_iff in H. destruct H as [H5 H6].
  exists w, tm, vs, st. split; [exact R|]. split; [exact T1|]. split; [exact T2|]. split; [exact T3|]. split; [exact Et|]. split; [exact H1|].
  split; [apply qlt_iff; exact H2|]. split; [intros l Hl; apply qeq_iff; exact (links_b_ok _ _ H3 l Hl)|]. split; [apply qle_iff in H4; rewrite H1; exact H4|].
  split; [exact Em|]. split; [apply Nat.eqb_eq; exact H5|].
  clear - H6. destruct vs as [|[a b] [|[x y] vs]]; try discriminate H6. splits. destruct a as [a|]; [|discriminate]. destruct b as [b|]; [|discriminate].
  destruct x as [x|]; [|discriminate]. destruct y as [y|]; [|discriminate]. cbn [oq] in *. repeat split; apply qeq_iff; assumption.
Qed.

(** The table has as many rows as link sets were asked for, not one per time slice. *)
Theorem rows_refuted : exists c w vs st rows st', reachP c keep_speed w /\ w_final w = true /\ compute_mfd c w fresh_mstate None = Ok (vs, st) /\ List.length vs = 4 /\
  mfd_to_pandas c w fresh_mstate None = Ok (rows, st') /\ List.length rows = 1.
Proof.
  destruct (playP_witness (cfg_e 50) keep_speed speed_b (net 500 500 ++ [OExec (UntilT 200)]) (Some 200%Q) (fun w => w_final w &&
    (mfd_b (compute_mfd (cfg_e 50) w fresh_mstate None) (fun vs => List.length vs =? 4) &&
     match mfd_to_pandas (cfg_e 50) w fresh_mstate None with Ok (rows, _) => List.length rows =? 1 | Err _ => false end))) as (w & R & H).
  { apply speed_b_ok. } { intro w. split; [exact Logic.I|discriminate]. } { vm_compute. reflexivity. }
  apply andb_true_iff in H. destruct H as [H1 H]. apply andb_true_iff in H. destruct H as [H2 H]. unfold mfd_b in H2.
  destruct (compute_mfd _ _ _ _) as [[vs st]|] eqn:Em; [|discriminate H2]. destruct (mfd_to_pandas _ _ _ _) as [[rows st']|] eqn:Ep; [|discriminate H].
  exists (cfg_e 50), w, vs, st, rows, st'. split; [exact R|]. split; [exact H1|]. split; [exact Em|]. split; [apply Nat.eqb_eq; exact H2|]. split; [exact Ep|apply Nat.eqb_eq; exact H].
Qed.

(** With more link sets than time slices the call fails. *)
Theorem sets_refuted : exists c w v1 s1 v2 s2, reachP c keep_speed w /\ w_final w = true /\ compute_mfd c w fresh_mstate (Some [0]) = Ok (v1, s1) /\
  compute_mfd c w s1 (Some [1]) = Ok (v2, s2) /\ mfd_to_pandas c w s2 None = Err IndexError.
Proof.
  destruct (playP_witness (cfg_e 100) keep_speed speed_b (net 500 500 ++ [OExec (UntilT 200)]) (Some 200%Q) (fun w => w_final w &&
    match compute_mfd (cfg_e 100) w fresh_mstate (Some [0]) with
    | Ok (_, s1) => match compute_mfd (cfg_e 100) w s1 (Some [1]) with
       | Ok (_, s2) => match mfd_to_pandas (cfg_e 100) w s2 None with Err IndexError => true | _ => false end | Err _ => false end | Err _ => false end)) as (w & R & H).
  { apply speed_b_ok. } { intro w. split; [exact Logic.I|discriminate]. } { vm_compute. reflexivity. }
  apply andb_true_iff in H. destruct H as [H1 H]. destruct (compute_mfd (cfg_e 100) w fresh_mstate (Some [0])) as [[v1 s1]|] eqn:E1; [|discriminate H].
  destruct (compute_mfd (cfg_e 100) w s1 (Some [1])) as [[v2 s2]|] eqn:E2; [|discriminate H].
  exists (cfg_e 100), w, v1, s1, v2, s2. split; [exact R|]. split; [exact H1|]. split; [exact E1|]. split; [exact E2|].
  destruct (mfd_to_pandas (cfg_e 100) w s2 None) as [|[]]; try discriminate H. reflexivity.
Qed.

(** A link shorter than one timestep's drive has no cell: its density and flow are 0 although vehicles were there. *)
Theorem short_refuted : exists c w vs st, reachP c keep_speed w /\ w_final w = true /\ no_loops w /\ Singles w /\ compute_mfd c w fresh_mstate (Some [0]) = Ok (vs, st) /\
  (forall i k q, nth_error vs i = Some (k, q) -> oq k 0 && oq q 0 = true) /\ (0 < slice_dist (c_eulardt c) 0 (l_len (L w 0)) (traj_of c w 0))%Q.
Proof.
  destruct (playP_witness (cfg_e 50) keep_speed speed_b (net 80 520 ++ [OExec (UntilT 200)]) (Some 200%Q) (fun w => tidy_b w &&
    (mfd_b (compute_mfd (cfg_e 50) w fresh_mstate (Some [0])) (fun vs => forallb (fun kq => oq (fst kq) 0 && oq (snd kq) 0) vs) &&
     qlt 0 (slice_dist 50 0 (l_len (L w 0)) (traj_of (cfg_e 50) w 0))))) as (w & R & H).
  { apply speed_b_ok. } { intro w. split; [exact Logic.I|discriminate]. } { vm_compute. reflexivity. }
  apply andb_true_iff in H. destruct H as [H1 H]. apply andb_true_iff in H. destruct H as [H2 H]. destruct (tidy_ok w H1) as (T1 & T2 & T3).
  unfold mfd_b in H2. destruct (compute_mfd _ _ _ _) as [[vs st]|] eqn:Em; [|discriminate H2]. exists (cfg_e 50), w, vs, st.
  split; [exact R|]. split; [exact T1|]. split; [exact T2|]. split; [exact T3|]. split; [exact Em|]. split; [|apply qlt_iff; exact H].
  intros i k q E. rewrite forallb_forall in H2. exact (H2 (k, q) (nth_error_In _ _ E)).
Qed.

(** Asked again after the simulation has continued, the values are those of the first call. *)
Theorem stale_refuted : exists c w w' v1 s1 v2 s2 v3 s3, reach c w /\ later c keep_speed w w' /\ compute_mfd c w fresh_mstate None = Ok (v1, s1) /\
  compute_mfd c w' s1 None = Ok (v2, s2) /\ compute_mfd c w' fresh_mstate None = Ok (v3, s3) /\
  match v1, v2, v3 with (Some a, _) :: _, (Some b, _) :: _, (Some d, _) :: _ => (a == b)%Q /\ ~ (b == d)%Q | _, _, _ => False end.
Proof.
  destruct (run_witness (cfg_e 100) keep_speed (net 500 500) (Some 200%Q) 4 (fun _ _ w => match iterM (tick (cfg_e 100)) 30 w with
    | Ok w' => match compute_mfd (cfg_e 100) w fresh_mstate None with
       | Ok (v1, s1) => match compute_mfd (cfg_e 100) w' s1 None, compute_mfd (cfg_e 100) w' fresh_mstate None with
          | Ok (v2, _), Ok (v3, _) => match v1, v2, v3 with (Some a, _) :: _, (Some b, _) :: _, (Some d, _) :: _ => w_final w && (qeq a b && negb (qeq b d)) | _, _, _ => false end
          | _, _ => false end
       | Err _ => false end
    | Err _ => false end)) as (w1 & w0 & w & R1 & Hf & E0 & K & R & H). { vm_compute. reflexivity. }
  destruct (iterM (tick (cfg_e 100)) 30 w) as [w'|] eqn:Ew; [|discriminate H].
  destruct (compute_mfd (cfg_e 100) w fresh_mstate None) as [[v1 s1]|] eqn:E1; [|discriminate H].
  destruct (compute_mfd (cfg_e 100) w' s1 None) as [[v2 s2]|] eqn:E2; [|discriminate H].
  destruct (compute_mfd (cfg_e 100) w' fresh_mstate None) as [[v3 s3]|] eqn:E3; [|discriminate H].
  exists (cfg_e 100), w, w', v1, s1, v2, s2, v3, s3. split; [exact R|].
  destruct v1 as [|[[a|] a'] v1]; try discriminate H. destruct v2 as [|[[b|] b'] v2]; try discriminate H. destruct v3 as [|[[d|] d'] v3]; try discriminate H.
  apply andb_true_iff in H. destruct H as [Hw H]. apply andb_true_iff in H. destruct H as [H1 H2]. apply negb_true_iff in H2.
  split; [eapply ticks_later; [exact Hw|exact Ew]|]. split; [exact E1|]. split; [exact E2|]. split; [exact E3|]. split; [apply qeq_iff; exact H1|apply qeq_false; exact H2].
Qed.

(** the cumulative counts of a completed run *)
Theorem cumulative_example : exists w1 w0 w, reach (cfg_e 50) w1 /\ w_final w1 = false /\ finalize (cfg_e 50) None w1 = Ok w0 /\ later (cfg_e 50) keep_speed w0 w /\ w_tsize w <= w_T w /\
  exists r rows tab, link_cumulative (cfg_e 50) w = Ok (rows :: tab) /\ List.length rows = 40 /\ nth_error rows 20 = Some r /\ cu_arr r = 5%Z /\ cu_dep r = 5%Z /\ (cu_tta r == 25)%Q.
Proof.
  destruct (run_witness (cfg_e 50) keep_speed (net 500 500) (Some 200%Q) 40 (fun _ _ w => (w_tsize w <=? w_T w) &&
    match link_cumulative (cfg_e 50) w with Ok (rows :: _) => (List.length rows =? 40) && match nth_error rows 20 with Some r => Z.eqb (cu_arr r) 5 && (Z.eqb (cu_dep r) 5 && qeq (cu_tta r) 25) | None => false end | _ => false end))
    as (w1 & w0 & w & R1 & Hf & E0 & K & R & H). { vm_compute. reflexivity. }
  apply andb_true_iff in H. destruct H as [H1 H]. exists w1, w0, w. split; [exact R1|]. split; [exact Hf|]. split; [exact E0|]. split; [exact K|]. split; [apply Nat.leb_le; exact H1|].
  destruct (link_cumulative (cfg_e 50) w) as [[|rows tab]|] eqn:E; try discriminate H. apply andb_true_iff in H. destruct H as [H2 H].
  destruct (nth_error rows 20) as [r|] eqn:Er; [|discriminate H]. apply andb_true_iff in H. destruct H as [H3 H]. apply andb_true_iff in H. destruct H as [H4 H5].
  exists r, rows, tab. split; [reflexivity|]. split; [apply Nat.eqb_eq; exact H2|]. split; [exact Er|]. split; [apply Z.eqb_eq; exact H3|]. split; [apply Z.eqb_eq; exact H4|apply qeq_iff; exact H5].
Qed.
