(** * DelayDemo: scenarios for delays and distances. *)
From Verif Require Import Base Types Sim Build Tac Reach Steps Lists Spec Registry Route Paths SpecDuo PathsOK Demo MotionDemo DuoDemo DueDemo DsoDemo SpecStats Analyzer SpecRoutes EnumRoutes EnumRoutesDemo NodeDistances NodeDistancesDemo SpecDelay Delay.
Local Open Scope string_scope.
Local Open Scope nat_scope.
Definition c0 : cfg := cfg_upd 20.
Definition plain_run : list op := (row_net ++ [veh_ 0 2 0; OExec (UntilT 200)])%list.
Definition shut_run : list op := (row_net ++ [OExec (UntilT 100); OSetCapIn 0 0%Q])%list.
Definition par_net : list op := [ node_ "a"; node_ "b"; link_ "quick" 0 1 500; link_ "slow" 0 1 5000; veh_ 0 1 0; OEnforceRoute 0 [0] false; OExec (UntilT 200) ].
Definition slow_run : list op := (row_net ++ [OExec (UntilT 100); OChangeSpeed 0 1%Q])%list.
Definition two_run : list op := (row_net ++ [veh_ 0 1 0; OExec (UntilT 40)])%list.

Definition links_b (p : lid -> bool) (w : world) : bool := forallb p (seq 0 (w_nl w)).
Lemma links_b_ok : forall p w, links_b p w = true -> forall l, exists_link w l -> p l = true.
Proof. intros p w H l X. unfold links_b in H. rewrite forallb_forall in H. apply H. apply in_seq. unfold exists_link in X. lia. Qed.
Definition single_b (w : world) : bool := links_b (fun l => links_b (fun k => Nat.eqb l k || negb (Nat.eqb (l_start (L w l)) (l_start (L w k)) && Nat.eqb (l_end (L w l)) (l_end (L w k)))) w) w.
Definition open_b (w : world) : bool := links_b (fun l => negb (closed (L w l))) w.
Definition long_b (w : world) : bool := links_b (fun l => negb (qle (l_len (L w l)) 0)) w.
Definition fast_b (w : world) : bool := links_b (fun l => negb (qle (l_u (L w l)) 0)) w.
Lemma single_ok : forall w, single_b w = true -> single_links w.
Proof.
  intros w H l k X Y E1 E2. unfold single_b in H. pose proof (links_b_ok _ _ (links_b_ok _ _ H l X) k Y) as Z. cbn beta in Z. rewrite E1, E2, !Nat.eqb_refl in Z. cbn in Z. rewrite orb_false_r in Z. apply Nat.eqb_eq. exact Z.
Qed.
Lemma open_ok : forall w, open_b w = true -> open_links w.
Proof. intros w H l X. apply negb_true_iff. exact (links_b_ok _ _ H l X). Qed.
Lemma long_ok : forall w, long_b w = true -> long_links w.
Proof. intros w H l X. apply qle_false. apply negb_true_iff. exact (links_b_ok _ _ H l X). Qed.
Lemma fast_ok : forall w, fast_b w = true -> fast_links w.
Proof. intros w H l X. apply qle_false. apply negb_true_iff. exact (links_b_ok _ _ H l X). Qed.
Lemma plain_ok : forall w, single_b w && open_b w && long_b w && fast_b w = true -> plain_net w.
Proof.
  intros w H. apply andb_true_iff in H. destruct H as [H H4]. apply andb_true_iff in H. destruct H as [H H3]. apply andb_true_iff in H. destruct H as [H1 H2].
  split; [apply single_ok; exact H1|]. split; [apply open_ok; exact H2|]. split; [apply long_ok; exact H3|apply fast_ok; exact H4].
Qed.
Definition stats_b (w : world) (p : more_stats -> bool) : bool := match more_stats_of c0 w with Ok m => p m | Err _ => false end.
Definition neg_b (o : option Q) : bool := match o with Some y => negb (qle 0 y) | None => false end.
Definition is_b (o : option Q) (x : Q) : bool := match o with Some y => qeq y x | None => false end.
Ltac splits := repeat match goal with K : _ && _ = true |- _ => apply andb_true_iff in K; destruct K end.

(** two vehicles on a plain network: the delays are 4 s and 9 s (DELTAN is 5) *)
Theorem delay_example : exists w, reachP c0 keep_speed w /\ plain_net w /\ completed w = 2 /\ exists m y a, more_stats_of c0 w = Ok m /\ ms_delay m = Some y /\ (y == 65)%Q /\ ms_avdelay m = Some a /\ (a == 13 # 2)%Q.
Proof.
  destruct (playP_witness c0 keep_speed speed_b plain_run (Some 200%Q) (fun w => single_b w && open_b w && long_b w && fast_b w && Nat.eqb (completed w) 2 && stats_b w (fun m => is_b (ms_delay m) 65 && is_b (ms_avdelay m) (13 # 2)))) as (w & R & H).
  { apply speed_b_ok. } { intro w. split; [exact Logic.I|discriminate]. } { vm_compute. reflexivity. }
  apply andb_true_iff in H. destruct H as [H H1]. apply andb_true_iff in H. destruct H as [H H2]. exists w. split; [exact R|]. split; [apply plain_ok; exact H|]. split; [apply Nat.eqb_eq; exact H2|].
  unfold stats_b in H1. destruct (more_stats_of c0 w) as [m|]; [|discriminate H1]. apply andb_true_iff in H1. destruct H1 as [A B]. unfold is_b in *. destruct (ms_delay m) as [y|] eqn:E1; [|discriminate A]. destruct (ms_avdelay m) as [a|] eqn:E2; [|discriminate B].
  apply qeq_iff in A, B. exists m, y, a. auto.
Qed.
(** With two links between the same nodes the last one counts: the delay is negative. *)
Theorem parallel_refuted : exists c w m y, correct_routine c /\ reachP c keep_speed w /\ open_links w /\ long_links w /\ fast_links w /\ completed w <> 0 /\ more_stats_of c w = Ok m /\ ms_delay m = Some y /\ (y < 0)%Q.
Proof.
  destruct (playP_witness c0 keep_speed speed_b par_net (Some 200%Q) (fun w => open_b w && long_b w && fast_b w && negb (Nat.eqb (completed w) 0) && stats_b w (fun m => neg_b (ms_delay m)))) as (w & R & H).
  { apply speed_b_ok. } { intro w. split; [exact Logic.I|discriminate]. } { vm_compute. reflexivity. }
  splits. unfold stats_b in *. destruct (more_stats_of c0 w) as [m|] eqn:E; [|discriminate H0]. unfold neg_b in H0. destruct (ms_delay m) as [y|] eqn:Ey; [|discriminate H0]. apply negb_true_iff, qle_false in H0. apply negb_true_iff, Nat.eqb_neq in H1.
  exists c0, w, m, y. split; [apply routine_example|]. split; [exact R|]. split; [apply open_ok; assumption|]. split; [apply long_ok; assumption|]. split; [apply fast_ok; assumption|]. auto.
Qed.
(** After the inflow of a used link has been forbidden, the delay is -inf. *)
Theorem closed_refuted : exists c w m, correct_routine c /\ reachP c keep_speed w /\ single_links w /\ long_links w /\ fast_links w /\ completed w <> 0 /\ more_stats_of c w = Ok m /\ ms_delay m = None.
Proof.
  destruct (playP_witness c0 keep_speed speed_b shut_run (Some 200%Q) (fun w => single_b w && long_b w && fast_b w && negb (Nat.eqb (completed w) 0) && stats_b w (fun m => match ms_delay m with None => true | _ => false end))) as (w & R & H).
  { apply speed_b_ok. } { intro w. split; [exact Logic.I|discriminate]. } { vm_compute. reflexivity. }
  splits. unfold stats_b in *. destruct (more_stats_of c0 w) as [m|] eqn:E; [|discriminate H0]. destruct (ms_delay m) as [y|] eqn:Ey; [discriminate H0|]. apply negb_true_iff, Nat.eqb_neq in H1.
  exists c0, w, m. split; [apply routine_example|]. split; [exact R|]. split; [apply single_ok; assumption|]. split; [apply long_ok; assumption|]. split; [apply fast_ok; assumption|]. auto.
Qed.
(** After a free flow speed has been lowered, the delay is negative. *)
Theorem speed_refuted : exists c w m y, correct_routine c /\ reach c w /\ plain_net w /\ completed w <> 0 /\ more_stats_of c w = Ok m /\ ms_delay m = Some y /\ (y < 0)%Q.
Proof.
  destruct (play_witness c0 slow_run (Some 200%Q) (fun w => single_b w && open_b w && long_b w && fast_b w && (negb (Nat.eqb (completed w) 0) && stats_b w (fun m => neg_b (ms_delay m))))) as (w & R & H). { vm_compute. reflexivity. }
  apply andb_true_iff in H. destruct H as [H0 H]. apply andb_true_iff in H. destruct H as [H1 H]. unfold stats_b in *. destruct (more_stats_of c0 w) as [m|] eqn:E; [|discriminate H]. unfold neg_b in H. destruct (ms_delay m) as [y|] eqn:Ey; [|discriminate H]. apply negb_true_iff, qle_false in H. apply negb_true_iff, Nat.eqb_neq in H1.
  exists c0, w, m, y. split; [apply routine_example|]. split; [apply reachable_reach; exact R|]. split; [apply plain_ok; exact H0|]. auto.
Qed.
(** The total distance leaves out the vehicles between whose nodes no trip has been completed. *)
Theorem distance_refuted : exists c w m, correct_routine c /\ reachP c keep_speed w /\ plain_net w /\ more_stats_of c w = Ok m /\ ~ (ms_dist m == inject_Z (c_deltan c) * all_distance w)%Q.
Proof.
  destruct (playP_witness c0 keep_speed speed_b two_run (Some 200%Q) (fun w => single_b w && open_b w && long_b w && fast_b w && stats_b w (fun m => negb (qeq (ms_dist m) (inject_Z (c_deltan c0) * all_distance w))))) as (w & R & H).
  { apply speed_b_ok. } { intro w. split; [exact Logic.I|discriminate]. } { vm_compute. reflexivity. }
  apply andb_true_iff in H. destruct H as [H0 H]. unfold stats_b in *. destruct (more_stats_of c0 w) as [m|] eqn:E; [|discriminate H]. apply negb_true_iff, qeq_false in H.
  exists c0, w, m. split; [apply routine_example|]. split; [exact R|]. split; [apply plain_ok; exact H0|]. auto.
Qed.
(** The average distance of completed trips can be less than the shortest distance. *)
Theorem shortest_refuted : exists c w d x k, correct_routine c /\ reachP c keep_speed w /\ plain_net w /\ min_dists c w = Ok d /\ key_done (od_compute c w) k = true /\ dist_min (od_compute c w) d k = Some x /\ (dist_ave (od_compute c w) (dist_table w) k < x)%Q.
Proof.
  destruct (playP_witness c0 keep_speed speed_b plain_run (Some 200%Q) (fun w => single_b w && open_b w && long_b w && fast_b w && (key_done (od_compute c0 w) (0, 2) && match min_dists c0 w with Ok d => match dist_min (od_compute c0 w) d (0, 2) with Some x => negb (qle x (dist_ave (od_compute c0 w) (dist_table w) (0, 2))) | None => false end | Err _ => false end))) as (w & R & H).
  { apply speed_b_ok. } { intro w. split; [exact Logic.I|discriminate]. } { vm_compute. reflexivity. }
  apply andb_true_iff in H. destruct H as [H0 H]. apply andb_true_iff in H. destruct H as [H1 H]. destruct (min_dists c0 w) as [d|] eqn:E; [|discriminate H]. destruct (dist_min (od_compute c0 w) d (0, 2)) as [x|] eqn:Ex; [|discriminate H]. apply negb_true_iff, qle_false in H.
  exists c0, w, d, x, (0, 2). split; [apply routine_example|]. split; [exact R|]. split; [apply plain_ok; exact H0|]. auto.
Qed.
