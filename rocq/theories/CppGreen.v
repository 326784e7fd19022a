(** * CppGreen: vehicles cross signalised nodes on green in the compiled engine (C72). *)
From Verif Require Import Base Types Sim Build Heap Lists Inv FrameBase Tac Frame Eff Eff2 Trace InvStep Reach Steps Effects Phases Attr Life Incoming Vev Ride TripLog Route Signal Green Choice Enforce Counts LinkQueries FD NodeCap Origin Bucket Outflow Trials Motion Spacing Spec Distance Totals.
From Verif Require Import State Cpp SpecCpp CppOK CppOK2 CppExt CppLog CppLoop CppInv CppSafe.
Local Open Scope nat_scope.

(** ** The vehicles that a node has noted down *)
Lemma inc_keep : forall w w', fr w w' -> (forall v, V w' v = V w v) ->
  (forall n v, In v (n_incoming (N w' n)) <-> In v (n_incoming (N w n))) -> (forall n, NoDup (n_incoming (N w' n))) -> IncA w None -> IncA w' None.
Proof.
  intros w w' Fr EV EN ND [B1 B2 B3 B4 B5]. constructor.
  - intros n Hn. rewrite (fr_w_nn Fr) in Hn. specialize (B1 n Hn). destruct (n_incoming (N w' n)) as [|x q] eqn:Eq; [reflexivity|].
    exfalso. assert (Z : In x (n_incoming (N w' n))) by (rewrite Eq; left; reflexivity). apply EN in Z. rewrite B1 in Z. destruct Z.
  - exact ND.
  - intros n n' v. rewrite !EN. apply B3.
  - intros n v. rewrite EN, (fr_w_nv Fr), EV. intro H. destruct (B4 n v H) as [H1 [H2|H2]]; (split; [exact H1|]); [left|right; exact H2].
    eapply stands_keep; [exact Fr| | | | |exact H2]; rewrite EV; reflexivity.
  - intros n v. rewrite EN, EV. apply B5.
Qed.
Lemma inc_cpart : forall c b w w', b = PhLinks \/ b = PhNodes -> cpart c b w w' -> IncA w None -> IncA w' None.
Proof.
  intros c b w w' Hb H J. destruct (cpart_ceq _ _ _ _ H) as (Fr & _ & _). pose proof (ia_nodup _ _ J) as ND.
  apply (inc_keep w w'); auto; destruct H as [l w w' A H|n nd w A H|n w A|v w w' H]; try (destruct Hb; discriminate).
  - unfold cpp_link_update in H. injection H as <-. reflexivity.
  - reflexivity.
  - reflexivity.
  - unfold cpp_link_update in H. injection H as <-. reflexivity.
  - intros m v. rewrite N_at. destruct (Nat.eqb m n) eqn:E; [|tauto]. apply Nat.eqb_eq in E; subst m. rewrite (proj2 (proj2 (cpp_fcap_stat c nd))), (proj2 (proj2 (cpp_signal_stat _ _ _ H))). tauto.
  - intros m v. rewrite N_at. destruct (Nat.eqb m n) eqn:E; [|tauto]. apply Nat.eqb_eq in E; subst m. cbn. apply sort_in.
  - unfold cpp_link_update in H. injection H as <-. exact ND.
  - intros m. rewrite N_at. destruct (Nat.eqb m n) eqn:E; [|apply ND]. apply Nat.eqb_eq in E; subst m. rewrite (proj2 (proj2 (cpp_fcap_stat c nd))), (proj2 (proj2 (cpp_signal_stat _ _ _ H))). apply ND.
  - intros m. rewrite N_at. destruct (Nat.eqb m n) eqn:E; [|apply ND]. cbn. apply sort_nodup. apply Nat.eqb_eq in E; subst m. apply ND.
Qed.

(** ** What is known of a vehicle on link [l] while the nodes work *)
Definition green (x : world) (l : lid) : Prop :=
  In (n_phase (N x (l_end (L x l)))) (l_group (L x l)) \/ List.length (n_signal (N x (l_end (L x l)))) <= 1.
Lemma green_keep : forall x y l, fr x y -> (forall n, nsig (N y n) = nsig (N x n)) -> green x l -> green y l.
Proof.
  intros x y l F E H. unfold green. rewrite (fr_l_end F), (fr_l_group F). destruct (nsig_eq _ _ (E (l_end (L x l)))) as [-> ->]. exact H.
Qed.
Definition stays (v : vid) (l : lid) (a : Q) (x : world) : Prop := vplace (V x v) = (Run, Some l, a) \/ (~ alive (v_state (V x v)) /\ v_larr (V x v) = a).
Definition watched (v : vid) (l : lid) (a : Q) (x : world) : Prop := stays v l a x \/ green x l.

Lemma ended_dead : forall b a tl lg c x, vride b = vride (sv_linkold None (sv_tlog tl (sv_log lg (ended c x a)))) -> ~ alive (v_state b).
Proof.
  intros b a tl lg c x H. apply ended_fields in H. destruct H as (_ & _ & _ & _ & _ & _ & _ & _ & _ & _ & _ & _ & _ & Q2 & _).
  unfold alive. rewrite Q2. destruct (v_aborted a); intuition congruence.
Qed.
Lemma stays_same : forall v l a x y, vride (V y v) = vride (V x v) -> stays v l a x -> stays v l a y.
Proof. intros v l a x y E [H|[H K]]; [left; rewrite (vride_place _ _ E); exact H|right]. pose proof (vride_place _ _ E) as P. unfold vplace in P. rewrite (vride_state _ _ E). split; [exact H|congruence]. Qed.
Lemma stays_larr : forall v l a x, stays v l a x -> v_larr (V x v) = a.
Proof. intros v l a x [H|[_ H]]; [unfold vplace in H; congruence|exact H]. Qed.

(** origins *)
Lemma stays_nodes : forall c e x p x' p' v l a, k_nodes e = true -> Inv2 x p -> mstep c e x p x' p' -> stays v l a x -> stays v l a x'.
Proof.
  intros c e x p x' p' v l a Ke I M H. pose proof (mstep_vev c _ _ _ _ _ I M v) as VE.
  destruct VE as [E|? ? ? E0 _ _ W|? ? ? ? ? ? E0|? ? ? E0|? E0|E0|E0|E0|? E0|? E0|? ? E0]; try (subst e; discriminate Ke); [eapply stays_same; eauto|].
  exfalso. destruct H as [H|[H _]]; [unfold vplace in H; congruence|]. apply H. rewrite W. right; left; reflexivity.
Qed.
(** transfers *)
Lemma watched_transfer : forall c e x p x' p' v l a, k_transfer e = true -> Inv2 x p -> IncA x p -> mstep c e x p x' p' -> watched v l a x -> watched v l a x'.
Proof.
  intros c e x p x' p' v l a Ke I J M [H|H].
  - pose proof (mstep_vev c _ _ _ _ _ I M v) as VE.
    destruct VE as [E|? ? ? E0|n out il q ld ln E0 E2 E3 E4 E5 E6 E7 E8 E9 E10 E11|? tl lg E0 _ _ _ _ _ _ E8|? E0|E0|E0|E0|? E0|? E0|? ? E0]; try (subst e; discriminate Ke).
    + left. eapply stays_same; eauto.
    + right. destruct H as [H|[H _]]; [|exfalso; apply H; rewrite E8; right; right; reflexivity].
      assert (il = l) by (unfold vplace in H; congruence). subst il.
      assert (p = None) by (subst e; apply (mstep_eff c _ _ _ _ _ I) in M; cbn [eff] in M; tauto). subst p.
      destruct (ia_in _ _ J n v E3) as [_ [(k & (_ & K1 & _) & K2 & _)|[(o & K)|[K|K]]]]; try congruence.
      assert (k = l) by congruence. subst k. apply (green_keep x x' l (mstep_fr M) (mstep_nsig c _ _ _ _ _ Ke I M)). unfold green. rewrite K2. exact E9.
    + left. right. split; [eapply ended_dead; eauto|]. rewrite (ended_larr _ _ _ _ _ _ E8). eapply stays_larr; exact H.
  - right. exact (green_keep x x' l (mstep_fr M) (mstep_nsig c _ _ _ _ _ Ke I M) H).
Qed.
(** the passes over the vehicles *)
Lemma stays_last : forall c e x p x' p' v l a, Phases.k_last e = true -> Inv2 x p -> mstep c e x p x' p' -> stays v l a x -> stays v l a x'.
Proof.
  intros c e x p x' p' v l a Ke I M H. pose proof (mstep_vev c _ _ _ _ _ I M v) as VE.
  destruct VE as [E|? ? ? E0|? ? ? ? ? ? E0|? tl lg E0 _ _ _ _ _ _ E8|? E0|E0 _ E|E0 _ Hh _ E|E0 _ _ E|? E0 _ _ E|? E0 _ _ _ _ E|? ? E0 _ _ _ E]; try (subst e; discriminate Ke).
  - eapply stays_same; eauto.
  - right. split; [eapply ended_dead; eauto|]. rewrite (ended_larr _ _ _ _ _ _ E8). eapply stays_larr; exact H.
  - pose proof (logged_place c x v) as Lp. unfold stays. rewrite E. assert (Ls : v_state (logged c x v false) = v_state (V x v)) by (unfold vplace in Lp; congruence). assert (La : v_larr (logged c x v false) = v_larr (V x v)) by (unfold vplace in Lp; congruence). rewrite Lp, Ls, La. exact H.
  - exfalso. destruct H as [H|[H _]]; [unfold vplace in H; congruence|]. apply H. rewrite Hh. left; reflexivity.
  - unfold stays. rewrite E. exact H.
  - unfold stays. rewrite E. exact H.
  - unfold stays. rewrite E. exact H.
  - unfold stays. rewrite E. exact H.
Qed.

(** ** The phases *)
Lemma links_quiet : forall c ls w w', Forall (fun l => l < w_nl w) ls -> foldM (cpp_link_update c) ls w = Ok w' -> Inv2 w None -> IncA w None ->
  Inv2 w' None /\ IncA w' None /\ forall v, V w' v = V w v.
Proof.
  intros c ls. induction ls as [|l ls IH]; intros w w' H E I J; cbn [foldM] in E; [injection E as <-; auto|].
  apply bind_ok in E. destruct E as (w1 & E1 & E). inversion H as [|? ? Hl Hr]; subst.
  assert (P : cpart c PhLinks w w1) by (econstructor; eauto).
  destruct (IH w1 w') as (A & B & D); auto.
  - apply cpp_link_fr in E1. eapply Forall_impl; [|exact Hr]. intros a Ha. cbn in Ha |- *. rewrite (fr_w_nl E1). exact Ha.
  - eapply cpart_Inv2; eauto.
  - exact (inc_cpart c _ _ _ (or_introl eq_refl) P J).
  - split; [exact A|]. split; [exact B|]. intro v. rewrite D. unfold cpp_link_update in E1. injection E1 as <-. reflexivity.
Qed.
Lemma nodes_quiet : forall c ns w w', Forall (fun n => n < w_nn w) ns -> foldM (cpp_node_step c) ns w = Ok w' -> Inv2 w None -> IncA w None ->
  Inv2 w' None /\ IncA w' None /\ forall v l a, stays v l a w -> stays v l a w'.
Proof.
  intros c ns. induction ns as [|n ns IH]; intros w w' H E I J; cbn [foldM] in E; [injection E as <-; auto|].
  apply bind_ok in E. destruct E as (w1 & E1 & E). inversion H as [|? ? Hl Hr]; subst. pose proof (cpp_node_fr _ _ _ _ E1) as F1.
  assert (K : Inv2 w1 None /\ IncA w1 None /\ forall v l a, stays v l a w -> stays v l a w1).
  { unfold cpp_node_step in E1. apply bind_ok in E1. destruct E1 as (x & G & E1). apply bind_ok in E1. destruct E1 as (nd & S1 & E1). injection E1 as <-.
    pose proof (generate_frs _ _ _ G) as Fx. apply frs_fr in Fx. unfold generate in G. apply gen_loop_run in G; [|exact Hl].
    assert (P : cpart c PhNodes x (modn n (fun _ => cpp_flow_capacity_update c nd) x)) by (apply cp_node; [rewrite (fr_w_nn Fx); exact Hl|exact S1]).
    assert (Q : (Inv2 x None /\ IncA x None) /\ forall v l a, stays v l a w -> stays v l a x).
    { eapply run_inv with (I := fun x p => (Inv2 x p /\ IncA x p) /\ forall v l a, stays v l a w -> stays v l a x); [|exact G|auto].
      intros e y p y' p' Ke [[Iy Jy] Sy] M. split; [split|].
      - eapply mstep_Inv2; eauto.
      - eapply IncA_step; eauto. destruct e; try discriminate Ke; reflexivity.
      - intros v l a Hs. eapply stays_nodes; eauto. }
    destruct Q as [[Q1 Q2] Q3]. split; [eapply cpart_Inv2; eauto|]. split; [exact (inc_cpart c _ _ _ (or_intror eq_refl) P Q2)|]. intros v l a Hs. exact (Q3 v l a Hs). }
  destruct K as (I1 & J1 & K1). destruct (IH w1 w') as (A & B & D); auto.
  eapply Forall_impl; [|exact Hr]. intros a Ha. cbn in Ha |- *. rewrite (fr_w_nn F1). exact Ha.
Qed.
Lemma transfers_quiet : forall c ns w w', NoDup ns -> Forall (fun n => n < w_nn w) ns -> foldM (cpp_transfer c) ns w = Ok w' -> Inv2 w None -> IncA w None ->
  Inv2 w' None /\ IncA w' None /\ (forall n, In n ns -> n_incoming (N w' n) = []) /\ (forall n, ~ In n ns -> n_incoming (N w' n) = n_incoming (N w n)) /\
  forall v l a, watched v l a w -> watched v l a w'.
Proof.
  intros c ns. induction ns as [|n ns IH]; intros w w' Nd Hn E I J; cbn [foldM] in E.
  - injection E as <-. split; [exact I|]. split; [exact J|]. split; [intros n []|]. split; auto.
  - apply bind_ok in E. destruct E as (w1 & E1 & E). inversion Hn as [|? ? Hl Hr]; subst. inversion Nd as [|? ? Nn Nd']; subst.
    pose proof (cpp_transfer_fr _ _ _ _ E1) as F1. unfold cpp_transfer in E1.
    pose proof (cp_sort c n w Hl) as P. pose proof (cpart_Inv2 _ _ _ _ I P) as Ix. pose proof (inc_cpart _ _ _ _ (or_intror eq_refl) P J) as Jx.
    destruct (cpart_ceq _ _ _ _ P) as (F0 & _). clear P.
    assert (Sx : forall m, nsig (N (modn n (fun nd => sn_incoming (sort_ids (n_incoming nd)) nd) w) m) = nsig (N w m)) by (intro m; rewrite N_at; destruct (Nat.eqb m n); reflexivity).
    assert (N0 : forall m, m <> n -> N (modn n (fun nd => sn_incoming (sort_ids (n_incoming nd)) nd) w) m = N w m) by (intros m Hm; rewrite N_at; apply Nat.eqb_neq in Hm; rewrite Hm; reflexivity).
    assert (Vx : forall v, V (modn n (fun nd => sn_incoming (sort_ids (n_incoming nd)) nd) w) v = V w v) by reflexivity.
    set (x := modn n (fun nd => sn_incoming (sort_ids (n_incoming nd)) nd) w) in *. clearbody x.
    assert (Hlx : n < w_nn x) by (rewrite (fr_w_nn F0); exact Hl).
    destruct (transfers_clear c [n] x w1 Ix) as (I1 & C1 & C2). { intros m [<-|[]]. exact Hlx. } { cbn [foldM]. rewrite E1. reflexivity. }
    pose proof (@transfer_run c n x w1 Hlx E1) as R1.
    assert (Q : (Inv2 w1 None /\ IncA w1 None) /\ forall v l a, watched v l a x -> watched v l a w1).
    { eapply run_inv with (I := fun y p => (Inv2 y p /\ IncA y p) /\ forall v l a, watched v l a x -> watched v l a y); [|exact R1|auto].
      intros e y p y' p' Ke [[Iy Jy] Sy] M. assert (Kt : k_transfer e = true) by (destruct e; try discriminate Ke; reflexivity). split; [split|].
      - eapply mstep_Inv2; eauto.
      - eapply IncA_step; eauto. destruct e; try discriminate Kt; reflexivity.
      - intros v l a Hs. eapply watched_transfer; eauto. }
    destruct Q as [[_ J1] Q].
    destruct (IH w1 w') as (I' & J' & D1 & D2 & D3); auto.
    { eapply Forall_impl; [|exact Hr]. intros a Ha. cbn in Ha |- *. rewrite (fr_w_nn F1). exact Ha. }
    split; [exact I'|]. split; [exact J'|]. split; [|split].
    + intros m [<-|Hm]; [rewrite (D2 n Nn); apply C1; left; reflexivity|apply D1; exact Hm].
    + intros m Hm. rewrite D2 by (intro Z; apply Hm; right; exact Z). rewrite C2 by (intros [Z|[]]; apply Hm; left; exact Z). rewrite N0 by (intros ->; apply Hm; left; reflexivity). reflexivity.
    + intros v l a H. apply D3, Q. destruct H as [H|H]; [left; unfold stays; rewrite Vx; exact H|right]. exact (green_keep w x l F0 Sx H).
Qed.
Lemma follow_quiet : forall c vs w w', foldM (cpp_follow c) vs w = Ok w' -> (forall n, N w' n = N w n) /\ forall v, vplace (V w' v) = vplace (V w v).
Proof.
  intros c vs. induction vs as [|u vs IH]; intros w w' E; cbn [foldM] in E; [injection E as <-; auto|].
  apply bind_ok in E. destruct E as (w1 & E1 & E). destruct (IH _ _ E) as [A B].
  unfold cpp_follow in E1. apply bind_ok in E1. destruct E1 as (l & _ & E1). cbv zeta in E1. injection E1 as <-. split; [intro n; rewrite A; reflexivity|].
  intro v. rewrite B, V_modv. destruct (Nat.eqb v u) eqn:Eq; [|reflexivity]. apply Nat.eqb_eq in Eq; subst u.
  match goal with |- context [if qlt ?a ?b then sv_xnext _ _ else _] => destruct (qlt a b) end; reflexivity.
Qed.
Lemma vehicles_frs : forall c w w', cpp_phase_vehicles c w = Ok w' -> frs w w'.
Proof.
  intros c w w' H. unfold cpp_phase_vehicles in H. apply bind_ok in H. destruct H as (w1 & H1 & H). apply bind_ok in H. destruct H as (w2 & H2 & H).
  assert (One : forall vs a b, foldM (veh_update c) vs a = Ok b -> frs a b).
  { intros vs a b. apply foldM_rel; [apply frs_refl|apply frs_trans|]. intros v x y _. apply veh_update_frs. }
  eapply frs_trans; [|eapply frs_trans].
  - eapply foldM_rel; [apply frs_refl|apply frs_trans| |exact H1]. intros l x y _ E. eapply One; exact E.
  - eapply foldM_rel; [apply frs_refl|apply frs_trans| |exact H2]. intros l x y _ E. eapply One; exact E.
  - eapply One; exact H.
Qed.

(** ** A timestep *)
Lemma body_quiet : forall c w w', Inv2 w None -> IncOK (fun _ => True) w -> cpp_body c w = Ok w' ->
  IncOK (fun _ => True) w' /\ forall v l a, vplace (V w v) = (Run, Some l, a) -> watched v l a w'.
Proof.
  intros c w w' I J H. unfold cpp_body in H.
  apply bind_ok in H. destruct H as (w1 & H1 & H). apply bind_ok in H. destruct H as (w2 & H2 & H). apply bind_ok in H. destruct H as (w3 & H3 & H).
  apply bind_ok in H. destruct H as (w4 & H4 & H). apply bind_ok in H. destruct H as (w5 & H5 & H). apply bind_ok in H. destruct H as (w6 & H6 & H). injection H as Ew.
  destruct (links_quiet c (seq 0 (w_nl w)) w w1) as (I1 & J1 & V1); auto. { apply Forall_forall; intros l Hl; apply in_seq in Hl; lia. } { apply IncOK_A; exact J. }
  destruct (nodes_quiet c (seq 0 (w_nn w1)) w1 w2) as (I2 & J2 & S2); auto. { apply Forall_forall; intros l Hl; apply in_seq in Hl; lia. }
  destruct (transfers_quiet c (seq 0 (w_nn w2)) w2 w3 (seq_NoDup _ _)) as (I3 & J3 & C1 & C2 & S3); auto. { apply Forall_forall; intros l Hl; apply in_seq in Hl; lia. }
  assert (C3 : forall n, n_incoming (N w3 n) = []).
  { intro n. destruct (in_dec Nat.eq_dec n (seq 0 (w_nn w2))) as [Hi|Hi]; [apply C1; exact Hi|]. rewrite (C2 n Hi). apply (ia_out _ _ J2). rewrite in_seq in Hi. lia. }
  destruct (follow_quiet _ _ _ _ H4) as [N4 V4]. pose proof (follow_chain c _ _ _ H4) as Ch4. pose proof (cchain_Inv2 _ _ _ _ I3 Ch4) as I4. pose proof (cchain_fr _ _ _ _ Ch4) as F4.
  pose proof (vehicles_chain c _ _ I4 H5) as Ch5.
  destruct (vehicles_pass c w4 w5 I4) as (I5 & F5 & Inc5 & _); [intro n; rewrite N4; apply C3|exact H5|].
  assert (R6 : run c Incoming.k_end w5 w') by (rewrite <- Ew; eapply run_trans; [eapply run_weaken; [|eapply route_phase_run; exact H6]|]; [intros [] K; try discriminate K; reflexivity|eapply run_one with (e := VTime); [reflexivity|constructor]]).
  assert (Ch6 : cchain c PhVehicles w4 w') by (eapply cc_run; [exact Ch5|]; eapply run_weaken; [|exact R6]; intros [] K; try discriminate K; reflexivity).
  split; [exact (IncOK_end c w5 w' I5 R6 Inc5)|]. intros v l a Hv.
  assert (W3 : watched v l a w3). { apply S3. left. apply S2. left. rewrite V1. exact Hv. }
  assert (Fs : frs w4 w'). { rewrite <- Ew. apply vehicles_frs in H5. apply route_phase_frs in H6. eapply frs_trans; [exact H5|]. eapply frs_trans; [exact H6|]. constructor; try reflexivity. constructor; reflexivity. }
  destruct W3 as [W|W].
  - left. assert (W4 : stays v l a w4).
    { unfold stays. rewrite (V4 v). assert (Es : v_state (V w4 v) = v_state (V w3 v) /\ v_larr (V w4 v) = v_larr (V w3 v)) by (pose proof (V4 v) as Z; unfold vplace in Z; split; congruence). destruct Es as [-> ->]. exact W. }
    clear - W4 Ch6 I4. enough (Inv2 w' None /\ stays v l a w') by tauto. induction Ch6 as [|x y H IH P|x y H IH P]; [auto| |]; destruct IH as [Ix Sx].
    + split; [eapply cpart_Inv2; eauto|]. inversion P.
    + split; [eapply run_Inv2'; eauto|]. refine (proj2 (@run_inv _ (fun z p => Inv2 z p /\ stays v l a z) (k_cpp PhVehicles) _ x y P (conj Ix Sx))).
      intros e z p z' p' Ke [Iz Sz] M. split; [eapply mstep_Inv2; eauto|eapply stays_last; eauto].
  - right. apply (green_keep w3 w' l); [exact (fr_trans F4 (frs_fr Fs))| |exact W]. intro n. rewrite (frs_sig Fs), N4. reflexivity.
Qed.

(** ** Statements *)
Theorem creach_IncB : forall c w, creach c w -> IncB w.
Proof.
  intros c w R. induction R as [tm|w o w' R J Ho Hx E|w w' R J Hf E].
  - apply (reach_IncB c); constructor.
  - pose proof (creach_Inv2 _ _ R) as I. apply apply_op_osteps in E; auto. clear - E J I. induction E; auto. apply IHE; [eapply ostep_IncB; eauto|eapply ostep_Inv2; eauto].
  - pose proof (creach_Inv2 _ _ R) as I. apply cpp_tick_body in E. destruct E as (w1 & E & ->).
    destruct (body_quiet c w w1 I (ib_ok _ J) E) as [K _]. constructor; [destruct K; constructor; assumption|].
    intro Z. cbn in Z. rewrite (fr_w_final (cpp_body_fr _ _ _ E)) in Z. congruence.
Qed.
(** what a node has noted down, without restrictions on the history *)
Theorem cpp_noted : forall c w n v, creach c w -> In v (n_incoming (N w n)) -> exists_veh w v /\
  exists l, on_link w v l /\ (v_x (V w v) == l_len (L w l))%Q /\ l_end (L w l) = n.
Proof.
  intros c w n v R H. destruct (ic_in _ _ (ib_ok _ (creach_IncB c w R)) n v H) as (A & _ & l & (B1 & B2 & B3) & B4 & _).
  split; [exact A|]. exists l. split; [split; assumption|]. split; [apply qeq_iff; exact B3|exact B4].
Qed.

Theorem cpp_green : forall c w w' v l, creach c w -> cpp_tick c w = Ok w' -> exists_veh w v -> on_link w v l ->
  (exists l', on_link w' v l' /\ l' <> l) \/ v_larr (V w' v) <> v_larr (V w v) ->
  List.length (n_signal (N w' (l_end (L w l)))) <= 1 \/ In (n_phase (N w' (l_end (L w l)))) (l_group (L w l)).
Proof.
  intros c w w' v l R H Hv [H1 H2] D. apply cpp_tick_body in H. destruct H as (w1 & H & ->). pose proof (cpp_body_fr _ _ _ H) as F.
  destruct (body_quiet c w w1 (creach_Inv2 _ _ R) (ib_ok _ (creach_IncB _ _ R)) H) as [_ Q].
  change (N (sw_T (S (w_T w)) w1)) with (N w1). unfold on_link in D. change (V (sw_T (S (w_T w)) w1)) with (V w1) in D.
  destruct (Q v l (v_larr (V w v))) as [P|P].
  - unfold vplace. rewrite H1, H2. reflexivity.
  - exfalso. destruct D as [(l' & [K1 K2] & D)|D]; [|apply D; eapply stays_larr; exact P].
    destruct P as [P|[P _]]; [unfold vplace in P; congruence|]. apply P. rewrite K1. right; right; reflexivity.
  - unfold green in P. rewrite (fr_l_end F), (fr_l_group F) in P. tauto.
Qed.
