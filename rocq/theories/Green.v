(** * Green: vehicles cross signalised nodes on green (C09). *)
From Verif Require Import Base Types Sim Build Heap Lists Inv FrameBase Tac Frame Eff Eff2 Trace InvStep Reach Steps Effects Phases Life Incoming Vev Ride TripLog Route Signal Spec.
Local Open Scope nat_scope.

Definition vplace (a : vehicle) := (v_state a, v_link a, v_larr a).
Lemma vride_place : forall a b, vride a = vride b -> vplace a = vplace b.
Proof. intros a b H. apply vride_eq in H. unfold vplace. intuition congruence. Qed.
Lemma driven_place : forall c w v, vplace (driven c (logged c w v false)) = vplace (V w v).
Proof. intros. unfold logged. reflexivity. Qed.
Lemma logged_place : forall c w v, vplace (logged c w v false) = vplace (V w v).
Proof. intros. unfold logged. reflexivity. Qed.
Lemma flag_place : forall a, vplace (sv_flag true a) = vplace a. Proof. reflexivity. Qed.
Lemma aborting_place : forall a, vplace (aborting a) = vplace a. Proof. reflexivity. Qed.
Lemma next_place : forall x a, vplace (sv_next x a) = vplace a. Proof. reflexivity. Qed.
Lemma followed_place : forall c w l a, vplace (followed c w l a) = vplace a.
Proof. intros. unfold followed. destruct (qlt _ _); reflexivity. Qed.

Lemma updated_place : forall c v wa b, updated c v wa b -> v_state b = Run -> vplace b = vplace (V wa v).
Proof.
  intros c v wa b U Hr. pose proof (logged_place c wa v) as L1. pose proof (driven_place c wa v) as L2.
  destruct U as [U1 U2 U3|U1 U2 U3|U1 U2|l U1 U2 U3 U4|l m d U1 U2 U3 Fm Sm -> U4];
    remember (logged c wa v false) as lg eqn:Elg.
  - apply vride_place in U3. congruence.
  - apply vride_state in U3. rewrite U3 in Hr. discriminate.
  - apply vride_place in U2. congruence.
  - apply vride_place in U4. congruence.
  - remember (driven c lg) as d eqn:Ed. destruct U4 as [x x' G1 G2 G3 G4 G5 G6 G7 G8|d' b' G1 -> G3].
    + apply vride_place in G8. apply vride_place in G4. rewrite G8, <- L2, <- G4.
      apply choose_next in G7. destruct G7 as (_ & k & _ & [(-> & _)|[(-> & _)|(out & _ & ->)]]); try apply next_place; reflexivity.
    + destruct G3 as [G3|G3].
      * apply vride_place in G3. rewrite G3, flag_place, <- L2. destruct G1 as [(-> & _)|(-> & _)]; [reflexivity|apply aborting_place].
      * apply vride_state in G3. rewrite G3 in Hr. destruct (finished_state c m (sv_flag true d')); congruence.
Qed.

Lemma mstep_nsig : forall c e w p w' p', k_transfer e = true -> Inv2 w p -> mstep c e w p w' p' ->
  forall n, nsig (N w' n) = nsig (N w n).
Proof.
  intros c e w p w' p' Ke I M k. apply (mstep_eff c _ _ _ _ _ I) in M. destruct e; try discriminate Ke; cbn [eff] in M.
  - destruct M as (_ & _ & _ & _ & M & _). rewrite M. reflexivity.
  - destruct M as (_ & _ & cd & ca & rest & q & M). do 17 (destruct M as [_ M]). destruct M as (M & _). rewrite M.
    destruct (Nat.eqb_spec k n) as [-> |]; [|reflexivity]. unfold charge. destruct (n_fcap (N w n)); reflexivity.
  - destruct M as (_ & rest & cd & lg & tl & _ & _ & _ & _ & _ & _ & _ & _ & M & _). rewrite M. reflexivity.
  - destruct M as (_ & _ & _ & _ & _ & _ & M & _). rewrite M. destruct (Nat.eqb k n); reflexivity.
  - destruct M as (_ & _ & _ & _ & _ & _ & M). rewrite M. destruct (Nat.eqb k n); reflexivity.
Qed.
Lemma trace_nsig : forall c es w p w' p', Forall (fun e => k_transfer e = true) es -> Inv2 w p -> trace c es w p w' p' ->
  forall n, nsig (N w' n) = nsig (N w n).
Proof.
  intros c es w p w' p' Fe I H. induction H as [w p|e es w p w1 p1 w' p' M H IH]; intro n; [reflexivity|].
  inversion Fe; subst. rewrite IH; auto; [eapply mstep_nsig; eauto|eapply mstep_Inv2; eauto].
Qed.
Lemma nsig_eq : forall a b, nsig a = nsig b -> n_phase a = n_phase b /\ n_signal a = n_signal b.
Proof. unfold nsig. intros a b H. split; congruence. Qed.

(** the links recorded in one update *)
Definition vlinks (a : vehicle) := (v_state a, links_of (v_tlog a)).
Lemma vride_links : forall a b, vride a = vride b -> vlinks a = vlinks b.
Proof. intros a b H. apply vride_eq in H. unfold vlinks. intuition congruence. Qed.
Lemma logged_links : forall c w v l, v_state (V w v) = Run -> v_link (V w v) = Some l ->
  vlinks (logged c w v false) = (Run, links_of (v_tlog (V w v)) ++ if opt_eqb (Some l) (v_linkold (V w v)) then [] else [l]) /\
  v_linkold (logged c w v false) = Some l.
Proof.
  intros c w v l Hr Hl. unfold logged, vlinks, tlog_rows. rs. rewrite Hr, Hl. split; [|reflexivity].
  rewrite links_of_app. destruct (opt_eqb (Some l) (v_linkold (V w v))); reflexivity.
Qed.
Lemma driven_links : forall c a, vlinks (driven c a) = vlinks a /\ v_linkold (driven c a) = v_linkold a. Proof. split; reflexivity. Qed.
Lemma flag_links : forall a, vlinks (sv_flag true a) = vlinks a. Proof. reflexivity. Qed.
Lemma aborting_links : forall a, vlinks (aborting a) = vlinks a. Proof. reflexivity. Qed.
Lemma next_links : forall x a, vlinks (sv_next x a) = vlinks a. Proof. reflexivity. Qed.
Lemma links_of_last : forall (b1 b2 : bool) t, links_of (if b1 then [] else if b2 then [] else [(t, PEnd)]) = [].
Proof. intros [] [] t; reflexivity. Qed.
Lemma followed_links : forall c w l a, vlinks (followed c w l a) = vlinks a /\ v_linkold (followed c w l a) = v_linkold a.
Proof. intros. unfold followed. destruct (qlt _ _); split; reflexivity. Qed.
Lemma finished_links : forall c w a b, vride b = vride (finished c w a) -> links_of (v_tlog b) = links_of (v_tlog a).
Proof.
  intros c w a b H. apply ended_fields in H. destruct H as (_ & _ & -> & _). unfold end_tlog.
  rewrite links_of_app, links_of_last, app_nil_r. reflexivity.
Qed.

Lemma updated_links : forall c v wa b l, updated c v wa b -> v_state (V wa v) = Run -> v_link (V wa v) = Some l ->
  links_of (v_tlog b) = links_of (v_tlog (V wa v)) ++ if opt_eqb (Some l) (v_linkold (V wa v)) then [] else [l].
Proof.
  intros c v wa b l U Hr Hl. destruct (logged_links c wa v l Hr Hl) as (L1 & L2).
  remember (links_of (v_tlog (V wa v)) ++ _) as X eqn:EX. clear EX.
  destruct U as [U1 U2 U3|U1 U2 U3|U1 U2|k U1 U2 U3 U4|k m d U1 U2 U3 Fm Sm -> U4]; try congruence;
    remember (logged c wa v false) as lg eqn:Elg.
  - apply vride_links in U4. rewrite (proj1 (driven_links c lg)) in U4. unfold vlinks in *. congruence.
  - destruct (driven_links c lg) as [L3 _]. remember (driven c lg) as d eqn:Ed.
    destruct U4 as [x x' G1 G2 G3 G4 G5 G6 G7 G8|d' b' G1 -> G3].
    + apply vride_links in G8. apply vride_links in G4. assert (Q : vlinks (V x' v) = vlinks (V x v)).
      { apply choose_next in G7. destruct G7 as (_ & j & _ & [(-> & _)|[(-> & _)|(out & _ & ->)]]); try apply next_links; reflexivity. }
      unfold vlinks in *. congruence.
    + assert (Q : vlinks (sv_flag true d') = vlinks d).
      { rewrite flag_links. destruct G1 as [(-> & _)|(-> & _)]; [reflexivity|apply aborting_links]. }
      destruct G3 as [G3|G3].
      * apply vride_links in G3. unfold vlinks in *. congruence.
      * apply finished_links in G3. unfold vlinks in *. congruence.
Qed.

(** what happens to a running vehicle in the first phases of a timestep: it stays on its link, or it
    moves to the link it has chosen, which needs green, or its trip ends *)
Lemma transfer_view : forall c w w' v l, Inv2 w None -> IncB w -> Ends w None -> v < w_nv w -> body c w = Ok w' ->
  v_state (V w v) = Run -> v_link (V w v) = Some l -> exists w3 w4, body_view c v w w' w3 w4 /\
  (vride (V w3 v) = vride (V w v) \/
   (exists out, v_next (V w v) = Some (Some out) /\ v_state (V w3 v) = Run /\ v_link (V w3 v) = Some out /\
      v_linkold (V w3 v) = v_linkold (V w v) /\ v_tlog (V w3 v) = v_tlog (V w v) /\
     (In (n_phase (N w' (l_end (L w l)))) (l_group (L w l)) \/ List.length (n_signal (N w' (l_end (L w l)))) <= 1)) \/
   ((v_state (V w3 v) = End_ \/ v_state (V w3 v) = Abort) /\ links_of (v_tlog (V w3 v)) = links_of (v_tlog (V w v)))).
Proof.
  intros c w w' v l I J En Hv Hb Hr Hl.
  destruct (body_viewed c v w w' Hv I J En Hb) as (w3 & w4 & BV). exists w3, w4. split; [exact BV|]. pose proof (body_fr _ _ Hb) as Fb.
  assert (S23 : exists w1 w2, phase_links c w = Ok w1 /\ phase_nodes c w1 = Ok w2 /\ phase_transfer c w2 = Ok w3 /\
     forall n, nsig (N w' n) = nsig (N w2 n)).
  { destruct (bv_phases _ _ _ _ _ _ BV) as (w1 & w2 & E1 & E2 & E3 & _). exists w1, w2. repeat (split; [assumption|]). intro n.
    apply body_runs in Hb. destruct Hb as (a1 & a2 & a3 & a4 & a5 & a6 & X1 & X2 & X3 & X4 & X5 & X6 & ->).
    apply phase_transfer_frs in X3. apply phase_follow_frs in X4. apply phase_vehicles_frs in X5. apply route_phase_frs in X6.
    change (N (sw_TIME (now c a6) a6) n) with (N a6 n). rewrite (frs_sig X6), (frs_sig X5), (frs_sig X4), (frs_sig X3).
    assert (a1 = w1) by congruence. subst a1. assert (a2 = w2) by congruence. subst a2. reflexivity. }
  destruct S23 as (w1 & w2 & E1 & E2 & E3 & NS).
  pose proof (phase_links_run _ _ E1) as R1. pose proof (phase_nodes_run _ _ E2) as R2.
  assert (R12 : run c (fun e => k_links e || k_nodes e) w w2).
  { eapply run_trans; eapply run_weaken; try eassumption; intros [] K; try discriminate K; reflexivity. }
  pose proof (run_Inv2' _ _ _ _ I R12) as I2.
  destruct (run_with c (fun x p => IncA x p /\ Ends x p) (fun e => k_links e || k_nodes e)) with (w := w) (w' := w2) as (_ & J2 & En2); auto.
  { intros e x p x' p' Ke Ix [Jx Ex] M. assert (k_first e = true) by (destruct e; try discriminate Ke; reflexivity).
    split; [eapply IncA_step; eauto|eapply Ends_step; eauto]. }
  { split; [exact (IncOK_A _ (ib_ok _ J))|exact En]. }
  assert (P2 : vride (V w2 v) = vride (V w v)).
  { destruct R12 as (es & Fe & Tr).
    assert (Fe' : Forall (fun e => k_first e = true) es) by (eapply Forall_impl; [|exact Fe]; intros [] K; try discriminate K; reflexivity).
    destruct (first_view_trace c es v w None w2 Hv Tr Fe' I (IncOK_A _ (ib_ok _ J)) En) as [E|(e & m & q & m' & q' & es1 & es2 & -> & K1 & K2 & K3 & K4 & K5 & K6 & K7 & K8 & K9)]; [exact E|].
    exfalso. apply Forall_app in Fe. destruct Fe as [_ Fe]. inversion Fe; subst. destruct e; try discriminate K1; try discriminate.
    cbn [touches] in K1. apply Nat.eqb_eq in K1. subst. apply (mstep_eff c _ _ _ _ _ K5) in K3. cbn [eff] in K3.
    destruct K3 as (_ & _ & q2 & ca & _ & Hq & _). destruct K5 as [[T S] _].
    assert (Hin : In v (n_queue (N m n))) by (rewrite Hq; left; auto). apply (s_queue S) in Hin. apply vride_state in K8. destruct Hin; intuition congruence. }
  pose proof (phase_transfer_run _ _ E3) as R3. destruct R3 as (es & Fe & Tr).
  assert (Fe' : Forall (fun e => k_first e = true) es) by (eapply Forall_impl; [|exact Fe]; intros [] K; try discriminate K; reflexivity).
  pose proof (run_fr _ _ _ _ R12) as F2.
  assert (Hv2 : v < w_nv w2) by (rewrite (fr_w_nv F2); exact Hv).
  destruct (first_view_trace c es v w2 None w3 Hv2 Tr Fe' I2 J2 En2) as [E|(e & m & q & m' & q' & es1 & es2 & -> & K1 & K2 & K3 & K4 & K5 & K6 & K7 & K8 & K9)].
  { left. congruence. }
  pose proof (mstep_vev c _ _ _ _ _ K5 K3 v) as VE.
  destruct VE as [E|? ? ? E0|n1 out1 il1 q1 ld ln E2' E3' E4 E5 E6 E7 E8 E9 E10 E11 E12|k tl lg E4 E5 E6 E7 E8 E9 E10 E11|? E0|E0|E0|E0|? E0|? E0|? ? E0];
    try (subst e; discriminate K1).
  { left. congruence. }
  { exfalso. subst e. apply Forall_app in Fe. destruct Fe as [_ Fe]. inversion Fe as [|? ? Ke Fe2]; subst. discriminate Ke. }
  - right; left. subst e. apply Forall_app in Fe. destruct Fe as [Fe1 Fe].
    destruct (shift_flag c _ _ _ _ _ _ _ _ K5 K6 (K7 v ltac:(rewrite (fr_w_nv (trace_fr K2)); exact Hv2)) K3) as (_ & _ & Hn).
    apply vride_eq in K8; apply vride_eq in P2; apply vride_eq in K9. rewrite E12 in K9. unfold moved in K9. cbv zeta in K9.
    assert (il1 = l) by intuition congruence. subst il1.
    pose proof (trace_fr K2) as Fm. rewrite (fr_l_end Fm), (fr_l_end F2) in Hn. rewrite Hn.
    exists out1. revert K9. rs. intro K9. do 5 (split; [intuition congruence|]).
    destruct (nsig_eq _ _ (NS n1)) as [N1 N2]. rewrite N1, N2.
    destruct (nsig_eq _ _ (trace_nsig c _ _ _ _ _ Fe1 I2 K2 n1)) as [M1 M2]. rewrite M1, M2, (fr_l_group Fm), (fr_l_group F2) in E10. exact E10.
  - right; right. rewrite E11 in K9. apply ended_fields in K9. destruct K9 as (_ & _ & Q1 & _ & _ & _ & _ & _ & _ & _ & _ & _ & _ & Q2 & _).
    split; [rewrite Q2; destruct (v_aborted (V m v)); auto|]. rewrite Q1, E10, links_of_app, links_of_last, app_nil_r.
    apply vride_links in K8. apply vride_links in P2. unfold vlinks in *. congruence.
Qed.

(** C09 *)
Theorem green_lemma : forall c w w' v l, reach c w -> w_final w = true -> tick c w = Ok w' -> exists_veh w v ->
  on_link w v l ->
  (exists l', on_link w' v l' /\ (l' <> l \/ v_larr (V w' v) <> v_larr (V w v))) \/
  links_of (v_tlog (V w' v)) <> links_of (v_tlog (V w v)) ->
  List.length (n_signal (N w' (l_end (L w l)))) <= 1 \/ In (n_phase (N w' (l_end (L w l)))) (l_group (L w l)).
Proof.
  intros c w w' v l R Hf H Hv [H1 H2] D. apply tick_fr in H. destruct H as (w1 & H & ->).
  change (N (sw_T (S (w_T w)) w1)) with (N w1). unfold on_link in D. change (V (sw_T (S (w_T w)) w1)) with (V w1) in D.
  destruct (transfer_view c w w1 v l (reach_Inv2 _ _ R) (reach_IncB _ _ R) (reach_Ends _ _ R) Hv H H1 H2)
    as (w3 & w4 & BV & [E|[(out & _ & _ & _ & _ & _ & G)|[Q1 Q2]]]); [exfalso| |exfalso].
  - destruct (reach_trip c w R v Hv) as (es & A). unfold Trip in A.
    destruct (tp_run _ _ _ _ _ _ _ A H1) as (k & K1 & _ & [(es' & t & K2 & _)|[(K & _)|(K & _)]]); try discriminate.
    assert (k = l) by congruence. subst k.
    assert (Ha : alive (v_state (V w3 v))) by (apply vride_state in E; rewrite E, H1; unfold alive; auto).
    destruct (bv_update _ _ _ _ _ _ BV Ha) as (wa & b & B1 & B2 & B3 & B4 & B5 & B6).
    assert (Hr3 : v_state (V w3 v) = Run) by (apply vride_state in E; congruence).
    destruct (bv_follow _ _ _ _ _ _ BV Hr3) as (k & _ & F4).
    assert (Q : vplace (V wa v) = vplace (V w v) /\ vlinks (V wa v) = vlinks (V w v) /\ v_linkold (V wa v) = v_linkold (V w v)).
    { pose proof (vride_place _ _ B4) as P1. pose proof (vride_place _ _ E) as P2.
      pose proof (vride_links _ _ B4) as P3. pose proof (vride_links _ _ E) as P4.
      apply vride_eq in B4. apply vride_eq in E.
      pose proof (followed_place c w3 k (V w3 v)) as P5. pose proof (followed_links c w3 k (V w3 v)) as [P6 P7].
      rewrite <- F4 in P5, P6, P7. split; [congruence|]. split; [congruence|]. intuition congruence. }
    destruct Q as (Q1 & Q2 & Q3). unfold vplace in Q1. injection Q1 as Q4 Q5 Q6. unfold vlinks in Q2. injection Q2 as _ Q7.
    destruct D as [(l' & [D1 D2] & D)|D].
    + assert (Hb : v_state b = Run) by (apply vride_state in B6; congruence).
      pose proof (updated_place c v wa b B5 Hb) as U. apply vride_place in B6. unfold vplace in *. destruct D as [D|D]; congruence.
    + apply D. pose proof (updated_links c v wa b l B5 ltac:(congruence) ltac:(congruence)) as U.
      rewrite Q3, K2 in U. cbn [opt_eqb] in U. rewrite Nat.eqb_refl, app_nil_r in U. apply vride_links in B6. unfold vlinks in B6. congruence.
  - tauto.
  - assert (Ha : ~ alive (v_state (V w3 v))) by (unfold alive; intuition congruence).
    pose proof (bv_gone _ _ _ _ _ _ BV Ha) as B6. pose proof (vride_state _ _ B6). apply vride_links in B6. unfold vlinks in B6.
    destruct D as [(l' & [D1 D2] & D)|D]; [intuition congruence|]. apply D. congruence.
Qed.
