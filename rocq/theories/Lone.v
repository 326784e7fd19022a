(** * Lone: the timestep of a lone vehicle (C63). *)
From Verif Require Import Base Types Sim Build Heap Lists Inv FrameBase Tac Frame Eff Eff2 Trace InvStep Reach Steps Effects Phases Attr Life Incoming Vev Ride TripLog Route Signal Green Choice Enforce Counts LinkQueries FD NodeCap Origin Bucket Outflow Trials Motion Spacing Spec Distance Totals Paths SpecDuo Duo Search DuoInv DuoSum Merge SpecProgress Progress Progress2 SpecLone.
Local Open Scope nat_scope.

Lemma alone_fr : forall w w' v, fr w w' -> alone w v -> alone w' v.
Proof. intros w w' v F [A B]. unfold alone, exists_veh in *. rewrite (fr_w_nv F). auto. Qed.

(** ** The links of a lone vehicle *)
Lemma lone_empty : forall w v k, Inv2 w None -> alone w v -> (v_state (V w v) = Run -> v_link (V w v) <> Some k) -> l_vehs (L w k) = [].
Proof.
  intros w v k [[T Si] _] [_ A] H. destruct (l_vehs (L w k)) as [|u D] eqn:E; [reflexivity|]. exfalso.
  assert (K : In u (Dq w None k)) by (rewrite Dq_none, E; left; reflexivity). apply (s_D Si) in K. destruct K as (K1 & K2 & K3 & _).
  assert (u = v) by exact (A u K1). subst u. exact (H K2 K3).
Qed.
Lemma lone_only : forall w v k, Inv2 w None -> alone w v -> v_state (V w v) = Run -> v_link (V w v) = Some k -> l_vehs (L w k) = [v].
Proof.
  intros w v k [[T Si] _] [Hv A] H1 H2.
  assert (K : In v (l_vehs (L w k))) by (rewrite <- (Dq_none w k); apply (s_D Si); repeat split; auto; discriminate).
  assert (All : forall u, In u (l_vehs (L w k)) -> u = v).
  { intros u Hu. rewrite <- (Dq_none w k) in Hu. apply (s_D Si) in Hu. destruct Hu as (Hu & _). exact (A u Hu). }
  pose proof (s_D_nd Si k) as Nd. rewrite Dq_none in Nd.
  destruct (l_vehs (L w k)) as [|a [|b D]].
  - destruct K.
  - rewrite (All a) by (left; reflexivity). reflexivity.
  - exfalso. inversion Nd as [|? ? Na _]; subst. apply Na. rewrite (All a), (All b) by (simpl; auto). left; reflexivity.
Qed.
Lemma lone_leader : forall w v k, Inv2 w None -> alone w v -> v_state (V w v) = Run -> v_link (V w v) = Some k -> v_leader (V w v) = None.
Proof.
  intros w v k I A H1 H2. pose proof (lone_only w v k I A H1 H2) as E. pose proof I as [[T Si] _].
  assert (Hk : k < w_nl w) by (destruct A as [Hv _]; destruct (s_link Si Hv ltac:(discriminate)) as [K _]; destruct (K H1) as (l & K1 & K2); congruence).
  assert (K : nth_error (Dq w None k) 0 = Some v) by (rewrite Dq_none, E; reflexivity).
  rewrite (s_leader Si k 0 K). pose proof (t_lanes T Hk) as Hl. destruct (Nat.ltb_spec 0 (l_lanes (L w k))); [reflexivity|lia].
Qed.

Lemma shift_exact : forall c n out il m p m' p' v, alone m v -> Inv2 m p -> mstep c (VShift n out v il) m p m' p' ->
  exists q ln, qdiv (v_remain (V m v) * l_u (L m out)) (l_u (L m il)) = Ok q /\ V m' v = moved c m out None ln q (V m v) /\
    v_link (V m v) = Some il /\ il < w_nl m /\ out < w_nl m.
Proof.
  intros c n out il m p m' p' v A I M. pose proof (mstep_eff c _ m p m' p' I M) as E. cbn [eff] in E.
  destruct E as (-> & _ & cd & ca & rest & q & E1 & E2 & E3 & E4 & E5 & E6 & E7 & E8 & E9 & E10 & E11 & E12 & E13 & E14 & E15 & E16 & E17 & E18 & E19 & E20 & E21 & E22 & _).
  exists q. eexists. split; [exact E16|]. rewrite E22. split; [|auto].
  assert (Ev : out_vehs m il out rest = []).
  { unfold out_vehs. pose proof (lone_only m v il I A E12 E11) as Z. rewrite Z in E15. injection E15 as <-.
    destruct (Nat.eqb_spec out il) as [|Hne]; [reflexivity|]. apply (lone_empty m v out I A). intros _ K. congruence. }
  rewrite Ev. unfold t_leader. cbn [List.length]. pose proof (t_lanes (proj1 (proj1 I)) E4) as Hl.
  destruct (Nat.leb_spec (l_lanes (L m out)) 0); [lia|reflexivity].
Qed.

Definition cut (len q : Q) : Q := if qle len q then len else q.
Lemma cut_ok : forall len q, (q <= len)%Q -> (cut len q == q)%Q.
Proof. intros len q H. unfold cut. destruct (qle len q) eqn:E; [|reflexivity]. apply qle_iff in E. lra. Qed.

(** the place of the vehicle after the transfers *)
Lemma first_exact : forall c v w w3, alone w v -> first_view c v w w3 ->
  vride (V w3 v) = vride (V w v) \/ v_state (V w v) = Wait \/
  (exists il out q, v_link (V w v) = Some il /\ v_link (V w3 v) = Some out /\ il < w_nl w /\ out < w_nl w /\
     (q == v_remain (V w v) * l_u (L w out) / l_u (L w il))%Q /\ v_x (V w3 v) = cut (l_len (L w out)) q) \/
  v_state (V w3 v) <> Run.
Proof.
  intros c v w w3 A FV. destruct FV as [E|e m p m' p' es1 es2 Ht F1 F2 Tr M Tr2 I1 J1 E1 Fa Fb Fc Va Vb]; [left; exact E|].
  pose proof (mstep_vev c e m p m' p' I1 M v) as K. pose proof (alone_fr _ _ _ Fa A) as Am.
  destruct K as [E|n out q E2 E3 E4 E5 E6 E7 E8 E9|n out il q ld ln E2 E3 E4 E5 E6 E7 E8 E9 E10 E11 E12|l tl lg E2 E3 E4 E5 E6 E7 E8 E9|l E2 E3 E4|E2 E3 E4|E2 E3 E4 E5 E6|E2 E3 E4 E5|l E2 E3 E4 E5|l E2 E3 E4 E5 E6 E7|l nx E2 E3 E4 E5 E6];
    try (subst e; discriminate Ht).
  - left. congruence.
  - right; left. apply vride_state in Va. congruence.
  - right; right; left. subst e. destruct (shift_exact c n out il m p m' p' v Am I1 M) as (q' & ln' & Q1 & Q2 & Q3 & Q4 & Q5).
    rewrite (fr_w_nl Fa) in Q4, Q5. exists il, out, q'. apply vride_vx in Va. apply vride_vx in Vb. rewrite Q2, moved_vx in Vb.
    assert (X1 : v_link (V w v) = v_link (V m v)) by (unfold vx in Va; congruence).
    assert (X2 : v_remain (V w v) = v_remain (V m v)) by (unfold vx in Va; congruence).
    apply qdiv_ok in Q1. destruct Q1 as [_ Q1]. rewrite !(fr_l_u Fa), <- X2 in Q1.
    split; [congruence|]. split; [unfold vx in Vb; congruence|]. split; [exact Q4|]. split; [exact Q5|]. split; [exact Q1|].
    transitivity (t_x c m out None q'); [unfold vx in Vb; congruence|]. unfold t_x, cut. rewrite (fr_l_len Fa). reflexivity.
  - right; right; right. apply ended_fields in E9. destruct E9 as (_ & _ & _ & _ & _ & _ & _ & _ & _ & _ & _ & _ & _ & B & _).
    apply vride_state in Vb. rewrite Vb, B. destruct (v_aborted (V m v)); discriminate.
Qed.

(** ** The end of a trip is not put off *)
Lemma unflag_request : forall c v n w w', request_transfer c v n w = Ok w' -> v_flag (V w' v) = v_flag (V w v).
Proof.
  intros c v n w w' H. unfold request_transfer in H. apply bind_ok in H. destruct H as (w1 & E & H). injection H as <-.
  pose proof (choose_soft _ _ _ E) as So. change (V (modn n (fun nd => sn_incoming (n_incoming nd ++ [v]) nd) w1) v) with (V w1 v).
  pose proof (so_v So v) as K. unfold vhard in K. congruence.
Qed.
Lemma unflag_prepare : forall c v l w w', Inv2 w None -> alone w v -> at_end w v l ->
  (v_dest (V w v) = Some (l_end (L w l)) /\ v_mode (V w v) = SingleTrip \/
     n_out (N w (l_end (L w l))) = [] /\ v_aborted (V w v) = true) ->
  prepare_end c v l w = Ok w' -> v_state (V w' v) <> Run.
Proof.
  intros c v l w w' I Al A D H. unfold prepare_end in H. cbn zeta in H.
  assert (M : mstep c (VFlag v l) w None (modv v (sv_flag true) w) None) by (constructor; auto).
  pose proof (mstep_Inv2 _ _ _ _ _ _ I M) as I1. pose proof (mstep_fr M) as F1.
  assert (E1 : V (modv v (sv_flag true) w) v = sv_flag true (V w v)) by apply V_modv_same.
  set (w1 := modv v (sv_flag true) w) in *. clearbody w1.
  assert (El : l_vehs (L w1 l) = [v]).
  { destruct A as (A1 & A2 & _). apply (lone_only w1 v l I1 (alone_fr _ _ _ F1 Al)); rewrite E1; assumption. }
  rewrite El, Nat.eqb_refl in H.
  assert (M2 : mstep c (VEnd v l) w1 None w' None) by (econstructor; eauto; rewrite E1; reflexivity).
  apply (mstep_eff c _ _ _ _ _ I1) in M2. cbn [eff] in M2.
  destruct M2 as (_ & rest' & cd & lg & tl & H1 & Hf & H2 & H3 & H4 & _ & _ & _ & _ & _ & _ & _ & Elg & Etl & B).
  apply (f_equal vride) in B. rewrite vride_pref in B. apply ended_fields in B.
  destruct B as (_ & _ & _ & _ & _ & _ & _ & _ & _ & _ & _ & _ & _ & B & _). rewrite B. destruct (v_aborted (V w1 v)); discriminate.
Qed.

Lemma unflag_end : forall c v l w w', Inv2 w None -> alone w v -> at_end w v l -> v_flag (V w v) = false -> at_link_end c v l w = Ok w' ->
  v_state (V w' v) = Run -> v_flag (V w' v) = false.
Proof.
  intros c v l w w' I Al A Hf H Hr. unfold at_link_end in H. cbn zeta in H.
  apply bind_ok in H. destruct H as (w1 & E1 & H).
  apply bind_ok in H. destruct H as (w2 & E2 & H).
  assert (R1 : run c (k_veh v) w w1 /\ soft w w1).
  { destruct (dget (l_end (L w l)) (v_events (V w v))) as [e|] eqn:Ee.
    - assert (M : mstep c (VEvent v e) w None w1 None) by (econstructor; eauto).
      split; [|eapply run_event_soft; eauto]. eapply run_one with (e := VEvent v e); [apply Nat.eqb_refl|exact M].
    - injection E1 as <-. split; [apply run_refl|apply soft_refl]. }
  destruct R1 as (R1 & S1).
  pose proof (maybe_pref_run _ _ _ E2) as R2. pose proof (maybe_pref_update_soft _ _ _ E2) as S2.
  pose proof (run_Inv2' _ _ _ _ I R1) as I1.
  assert (So : soft w w2) by (eapply soft_trans; eauto).
  pose proof (run_Inv2' _ _ _ _ I1 R2) as I2.
  assert (A2 : at_end w2 v l) by (eapply at_end_soft; eauto).
  assert (Hf2 : v_flag (V w2 v) = false) by (pose proof (so_v So v) as K; unfold vhard in K; congruence).
  pose proof (alone_fr _ _ _ (soft_fr _ _ So) Al) as Al2.
  rewrite <- (so_l So l) in H.
  destruct (opt_eqb (Some (l_end (L w2 l))) (v_dest (V w2 v))) eqn:Ed.
  - apply opt_eqb_eq in Ed. symmetry in Ed. destruct (v_mode (V w2 v)) eqn:Em.
    + exfalso. eapply unflag_prepare; [exact I2|exact Al2|exact A2|left; split; [exact Ed|exact Em]|exact H|exact Hr].
    + apply bind_ok in H. destruct H as (w3 & E3 & H).
      assert (S23 : soft w2 w3).
      { apply route_pref_update_soft in E3. eapply soft_trans; [|exact E3]. apply soft_modv; destruct (v_dests _); reflexivity. }
      rewrite (unflag_request _ _ _ _ _ H). pose proof (so_v S23 v) as K. unfold vhard in K. congruence.
  - destruct (is_nil (n_out (N w2 (l_end (L w2 l)))) && v_abortopt (V w2 v)) eqn:Eb.
    + apply andb_true_iff in Eb. destruct Eb as [Eb1 Eb2].
      assert (Ed' : v_dest (V w2 v) <> Some (l_end (L w2 l))).
      { intro K. symmetry in K. apply opt_eqb_eq in K. congruence. }
      assert (Eo : n_out (N w2 (l_end (L w2 l))) = []) by (destruct (n_out _); [auto|discriminate]).
      change (modv v (fun a : vehicle => sv_next (Some None) (sv_aborted true a)) w2) with (modv v aborting w2) in H.
      assert (M3 : mstep c (VAbort v) w2 None (modv v aborting w2) None) by (econstructor; eauto).
      exfalso. eapply unflag_prepare; [exact (mstep_Inv2 _ _ _ _ _ _ I2 M3)|exact (alone_fr _ _ _ (mstep_fr M3) Al2)| | |exact H|exact Hr].
      * destruct A2 as (X & Y & Z). unfold at_end. rewrite V_modv_same. auto.
      * right. rewrite V_modv_same. split; auto.
    + rewrite (unflag_request _ _ _ _ _ H). exact Hf2.
Qed.

Lemma unflag_update : forall c v w w', Inv2 w None -> alone w v -> In v (w_living w) -> v_flag (V w v) = false -> veh_update c v w = Ok w' ->
  v_state (V w' v) = Run -> v_flag (V w' v) = false.
Proof.
  intros c v w w' I Al Hl Hf H Hr.
  pose proof (veh_update_view c v w w' I Hl H) as U.
  assert (Rn : v_state (V w v) = Run).
  { destruct U as [S _ K|S _ K|S K|k S _ _ _|k m d S _ _ _ _ _ _]; auto; exfalso;
      apply vride_eq in K; assert (X : v_state (V w' v) = Home \/ v_state (V w' v) = Wait) by
        (first [left; transitivity (v_state (logged c w v false)); [tauto|exact S]
               |right; transitivity (v_state (sv_state Wait (logged c w v false))); [tauto|reflexivity]
               |right; transitivity (v_state (logged c w v false)); [tauto|exact S]]); destruct X; congruence. }
  unfold veh_update in H.
  set (w0 := record_log c v false w) in H.
  assert (M0 : mstep c (VLog v) w None w0 None) by (constructor; auto).
  pose proof (mstep_Inv2 _ _ _ _ _ _ I M0) as I0. pose proof (mstep_fr M0) as F0.
  pose proof (mstep_eff c _ _ _ _ _ I M0) as E0. cbn [eff] in E0. destruct E0 as (_ & _ & _ & _ & _ & _ & SB & HV).
  assert (E0 : v_state (V w0 v) = Run). { rewrite HV, Nat.eqb_refl. exact Rn. }
  assert (Ef0 : v_flag (V w0 v) = false). { rewrite HV, Nat.eqb_refl. exact Hf. }
  assert (Hl0 : In v (w_living w0)). { destruct SB as (SB & _). rewrite SB. exact Hl. }
  clearbody w0. cbv zeta in H. rewrite E0 in H. rewrite E0 in H. unfold drive in H. cbv zeta in H.
  change (modv v (fun a : vehicle => sv_dist (v_dist a + (v_xnext a - v_x a)) (sv_x (v_xnext a)
      (sv_xold (v_x a) (sv_v ((v_xnext a - v_x a) / dt c) a)))) w0) with (modv v (driven c) w0) in H.
  assert (M2 : mstep c (VMove v) w0 None (modv v (driven c) w0) None) by (constructor; auto).
  pose proof (mstep_Inv2 _ _ _ _ _ _ I0 M2) as I2. pose proof (mstep_fr M2) as F2.
  assert (E2 : V (modv v (driven c) w0) v = driven c (V w0 v)) by apply V_modv_same.
  set (w2 := modv v (driven c) w0) in *. clearbody w2.
  apply bind_ok in H. destruct H as (k & Ek & H). apply of_opt_ok in Ek.
  assert (Ef2 : v_flag (V w2 v) = false) by (rewrite E2; exact Ef0).
  destruct (qeq (v_x (V w2 v)) (l_len (L w2 k))) eqn:Eq.
  - assert (A2 : at_end w2 v k) by (repeat split; auto; rewrite E2; exact E0).
    eapply unflag_end; [exact I2| |exact A2|exact Ef2|exact H|exact Hr].
    exact (alone_fr _ _ _ F2 (alone_fr _ _ _ F0 Al)).
  - injection H as <-. exact Ef2.
Qed.

Lemma unflag_body : forall c w w' v, Inv2 w None -> IncB w -> Ends w None -> alone w v -> body c w = Ok w' ->
  (v_state (V w v) = Run -> v_flag (V w v) = false) -> v_state (V w' v) = Run -> v_flag (V w' v) = false.
Proof.
  intros c w w' v I J En Al H Hf Hr. pose proof (proj1 Al) as Hv. unfold exists_veh in Hv. pose proof H as Hbody. apply body_runs in H.
  destruct H as (w1 & w2 & w3 & w4 & w5 & w6 & E1 & E2 & E3 & E4 & E5 & E6 & ->).
  change (V (sw_TIME (now c w6) w6) v) with (V w6 v) in *.
  assert (Ff : v_state (V w v) = Home \/ v_state (V w v) = Wait -> v_flag (V w v) = false).
  { intro K. exact (proj1 (eo_start _ _ (En v Hv) K)). }
  apply phase_links_run in E1. apply phase_nodes_run in E2. apply phase_transfer_run in E3.
  assert (R3 : run c k_first w w3).
  { eapply run_trans; [|eapply run_trans]; eapply run_weaken; try eassumption; intros [] K; try discriminate K; reflexivity. }
  pose proof (run_Inv2' _ _ _ _ I R3) as I3.
  assert (Hf3 : alive (v_state (V w3 v)) -> v_flag (V w3 v) = false).
  { pose proof (run_with c (fun x p => alive (v_state (V x v)) -> v_flag (V x v) = false) k_first) as RW.
    apply (RW) with (w := w) (w' := w3); auto.
    - intros e x p x' p' Ke Ix Jx M Ha. pose proof (mstep_vev c e x p x' p' Ix M v) as K.
      destruct K as [E|n out q X1 X2 X3 X4 X5 X6 X7 X8|n out il q ld ln X1 X2 X3 X4 X5 X6 X7 X8 X9 X10 X11|l tl lg X1 X2 X3 X4 X5 X6 X7 X8|l X1 X2 X3|X1 X2 X3|X1 X2 X3 X4 X5|X1 X2 X3 X4|l X1 X2 X3 X4|l X1 X2 X3 X4 X5 X6|l nx X1 X2 X3 X4 X5];
        try (subst e; discriminate Ke).
      + apply vride_eq in E. replace (v_flag (V x' v)) with (v_flag (V x v)) by (symmetry; tauto). apply Jx.
        replace (v_state (V x v)) with (v_state (V x' v)) by tauto. exact Ha.
      + pose proof (gen_vx c x out (V x v)) as A. rewrite <- X8 in A. unfold vx in A. transitivity (v_flag (V x v)); [congruence|].
        apply Jx. unfold alive. rewrite X4. auto.
      + pose proof (moved_vx c x out ld ln q (V x v)) as A. rewrite <- X11 in A. unfold vx in A. transitivity (v_flag (V x v)); [congruence|].
        apply Jx. unfold alive. rewrite X8. auto.
      + exfalso. apply ended_fields in X8. destruct X8 as (_ & _ & _ & _ & _ & _ & _ & _ & _ & _ & _ & _ & _ & B & _).
        unfold alive in Ha. rewrite B in Ha. destruct (v_aborted (V x v)); intuition discriminate.
    - unfold alive. intros [K|[K|K]]; auto. }
  pose proof (phase_follow_run _ _ E4) as R4. pose proof (run_Inv2' _ _ _ _ I3 R4) as I4.
  assert (Hf4 : alive (v_state (V w4 v)) -> v_flag (V w4 v) = false).
  { unfold phase_follow in E4. destruct (follow_loop c _ _ _ I3 (s_running_nd (proj2 (proj1 I3))) E4) as (FL & FV & FN).
    destruct (in_dec Nat.eq_dec v (w_running w3)) as [Hin|Hn].
    - destruct (FV v Hin) as (l & _ & Z). pose proof (followed_vx c w3 l (V w3 v)) as Fx. rewrite <- Z in Fx. unfold vx in Fx.
      intro Ha. transitivity (v_flag (V w3 v)); [congruence|]. apply Hf3. replace (v_state (V w3 v)) with (v_state (V w4 v)) by congruence. exact Ha.
    - rewrite FN by exact Hn. exact Hf3. }
  pose proof (phase_vehicles_run _ _ E5) as R5. pose proof (run_Inv2' _ _ _ _ I4 R5) as I5.
  apply route_phase_run in E6. pose proof (route_ride c w5 w6 I5 E6 v) as E56. pose proof E56 as E56'. apply vride_eq in E56'.
  assert (Hr5 : v_state (V w5 v) = Run) by (transitivity (v_state (V w6 v)); [symmetry; tauto|exact Hr]).
  replace (v_flag (V w6 v)) with (v_flag (V w5 v)) by (symmetry; tauto).
  unfold phase_vehicles in E5.
  destruct (vehicles_at c _ _ _ I4 (s_living_nd (proj2 (proj1 I4))) E5 v) as [VN VI].
  destruct (in_dec Nat.eq_dec v (w_living w4)) as [K|K].
  - destruct (VI K) as (wa & wb & B1 & B2 & B3 & B4 & B5 & B6 & B7).
    assert (Ha4 : alive (v_state (V w4 v))) by (apply (s_living (proj2 (proj1 I4))) in K; exact (proj2 K)).
    apply vride_eq in B4. apply vride_eq in B7.
    pose proof (run_fr _ _ _ _ R3) as F3. pose proof (run_fr _ _ _ _ R4) as F4. pose proof (run_fr _ _ _ _ B1) as Fa.
    assert (Z : v_flag (V wb v) = false).
    { eapply unflag_update; [exact B2| |exact B3| |exact B5|].
      - exact (alone_fr _ _ _ Fa (alone_fr _ _ _ F4 (alone_fr _ _ _ F3 Al))).
      - transitivity (v_flag (V w4 v)); [tauto|auto].
      - transitivity (v_state (V w5 v)); [symmetry; tauto|exact Hr5]. }
    transitivity (v_flag (V wb v)); [tauto|exact Z].
  - pose proof (VN K) as E. apply vride_eq in E. transitivity (v_flag (V w4 v)); [tauto|]. apply Hf4.
    replace (v_state (V w4 v)) with (v_state (V w5 v)) by tauto. rewrite Hr5. unfold alive. auto.
Qed.
