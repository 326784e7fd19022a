(** * Progress2: vehicles at the end of a link are known to the node; trip ends are not delayed (C62). *)
From Verif Require Import Base Types Sim Build Heap Lists Inv FrameBase Tac Frame Eff Eff2 Trace InvStep Reach Steps Effects Phases Attr Life Incoming Vev Ride TripLog Route Signal Green Choice Enforce Counts LinkQueries FD NodeCap Origin Bucket Outflow Trials Motion Spacing Spec Distance Totals Paths SpecDuo Duo Search DuoInv DuoSum Merge SpecProgress Progress.
Local Open Scope nat_scope.

(** ** Registration at the end of the link *)
Definition noted (w : world) (v : vid) (l : lid) : Prop :=
  In v (n_incoming (N w (l_end (L w l)))) \/ v_flag (V w v) = true \/ v_state (V w v) <> Run.

Lemma finished_stop : forall c w a, v_state (finished c w a) <> Run.
Proof. intros c w a. destruct (finished_state c w a) as [-> | ->]; discriminate. Qed.
Lemma prepare_noted : forall c v l w w', Inv2 w None -> at_end w v l ->
  (v_dest (V w v) = Some (l_end (L w l)) /\ v_mode (V w v) = SingleTrip \/ n_out (N w (l_end (L w l))) = [] /\ v_aborted (V w v) = true) ->
  prepare_end c v l w = Ok w' -> noted w' v l.
Proof.
  intros c v l w w' I A D H. right. destruct (prepare_end_view c v l w w' I A D H) as [K|K].
  - left. apply vride_eq in K. assert (X : v_flag (V w' v) = v_flag (sv_flag true (V w v))) by tauto. rewrite X. reflexivity.
  - right. apply vride_eq in K. assert (X : v_state (V w' v) = v_state (finished c w (sv_flag true (V w v)))) by tauto. rewrite X. apply finished_stop.
Qed.
Lemma request_noted : forall c v l w w', request_transfer c v (l_end (L w l)) w = Ok w' -> noted w' v l.
Proof.
  intros c v l w w' H. left. unfold request_transfer in H. apply bind_ok in H. destruct H as (w1 & E & H). injection H as <-.
  pose proof (soft_fr _ _ (choose_soft _ _ _ E)) as F.
  rewrite N_at. change (L (modn (l_end (L w l)) (fun nd => sn_incoming (n_incoming nd ++ [v]) nd) w1) l) with (L w1 l).
  rewrite (fr_l_end F), Nat.eqb_refl. cbn [n_incoming sn_incoming]. apply in_or_app. right. left. reflexivity.
Qed.

Lemma at_link_end_noted : forall c v l w w', Inv2 w None -> at_end w v l -> at_link_end c v l w = Ok w' -> noted w' v l.
Proof.
  intros c v l w w' I A H. unfold at_link_end in H. cbn zeta in H.
  apply bind_ok in H. destruct H as (w1 & E1 & H).
  apply bind_ok in H. destruct H as (w2 & E2 & H).
  assert (R1 : run c (k_veh v) w w1 /\ soft w w1).
  { destruct (dget (l_end (L w l)) (v_events (V w v))) as [e|] eqn:Ee.
    - assert (M : mstep c (VEvent v e) w None w1 None) by (econstructor; eauto).
      split; [|eapply run_event_soft; eauto]. eapply run_one with (e := VEvent v e); [apply Nat.eqb_refl|exact M].
    - injection E1 as <-. split; [apply run_refl|apply soft_refl]. }
  destruct R1 as (R1 & S1).
  pose proof (maybe_pref_run _ _ _ E2) as R2. pose proof (maybe_pref_update_soft _ _ _ E2) as S2.
  pose proof (run_Inv2' _ _ _ _ I R1) as I1.
  assert (S : soft w w2) by (eapply soft_trans; eauto).
  pose proof (run_Inv2' _ _ _ _ I1 R2) as I2.
  assert (A2 : at_end w2 v l) by (eapply at_end_soft; eauto).
  rewrite <- (so_l S l) in H.
  destruct (opt_eqb (Some (l_end (L w2 l))) (v_dest (V w2 v))) eqn:Ed.
  - apply opt_eqb_eq in Ed. symmetry in Ed. destruct (v_mode (V w2 v)) eqn:Em.
    + eapply prepare_noted; [exact I2|exact A2|left; split; [exact Ed|exact Em]|exact H].
    + apply bind_ok in H. destruct H as (w3 & E3 & H).
      assert (S23 : soft w2 w3).
      { apply route_pref_update_soft in E3. eapply soft_trans; [|exact E3]. apply soft_modv; destruct (v_dests _); reflexivity. }
      rewrite <- (so_l S23 l) in H. eapply request_noted; exact H.
  - destruct (is_nil (n_out (N w2 (l_end (L w2 l)))) && v_abortopt (V w2 v)) eqn:Eb.
    + apply andb_true_iff in Eb. destruct Eb as [Eb1 Eb2].
      assert (Ed' : v_dest (V w2 v) <> Some (l_end (L w2 l))).
      { intro K. symmetry in K. apply opt_eqb_eq in K. congruence. }
      assert (Eo : n_out (N w2 (l_end (L w2 l))) = []) by (destruct (n_out _); [auto|discriminate]).
      change (modv v (fun a : vehicle => sv_next (Some None) (sv_aborted true a)) w2) with (modv v aborting w2) in H.
      assert (M3 : mstep c (VAbort v) w2 None (modv v aborting w2) None) by (econstructor; eauto).
      eapply prepare_noted; [exact (mstep_Inv2 _ _ _ _ _ _ I2 M3)| | |exact H].
      * destruct A2 as (X & Y & Z). unfold at_end. rewrite V_modv_same. auto.
      * right. rewrite V_modv_same. split; auto.
    + eapply request_noted; exact H.
Qed.

Lemma veh_update_noted : forall c v l w w', Inv2 w None -> In v (w_living w) -> veh_update c v w = Ok w' ->
  v_state (V w' v) = Run -> v_link (V w' v) = Some l -> v_x (V w' v) == l_len (L w' l) -> noted w' v l.
Proof.
  intros c v l w w' I Hl H Hr Hk Hx.
  pose proof (veh_update_view c v w w' I Hl H) as U.
  assert (Rn : v_state (V w v) = Run).
  { destruct U as [S _ K|S _ K|S K|k S _ _ _|k m d S _ _ _ _ _ _]; auto; exfalso;
      apply vride_eq in K; assert (X : v_state (V w' v) = Home \/ v_state (V w' v) = Wait) by
        (first [left; transitivity (v_state (logged c w v false)); [tauto|exact S]
               |right; transitivity (v_state (sv_state Wait (logged c w v false))); [tauto|reflexivity]
               |right; transitivity (v_state (logged c w v false)); [tauto|exact S]]); destruct X; congruence. }
  unfold veh_update in H.
  set (w0 := record_log c v false w) in H.
  assert (M0 : mstep c (VLog v) w None w0 None) by (constructor; auto).
  pose proof (mstep_Inv2 _ _ _ _ _ _ I M0) as I0. pose proof (mstep_fr M0) as F0.
  pose proof (mstep_eff c _ _ _ _ _ I M0) as E0. cbn [eff] in E0. destruct E0 as (_ & _ & _ & _ & _ & _ & SB & HV).
  assert (E0 : v_state (V w0 v) = Run). { rewrite HV, Nat.eqb_refl. exact Rn. }
  assert (Hl0 : In v (w_living w0)). { destruct SB as (SB & _). rewrite SB. exact Hl. }
  clearbody w0. cbv zeta in H. rewrite E0 in H. rewrite E0 in H. unfold drive in H. cbv zeta in H.
  change (modv v (fun a : vehicle => sv_dist (v_dist a + (v_xnext a - v_x a)) (sv_x (v_xnext a)
      (sv_xold (v_x a) (sv_v ((v_xnext a - v_x a) / dt c) a)))) w0) with (modv v (driven c) w0) in H.
  assert (M2 : mstep c (VMove v) w0 None (modv v (driven c) w0) None) by (constructor; auto).
  pose proof (mstep_Inv2 _ _ _ _ _ _ I0 M2) as I2.
  assert (E2 : V (modv v (driven c) w0) v = driven c (V w0 v)) by apply V_modv_same.
  set (w2 := modv v (driven c) w0) in *. clearbody w2.
  apply bind_ok in H. destruct H as (k & Ek & H). apply of_opt_ok in Ek.
  destruct (qeq (v_x (V w2 v)) (l_len (L w2 k))) eqn:Eq.
  - assert (A2 : at_end w2 v k) by (repeat split; auto; rewrite E2; exact E0).
    assert (k = l). { destruct (at_link_end_view c v k w2 w' I2 A2 H) as [m m' H1 H2 H3 H4 H5 H6 H7 H8|e e' H1 -> H3].
      - pose proof (choose_soft _ _ _ H7) as S. apply vride_eq in H8.
        assert (X : v_link (V w' v) = v_link (V m' v)) by tauto.
        destruct H5 as (_ & H5 & _). destruct (vhard_eq (so_v S v)) as (_ & Y & _).
        congruence.
      - destruct H3 as [H3|H3]; apply vride_eq in H3.
        + assert (X : v_link (V w' v) = v_link (sv_flag true e)) by tauto.
          destruct H1 as [[-> _]|[-> _]]; cbn in X; rewrite Ek in X; congruence.
        + exfalso. assert (X : v_state (V w' v) = v_state (finished c w2 (sv_flag true e))) by tauto. rewrite Hr in X. symmetry in X. revert X. apply finished_stop. }
    subst k. eapply at_link_end_noted; eauto.
  - exfalso. injection H as <-. assert (k = l) by congruence. subst k. apply qeq_iff in Hx. congruence.
Qed.

(** waiting lists only grow in the update of vehicles and later in the timestep *)
Lemma last_inc : forall c e w p w' p', k_last e = true -> Inv2 w p -> mstep c e w p w' p' ->
  forall n v, In v (n_incoming (N w n)) -> In v (n_incoming (N w' n)).
Proof.
  intros c e w p w' p' Ke I M k v Hv. pose proof (mstep_eff c e w p w' p' I M) as H.
  destruct e; try discriminate Ke; cbn [eff] in H;
    repeat match goal with K : _ /\ _ |- _ => destruct K end;
    repeat match goal with K : exists _, _ |- _ => destruct K end;
    repeat match goal with K : _ /\ _ |- _ => destruct K end;
    try (match goal with S : sameN _ _ |- _ => rewrite S; exact Hv end);
    try (match goal with S : soft _ _ |- _ => rewrite (so_n S); exact Hv end).
  - match goal with S : forall n, N w' n = _ |- _ => rewrite S end. destruct (Nat.eqb _ _); exact Hv.
  - match goal with S : forall n, N w' n = _ |- _ => rewrite S end. destruct (Nat.eqb _ _); [|exact Hv].
    cbn [n_incoming sn_incoming]. apply in_or_app. left; exact Hv.
Qed.
Lemma last_inc_run : forall c K w w', (forall e, K e = true -> k_last e = true) -> Inv2 w None -> run c K w w' ->
  forall n v, In v (n_incoming (N w n)) -> In v (n_incoming (N w' n)).
Proof.
  intros c K w w' HK I R n v H.
  destruct (run_with c (fun x _ => In v (n_incoming (N x n))) K) with (w := w) (w' := w') as [_ Z]; auto.
  intros e x p x' p' Ke Ix Jx M. eapply last_inc; eauto.
Qed.

(** ** Between calls *)
Definition Noted (w : world) (v : vid) : Prop := forall l, v_state (V w v) = Run -> v_link (V w v) = Some l ->
  v_x (V w v) == l_len (L w l) -> noted w v l.

Lemma noted_body : forall c w w' v, Inv2 w None -> IncB w -> Ends w None -> v < w_nv w -> body c w = Ok w' -> Noted w' v.
Proof.
  intros c w w' v I J En Hv H l Hr Hk Hx. pose proof (body_fr _ _ H) as Fb. apply body_runs in H.
  destruct H as (w1 & w2 & w3 & w4 & w5 & w6 & E1 & E2 & E3 & E4 & E5 & E6 & ->).
  apply phase_links_run in E1. apply phase_nodes_run in E2. apply phase_transfer_run in E3. apply phase_follow_run in E4.
  pose proof (run_Inv2' _ _ _ _ (run_Inv2' _ _ _ _ (run_Inv2' _ _ _ _ (run_Inv2' _ _ _ _ I E1) E2) E3) E4) as I4.
  pose proof (phase_vehicles_run _ _ E5) as R5. pose proof (run_Inv2' _ _ _ _ I4 R5) as I5.
  apply route_phase_run in E6. pose proof (route_ride c w5 w6 I5 E6 v) as E56.
  change (V (sw_TIME (now c w6) w6) v) with (V w6 v) in *. change (L (sw_TIME (now c w6) w6) l) with (L w6 l) in *.
  unfold phase_vehicles in E5.
  destruct (vehicles_at c _ _ _ I4 (s_living_nd (proj2 (proj1 I4))) E5 v) as [VN VI].
  pose proof E56 as E56'. apply vride_eq in E56'.
  assert (Hr5 : v_state (V w5 v) = Run) by (transitivity (v_state (V w6 v)); [symmetry; tauto|exact Hr]).
  assert (Hin : In v (w_living w4)).
  { destruct (in_dec Nat.eq_dec v (w_living w4)) as [K|K]; [exact K|]. exfalso. apply K.
    pose proof (VN K) as E. apply vride_eq in E. apply (s_living (proj2 (proj1 I4))).
    split; [|right; right; transitivity (v_state (V w5 v)); [symmetry; tauto|exact Hr5]].
    pose proof (run_fr _ _ _ _ E1) as F1. pose proof (run_fr _ _ _ _ E2) as F2. pose proof (run_fr _ _ _ _ E3) as F3. pose proof (run_fr _ _ _ _ E4) as F4.
    rewrite (fr_w_nv F4), (fr_w_nv F3), (fr_w_nv F2), (fr_w_nv F1). exact Hv. }
  destruct (VI Hin) as (wa & wb & B1 & B2 & B3 & B4 & B5 & B6 & B7).
  assert (Eb : vride (V w6 v) = vride (V wb v)) by congruence. pose proof Eb as Eb'. apply vride_eq in Eb'.
  pose proof (veh_update_run _ _ _ B3 B5) as Rb. pose proof (run_Inv2' _ _ _ _ B2 Rb) as Ib.
  pose proof (run_fr _ _ _ _ B6) as F5. pose proof (run_fr _ _ _ _ E6) as F6.
  assert (El : l_len (L w6 l) = l_len (L wb l)) by (rewrite (fr_l_len F6), (fr_l_len F5); reflexivity).
  assert (Ee : l_end (L w6 l) = l_end (L wb l)) by (rewrite (fr_l_end F6), (fr_l_end F5); reflexivity).
  assert (K : noted wb v l).
  { eapply veh_update_noted; [exact B2|exact B3|exact B5| | |].
    - transitivity (v_state (V w6 v)); [symmetry; tauto|exact Hr].
    - transitivity (v_link (V w6 v)); [symmetry; tauto|exact Hk].
    - rewrite <- El. replace (v_x (V wb v)) with (v_x (V w6 v)) by tauto. exact Hx. }
  unfold noted. change (L (sw_TIME (now c w6) w6) l) with (L w6 l). change (V (sw_TIME (now c w6) w6) v) with (V w6 v).
  change (N (sw_TIME (now c w6) w6) (l_end (L w6 l))) with (N w6 (l_end (L w6 l))). rewrite Ee.
  destruct K as [K|[K|K]].
  - left. eapply last_inc_run with (K := k_route); [|exact I5|exact E6|].
    { intros [] Z; try discriminate Z; reflexivity. }
    eapply last_inc_run with (K := k_vehicles); [|exact Ib|exact B6|exact K]. intros [] Z; try discriminate Z; reflexivity.
  - right; left. transitivity (v_flag (V wb v)); [tauto|exact K].
  - right; right. replace (v_state (V w6 v)) with (v_state (V wb v)) by (symmetry; tauto). exact K.
Qed.

Lemma osteps_fresh : forall c w w' v, osteps c w w' -> w_nv w <= v -> v < w_nv w' -> v_state (V w' v) = Home.
Proof.
  intros c w w' v O. induction O as [w|a b d O1 O IH]; intros H1 H2; [lia|].
  destruct (Nat.lt_ge_cases v (w_nv b)) as [Hb|Hb]; [|apply IH; auto].
  assert (Z : v_state (V b v) = Home).
  { clear IH O. destruct O1; unfold wkeep in *; cbn in Hb; try lia.
    - assert (v = w_nv w) by lia. subst v. unfold V; cbn. rewrite upd_same. reflexivity.
    - pose proof (fz_cnt _ _ _ (finalize_ok _ _ _ _ H0)) as Z. exfalso. assert (w_nv w' = w_nv w) by congruence. lia.
    - exfalso. assert (w_nv w' = w_nv w) by congruence. lia.
    - exfalso. assert (w_nv w' = w_nv w) by congruence. lia. }
  destruct (osteps_keep c b d v O Hb) as (K & _). unfold vkeep in K. congruence.
Qed.
Lemma op_fresh_home : forall c o w w' v, op_ok o w -> (forall a, o <> OExec a) -> apply_op c o w = Ok w' -> w_nv w <= v -> v < w_nv w' -> v_state (V w' v) = Home.
Proof. intros c o w w' v Ho Hx H H1 H2. eapply osteps_fresh; [eapply apply_op_osteps; eauto|exact H1|exact H2]. Qed.

Theorem reach_Noted : forall c w, reach c w -> forall v, v < w_nv w -> Noted w v.
Proof.
  intros c w R. induction R as [tm|w o w' R IH Hok Hx E|w w' R IH Hf E|w R IH]; intros v Hv.
  - cbn in Hv. lia.
  - intros l Hr Hk Hq. destruct (Nat.lt_ge_cases v (w_nv w)) as [Hv0|Hv0].
    + destruct (op_keep c o w w' v Hok Hx E Hv0) as (K1 & _ & K3). unfold vkeep in K1.
      assert (Hr0 : v_state (V w v) = Run) by congruence.
      assert (Ef : w_final w = true).
      { destruct (w_final w) eqn:Ef; [reflexivity|]. pose proof (reach_home c w R Ef v Hv0) as Z. congruence. }
      destruct (K3 Ef) as (_ & KL & KN & _). specialize (KL l). unfold lkeep in KL.
      assert (K : noted w v l).
      { apply IH; auto; [congruence|]. replace (l_len (L w l)) with (l_len (L w' l)) by congruence.
        replace (v_x (V w v)) with (v_x (V w' v)) by congruence. exact Hq. }
      unfold noted in *. replace (l_end (L w' l)) with (l_end (L w l)) by congruence.
      specialize (KN (l_end (L w l))). unfold nkeep in KN.
      destruct K as [K|[K|K]]; [left|right; left|right; right]; congruence.
    + exfalso. assert (Z : v_state (V w' v) = Home).
      { eapply op_fresh_home; eauto. }
      congruence.
  - apply tick_fr in E. destruct E as (w1 & E & ->).
    assert (Hv' : v < w_nv w) by (cbn in Hv; rewrite (fr_w_nv (body_fr _ _ E)) in Hv; exact Hv).
    intros l. exact (noted_body c w w1 v (reach_Inv2 _ _ R) (reach_IncB _ _ R) (reach_Ends _ _ R) Hv' E l).
  - exact (IH v Hv).
Qed.

(** A vehicle that stands at the end of its link either waits for its trip end there or is in the waiting
    list of the node. *)
Theorem waiting_lemma : forall c w v l, reach c w -> exists_veh w v -> v_state (V w v) = Run -> v_link (V w v) = Some l ->
  v_x (V w v) == l_len (L w l) -> v_flag (V w v) = false -> In v (n_incoming (N w (l_end (L w l)))).
Proof.
  intros c w v l R Hv Hr Hk Hx Hf. destruct (reach_Noted c w R v Hv l Hr Hk Hx) as [K|[K|K]]; [exact K| |]; congruence.
Qed.

(** ** The end of a trip *)
(** vehicle [v], waiting for its trip end, is the first on link [l]; or its trip is over *)
Definition ending (v : vid) (l : lid) (w : world) : Prop :=
  ~ alive (v_state (V w v)) \/
  v_state (V w v) = Run /\ v_link (V w v) = Some l /\ v_flag (V w v) = true /\ hd_error (l_vehs (L w l)) = Some v.

Lemma linked_vehs : forall c d k, l_vehs (linked c d k) = l_vehs k.
Proof.
  intros c d k. unfold linked. cbn [l_vehs sl_cd sl_ca sl_tti]. unfold in_out_flow_constraint. destruct (l_cin k); [|reflexivity].
  destruct (qlt _ _); destruct (qlt _ _); reflexivity.
Qed.
Lemma dead_step : forall c v e w p w' p', k_first e = true -> Inv2 w p -> mstep c e w p w' p' -> ~ alive (v_state (V w v)) -> ~ alive (v_state (V w' v)).
Proof.
  intros c v e w p w' p' Ke I M H.
  destruct (touches v e) eqn:Et.
    + pose proof (mstep_eff c e w p w' p' I M) as E. exfalso. apply H.
      destruct e; try discriminate Et; cbn [touches] in Et; apply Nat.eqb_eq in Et; subst; cbn [eff] in E.
      * destruct E as (_ & _ & q & ca & _ & Hq & _). destruct I as [[T I] _].
        assert (K : In v (n_queue (N w n))) by (rewrite Hq; left; auto). apply (s_queue I) in K. destruct K as (_ & K & _). right; left; exact K.
      * destruct E as (_ & _ & cd & ca & rest & q & E). destruct E as (_ & _ & _ & _ & _ & _ & _ & _ & _ & _ & _ & E & _). right; right; exact E.
      * destruct E as (_ & rest & cd & lg & tl & _ & _ & _ & E & _). right; right; exact E.
    + pose proof (untouched c e w p w' p' v Ke I M Et) as E. apply vride_eq in E.
      assert (X : v_state (V w' v) = v_state (V w v)) by tauto. rewrite X. exact H.
Qed.
Lemma end_dead : forall c v l w p w' p', v < w_nv w -> Inv2 w p -> mstep c (VEnd v l) w p w' p' -> ~ alive (v_state (V w' v)).
Proof.
  intros c v l w p w' p' Hv I M. pose proof (mstep_eff c _ w p w' p' I M) as E. cbn [eff] in E.
  pose proof (mstep_Inv2 _ _ _ _ _ _ I M) as I'.
  destruct E as (-> & rest & cd & lg & tl & _ & _ & _ & _ & _ & _ & _ & E & _).
  destruct I' as [[_ Si'] _]. destruct I as [[_ Si] _]. intro A.
  assert (K : In v (w_living w')) by (apply (s_living Si'); split; [rewrite (fr_w_nv (mstep_fr M)); exact Hv|exact A]).
  rewrite E in K. revert K. apply remove_first_not_in. exact (s_living_nd Si).
Qed.
Lemma ending_step : forall c v l e w p w' p', k_first e = true -> v < w_nv w -> Good w p -> mstep c e w p w' p' -> ending v l w -> ending v l w'.
Proof.
  intros c v l e w p w' p' Ke Hv (I & J & En) M [H|(Hr & Hk & Hf & Hh)].
  - left. eapply dead_step; eauto.
  - destruct (touches v e) eqn:Et.
    + pose proof (mstep_eff c e w p w' p' I M) as E.
      destruct e; try discriminate Et; cbn [touches] in Et; apply Nat.eqb_eq in Et; subst.
      * exfalso. cbn [eff] in E. destruct E as (_ & _ & q & ca & _ & Hq & _). destruct I as [[T I] _].
        assert (K : In v (n_queue (N w n))) by (rewrite Hq; left; auto). apply (s_queue I) in K. destruct K as (_ & K & _). congruence.
      * exfalso. destruct (shift_flag _ _ _ _ _ _ _ _ _ I J (En v Hv) M) as (K & _). congruence.
      * left. eapply end_dead; eauto.
    + right. pose proof (untouched c e w p w' p' v Ke I M Et) as E. apply vride_eq in E.
      assert (X : v_state (V w' v) = v_state (V w v) /\ v_link (V w' v) = v_link (V w v) /\ v_flag (V w' v) = v_flag (V w v)) by tauto.
      destruct X as (X1 & X2 & X3). rewrite X1, X2, X3. split; [exact Hr|]. split; [exact Hk|]. split; [exact Hf|].
      pose proof (mstep_eff c e w p w' p' I M) as H.
      destruct e; try discriminate Ke; cbn [eff] in H.
      * destruct H as (_ & _ & _ & _ & _ & _ & _ & d & _ & HL). rewrite HL. destruct (Nat.eqb l l0) eqn:El; [|exact Hh].
        apply Nat.eqb_eq in El. subst l0. rewrite linked_vehs. exact Hh.
      * destruct H as (_ & _ & _ & H & _). rewrite H. exact Hh.
      * destruct H as (_ & _ & q & ca & H). do 8 (destruct H as [_ H]). destruct H as (HL & _). rewrite HL. destruct (Nat.eqb l out) eqn:El; [|exact Hh].
        apply Nat.eqb_eq in El. subst out. unfold gen_link. cbn [l_vehs sl_vehs sl_enter sl_ca sl_cinr].
        destruct (l_vehs (L w l)); [discriminate|exact Hh].
      * destruct H as (_ & _ & _ & _ & H & _). rewrite H. exact Hh.
      * destruct H as (_ & _ & cd & ca & rest & q & H). do 14 (destruct H as [_ H]). destruct H as (Hvs & H). do 4 (destruct H as [_ H]). destruct H as (HL & _).
        assert (Nl : l <> il). { intros ->. rewrite Hvs in Hh. cbn in Hh. injection Hh as ->. cbn [touches] in Et. rewrite Nat.eqb_refl in Et. discriminate. }
        rewrite HL. cbv zeta. apply Nat.eqb_neq in Nl. rewrite Nl. destruct (Nat.eqb l out); exact Hh.
      * destruct H as (_ & rest & cd & lg & tl & Hvs & H). do 9 (destruct H as [_ H]). destruct H as (HL & _).
        assert (Nl : l <> l0). { intros ->. rewrite Hvs in Hh. cbn in Hh. injection Hh as ->. cbn [touches] in Et. rewrite Nat.eqb_refl in Et. discriminate. }
        rewrite HL. apply Nat.eqb_neq in Nl. rewrite Nl. exact Hh.
      * destruct H as (_ & _ & _ & _ & _ & HL & _). rewrite HL. destruct (Nat.eqb l out); [|exact Hh].
        cbn [l_vehs sl_vehs]. destruct (l_vehs (L w l)); [discriminate|exact Hh].
      * destruct H as (_ & _ & _ & H & _). rewrite H. exact Hh.
      * destruct H as (_ & _ & _ & H & _). rewrite H. exact Hh.
Qed.

Lemma dead_run : forall c v K w w', (forall e, K e = true -> k_first e = true) -> Inv2 w None -> run c K w w' ->
  ~ alive (v_state (V w v)) -> ~ alive (v_state (V w' v)).
Proof.
  intros c v K w w' HK I R H.
  destruct (run_with c (fun x _ => ~ alive (v_state (V x v))) K) with (w := w) (w' := w') as [_ Z]; auto.
  intros e x p x' p' Ke Ix Jx M. eapply dead_step; eauto.
Qed.
Lemma good_run : forall c K w w', (forall e, K e = true -> k_transfer e = true) -> Good w None -> run c K w w' -> Good w' None.
Proof.
  intros c K w w' HK G (es & F & T). eapply good_trace; [exact T| |exact G]. eapply Forall_impl; [|exact F]. exact HK.
Qed.
Lemma ending_trace : forall c v l es w p w' p', trace c es w p w' p' -> Forall (fun e => k_first e = true) es -> v < w_nv w -> Good w p ->
  ending v l w -> ending v l w'.
Proof.
  intros c v l es w p w' p' T. induction T as [w p|e es w p w1 p1 w2 p2 M T IH]; intros F Hv G H; [exact H|].
  inversion F as [|? ? Fe Fs]; subst. apply IH; [exact Fs| | |].
  - rewrite (fr_w_nv (mstep_fr M)). exact Hv.
  - destruct G as (I & J & En). split; [eapply mstep_Inv2; eauto|]. split; [eapply IncA_step; eauto|eapply Ends_step; [|exact I|exact En|exact M]; auto].
  - eapply ending_step; [exact Fe|exact Hv|exact G|exact M|exact H].
Qed.
Lemma ending_run : forall c v l K w w', (forall e, K e = true -> k_transfer e = true) -> v < w_nv w -> Good w None -> run c K w w' ->
  ending v l w -> ending v l w'.
Proof.
  intros c v l K w w' HK Hv G (es & F & T) H. eapply ending_trace; [exact T| |exact Hv|exact G|exact H].
  eapply Forall_impl; [|exact F]. intros e Ke. apply tr_first. auto.
Qed.

Lemma end_fronts_dead : forall c v l k w w', v < w_nv w -> Good w None -> ending v l w -> 1 <= k -> end_fronts c l k w = Ok w' ->
  ~ alive (v_state (V w' v)).
Proof.
  intros c v l k w w' Hv G H Hk E. destruct k as [|k]; [lia|]. cbn [end_fronts] in E. apply bind_ok in E. destruct E as ([b w1] & E1 & E).
  assert (D : ~ alive (v_state (V w1 v))).
  { destruct H as [H|(Hr & Hl & Hf & Hh)].
    - destruct (end_front_still c 0 l w b w1 None E1) as (es & F & T).
      eapply dead_run with (K := fun e => k_tr 0 e && still e) (w := w); [|exact (proj1 G)| |exact H].
      + intros e K. apply andb_true_iff in K. apply tr_first. exact (ktr_transfer _ _ (proj1 K)).
      + exists es. split; [|exact T]. eapply Forall_impl; [|exact F]. cbn. intros e [-> ->]. reflexivity.
    - unfold end_front in E1. destruct (l_vehs (L w l)) as [|u rest] eqn:Ev; [discriminate|]. cbn in Hh. injection Hh as ->.
      rewrite Hf in E1. apply bind_ok in E1. destruct E1 as (w2 & E2 & E1). injection E1 as <- <-.
      eapply end_dead; [exact Hv|exact (proj1 G)|]. econstructor; eauto. }
  destruct b; [|injection E as <-; exact D].
  assert (R1 : run c (fun e => k_tr 0 e && still e) w w1).
  { destruct (end_front_still c 0 l w true w1 None E1) as (es & F & T). exists es. split; [|exact T].
    eapply Forall_impl; [|exact F]. cbn. intros e [-> ->]. reflexivity. }
  assert (I1 : Inv2 w1 None) by exact (run_Inv2' _ _ _ _ (proj1 G) R1).
  eapply dead_run with (K := fun e => k_tr 0 e && still e); [|exact I1|exact (end_fronts_still c 0 l k w1 w' E)|exact D].
  intros e K. apply andb_true_iff in K. apply tr_first. exact (ktr_transfer _ _ (proj1 K)).
Qed.

Definition k_still (n : nid) (e : ev) : bool := (k_tr n e && still e)%bool.
Lemma k_still_transfer : forall n e, k_still n e = true -> k_transfer e = true.
Proof. intros n e K. apply andb_true_iff in K. exact (ktr_transfer _ _ (proj1 K)). Qed.

Lemma ends_fold : forall c v l (n : nid) ls w w', v < w_nv w -> Good w None -> (forall k, In k ls -> 1 <= l_lanes (L w k)) -> In l ls -> ending v l w ->
  foldM (fun l w => end_fronts c l (l_lanes (L w l)) w) ls w = Ok w' -> ~ alive (v_state (V w' v)).
Proof.
  intros c v l n ls; induction ls as [|k ls IH]; intros w w' Hv G Hl Hin H E; cbn [foldM] in E; [destruct Hin|].
  apply bind_ok in E. destruct E as (w1 & E1 & E).
  pose proof (end_fronts_still c n k _ w w1 E1) as R1. change (run c (k_still n) w w1) in R1.
  pose proof (good_run _ _ _ _ (k_still_transfer n) G R1) as G1. pose proof (run_fr _ _ _ _ R1) as F1.
  destruct (Nat.eq_dec k l) as [->|Hne].
  - pose proof (end_fronts_dead c v l _ w w1 Hv G H (Hl l (or_introl eq_refl)) E1) as D.
    assert (R2 : run c (k_still n) w1 w').
    { eapply foldM_run with (P := fun _ w => True); [| intros; exact Logic.I | intros; exact Logic.I |exact E].
      intros l0 a a0 _ _ F. exact (end_fronts_still c n l0 _ a a0 F). }
    eapply dead_run; [|exact (proj1 G1)|exact R2|exact D]. intros e K. apply tr_first. exact (k_still_transfer n e K).
  - destruct Hin as [Hin|Hin]; [congruence|]. eapply (IH w1 w'); [| |  |exact Hin| |exact E].
    + rewrite (fr_w_nv F1). exact Hv.
    + exact G1.
    + intros z Hz. rewrite (fr_l_lanes F1). apply Hl. right; exact Hz.
    + eapply ending_run; [exact (k_still_transfer n)|exact Hv|exact G|exact R1|exact H].
Qed.

Lemma transfer_ends : forall c v l w w', v < w_nv w -> l < w_nl w -> Good w None -> ending v l w ->
  transfer c (l_end (L w l)) w = Ok w' -> ~ alive (v_state (V w' v)).
Proof.
  intros c v l w w' Hv Hl G He H. set (n := l_end (L w l)) in *.
  assert (Tn : In l (n_in (N w n)) /\ n < w_nn w).
  { destruct G as ([[T _] _] & _). split; [apply (t_in T); auto|]. apply (t_ends T Hl). }
  destruct Tn as [Tn Hn]. unfold transfer in H.
  apply bind_ok in H. destruct H as (cands & Ec & H). cbn zeta in H.
  destruct (if c_det c then _ else _) as [outs w1] eqn:Ew.
  apply bind_ok in H. destruct H as (w2 & E2 & H).
  apply bind_ok in H. destruct H as (w3 & E3 & H). injection H as <-.
  assert (R1 : run c k_transfer w w1).
  { destruct (c_det c); injection Ew as <- <-; [apply run_refl|]. eapply run_one with (e := VDraw); [reflexivity|constructor]. }
  pose proof (run_fr _ _ _ _ R1) as F1.
  assert (Hn1 : n < w_nn w1) by (rewrite (fr_w_nn F1); exact Hn).
  destruct (trials_trace c n outs w1 w2 Hn1 E2) as (e2 & K2 & T2).
  assert (R2 : run c k_transfer w w2) by (eapply run_trans; [exact R1|exists e2; split; [exact (ktrial_transfer _ _ K2)|exact T2]]).
  pose proof (good_run c k_transfer w w2 (fun e K => K) G R2) as G2. pose proof (run_fr _ _ _ _ R2) as F2.
  pose proof (ending_run c v l k_transfer w w2 (fun e K => K) Hv G R2 He) as H2.
  change (V (modn n (sn_incoming []) w3) v) with (V w3 v).
  eapply (ends_fold c v l n (n_in (N w2 n)) w2 w3); [rewrite (fr_w_nv F2); exact Hv|exact G2| | |exact H2|exact E3].
  - intros k Hk. destruct G2 as ([[T _] _] & _). apply (t_lanes T). apply (t_in T) in Hk. tauto.
  - rewrite (fr_n_in F2). exact Tn.
Qed.

Lemma phase_ends : forall c v l ns w w', v < w_nv w -> l < w_nl w -> Good w None -> ending v l w -> (forall m, In m ns -> m < w_nn w) ->
  In (l_end (L w l)) ns -> foldM (transfer c) ns w = Ok w' -> ~ alive (v_state (V w' v)).
Proof.
  intros c v l ns; induction ns as [|m ns IH]; intros w w' Hv Hl G He Hns Hin H; cbn [foldM] in H; [destruct Hin|].
  apply bind_ok in H. destruct H as (w1 & E & H).
  destruct (transfer_shifts c m w w1 (Hns m (or_introl eq_refl)) E) as (e1 & K1 & T1 & _).
  assert (R1 : run c k_transfer w w1) by (exists e1; split; [exact (all_transfer _ _ K1)|exact T1]).
  pose proof (good_run c k_transfer w w1 (fun e K => K) G R1) as G1. pose proof (run_fr _ _ _ _ R1) as F1.
  assert (Hns' : forall k, In k ns -> k < w_nn w1) by (intros k Hk; rewrite (fr_w_nn F1); apply Hns; right; exact Hk).
  destruct (Nat.eq_dec m (l_end (L w l))) as [->|Hne].
  - pose proof (transfer_ends c v l w w1 Hv Hl G He E) as D.
    assert (R2 : run c k_transfer w1 w').
    { clear - H Hns'. revert w1 Hns' H. induction ns as [|k ns IH]; intros w1 Hns' H; cbn [foldM] in H.
      - injection H as <-. apply run_refl.
      - apply bind_ok in H. destruct H as (w2 & E & H). destruct (transfer_shifts c k w1 w2 (Hns' k (or_introl eq_refl)) E) as (e & F & T & _).
        eapply run_trans; [exists e; split; [exact (all_transfer _ _ F)|exact T]|]. apply IH; [|exact H].
        intros z Hz. rewrite (fr_w_nn (trace_fr T)). apply Hns'. right; exact Hz. }
    eapply dead_run; [|exact (proj1 G1)|exact R2|exact D]. exact tr_first.
  - destruct Hin as [Hin|Hin]; [congruence|]. eapply (IH w1 w'); [| | | |exact Hns'| |exact H].
    + rewrite (fr_w_nv F1). exact Hv.
    + rewrite (fr_w_nl F1). exact Hl.
    + exact G1.
    + eapply ending_run; [|exact Hv|exact G|exact R1|exact He]. auto.
    + rewrite (fr_l_end F1). exact Hin.
Qed.

(** A vehicle that waits for its trip end and is the first on its link ends its trip in the next timestep. *)
Theorem trip_end_lemma : forall c w w' v l, reach c w -> w_final w = true -> tick c w = Ok w' -> exists_veh w v ->
  v_state (V w v) = Run -> v_link (V w v) = Some l -> v_flag (V w v) = true -> hd_error (l_vehs (L w l)) = Some v ->
  v_state (V w' v) = End_ \/ v_state (V w' v) = Abort.
Proof.
  intros c w w' v l R Hfin H Hv Hr Hk Hf Hh. unfold exists_veh in Hv.
  pose proof (reach_Inv2 _ _ R) as I. pose proof (reach_IncB _ _ R) as B. pose proof (reach_Ends _ _ R) as En.
  assert (Hl : l < w_nl w).
  { destruct I as [[_ Si] _]. destruct (s_link Si Hv ltac:(discriminate)) as [K _]. destruct (K Hr) as (l' & K1 & K2). congruence. }
  apply tick_fr in H. destruct H as (w0 & H & ->).
  destruct (body_viewed c v w w0 Hv I B En H) as (w3 & w4 & BV).
  destruct (bv_phases _ _ _ _ _ _ BV) as (w1 & w2 & E1 & E2 & E3 & E4).
  pose proof (ready_good c w w1 w2 I B En E1 E2) as G2.
  assert (R2 : run c k_first w w2).
  { apply phase_links_run in E1. apply phase_nodes_run in E2.
    eapply run_trans; eapply run_weaken; try eassumption; intros [] K; try discriminate K; reflexivity. }
  pose proof (run_fr _ _ _ _ R2) as F2.
  assert (He : ending v l w2).
  { destruct R2 as (es & F & T). assert (G0 : Good w None) by (split; [exact I|split; [exact (IncOK_A _ (ib_ok _ B))|exact En]]).
    eapply ending_trace; [exact T|exact F|exact Hv|exact G0|right; auto]. }
  assert (D : ~ alive (v_state (V w3 v))).
  { unfold phase_transfer in E3. eapply (phase_ends c v l); [| |exact G2|exact He| | |exact E3].
    - rewrite (fr_w_nv F2). exact Hv.
    - rewrite (fr_w_nl F2). exact Hl.
    - intros m Hm. apply in_seq in Hm. lia.
    - apply in_seq. split; [lia|]. destruct G2 as ([[T _] _] & _). cbn. apply (t_ends T). rewrite (fr_w_nl F2). exact Hl. }
  pose proof (bv_gone _ _ _ _ _ _ BV D) as E. apply vride_eq in E.
  change (v_state (V w0 v) = End_ \/ v_state (V w0 v) = Abort).
  assert (X : v_state (V w0 v) = v_state (V w3 v)) by tauto. rewrite X. unfold alive in D.
  destruct (v_state (V w3 v)); auto; exfalso; apply D; auto.
Qed.

(** ** From standing at the end of a link to being a candidate *)
Lemma early_keep : forall c v l n w w2, v < w_nv w -> Good w None -> run c (fun e => k_links e || k_nodes e) w w2 ->
  In v (n_incoming (N w n)) -> v_state (V w v) = Run -> hd_error (l_vehs (L w l)) = Some v ->
  In v (n_incoming (N w2 n)) /\ vride (V w2 v) = vride (V w v) /\ hd_error (l_vehs (L w2 l)) = Some v.
Proof.
  intros c v l n w w2 Hv G R Hi Hr Hh.
  destruct (run_with c (fun x _ => In v (n_incoming (N x n)) /\ vride (V x v) = vride (V w v) /\ hd_error (l_vehs (L x l)) = Some v) (fun e => k_links e || k_nodes e))
    with (w := w) (w' := w2) as [_ Z]; [|exact (proj1 G)|auto|exact R|exact Z].
  clear w2 R. intros e x p x' p' Ke I (A1 & A2 & A3) M.
  assert (Et : touches v e = false).
  { destruct e; try discriminate Ke; try reflexivity. cbn [touches]. apply Nat.eqb_neq. intros ->.
    pose proof (mstep_eff c _ x p x' p' I M) as H. cbn [eff] in H. destruct H as (_ & _ & q & ca & _ & Hq & _). destruct I as [[T I] _].
    assert (K : In v (n_queue (N x n0))) by (rewrite Hq; left; auto). apply (s_queue I) in K. destruct K as (_ & K & _).
    apply vride_eq in A2. assert (v_state (V x v) = v_state (V w v)) by tauto. congruence. }
  assert (Kf : k_first e = true) by (destruct e; try discriminate Ke; reflexivity).
  pose proof (untouched c e x p x' p' v Kf I M Et) as E. split; [|split; [congruence|]].
  - pose proof (mstep_eff c e x p x' p' I M) as H. destruct e; try discriminate Ke; cbn [eff] in H.
    + destruct H as (_ & _ & _ & _ & H & _). rewrite H. auto.
    + destruct H as (_ & _ & _ & _ & H & _). rewrite H. auto.
    + destruct H as (_ & _ & q & ca & H). do 9 (destruct H as [_ H]). destruct H as (H & _).
      rewrite H. destruct (Nat.eqb n n0) eqn:Ek; [|auto]. apply Nat.eqb_eq in Ek; subst. exact A1.
    + destruct H as (_ & _ & _ & _ & _ & _ & _ & n1 & n2 & E1 & E2 & H). rewrite H.
      destruct (Nat.eqb n n0) eqn:Ek; [|auto]. apply Nat.eqb_eq in Ek; subst.
      rewrite (flow_capacity_inc _ _ _ E2), (signal_control_inc _ _ _ E1). exact A1.
  - pose proof (mstep_eff c e x p x' p' I M) as H. destruct e; try discriminate Ke; cbn [eff] in H.
    + destruct H as (_ & _ & _ & _ & _ & _ & _ & d & _ & HL). rewrite HL. destruct (Nat.eqb l l0) eqn:El; [|exact A3].
      apply Nat.eqb_eq in El. subst l0. rewrite linked_vehs. exact A3.
    + destruct H as (_ & _ & _ & H & _). rewrite H. exact A3.
    + destruct H as (_ & _ & q & ca & H). do 8 (destruct H as [_ H]). destruct H as (HL & _). rewrite HL. destruct (Nat.eqb l out) eqn:El; [|exact A3].
      apply Nat.eqb_eq in El. subst out. unfold gen_link. cbn [l_vehs sl_vehs sl_enter sl_ca sl_cinr].
      destruct (l_vehs (L x l)); [discriminate|exact A3].
    + destruct H as (_ & _ & _ & _ & H & _). rewrite H. exact A3.
Qed.

(** The first vehicle on a link that stands at its end passes the node, or another vehicle goes to the link it
    wants, whenever nothing physical stands in the way. *)
Theorem flow_lemma : forall c w w1 w2 w3 v l out, reach c w -> phase_links c w = Ok w1 -> phase_nodes c w1 = Ok w2 -> phase_transfer c w2 = Ok w3 ->
  exists_veh w v -> v_state (V w v) = Run -> v_link (V w v) = Some l -> v_x (V w v) == l_len (L w l) -> v_flag (V w v) = false ->
  hd_error (l_vehs (L w l)) = Some v -> v_next (V w v) = Some (Some out) ->
  (In (n_phase (N w2 (l_end (L w l)))) (l_group (L w2 l)) \/ List.length (n_signal (N w2 (l_end (L w l)))) <= 1) ->
  (dN c <= l_coutr (L w2 l))%Q -> room c w2 out -> (dN c <= l_cinr (L w2 out))%Q ->
  (exists m u, passed c w2 w3 m u out) \/ node_spent c w3 (l_end (L w l)).
Proof.
  intros c w w1 w2 w3 v l out R E1 E2 E3 Hv Hr Hk Hx Hf Hh Hn Hg Hco Hro Hci.
  pose proof (waiting_lemma c w v l R Hv Hr Hk Hx Hf) as Hi.
  assert (R2 : run c (fun e => k_links e || k_nodes e) w w2).
  { apply phase_links_run in E1. apply phase_nodes_run in E2.
    eapply run_trans; eapply run_weaken; try eassumption; intros [] K; try discriminate K; reflexivity. }
  assert (G : Good w None).
  { split; [exact (reach_Inv2 _ _ R)|]. split; [exact (IncOK_A _ (ib_ok _ (reach_IncB _ _ R)))|exact (reach_Ends _ _ R)]. }
  destruct (early_keep c v l (l_end (L w l)) w w2 Hv G R2 Hi Hr Hh) as (K1 & K2 & K3). apply vride_eq in K2.
  eapply (progress_lemma c w w1 w2 w3 (l_end (L w l)) out v l); [exact R|exact E1|exact E2|exact E3| |exact Hro|exact Hci].
  split; [exact K1|]. split; [transitivity (v_link (V w v)); [tauto|exact Hk]|]. split; [exact K3|].
  split; [transitivity (v_next (V w v)); [tauto|exact Hn]|]. split; [exact Hg|exact Hco].
Qed.
