(** * Progress: nodes do not hold vehicles back without a reason (C62). *)
From Coq Require Import Permutation.
From Verif Require Import Base Types Sim Build Heap Lists Inv FrameBase Tac Frame Eff Eff2 Trace InvStep Reach Steps Effects Phases Attr Life Incoming Vev Ride TripLog Route Signal Green Choice Enforce Counts LinkQueries FD NodeCap Origin Bucket Outflow Trials Motion Spacing Spec Distance Totals Paths SpecDuo Duo Search DuoInv DuoSum Merge SpecProgress.
Local Open Scope nat_scope.

(** ** Room stays while nobody enters *)
Lemma space_room : forall c w out, 1 <= l_lanes (L w out) -> (has_space c w (L w out) = true <-> room c w out).
Proof.
  intros c w out Hl. unfold has_space, room. rewrite orb_true_iff, Nat.ltb_lt. split; intros [H|H]; auto.
  - destruct (Nat.lt_ge_cases (List.length (l_vehs (L w out))) (l_lanes (L w out))) as [K|K]; [auto|]. right.
    rewrite from_end_nth in H by lia. destruct (nth_error _ _) as [u|] eqn:E in H; [|discriminate].
    exists u. split; [exact E|]. apply qlt_iff; exact H.
  - destruct (Nat.lt_ge_cases (List.length (l_vehs (L w out))) (l_lanes (L w out))) as [K|K]; [auto|]. right.
    destruct H as (u & E & H). rewrite from_end_nth by lia. rewrite E. apply qlt_iff; exact H.
Qed.

Lemma space_same : forall c w w' k k', l_vehs k' = l_vehs k -> l_lanes k' = l_lanes k -> l_dpl k' = l_dpl k ->
  (forall z, In z (l_vehs k) -> v_x (V w' z) = v_x (V w z)) -> has_space c w k = true -> has_space c w' k' = true.
Proof.
  intros c w w' k k' E1 E2 E3 Ex H. unfold has_space in *. rewrite E1, E2, E3. apply orb_true_iff in H. apply orb_true_iff.
  destruct H as [H|H]; [auto|right]. destruct (from_end (l_vehs k) (l_lanes k)) as [u|] eqn:E; [|discriminate].
  rewrite Ex; [exact H|]. unfold from_end in E. destruct (_ <=? _) in E; [|discriminate]. eapply nth_error_In; eauto.
Qed.
Lemma space_tail : forall c w w' k k' u rest, l_vehs k = u :: rest -> l_vehs k' = rest -> 1 <= l_lanes k -> l_lanes k' = l_lanes k -> l_dpl k' = l_dpl k ->
  (forall z, In z rest -> v_x (V w' z) = v_x (V w z)) -> has_space c w k = true -> has_space c w' k' = true.
Proof.
  intros c w w' k k' u rest E0 E1 Hl E2 E3 Ex H. unfold has_space in *. rewrite E1, E2, E3. rewrite E0 in H.
  apply orb_true_iff in H. apply orb_true_iff. rewrite Nat.ltb_lt in *. cbn [List.length] in H.
  destruct (Nat.lt_ge_cases (List.length rest) (l_lanes k)) as [K|K]; [auto|right].
  destruct H as [H|H]; [lia|]. rewrite from_end_nth in H by (cbn [List.length]; lia). rewrite from_end_nth by lia.
  cbn [List.length] in H. replace (S (List.length rest) - l_lanes k) with (S (List.length rest - l_lanes k)) in H by lia.
  cbn [nth_error] in H. destruct (nth_error rest _) as [z|] eqn:E; [|discriminate].
  rewrite Ex; [exact H|]. eapply nth_error_In; eauto.
Qed.

(** ** Waiting with an open way *)
Record Hold (c : cfg) (n : nid) (out : lid) (v : vid) (l : lid) (w : world) (p : pend) : Prop := mkHold {
  ho_cand : merge_candidate c w n out v l;
  ho_space : has_space c w (L w out) = true;
  ho_cin : (dN c <= l_cinr (L w out))%Q;
  ho_pend : forall u o, p = Some (u, o) -> u <> v /\ o <> out }.

Lemma in_link_vehs : forall c w la cd rest k, l_vehs (in_link c w la cd rest k) = rest. Proof. reflexivity. Qed.
Lemma in_link_same : forall c w la cd rest k, l_lanes (in_link c w la cd rest k) = l_lanes k /\ l_dpl (in_link c w la cd rest k) = l_dpl k /\
  l_cinr (in_link c w la cd rest k) = l_cinr k /\ l_group (in_link c w la cd rest k) = l_group k.
Proof. repeat split. Qed.
Lemma out_link_same : forall c w v ca k, l_vehs (out_link c w v ca k) = l_vehs k /\ l_coutr (out_link c w v ca k) = l_coutr k /\ l_group (out_link c w v ca k) = l_group k.
Proof. repeat split. Qed.
Lemma end_link_same : forall c w la cd rest k, l_vehs (end_link c w la cd rest k) = rest /\ l_lanes (end_link c w la cd rest k) = l_lanes k /\ l_dpl (end_link c w la cd rest k) = l_dpl k /\
  l_cinr (end_link c w la cd rest k) = l_cinr k.
Proof. repeat split. Qed.
Lemma charge_same : forall c nd, n_incoming (charge c nd) = n_incoming nd /\ n_phase (charge c nd) = n_phase nd /\ n_signal (charge c nd) = n_signal nd.
Proof. intros. unfold charge. destruct (n_fcap nd); repeat split. Qed.
Lemma fol_same : forall a o v, v_next (sv_follower o a) = v_next a /\ v_link (sv_follower o a) = v_link a /\ v_x (sv_follower o a) = v_x a /\
  v_next (sv_leader v a) = v_next a /\ v_link (sv_leader v a) = v_link a /\ v_x (sv_leader v a) = v_x a.
Proof. repeat split. Qed.

Lemma hold_step : forall c n out v l e w p w' p', k_transfer e = true -> onto out e = false -> e <> VClear n ->
  Inv2 w p -> IncA w p -> Ends w p -> mstep c e w p w' p' -> Hold c n out v l w p -> Hold c n out v l w' p'.
Proof.
  intros c n out v l e w p w' p' Ke Ko Kc I J En M Ho.
  destruct Ho as [(Ci & Cl & Ch & Cx & Cg & Co) Hs Hc Hp].
  destruct I as [[T Si] NI] eqn:EI. clear EI. assert (I0 : Inv2 w p) by (split; [split|]; assumption).
  assert (Hv : v < w_nv w) by exact (proj1 (ia_in _ _ J n v Ci)).
  pose proof (mstep_eff c e w p w' p' I0 M) as H.
  assert (Hlan : 1 <= l_lanes (L w out)).
  { destruct (l_vehs (L w out)) as [|v0 r0] eqn:Ev.
    - unfold has_space in Hs. rewrite Ev in Hs. cbn [List.length] in Hs. apply orb_true_iff in Hs. destruct Hs as [Hs|Hs].
      + apply Nat.ltb_lt in Hs. lia.
      + unfold from_end in Hs. cbn [List.length] in Hs. destruct (_ <=? 0); [|discriminate]. destruct (0 - _); discriminate.
    - assert (K : In v0 (Dq w p out)) by (unfold Dq; rewrite Ev; left; reflexivity).
      apply (s_D Si) in K. destruct K as (K1 & K2 & K3 & K4). destruct (s_link Si K1 K4) as [K5 _].
      destruct (K5 K2) as (l' & K6 & K7). assert (l' = out) by congruence. subst l'. exact (t_lanes T K7). }
  destruct e; try discriminate Ke; cbn [eff] in H.
  - (* VDraw *) destruct H as (-> & -> & SV & SL & SN & _).
    constructor; [|rewrite SL; eapply space_same; [..|exact Hs]; auto; intros; rewrite SV; reflexivity|rewrite SL; exact Hc|exact Hp].
    unfold merge_candidate. rewrite SN, SV, SL. repeat split; assumption.
  - (* VShift *) cbn [onto] in Ko. apply Nat.eqb_neq in Ko.
    destruct H as (-> & -> & cd & ca & rest & q & H).
    destruct H as (Hn & Hi & Hnx & Ho & Hil & _ & _ & _ & _ & _ & Hlk & Hr & _ & _ & Hvs & _ & _ & HN & _ & HL & _ & _ & HV).
    rename v0 into u, out0 into o.
    assert (Nu : u <> v) by (intros ->; congruence).
    assert (Nl : l <> il) by (intros ->; rewrite Hvs in Ch; cbn in Ch; congruence).
    assert (Ev : v_next (V w' v) = v_next (V w v) /\ v_link (V w' v) = v_link (V w v)).
    { rewrite HV by auto. cbv zeta. destruct (opt_eqb _ _); destruct (opt_eqb _ _); split; reflexivity. }
    destruct Ev as [Ev1 Ev2].
    assert (Ex : forall z, z <> u -> v_x (V w' z) = v_x (V w z)).
    { intros z Hz. rewrite HV by auto. cbv zeta. destruct (opt_eqb _ _); destruct (opt_eqb _ _); reflexivity. }
    assert (EL : L w' l = if Nat.eqb l o then out_link c w u ca (L w l) else L w l).
    { rewrite HL. cbv zeta. apply Nat.eqb_neq in Nl. rewrite Nl. reflexivity. }
    assert (EL' : l_vehs (L w' l) = l_vehs (L w l) /\ l_coutr (L w' l) = l_coutr (L w l) /\ l_group (L w' l) = l_group (L w l)).
    { rewrite EL. destruct (Nat.eqb l o); repeat split. }
    destruct EL' as (El1 & El2 & El3).
    assert (EN : n_incoming (N w' n) = n_incoming (N w n) /\ n_phase (N w' n) = n_phase (N w n) /\ n_signal (N w' n) = n_signal (N w n)).
    { rewrite HN. destruct (Nat.eqb n n0) eqn:E; [|repeat split]. apply Nat.eqb_eq in E. subst. apply charge_same. }
    destruct EN as (En1 & En2 & En3).
    assert (Eo : L w' out = if Nat.eqb out il then in_link c w (v_larr (V w u)) cd rest (L w out) else L w out).
    { rewrite HL. cbv zeta. assert (X : Nat.eqb out o = false) by (apply Nat.eqb_neq; auto). rewrite X. reflexivity. }
    constructor.
    + unfold merge_candidate. rewrite En1, En2, En3, Ev1, Ev2, El1, El2, El3. repeat split; assumption.
    + rewrite Eo. destruct (Nat.eqb out il) eqn:E.
      * apply Nat.eqb_eq in E. subst il. eapply space_tail; [exact Hvs| | | | | |exact Hs]; auto.
        intros z Hz. apply Ex. intros ->. pose proof (s_D_nd Si out) as Nd. rewrite Dq_none, Hvs in Nd. inversion Nd. contradiction.
      * eapply space_same; [..|exact Hs]; auto. intros z Hz. apply Ex. intros ->. apply Nat.eqb_neq in E.
        assert (K : In u (Dq w None out)) by (rewrite Dq_none; exact Hz). apply (s_D Si) in K. destruct K as (_ & _ & K & _). congruence.
    + rewrite Eo. destruct (Nat.eqb out il); exact Hc.
    + intros a b E. injection E as <- <-. auto.
  - (* VEnd *) destruct H as (-> & rest & cd & lg & tl & Hvs & Hf & Hlk & Hr & Hl0 & _ & _ & _ & SN & _ & HL & HV & _ & _ & _).
    rename v0 into u, l0 into k.
    assert (Nu : u <> v).
    { intros ->. destruct (eo_flag _ _ (En v Hv) Hr Hf) as [X|(X1 & l' & X2 & X3)].
      - destruct (eo_abort _ _ (En v Hv) Hr X) as (l' & _ & _ & Y). congruence.
      - assert (l' = l) by congruence. subst l'. apply (ia_dest _ _ J n v Ci X1).
        destruct (ia_in _ _ J n v Ci) as (_ & [(l' & (_ & Y & _) & Z & _)|[(o & Y)|[Y|Y]]]); try congruence.
        destruct (Hp v o Y); congruence. }
    assert (Nl : l <> k) by (intros ->; rewrite Hvs in Ch; cbn in Ch; congruence).
    assert (Ev : forall z, z <> u -> v_next (V w' z) = v_next (V w z) /\ v_link (V w' z) = v_link (V w z) /\ v_x (V w' z) = v_x (V w z)).
    { intros z Hz. rewrite HV by auto. destruct (opt_eqb _ _); repeat split. }
    destruct (Ev v ltac:(auto)) as (Ev1 & Ev2 & _).
    assert (EL : L w' l = L w l) by (rewrite HL; apply Nat.eqb_neq in Nl; rewrite Nl; reflexivity).
    constructor.
    + unfold merge_candidate. rewrite SN, Ev1, Ev2, EL. repeat split; assumption.
    + rewrite HL. destruct (Nat.eqb out k) eqn:E.
      * apply Nat.eqb_eq in E. subst k. eapply space_tail; [exact Hvs| | | | | |exact Hs]; auto.
        intros z Hz. apply Ev. intros ->. pose proof (s_D_nd Si out) as Nd. unfold Dq in Nd. rewrite Hvs in Nd. cbn [app] in Nd.
        inversion Nd as [|? ? X Y]; subst. apply X. apply in_or_app. left; exact Hz.
      * eapply space_same; [..|exact Hs]; auto. intros z Hz. apply Ev. intros ->. apply Nat.eqb_neq in E.
        assert (K : In u (Dq w p out)) by (unfold Dq; apply in_or_app; left; exact Hz). apply (s_D Si) in K. destruct K as (_ & _ & K & _). congruence.
    + rewrite HL. destruct (Nat.eqb out k) eqn:E; [apply Nat.eqb_eq in E; subst k|]; exact Hc.
    + exact Hp.
  - (* VAppend *) destruct H as (-> & -> & SV & _ & _ & HL & HN & _). rename v0 into u, out0 into o.
    destruct (Hp u o eq_refl) as [Nu No].
    constructor.
    + unfold merge_candidate. rewrite SV, HL, HN. split.
      { destruct (Nat.eqb n n0) eqn:E; [|exact Ci]. cbn [n_incoming sn_incoming]. apply remove_first_In; [exact Nu|exact Ci]. }
      split; [exact Cl|]. split. { destruct (Nat.eqb l o); [|exact Ch]. cbn [l_vehs sl_vehs]. destruct (l_vehs (L w l)); [discriminate|exact Ch]. }
      split; [exact Cx|]. split; [|destruct (Nat.eqb l o); exact Co].
      destruct (Nat.eqb l o); destruct (Nat.eqb n n0); exact Cg.
    + rewrite HL. assert (X : Nat.eqb out o = false) by (apply Nat.eqb_neq; auto). rewrite X.
      eapply space_same; [..|exact Hs]; auto. intros. rewrite SV. reflexivity.
    + rewrite HL. assert (X : Nat.eqb out o = false) by (apply Nat.eqb_neq; auto). rewrite X. exact Hc.
    + discriminate.
  - (* VClear *) destruct H as (-> & -> & SV & SL & _ & _ & HN).
    assert (E : N w' n = N w n). { rewrite HN. destruct (Nat.eqb n n0) eqn:E; [|reflexivity]. apply Nat.eqb_eq in E. subst. congruence. }
    constructor; [|rewrite SL; eapply space_same; [..|exact Hs]; auto; intros; rewrite SV; reflexivity|rewrite SL; exact Hc|exact Hp].
    unfold merge_candidate. rewrite E, SV, SL. repeat split; assumption.
Qed.

(** ** Traces of transfers *)
Lemma tr_first : forall e, k_transfer e = true -> k_first e = true.
Proof. intros [] H; try discriminate H; reflexivity. Qed.
Lemma ktr_transfer : forall n e, k_tr n e = true -> k_transfer e = true.
Proof. intros n [] H; try discriminate H; reflexivity. Qed.

Definition Good (w : world) (p : pend) : Prop := Inv2 w p /\ IncA w p /\ Ends w p.
Lemma good_step : forall c e w p w' p', k_transfer e = true -> Good w p -> mstep c e w p w' p' -> Good w' p'.
Proof.
  intros c e w p w' p' Ke (I & J & En) M. split; [eapply mstep_Inv2; eauto|]. split.
  - eapply IncA_step; eauto. apply tr_first; exact Ke.
  - eapply Ends_step; [|exact I|exact En|exact M]. auto.
Qed.
Lemma good_trace : forall c es w p w' p', trace c es w p w' p' -> Forall (fun e => k_transfer e = true) es -> Good w p -> Good w' p'.
Proof.
  intros c es w p w' p' T; induction T as [|e es w p w1 p1 w2 p2 M T IH]; intros F G; [exact G|].
  inversion F; subst. apply IH; auto. eapply good_step; eauto.
Qed.

Lemma hold_trace : forall c n out v l es w p w' p', trace c es w p w' p' -> Forall (fun e => k_transfer e = true) es ->
  shifts out es = 0 -> ~ In (VClear n) es -> Good w p -> Hold c n out v l w p -> Hold c n out v l w' p'.
Proof.
  intros c n out v l es w p w' p' T; induction T as [|e es w p w1 p1 w2 p2 M T IH]; intros F Z Nc G H; [exact H|].
  inversion F; subst. unfold shifts in Z. cbn [filter] in Z. destruct (onto out e) eqn:Eo; [discriminate Z|].
  apply IH; auto.
  - intro K. apply Nc. right; exact K.
  - eapply good_step; eauto.
  - destruct G as (I & J & En). eapply hold_step; eauto. intros ->. apply Nc. left; reflexivity.
Qed.

(** a spent node stays spent *)
Lemma spent_step : forall c n e w p w' p', k_transfer e = true -> Inv2 w p -> mstep c e w p w' p' -> node_spent c w n -> node_spent c w' n.
Proof.
  intros c n e w p w' p' Ke I M H. unfold node_spent in *. pose proof (mstep_eff c e w p w' p' I M) as E.
  destruct e; try discriminate Ke; cbn [eff] in E.
  - destruct E as (_ & _ & _ & _ & E & _). rewrite E. exact H.
  - destruct E as (_ & _ & cd & ca & rest & q & E). do 9 (destruct E as [_ E]). destruct E as (E0 & E). do 7 (destruct E as [_ E]). destruct E as (E & _).
    rewrite E. destruct (Nat.eqb n n0) eqn:En; [|exact H]. apply Nat.eqb_eq in En. subst. exfalso. lra.
  - destruct E as (_ & rest & cd & lg & tl & E). do 8 (destruct E as [_ E]). destruct E as (E & _). rewrite E. exact H.
  - destruct E as (_ & _ & _ & _ & _ & _ & E & _). rewrite E. destruct (Nat.eqb n n0) eqn:En; [|exact H]. exact H.
  - destruct E as (_ & _ & _ & _ & _ & _ & E). rewrite E. destruct (Nat.eqb n n0) eqn:En; [|exact H]. exact H.
Qed.
Lemma spent_trace : forall c n es w p w' p', trace c es w p w' p' -> Forall (fun e => k_transfer e = true) es -> Inv2 w p ->
  node_spent c w n -> node_spent c w' n.
Proof.
  intros c n es w p w' p' T; induction T as [|e es w p w1 p1 w2 p2 M T IH]; intros F I H; [exact H|].
  inversion F; subst. apply IH; auto; [eapply mstep_Inv2; eauto|eapply spent_step; eauto].
Qed.

(** ** One node *)
(** what a stretch of transfers achieves for link [out] at node [n] *)
Definition served_tr (c : cfg) (n : nid) (out : lid) (w w' : world) : Prop :=
  (exists es, Forall (fun e => k_transfer e = true) es /\ trace c es w None w' None /\ 1 <= shifts out es) \/ node_spent c w' n.

Lemma served_before : forall c n out es w w1 w2, trace c es w None w1 None -> Forall (fun e => k_transfer e = true) es ->
  served_tr c n out w1 w2 -> served_tr c n out w w2.
Proof.
  intros c n out es w w1 w2 T F [(es2 & F2 & T2 & S2)|S]; [left|right; exact S].
  exists (es ++ es2). split; [apply Forall_app; auto|]. split; [eapply trace_app; eauto|]. rewrite shifts_app. lia.
Qed.
Lemma served_after : forall c n out es w w1 w2, Inv2 w1 None -> trace c es w1 None w2 None -> Forall (fun e => k_transfer e = true) es ->
  served_tr c n out w w1 -> served_tr c n out w w2.
Proof.
  intros c n out es w w1 w2 I T F [(es2 & F2 & T2 & S2)|S].
  - left. exists (es2 ++ es). split; [apply Forall_app; auto|]. split; [eapply trace_app; eauto|]. rewrite shifts_app. lia.
  - right. eapply spent_trace; eauto.
Qed.

Lemma trial_served : forall c n out v l w w', n < w_nn w -> Good w None -> Hold c n out v l w None -> transfer_trial c n out w = Ok w' ->
  served_tr c n out w w'.
Proof.
  intros c n out v l w w' Hn G [Hc Hs Hi Hp] H. unfold transfer_trial in H.
  destruct (qle (dN c) (n_fcapr (N w n))) eqn:Ef.
  2: { right. rewrite andb_false_r in H. injection H as <-. unfold node_spent. apply qle_false in Ef. exact Ef. }
  left. apply qle_iff in Hi. rewrite Hs, Hi in H. cbn [andb] in H.
  apply bind_ok in H. destruct H as (vs & E1 & H). pose proof (filterM_ok _ _ _ _ E1) as Hf. cbv beta in Hf.
  assert (Hin : In v vs). { apply Hf. destruct Hc as (Hc1 & Hc). split; [exact Hc1|]. apply candidate_spec; [exact Hc1|]. exists l. split; auto. }
  destruct vs as [|v0 vs]; [destruct Hin|].
  apply bind_ok in H. destruct H as ([x w1] & E2 & H).
  apply merge_choice_w in E2. destruct E2 as [Ew Hv]. destruct (filterM_In _ _ _ E1 Hv) as [Hi' Hc'].
  assert (R1 : exists es, Forall (fun e => k_tr n e = true /\ still e = true) es /\ trace c es w None w1 None).
  { destruct Ew as [-> | ->]; [exists []; split; constructor|]. exists [VDraw]. split; [repeat constructor|].
    apply trace_one. constructor. }
  destruct R1 as (es0 & F0 & T0).
  unfold transfer_move in H.
  apply bind_ok in H. destruct H as ([from w2] & E3 & H).
  apply bind_ok in H. destruct H as ([b w3] & E4 & H). injection H as <-.
  destruct (end_front_still c n from w2 b w3 (Some (x, out)) E4) as (es & F & T).
  exists (es0 ++ VShift n out x from :: es ++ [VAppend n out x]). split; [|split].
  - apply Forall_app. split; [eapply Forall_impl; [|exact F0]; cbn; intros e [He _]; exact (ktr_transfer _ _ He)|].
    constructor; [reflexivity|]. apply Forall_app. split; [eapply Forall_impl; [|exact F]; cbn; intros e [He _]; exact (ktr_transfer _ _ He)|].
    constructor; [reflexivity|constructor].
  - eapply trace_app; [exact T0|]. econstructor.
    + eapply m_shift; [| | | | | |exact E3].
      all: destruct Ew as [-> | ->]; assumption.
    + eapply trace_app; [exact T|]. apply trace_one. constructor.
      rewrite (end_front_N _ _ _ E4), (transfer_shift_incoming _ _ _ _ _ E3).
      destruct Ew as [-> | ->]; exact Hi'.
  - rewrite shifts_app. unfold shifts at 2. cbn [filter onto]. rewrite Nat.eqb_refl. cbn [List.length]. lia.
Qed.

Lemma all_transfer : forall n es, Forall (fun e => k_tr n e = true) es -> Forall (fun e => k_transfer e = true) es.
Proof. intros n es F. eapply Forall_impl; [|exact F]. intros e. apply ktr_transfer. Qed.

(** trials do not clear the waiting lists *)
Definition k_trial (n : nid) (e : ev) : bool := match e with VClear _ => false | _ => k_tr n e end.
Lemma trial_trace : forall c n o w w', n < w_nn w -> transfer_trial c n o w = Ok w' ->
  exists es, Forall (fun e => k_trial n e = true) es /\ trace c es w None w' None /\ forall out, o <> out -> shifts out es = 0.
Proof.
  intros c n out w w' Hn H. unfold transfer_trial in H.
  assert (Nil : exists es, Forall (fun e => k_trial n e = true) es /\ trace c es w None w None /\ forall o, out <> o -> shifts o es = 0).
  { exists []. split; [constructor|]. split; [constructor|]. reflexivity. }
  destruct (has_space c w (L w out) && qle (dN c) (l_cinr (L w out)) && qle (dN c) (n_fcapr (N w n))) eqn:Eg;
    [|injection H as <-; exact Nil].
  apply andb_true_iff in Eg. destruct Eg as [Eg Eg3]. apply andb_true_iff in Eg. destruct Eg as [Eg1 Eg2].
  apply bind_ok in H. destruct H as (vs & E1 & H).
  destruct vs as [|v0 vs]; [injection H as <-; exact Nil|]. clear Nil.
  apply bind_ok in H. destruct H as ([v w1] & E2 & H).
  apply merge_choice_w in E2. destruct E2 as [Ew Hv]. destruct (filterM_In _ _ _ E1 Hv) as [Hi Hc].
  assert (R1 : exists es, Forall (fun e => k_trial n e = true /\ still e = true) es /\ trace c es w None w1 None).
  { destruct Ew as [-> | ->]; [exists []; split; constructor|]. exists [VDraw]. split; [repeat constructor|].
    apply trace_one. constructor. }
  destruct R1 as (es0 & F0 & T0). unfold transfer_move in H.
  apply bind_ok in H. destruct H as ([from w2] & E3 & H).
  apply bind_ok in H. destruct H as ([b w3] & E4 & H). injection H as <-.
  assert (R2 : exists es, Forall (fun e => k_trial n e = true /\ still e = true) es /\ trace c es w2 (Some (v, out)) w3 (Some (v, out))).
  { unfold end_front in E4. destruct (l_vehs (L w2 from)) as [|u rest] eqn:E.
    - injection E4 as <- <-. exists []. split; constructor.
    - destruct (v_flag (V w2 u)) eqn:Ef.
      + apply bind_ok in E4. destruct E4 as (w4 & E5 & E6). injection E6 as <- <-.
        exists [VEnd u from]. split; [constructor; [split; reflexivity|constructor]|]. apply trace_one. econstructor; eauto.
      + injection E4 as <- <-. exists []. split; constructor. }
  destruct R2 as (es & F & T).
  exists (es0 ++ VShift n out v from :: es ++ [VAppend n out v]). split; [|split].
  - apply Forall_app. split; [eapply Forall_impl; [|exact F0]; cbn; tauto|].
    constructor; [apply Nat.eqb_refl|]. apply Forall_app. split; [eapply Forall_impl; [|exact F]; cbn; tauto|].
    constructor; [apply Nat.eqb_refl|constructor].
  - eapply trace_app; [exact T0|]. econstructor.
    + eapply m_shift; [| | | | | |exact E3].
      all: destruct Ew as [-> | ->]; assumption.
    + eapply trace_app; [exact T|]. apply trace_one. constructor.
      rewrite (end_front_N _ _ _ E4), (transfer_shift_incoming _ _ _ _ _ E3).
      destruct Ew as [-> | ->]; exact Hi.
  - intros o Ho. assert (S0 : Forall (fun e => still e = true) es0) by (eapply Forall_impl; [|exact F0]; cbn; tauto).
    assert (S1 : Forall (fun e => still e = true) (es ++ [VAppend n out v])).
    { apply Forall_app. split; [eapply Forall_impl; [|exact F]; cbn; tauto|repeat constructor]. }
    rewrite shifts_app, (shifts_still o es0 S0). pose proof (shifts_still o _ S1) as Z.
    unfold shifts in *. cbn [filter onto]. apply Nat.eqb_neq in Ho. rewrite Ho. exact Z.
Qed.
Lemma ktrial_transfer : forall n es, Forall (fun e => k_trial n e = true) es -> Forall (fun e => k_transfer e = true) es.
Proof. intros n es F. eapply Forall_impl; [|exact F]. intros [] H; try discriminate H; reflexivity. Qed.
Lemma ktrial_clear : forall n m es, Forall (fun e => k_trial n e = true) es -> ~ In (VClear m) es.
Proof. intros n m es F K. rewrite Forall_forall in F. apply F in K. discriminate K. Qed.

Lemma trials_trace : forall c n os w w', n < w_nn w -> foldM (transfer_trial c n) os w = Ok w' ->
  exists es, Forall (fun e => k_trial n e = true) es /\ trace c es w None w' None.
Proof.
  intros c n os; induction os as [|o os IH]; intros w w' Hn H; cbn [foldM] in H.
  - injection H as <-. exists []. split; constructor.
  - apply bind_ok in H. destruct H as (w1 & E & H). destruct (trial_trace c n o w w1 Hn E) as (e1 & F1 & T1 & _).
    destruct (IH w1 w') as (e2 & F2 & T2); auto. { rewrite (fr_w_nn (trace_fr T1)). exact Hn. }
    exists (e1 ++ e2). split; [apply Forall_app; auto|eapply trace_app; eauto].
Qed.

Lemma trials_served : forall c n out v l os w w', n < w_nn w -> Good w None -> Hold c n out v l w None -> In out os ->
  foldM (transfer_trial c n) os w = Ok w' -> served_tr c n out w w'.
Proof.
  intros c n out v l os; induction os as [|o os IH]; intros w w' Hn G Ho Hin H; cbn [foldM] in H; [destruct Hin|].
  apply bind_ok in H. destruct H as (w1 & E & H). destruct (Nat.eq_dec o out) as [->|Hne].
  - pose proof (trial_served c n out v l w w1 Hn G Ho E) as S.
    destruct (trial_trace c n out w w1 Hn E) as (e1 & F1 & T1 & _).
    pose proof (good_trace _ _ _ _ _ _ T1 (ktrial_transfer _ _ F1) G) as G1.
    destruct (trials_trace c n os w1 w') as (e2 & F2 & T2); [rewrite (fr_w_nn (trace_fr T1)); exact Hn|exact H|].
    eapply served_after; [exact (proj1 G1)|exact T2|exact (ktrial_transfer _ _ F2)|exact S].
  - destruct Hin as [Hin|Hin]; [congruence|].
    destruct (trial_trace c n o w w1 Hn E) as (e1 & F1 & T1 & Z1).
    pose proof (good_trace _ _ _ _ _ _ T1 (ktrial_transfer _ _ F1) G) as G1.
    eapply served_before; [exact T1|exact (ktrial_transfer _ _ F1)|]. apply IH; auto.
    + rewrite (fr_w_nn (trace_fr T1)). exact Hn.
    + eapply hold_trace; [exact T1|exact (ktrial_transfer _ _ F1)|exact (Z1 out Hne)|exact (ktrial_clear _ _ _ F1)|exact G|exact Ho].
Qed.

Lemma nodup_keep_in : forall l seen x, In x l -> ~ In x seen -> In x (nodup_keep seen l).
Proof.
  induction l as [|y l IH]; intros seen x Hx Hs; [destruct Hx|]. cbn. destruct (mem y seen) eqn:E.
  - destruct Hx as [->|Hx]; [apply mem_iff in E; contradiction|]. apply IH; auto.
  - destruct (Nat.eq_dec y x) as [->|Hne]; [left; reflexivity|]. right. destruct Hx as [Hx|Hx]; [congruence|].
    apply IH; auto. intros [K|K]; auto.
Qed.
Lemma out_candidates_in : forall w vs cands v out, out_candidates w vs = Ok cands -> In v vs -> v_next (V w v) = Some (Some out) -> In out cands.
Proof.
  intros w vs cands v out H Hv Hx. unfold out_candidates in H. apply bind_ok in H. destruct H as (nx & E & H). injection H as <-.
  apply nodup_keep_in; [|intros []]. apply in_flat_map. exists (Some out). split; [|left; reflexivity].
  clear - E Hv Hx. revert nx E. induction vs as [|u vs IH]; intros nx E; [destruct Hv|]. cbn in E.
  apply bind_ok in E. destruct E as (a & Ea & E). apply bind_ok in E. destruct E as (b & Eb & E). injection E as <-.
  destruct Hv as [->|Hv]; [|right; apply IH; auto]. left. rewrite Hx in Ea. cbn in Ea. injection Ea as <-. reflexivity.
Qed.

Lemma transfer_served : forall c n out v l w w', n < w_nn w -> Good w None -> Hold c n out v l w None -> transfer c n w = Ok w' ->
  served_tr c n out w w'.
Proof.
  intros c n out v l w w' Hn G Ho H. unfold transfer in H.
  apply bind_ok in H. destruct H as (cands & Ec & H). cbn zeta in H.
  destruct (if c_det c then _ else _) as [outs w1] eqn:Ew.
  apply bind_ok in H. destruct H as (w2 & E2 & H).
  apply bind_ok in H. destruct H as (w3 & E3 & H). injection H as <-.
  assert (Hl : 1 <= l_lanes (L w out)).
  { destruct G as ([[T Si] NI] & J & En). destruct Ho as [(Ci & _ & _ & Cx & _) _ _ _].
    apply (t_lanes T). exact (NI v out Cx). }
  assert (Hin : In out (flat_map (fun k => repeat k (l_lanes (L w k))) cands)).
  { destruct Ho as [(Ci & _ & _ & Cx & _) _ _ _]. apply in_flat_map. exists out. split; [eapply out_candidates_in; eauto|].
    destruct (l_lanes (L w out)); [lia|left; reflexivity]. }
  assert (Hin' : In out outs).
  { destruct (c_det c); injection Ew as <- <-; [exact Hin|]. eapply Permutation_in; [apply shuffle_perm|exact Hin]. }
  assert (R1 : exists es, Forall (fun e => k_trial n e = true) es /\ trace c es w None w1 None /\ shifts out es = 0).
  { destruct (c_det c); injection Ew as <- <-.
    - exists []. split; [constructor|]. split; [constructor|reflexivity].
    - exists [VDraw]. split; [repeat constructor|]. split; [apply trace_one; constructor|reflexivity]. }
  destruct R1 as (e1 & F1 & T1 & Z1).
  pose proof (good_trace _ _ _ _ _ _ T1 (ktrial_transfer _ _ F1) G) as G1.
  assert (Hn1 : n < w_nn w1) by (rewrite (fr_w_nn (trace_fr T1)); exact Hn).
  assert (S2 : served_tr c n out w w2).
  { eapply served_before; [exact T1|exact (ktrial_transfer _ _ F1)|]. eapply trials_served; [exact Hn1|exact G1| |exact Hin'|exact E2].
    eapply hold_trace; [exact T1|exact (ktrial_transfer _ _ F1)|exact Z1|exact (ktrial_clear _ _ _ F1)|exact G|exact Ho]. }
  destruct (trials_trace c n outs w1 w2 Hn1 E2) as (e2 & F2 & T2).
  pose proof (good_trace _ _ _ _ _ _ T2 (ktrial_transfer _ _ F2) G1) as G2.
  assert (R3 : run c (fun e => k_tr n e && still e)%bool w2 w3).
  { eapply foldM_run with (P := fun _ w => True); [| intros; exact Logic.I | intros; exact Logic.I |exact E3].
    intros l0 a a0 _ _ F. exact (end_fronts_still _ _ _ _ _ _ F). }
  destruct R3 as (e3 & F3 & T3).
  eapply (served_after c n out (e3 ++ [VClear n])); [exact (proj1 G2)|eapply trace_app; [exact T3|apply trace_one; constructor]| |exact S2].
  apply Forall_app. split; [|repeat constructor]. eapply Forall_impl; [|exact F3]. intros e K. apply andb_true_iff in K. destruct K as [K _]. exact (ktr_transfer _ _ K).
Qed.

(** ** All nodes *)
Lemma nodes_served : forall c n out v l ns w w', NoDup ns -> (forall m, In m ns -> m < w_nn w) -> In n ns -> Good w None -> Hold c n out v l w None ->
  foldM (transfer c) ns w = Ok w' -> served_tr c n out w w'.
Proof.
  intros c n out v l ns; induction ns as [|m ns IH]; intros w w' Nd Hns Hin G Ho H; cbn [foldM] in H; [destruct Hin|].
  apply bind_ok in H. destruct H as (w1 & E & H). inversion Nd as [|? ? Nm Nd']; subst.
  destruct (transfer_shifts c m w w1 (Hns m (or_introl eq_refl)) E) as (e1 & F1 & T1 & _).
  pose proof (all_transfer _ _ F1) as A1. pose proof (good_trace _ _ _ _ _ _ T1 A1 G) as G1.
  assert (Hns' : forall k, In k ns -> k < w_nn w1) by (intros k Hk; rewrite (fr_w_nn (trace_fr T1)); apply Hns; right; exact Hk).
  assert (R2 : exists e2, Forall (fun e => k_transfer e = true) e2 /\ trace c e2 w1 None w' None).
  { clear - H Hns'. revert w1 Hns' H. induction ns as [|k ns IH]; intros w1 Hns' H; cbn [foldM] in H.
    - injection H as <-. exists []. split; constructor.
    - apply bind_ok in H. destruct H as (w2 & E & H). destruct (transfer_shifts c k w1 w2 (Hns' k (or_introl eq_refl)) E) as (e & F & T & _).
      destruct (IH w2) as (e2 & F2 & T2); [|exact H|].
      { intros z Hz. rewrite (fr_w_nn (trace_fr T)). apply Hns'. right; exact Hz. }
      exists (e ++ e2). split; [apply Forall_app; split; [exact (all_transfer _ _ F)|exact F2]|eapply trace_app; eauto]. }
  destruct R2 as (e2 & F2 & T2).
  destruct (Nat.eq_dec m n) as [->|Hne].
  - eapply served_after; [exact (proj1 G1)|exact T2|exact F2|]. eapply transfer_served; [|exact G|exact Ho|exact E]. apply Hns. left; reflexivity.
  - destruct Hin as [Hin|Hin]; [congruence|]. destruct (shifts out e1) as [|k] eqn:Es.
    + eapply served_before; [exact T1|exact A1|]. apply IH; auto.
      eapply hold_trace; [exact T1|exact A1|exact Es| |exact G|exact Ho].
      intro K. rewrite Forall_forall in F1. apply F1 in K. cbn in K. apply Nat.eqb_eq in K. congruence.
    + left. exists (e1 ++ e2). split; [apply Forall_app; auto|]. split; [eapply trace_app; eauto|]. rewrite shifts_app. lia.
Qed.

(** ** From an entry to the vehicle that entered *)
Lemma shifts_split : forall out es, 1 <= shifts out es -> exists e1 m u il e2, es = e1 ++ VShift m out u il :: e2.
Proof.
  intros out es; induction es as [|e es IH]; intro H; [cbn in H; lia|]. destruct (onto out e) eqn:Eo.
  - destruct e; try discriminate Eo. cbn [onto] in Eo. apply Nat.eqb_eq in Eo. subst. exists []. do 4 eexists. reflexivity.
  - unfold shifts in *. cbn [filter] in H. rewrite Eo in H. destruct (IH H) as (e1 & m & u & il & e2 & ->).
    exists (e :: e1), m, u, il, e2. reflexivity.
Qed.
Lemma trace_split : forall c e1 e es w p w' p', trace c (e1 ++ e :: es) w p w' p' ->
  exists m q m' q', trace c e1 w p m q /\ mstep c e m q m' q' /\ trace c es m' q' w' p'.
Proof.
  intros c e1; induction e1 as [|a e1 IH]; intros e es w p w' p' T; cbn [app] in T; inversion T; subst.
  - exists w, p, w1, p1. split; [constructor|auto].
  - match goal with K : trace c (_ ++ _) _ _ _ _ |- _ => apply IH in K; destruct K as (m & q & m' & q' & K1 & K2 & K3) end.
    exists m, q, m', q'. split; [econstructor; eauto|auto].
Qed.
Lemma quiet_all : forall c es w p w' p' v, trace c es w p w' p' -> Forall (fun e => k_transfer e = true) es -> Good w p -> Ride.quiet w p v ->
  Ride.quiet w' p' v.
Proof.
  intros c es w p w' p' v T; induction T as [|e es w p w1 p1 w2 p2 M T IH]; intros F G Q; [exact Q|].
  inversion F as [|? ? F1 F2]; subst. pose proof G as (I & J & _).
  destruct (quiet_step c e w p w1 p1 v (tr_first _ F1) I J Q M) as (_ & Q1 & _). apply IH; auto. eapply good_step; eauto.
Qed.
Lemma before_shift : forall c es w p w' p' v, trace c es w p w' p' -> Forall (fun e => k_transfer e = true) es -> Good w p -> v < w_nv w ->
  (forall n out il m' q', mstep c (VShift n out v il) w' p' m' q' -> vride (V w' v) = vride (V w v)).
Proof.
  intros c es w p w' p' v T; induction T as [|e es w p w1 p1 w2 p2 M T IH]; intros F G Hv n out il m' q' Ms; [reflexivity|].
  inversion F as [|? ? F1 F2]; subst. pose proof G as (I & J & En). pose proof (good_step _ _ _ _ _ _ F1 G M) as G1.
  destruct (touches v e) eqn:Et.
  - exfalso. pose proof (touch_quiet c e w p w1 p1 v I J (En v Hv) Hv M Et) as Q.
    pose proof (quiet_all _ _ _ _ _ _ v T F2 G1 Q) as Q2. pose proof (good_trace _ _ _ _ _ _ T F2 G1) as (I2 & J2 & _).
    destruct (quiet_step c _ _ _ _ _ v (eq_refl : k_first (VShift n out v il) = true) I2 J2 Q2 Ms) as (K & _).
    cbn [touches] in K. rewrite Nat.eqb_refl in K. discriminate.
  - pose proof (untouched c e w p w1 p1 v (tr_first _ F1) I M Et) as E.
    rewrite <- E. eapply IH; eauto. rewrite (fr_w_nv (mstep_fr M)). exact Hv.
Qed.
Lemma inc_trace : forall c es w p w' p', trace c es w p w' p' -> Forall (fun e => k_transfer e = true) es -> Good w p ->
  forall n v, In v (n_incoming (N w' n)) -> In v (n_incoming (N w n)).
Proof.
  intros c es w p w' p' T; induction T as [|e es w p w1 p1 w2 p2 M T IH]; intros F G n v H; [exact H|].
  inversion F as [|? ? F1 F2]; subst. pose proof (good_step _ _ _ _ _ _ F1 G M) as G1.
  eapply first_inc; [exact (tr_first _ F1)|exact (proj1 G)|exact M|]. eapply IH; eauto.
Qed.
Lemma transfer_T : forall c es w p w' p', trace c es w p w' p' -> Forall (fun e => k_transfer e = true) es -> now c w' = now c w.
Proof. intros c es w p w' p' T F. unfold now. rewrite (fr_w_T (trace_fr T)). reflexivity. Qed.

Lemma moved_link : forall c w out ld ln q a, v_link (moved c w out ld ln q a) = Some out /\ v_larr (moved c w out ld ln q a) = now c w.
Proof. split; reflexivity. Qed.
Lemma entry_passed : forall c out es w w', Good w None -> Forall (fun e => k_transfer e = true) es -> trace c es w None w' None -> 1 <= shifts out es ->
  exists m u, passed c w w' m u out.
Proof.
  intros c out es w w' G F T Hs. destruct (shifts_split out es Hs) as (e1 & m & u & il & e2 & ->).
  apply Forall_app in F. destruct F as [F1 F2]. inversion F2 as [|? ? Fe F3]; subst.
  destruct (trace_split _ _ _ _ _ _ _ _ T) as (a & q & b & q' & T1 & M & T2).
  pose proof (good_trace _ _ _ _ _ _ T1 F1 G) as Ga. pose proof (good_step _ _ _ _ _ _ Fe Ga M) as Gb.
  pose proof (good_trace _ _ _ _ _ _ T2 F3 Gb) as G'.
  pose proof Ga as (Ia & Ja & Ea). pose proof Gb as (Ib & Jb & _).
  pose proof (mstep_eff c _ _ _ _ _ Ia M) as H. cbn [eff] in H.
  destruct H as (-> & -> & cd & ca & rest & z & H).
  destruct H as (_ & Hi & Hnx & _ & _ & _ & _ & _ & _ & _ & _ & Hr & _ & _ & _ & _ & _ & _ & _ & _ & _ & Hv & _).
  assert (Hu : u < w_nv a) by exact (proj1 (ia_in _ _ Ja m u Hi)).
  assert (Hu0 : u < w_nv w) by (rewrite <- (fr_w_nv (trace_fr T1)); exact Hu).
  pose proof (before_shift _ _ _ _ _ _ u T1 F1 G Hu0 _ _ _ _ _ M) as E0.
  pose proof (touch_quiet c _ _ _ _ _ u Ia Ja (Ea u Hu) Hu M (Nat.eqb_refl u)) as Q.
  assert (F3' : Forall (fun e => k_first e = true) e2) by (eapply Forall_impl; [|exact F3]; exact tr_first).
  pose proof (quiet_trace c e2 b _ w' None u T2 F3' Ib Jb Q) as E1.
  apply vride_eq in E0. apply vride_eq in E1.
  destruct (moved_link c a out (t_leader a out (out_vehs a il out rest)) (t_lane a out (out_vehs a il out rest)) z (V a u)) as [L1 L2].
  rewrite <- Hv in L1, L2.
  assert (S1 : v_state (V w' u) = Run).
  { assert (K : v_state (V w' u) = v_state (V b u)) by intuition congruence. rewrite K, Hv, moved_state. exact Hr. }
  assert (S2 : v_link (V w' u) = Some out) by (transitivity (v_link (V b u)); [intuition congruence|exact L1]).
  exists m, u. split; [eapply inc_trace; eauto|]. split; [transitivity (v_next (V a u)); [symmetry; intuition congruence|exact Hnx]|].
  split; [exact S1|]. split; [exact S2|]. split.
  - transitivity (v_larr (V b u)); [intuition congruence|]. rewrite L2. eapply transfer_T; eauto.
  - destruct G' as ([[_ Si] _] & _). assert (K : In u (Dq w' None out)).
    { apply (s_D Si). split; [|split; [exact S1|split; [exact S2|discriminate]]].
      rewrite (fr_w_nv (trace_fr T)). exact Hu0. }
    rewrite Dq_none in K. exact K.
Qed.

(** The state before the transfers of a timestep. *)
Lemma ready_good : forall c w w1 w2, Inv2 w None -> IncB w -> Ends w None -> phase_links c w = Ok w1 -> phase_nodes c w1 = Ok w2 -> Good w2 None.
Proof.
  intros c w w1 w2 I B En E1 E2. apply phase_links_run in E1. apply phase_nodes_run in E2.
  assert (R : run c k_first w w2).
  { eapply run_trans; eapply run_weaken; try eassumption; intros [] K; try discriminate K; reflexivity. }
  split; [exact (run_Inv2' _ _ _ _ I R)|]. pose proof (IncOK_A _ (ib_ok _ B)) as JA.
  destruct (run_with c (fun x p => IncA x p /\ Ends x p) k_first) with (w := w) (w' := w2) as (_ & K1 & K2); auto.
  intros e x p x' p' Ke Ix [Jx Ex] M. split; [eapply IncA_step; eauto|eapply Ends_step; eauto].
Qed.

Theorem progress_lemma : forall c w w1 w2 w3 n out v l, reach c w ->
  phase_links c w = Ok w1 -> phase_nodes c w1 = Ok w2 -> phase_transfer c w2 = Ok w3 ->
  merge_candidate c w2 n out v l -> room c w2 out -> (dN c <= l_cinr (L w2 out))%Q ->
  (exists m u, passed c w2 w3 m u out) \/ node_spent c w3 n.
Proof.
  intros c w w1 w2 w3 n out v l R E1 E2 E3 Hc Hr Hi.
  pose proof (ready_good c w w1 w2 (reach_Inv2 _ _ R) (reach_IncB _ _ R) (reach_Ends _ _ R) E1 E2) as G.
  assert (Hn : n < w_nn w2).
  { destruct G as (_ & J & _). destruct Hc as (Ci & _). destruct (Nat.lt_ge_cases n (w_nn w2)) as [K|K]; [exact K|].
    rewrite (ia_out _ _ J n K) in Ci. destruct Ci. }
  assert (Hl : 1 <= l_lanes (L w2 out)).
  { destruct G as ([[T Si] NI] & _). destruct Hc as (_ & _ & _ & Cx & _). apply (t_lanes T). exact (NI v out Cx). }
  unfold phase_transfer in E3.
  assert (Ho : Hold c n out v l w2 None).
  { constructor; [exact Hc|apply space_room; [exact Hl|exact Hr]|exact Hi|discriminate]. }
  destruct (nodes_served c n out v l (seq 0 (w_nn w2)) w2 w3 (seq_NoDup _ _)) as [(es & F & T & S)|S]; auto.
  - intros m Hm. apply in_seq in Hm. lia.
  - apply in_seq. lia.
  - left. eapply entry_passed; eauto.
Qed.

(** nobody else waits for the link: the vehicle itself passes *)
Theorem sole_lemma : forall c w w1 w2 w3 n out v l, reach c w ->
  phase_links c w = Ok w1 -> phase_nodes c w1 = Ok w2 -> phase_transfer c w2 = Ok w3 ->
  merge_candidate c w2 n out v l -> room c w2 out -> (dN c <= l_cinr (L w2 out))%Q ->
  (forall m u, In u (n_incoming (N w2 m)) -> v_next (V w2 u) = Some (Some out) -> u = v) ->
  passed c w2 w3 n v out \/ node_spent c w3 n.
Proof.
  intros c w w1 w2 w3 n out v l R E1 E2 E3 Hc Hr Hi Hs.
  destruct (progress_lemma c w w1 w2 w3 n out v l R E1 E2 E3 Hc Hr Hi) as [(m & u & P)|P]; [left|right; exact P].
  pose proof P as (P1 & P2 & _). assert (u = v) by exact (Hs m u P1 P2). subst u.
  pose proof (ready_good c w w1 w2 (reach_Inv2 _ _ R) (reach_IncB _ _ R) (reach_Ends _ _ R) E1 E2) as (_ & J & _).
  destruct Hc as (Ci & _). assert (m = n) by (eapply (ia_uniq _ _ J); eauto). subst m. exact P.
Qed.
