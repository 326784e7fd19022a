(** * Lone2: the ride of a lone vehicle (C63). *)
From Verif Require Import Base Types Sim Build Heap Lists Inv FrameBase Tac Frame Eff Eff2 Trace InvStep Reach Steps Effects Phases Attr Life Incoming Vev Ride TripLog Route Signal Green Choice Enforce Counts LinkQueries FD NodeCap Origin Bucket Outflow Trials Motion Spacing Spec Distance Totals Paths SpecDuo Duo Search DuoInv DuoSum Merge SpecProgress Progress Progress2 SpecLone Lone.
Local Open Scope nat_scope.

(** ** The phases before the transfers *)
Lemma nodes_lone : forall c w w' v, Inv2 w None -> alone w v -> run c k_nodes w w' ->
  (v_state (V w' v) = v_state (V w v) /\ forall k, L w' k = L w k) \/ v_state (V w v) = Wait /\ v_state (V w' v) = Run.
Proof.
  intros c w w' v I Al R.
  destruct (run_with c (fun x p => alone x v /\ ((v_state (V x v) = v_state (V w v) /\ forall k, L x k = L w k) \/ v_state (V w v) = Wait /\ v_state (V x v) = Run)) k_nodes)
    with (w := w) (w' := w') as (_ & _ & Z); [|exact I|auto|exact R|exact Z].
  clear w' R. intros e x p x' p' Ke Ix [Ax Jx] M. split; [exact (alone_fr _ _ _ (mstep_fr M) Ax)|].
  pose proof (mstep_eff c e x p x' p' Ix M) as H. destruct e; try discriminate Ke; cbn [eff] in H.
  - destruct H as (_ & _ & SV & SL & _). rewrite SV. destruct Jx as [[J1 J2]|J]; [left; split; [exact J1|intro k; rewrite SL; apply J2]|right; exact J].
  - destruct H as (-> & _ & q & ca & H1 & H2 & _). assert (K : In v0 (n_queue (N x n))) by (rewrite H2; left; reflexivity).
    apply (s_queue (proj2 (proj1 Ix))) in K. destruct K as (K1 & K2 & _). assert (v0 = v) by exact (proj2 Ax v0 K1). subst v0.
    destruct Jx as [[J1 _]|[_ J]]; [|congruence]. right. split; [congruence|].
    pose proof (mstep_vev c _ x None x' p' Ix M v) as Ev.
    destruct Ev as [E|n' out' q' X1 X2 X3 X4 X5 X6 X7 X8|n' out' il q' ld ln X1|l tl lg X1|l X1|X1|X1|X1|l X1|l X1|l nx X1]; try discriminate X1.
    + exfalso. pose proof (s_queue (proj2 (proj1 (mstep_Inv2 _ _ _ _ _ _ Ix M))) n v) as Q. apply vride_eq in E.
      pose proof (mstep_eff c _ x None x' p' Ix M) as H. cbn [eff] in H.
      destruct H as (_ & _ & q' & ca' & _ & H2' & _ & _ & _ & _ & _ & _ & _ & HN & _).
      assert (Qe : In v (n_queue (N x' n))) by (apply Q; repeat split; [rewrite (fr_w_nv (mstep_fr M)); exact K1|transitivity (v_state (V x v)); [tauto|exact K2]|];
        rewrite (fr_v_orig (mstep_fr M)); assert (K : In v (n_queue (N x n))) by (rewrite H2; left; reflexivity); apply (s_queue (proj2 (proj1 Ix))) in K; tauto).
      rewrite HN, Nat.eqb_refl in Qe. pose proof (s_queue_nd (proj2 (proj1 Ix)) n) as Nd. rewrite H2' in Nd. inversion Nd as [|? ? Nn _]; subst.
      apply Nn. cbn in Qe. exact Qe.
    + pose proof (gen_vx c x out' (V x v)) as A. rewrite <- X8 in A. unfold vx in A. congruence.
  - destruct H as (_ & _ & _ & SV & SL & _). rewrite SV. destruct Jx as [[J1 J2]|J]; [left; split; [exact J1|intro k; rewrite SL; apply J2]|right; exact J].
Qed.

Lemma settled_caps : forall c w l, reachP c settled w -> reachP c (keep_cin l) w /\ reachP c (keep_cout l) w.
Proof.
  intros c w l (tm & R). split; exists tm; (eapply later_weaken; [|exact R]); intros o x (_ & Hp & _); destruct o; try exact Logic.I; intros ->;
    edestruct Hp as [H1 H2]; solve [elim H1; reflexivity|elim H2; reflexivity].
Qed.
(** after the update of the links a platoon can enter and leave every link *)
Lemma lone_caps : forall c w w1 l, (0 < dt c)%Q -> (0 <= dN c <= 10e10)%Q -> reachP c settled w -> phase_links c w = Ok w1 -> l < w_nl w -> ample c (L w l) ->
  (dN c <= l_cinr (L w1 l))%Q /\ (dN c <= l_coutr (L w1 l))%Q.
Proof.
  intros c w w1 l Hd [HN _] R E Hl (q & Hc & A1 & A2). destruct (settled_caps c w l R) as [Ri Ro].
  assert (Pos : forall x, (dN c <= x * dt c)%Q -> (0 <= x)%Q).
  { intros x K. destruct (Qlt_le_dec x 0) as [Hx|Hx]; [|exact Hx]. exfalso. nra. }
  destruct (inflow_burst c l w q Ri Hl Hc (Pos q A1) ltac:(lra) HN) as [B1 _].
  destruct (outflow_burst c l w Ro Hl (Pos _ A2) Hd HN) as [B2 _].
  destruct (phase_links_eff _ _ _ E) as (_ & _ & _ & _ & P). destruct (P l Hl) as (d & _ & ->). unfold linked.
  destruct (iofc_remain c (L w l) q Hc) as [X1 X2]. cbn [l_cinr l_coutr sl_cd sl_ca sl_tti]. rewrite X1, X2.
  assert (Ln : (1 <= Qof_nat (l_lanes (L w l)))%Q).
  { pose proof (t_lanes (proj1 (proj1 (reach_Inv2 _ _ (reachP_reach _ _ _ R)))) Hl) as K. unfold Qof_nat. change 1%Q with (inject_Z 1). rewrite <- Zle_Qle. lia. }
  assert (Lim : (dN c <= dN c * Qof_nat (l_lanes (L w l)))%Q) by nra.
  unfold refill. split.
  - destruct (qlt (l_cinr (L w l)) _) eqn:Q; [lra|]. apply qlt_false in Q. lra.
  - destruct (qlt (l_coutr (L w l)) _) eqn:Q; [lra|]. apply qlt_false in Q. lra.
Qed.

Lemma wait_step : forall c v e w p w' p', k_first e = true -> Inv2 w p -> mstep c e w p w' p' -> v_state (V w' v) = Wait -> v_state (V w v) = Wait.
Proof.
  intros c v e w p w' p' Ke I M H. pose proof (mstep_vev c e w p w' p' I M v) as K.
  destruct K as [E|n out q X1 X2 X3 X4 X5 X6 X7 X8|n out il q ld ln X1 X2 X3 X4 X5 X6 X7 X8 X9 X10 X11|l tl lg X1 X2 X3 X4 X5 X6 X7 X8|l X1 X2 X3|X1 X2 X3|X1 X2 X3 X4 X5|X1 X2 X3 X4|l X1 X2 X3 X4|l X1 X2 X3 X4 X5 X6|l nx X1 X2 X3 X4 X5];
    try (subst e; discriminate Ke).
  - apply vride_eq in E. transitivity (v_state (V w' v)); [symmetry; tauto|exact H].
  - exact X4.
  - exfalso. pose proof (moved_vx c w out ld ln q (V w v)) as A. rewrite <- X11 in A. unfold vx in A. congruence.
  - exfalso. apply ended_fields in X8. destruct X8 as (_ & _ & _ & _ & _ & _ & _ & _ & _ & _ & _ & _ & _ & B & _).
    rewrite B in H. destruct (v_aborted (V w v)); discriminate.
Qed.
Lemma wait_run : forall c K v w w', (forall e, K e = true -> k_first e = true) -> Inv2 w None -> run c K w w' -> v_state (V w' v) = Wait -> v_state (V w v) = Wait.
Proof.
  intros c K v w w' HK I R. destruct (run_with c (fun x _ => v_state (V x v) = Wait -> v_state (V w v) = Wait) K) with (w := w) (w' := w') as [_ Z]; auto.
  intros e x p x' p' Ke Ix Jx M H. apply Jx. eapply wait_step; eauto.
Qed.

Lemma one_queue : forall w v n, Inv2 w None -> alone w v -> v_state (V w v) = Wait -> v_orig (V w v) = n -> n_queue (N w n) = [v].
Proof.
  intros w v n [[T Si] _] [Hv A] H1 H2.
  assert (K : In v (n_queue (N w n))) by (apply (s_queue Si); auto).
  assert (All : forall u, In u (n_queue (N w n)) -> u = v) by (intros u Hu; apply (s_queue Si) in Hu; destruct Hu as (Hu & _); exact (A u Hu)).
  pose proof (s_queue_nd Si n) as Nd. destruct (n_queue (N w n)) as [|a [|b D]].
  - destruct K.
  - rewrite (All a) by (left; reflexivity). reflexivity.
  - exfalso. inversion Nd as [|? ? Na _]; subst. apply Na. rewrite (All a), (All b) by (simpl; auto). left; reflexivity.
Qed.

(** a lone vehicle that waits at its origin enters the network *)
Lemma must_enter : forall c w w' w3 w4 v, (0 < dt c)%Q -> (0 <= dN c <= 10e10)%Q -> reachP c settled w -> w_final w = true -> body c w = Ok w' -> alone w v -> free_net c w -> way_on w v ->
  body_view c v w w' w3 w4 -> v_state (V w v) = Wait -> v_state (V w3 v) <> Wait.
Proof.
  intros c w w' w3 w4 v Hd HN RP Hfin Hb Al [FN1 FN2] WO BV Hw Hw3. pose proof (reachP_reach _ _ _ RP) as R.
  pose proof (reach_Inv2 _ _ R) as I. pose proof (proj1 Al) as Hv. unfold exists_veh in Hv.
  destruct (bv_phases _ _ _ _ _ _ BV) as (a1 & a2 & P1 & P2 & P3 & _).
  destruct (origin_lemma c w w' R Hb) as (w1 & w2 & E1 & E2 & Or).
  assert (a1 = w1) by congruence. subst a1. assert (a2 = w2) by congruence. subst a2.
  pose proof (phase_links_run _ _ E1) as R1. pose proof (phase_nodes_run _ _ E2) as R2. pose proof (phase_transfer_run _ _ P3) as R3.
  pose proof (run_Inv2' _ _ _ _ I R1) as I1. pose proof (run_Inv2' _ _ _ _ I1 R2) as I2.
  pose proof (run_fr _ _ _ _ R1) as F1. pose proof (run_fr _ _ _ _ R2) as F2.
  assert (Hw2 : v_state (V w2 v) = Wait) by (eapply wait_run; [|exact I2|exact R3|exact Hw3]; intros [] K; try discriminate K; reflexivity).
  set (n := v_orig (V w v)) in *. assert (Hn : n < w_nn w) by (apply (s_orig (proj2 (proj1 I))); exact Hv).
  destruct (Or n Hn) as (k & new & Q1 & Q2 & Q3 & _). clear Or.
  rewrite (one_queue w v n I Al Hw eq_refl) in Q1, Q2.
  pose proof (alone_fr _ _ _ F1 Al) as Al1. pose proof (alone_fr _ _ _ F2 Al1) as Al2.
  assert (Q4 : n_queue (N w2 n) = [v]).
  { apply (one_queue w2 v n I2 Al2 Hw2). rewrite (fr_v_orig F2), (fr_v_orig F1). reflexivity. }
  assert (k = 0) by (destruct k as [|k]; [reflexivity|]; rewrite Q4 in Q1; cbn in Q1; destruct k; discriminate). subst k.
  assert (Hout : forall l, In l (n_out (N w2 n)) -> l < w_nl w).
  { intros l Hl. apply (t_out (proj1 (proj1 I2))) in Hl. rewrite (fr_w_nl F2), (fr_w_nl F1) in Hl. tauto. }
  destruct Q3 as [Q3|[Q3|(u & q & out & Q5 & Q6 & Q7)]].
  - congruence.
  - assert (Hne : n_out (N w n) <> []) by (intro K; destruct (WO n Hn K) as [_ K']; apply K'; reflexivity).
    destruct (n_out (N w2 n)) as [|l ls] eqn:Eo; [apply Hne; rewrite <- (fr_n_out F1), <- (fr_n_out F2); exact Eo|].
    cbn [map fold_right] in Q3. assert (Hl : l < w_nl w2) by (rewrite (fr_w_nl F2), (fr_w_nl F1); apply Hout; left; reflexivity).
    pose proof (t_lanes (proj1 (proj1 I2)) Hl). lia.
  - assert (u = v) by congruence. subst u. destruct Q6 as (outs & ps & d & z & X1 & X2 & X3).
    assert (Ho : In out (n_out (N w2 n))).
    { eapply gen_outlinks_sub; [exact X1|]. apply choose_pref_w in X3. apply X3. }
    pose proof (Hout out Ho) as Hol. assert (Hl : out < w_nl w2) by (rewrite (fr_w_nl F2), (fr_w_nl F1); exact Hol).
    destruct Q7 as [Q7|Q7].
    + apply Q7. left. rewrite (lone_empty w2 v out I2 Al2) by (intro; congruence). cbn. pose proof (t_lanes (proj1 (proj1 I2)) Hl). lia.
    + destruct (nodes_lone c w1 w2 v I1 Al1 R2) as [[_ EL]|[_ K]]; [|congruence]. rewrite EL in Q7.
      destruct (lone_caps c w w1 out Hd HN RP E1 Hol (proj1 (FN1 out Hol))) as [C1 _]. lra.
Qed.

(** ** The flow capacity of nodes *)
Lemma fcapr_keep : forall c K n w w', (forall e, K e = true -> e <> VNode n) -> Inv2 w None -> n_fcap (N w n) = None -> run c K w w' -> n_fcapr (N w' n) = n_fcapr (N w n).
Proof.
  intros c K n w w' HK I Hf R.
  destruct (run_with c (fun x _ => n_fcap (N x n) = None /\ n_fcapr (N x n) = n_fcapr (N w n)) K) with (w := w) (w' := w') as (_ & _ & Z); auto.
  clear w' R. intros e x p x' p' Ke Ix [J1 J2] M. split; [rewrite (fr_n_fcap (mstep_fr M)); exact J1|]. rewrite <- J2.
  destruct (fcapr_step c e x p x' p' n Ix M (HK e Ke)) as [[E _]|(out & v & il & E & _)]; [exact E|]. subst e.
  pose proof (mstep_eff c _ x p x' p' Ix M) as H. cbn [eff] in H.
  destruct H as (_ & _ & cd & ca & rest & q & _ & _ & _ & _ & _ & _ & _ & _ & _ & _ & _ & _ & _ & _ & _ & _ & _ & HN & _).
  rewrite HN, Nat.eqb_refl. unfold charge. rewrite J1. reflexivity.
Qed.
Lemma update_free : forall c n a b, node_update c n a = Ok b -> n_fcap (N a n) = None -> n_fcapr (N b n) = (10e10)%Q.
Proof.
  intros c n a b H Hf. unfold node_update in H. apply bind_ok in H. destruct H as (n1 & E1 & H).
  apply bind_ok in H. destruct H as (n2 & E2 & H). injection H as <-. rewrite N_at, Nat.eqb_refl.
  assert (X : n_fcap n1 = n_fcap (N a n)).
  { unfold signal_control in E1. cbv zeta in E1. binv E1. destruct (qlt _ _); auto. }
  unfold flow_capacity_update in E2. rewrite X, Hf in E2. injection E2 as <-. reflexivity.
Qed.
Lemma node_open : forall c w1 w2 n, Inv2 w1 None -> phase_nodes c w1 = Ok w2 -> n < w_nn w1 -> n_fcap (N w1 n) = None -> n_fcapr (N w2 n) = (10e10)%Q.
Proof.
  intros c w1 w2 n I1 E2 Hn Hf.
  destruct (gen_split c n (seq 0 (w_nn w1)) w1 w2 E2) as [_ K].
  { apply seq_NoDup. } { intros m Hm. apply in_seq in Hm. lia. }
  destruct K as (a & b & Ra & Eb & Rb). { apply in_seq. lia. }
  pose proof (run_Inv2' _ _ _ _ I1 Ra) as Ia. pose proof (run_fr _ _ _ _ Ra) as Fa.
  pose proof Eb as Eb'. apply bind_ok in Eb. destruct Eb as (b1 & G & U).
  assert (Hna : n < w_nn a) by (rewrite (fr_w_nn Fa); exact Hn).
  destruct (generate_lemma _ _ _ _ Ia Hna G) as (Ib1 & Fb & _).
  assert (Fn : n_fcap (N b1 n) = None) by (rewrite (fr_n_fcap Fb), (fr_n_fcap Fa); exact Hf).
  pose proof (update_free c n b1 b U Fn) as Z.
  assert (M : mstep c (VNode n) b1 None b None) by (constructor; auto; rewrite (fr_w_nn Fb); auto).
  rewrite <- Z. eapply fcapr_keep; [|exact (mstep_Inv2 _ _ _ _ _ _ Ib1 M)|rewrite (fr_n_fcap (mstep_fr M)); exact Fn|exact Rb].
  intros e Ke ->. cbn in Ke. rewrite Nat.eqb_refl in Ke. discriminate.
Qed.

(** a lone vehicle that has come to the end of its link moves on *)
Lemma must_pass : forall c w w' w3 w4 v il, (0 < dt c)%Q -> (0 <= dN c <= 10e10)%Q -> reachP c settled w -> body c w = Ok w' -> alone w v -> v_mode (V w v) = SingleTrip -> free_net c w -> way_on w v ->
  body_view c v w w' w3 w4 -> v_state (V w v) = Run -> v_link (V w v) = Some il -> (v_x (V w v) == l_len (L w il))%Q -> v_flag (V w v) = false ->
  exists out, v_link (V w3 v) = Some out /\ out <> il.
Proof.
  intros c w w' w3 w4 v il Hd HN RP Hb Al Hm [FN1 FN2] WO BV Hr Hk Hx Hf. pose proof (reachP_reach _ _ _ RP) as R.
  pose proof (reach_Inv2 _ _ R) as I. pose proof (proj1 Al) as Hv. unfold exists_veh in Hv. pose proof (reach_IncB _ _ R) as J.
  destruct (bv_phases _ _ _ _ _ _ BV) as (w1 & w2 & E1 & E2 & E3 & _).
  pose proof (phase_links_run _ _ E1) as R1. pose proof (phase_nodes_run _ _ E2) as R2. pose proof (phase_transfer_run _ _ E3) as R3.
  pose proof (run_Inv2' _ _ _ _ I R1) as I1. pose proof (run_Inv2' _ _ _ _ I1 R2) as I2.
  pose proof (run_fr _ _ _ _ R1) as F1. pose proof (run_fr _ _ _ _ R2) as F2.
  pose proof (alone_fr _ _ _ F1 Al) as Al1. pose proof (alone_fr _ _ _ F2 Al1) as Al2.
  assert (Hil : il < w_nl w).
  { destruct (s_link (proj2 (proj1 I)) Hv ltac:(discriminate)) as [K _]. destruct (K Hr) as (l' & K1 & K2). congruence. }
  pose proof (waiting_lemma c w v il R Hv Hr Hk Hx Hf) as Hi. set (n := l_end (L w il)) in *.
  assert (Hn : n < w_nn w) by (apply (t_ends (proj1 (proj1 I))); exact Hil).
  destruct (ic_in _ _ (ib_ok _ J) n v Hi) as (_ & _ & l & (S1 & S2 & S3) & S4 & S5).
  assert (l = il) by congruence. subst l.
  destruct S5 as [(_ & S5)|[(out & S5 & S6)|S5]]; [| |congruence].
  { exfalso. destruct (WO n Hn S5) as [K _]. exact (ic_dest _ _ (ib_ok _ J) n v Hi Hm K). }
  apply (t_out (proj1 (proj1 I))) in S5. destruct S5 as [Ho S5].
  assert (Hne : out <> il). { intros ->. destruct (FN1 il Hil) as (_ & K & _). apply K. exact S5. }
  exists out. split; [|exact Hne].
  assert (V1 : V w1 v = V w v) by exact (proj1 (phase_links_eff _ _ _ E1) v).
  destruct (nodes_lone c w1 w2 v I1 Al1 R2) as [[Es EL]|[K _]]; [|rewrite V1 in K; congruence].
  rewrite V1 in Es. pose proof (lone_only w v il I Al Hr Hk) as Hon.
  destruct (lone_caps c w w1 out Hd HN RP E1 Ho (proj1 (FN1 out Ho))) as [C1 _]. destruct (lone_caps c w w1 il Hd HN RP E1 Hil (proj1 (FN1 il Hil))) as [_ C2].
  assert (Fl : (exists m u, passed c w2 w3 m u out) \/ node_spent c w3 n).
  { eapply (flow_lemma c w w1 w2 w3 v il out); try eassumption.
    - rewrite Hon. reflexivity.
    - right. change (List.length (n_signal (N w2 n)) <= 1).
      assert (Sg : n_signal (N w2 n) = n_signal (N w n)).
      { pose proof E2 as E2'. unfold phase_nodes in E2'. apply nodes_sig in E2'; [|apply seq_NoDup]. destruct E2' as [A _].
        destruct (A n ltac:(apply in_seq; rewrite (fr_w_nn F1); lia)) as (_ & _ & A3 & _). rewrite A3.
        rewrite (proj1 (proj2 (phase_links_eff _ _ _ E1))). reflexivity. }
      rewrite Sg. exact (proj1 (FN2 n Hn)).
    - rewrite EL. exact C2.
    - left. rewrite (lone_empty w2 v out I2 Al2).
      + cbn. assert (Hl2 : out < w_nl w2) by (rewrite (fr_w_nl F2), (fr_w_nl F1); exact Ho). pose proof (t_lanes (proj1 (proj1 I2)) Hl2). lia.
      + intros _ K. assert (In v (l_vehs (L w2 out))).
        { rewrite <- (Dq_none w2 out). apply (s_D (proj2 (proj1 I2))). repeat split; [exact (proj1 Al2)|congruence|exact K|discriminate]. }
        rewrite EL in H. destruct (phase_links_eff _ _ _ E1) as (_ & _ & _ & _ & P). destruct (P out Ho) as (d & _ & Z).
        rewrite Z, linked_vehs, (lone_empty w v out I Al) in H; [destruct H|]. intros _ K'. congruence.
    - rewrite EL. exact C1. }
  destruct Fl as [(m & u & P1 & P2 & P3 & P4 & _)|Sp].
  - assert (u = v); [|subst u; exact P4].
    pose proof (ready_good c w w1 w2 I J (reach_Ends _ _ R) E1 E2) as (_ & JA & _).
    destruct (ia_in _ _ JA m u P1) as (K & _). exact (proj2 Al2 u K).
  - exfalso. unfold node_spent in Sp.
    assert (Hf2 : n_fcap (N w n) = None) by exact (proj2 (FN2 n Hn)).
    assert (Z : n_fcapr (N w3 n) = (10e10)%Q).
    { rewrite <- (node_open c w1 w2 n I1 E2); [|rewrite (fr_w_nn F1); exact Hn|rewrite (fr_n_fcap F1); exact Hf2].
      eapply fcapr_keep; [|exact I2| |exact R3]; [intros e Ke ->; discriminate|rewrite (fr_n_fcap F2), (fr_n_fcap F1); exact Hf2]. }
    rewrite Z in Sp. lra.
Qed.

(** ** Driving *)
Lemma drive_exact : forall c v w w' w3 w4 l, alone w v -> body_view c v w w' w3 w4 -> v_state (V w3 v) = Run -> v_link (V w3 v) = Some l ->
  exists x r,
  let x3 := v_x (V w3 v) in let len := l_len (L w l) in let step := (l_u (L w l) * dt c)%Q in
  ((x3 + step <= len)%Q /\ x = (x3 + step)%Q /\ r = v_remain (V w3 v) \/ (len < x3 + step)%Q /\ x = len /\ r = (x3 + step - len)%Q) /\
  v_dep (V w' v) = v_dep (V w3 v) /\ v_mode (V w' v) = v_mode (V w3 v) /\
  route_of (V w' v) = route_of (V w3 v) ++ (if opt_eqb (Some l) (v_linkold (V w3 v)) then [] else [l]) /\
  (v_state (V w' v) = Run /\ v_link (V w' v) = Some l /\ v_x (V w' v) = x /\ v_remain (V w' v) = r \/
   (x == len)%Q /\ (v_state (V w' v) = End_ /\ v_tt (V w' v) = (inject_Z (Z.of_nat (w_T w) - v_dep (V w3 v)) * dt c)%Q \/ v_state (V w' v) = Abort)).
Proof.
  intros c v w w' w3 w4 l Al BV Hr El. pose proof (bv_fr3 _ _ _ _ _ _ BV) as F3. pose proof (bv_inv3 _ _ _ _ _ _ BV) as I3.
  assert (Ha : alive (v_state (V w3 v))) by (apply alive_run; exact Hr).
  destruct (bv_update _ _ _ _ _ _ BV Ha) as (wa & b & B1 & B2 & B3 & B4 & B5 & B6).
  destruct (bv_follow _ _ _ _ _ _ BV Hr) as (l' & El' & E4). assert (l' = l) by congruence. subst l'. rewrite E4 in B4.
  pose proof (lone_leader w3 v l I3 (alone_fr _ _ _ F3 Al) Hr El) as Ld.
  assert (Ef : let f := followed c w3 l (V w3 v) in let x3 := v_x (V w3 v) in let len := l_len (L w l) in let step := (l_u (L w l) * dt c)%Q in
    ((x3 + step <= len)%Q /\ v_xnext f = (x3 + step)%Q /\ v_remain f = v_remain (V w3 v) \/ (len < x3 + step)%Q /\ v_xnext f = len /\ v_remain f = (x3 + step - len)%Q)).
  { cbv zeta. unfold followed, follow_x. rewrite Ld, (fr_l_len F3), (fr_l_u F3). destruct (qlt _ _) eqn:E.
    - right. apply qlt_iff in E. split; [exact E|]. split; reflexivity.
    - left. apply qlt_false in E. split; [exact E|]. split; reflexivity. }
  cbv zeta in Ef. pose proof (followed_vx c w3 l (V w3 v)) as Fx.
  apply vride_vx in B4. apply vride_vx in B6. apply updated_view in B5.
  remember (followed c w3 l (V w3 v)) as f eqn:Eff. clear Eff E4.
  assert (Fa : vx (V wa v) = vx f) by congruence. clear B4.
  assert (Et : w_T wa = w_T w) by exact (fr_w_T B1). assert (Elen : l_len (L wa l) = l_len (L w l)) by apply (fr_l_len B1).
  assert (Tr : links_of (tlog_rows c wa (V wa v)) = if opt_eqb (Some l) (v_linkold (V w3 v)) then [] else [l]).
  { rewrite links_tlog. unfold vx in *. replace (v_state (V wa v)) with Run by congruence. replace (v_link (V wa v)) with (Some l) by congruence.
    replace (v_linkold (V wa v)) with (v_linkold (V w3 v)) by congruence. reflexivity. }
  assert (Q1 : v_xnext (V wa v) = v_xnext f) by (unfold vx in *; congruence).
  assert (Q4 : v_tlog (V wa v) = v_tlog (V w3 v)) by (unfold vx in *; congruence).
  assert (Q5 : v_dep (V wa v) = v_dep (V w3 v)) by (unfold vx in *; congruence).
  assert (Q8 : v_mode (V wa v) = v_mode (V w3 v)) by (unfold vx in *; congruence).
  assert (Q9 : v_state (V wa v) = Run) by (unfold vx in *; congruence).
  assert (Q10 : v_link (V wa v) = Some l) by (unfold vx in *; congruence).
  assert (Q11 : v_remain (V wa v) = v_remain f) by (unfold vx in *; congruence). clear Fa Fx.
  exists (v_xnext f), (v_remain f). cbv zeta. split; [exact Ef|]. clear Ef.
  assert (Xd : v_tlog (V w' v) = v_tlog b) by (unfold vx in B6; congruence).
  destruct B5 as [a U1 _ _ _ _ _|k a U1 U2 U3 U4 U5 U6 U7 U8 U9 U10 U11 U12|k e1 e2 a U1 U2 U3 U4 U5 U6 U7 U8 U9 U10 U11]; subst a; [congruence| |];
    unfold vx in B6; (split; [congruence|]); (split; [congruence|]).
  - split; [unfold route_of; rewrite Xd, U12, links_of_app, Tr, Q4; reflexivity|]. left. repeat split; congruence.
  - split; [unfold route_of; rewrite Xd, U11, !links_of_app, Tr, Q4, U9, app_nil_r; reflexivity|]. right.
    assert (k = l) by congruence. subst k. rewrite Q1, Elen in U3. split; [exact U3|].
    destruct U7 as [[U7 U7']|U7]; [left|right; congruence]. split; [congruence|]. rewrite <- Q5, <- Et, <- U7'. congruence.
Qed.

(** ** Operations between timesteps *)
Lemma settled_keep : forall c o w w', w_final w = true -> op_ok o w -> settled o w -> (forall a, o <> OExec a) -> apply_op c o w = Ok w' ->
  w_nv w' = w_nv w /\ w_nn w' = w_nn w /\ w_nl w' = w_nl w /\
  (forall l, (l_cin (L w' l) = l_cin (L w l) /\ l_cout (L w' l) = l_cout (L w l)) /\ l_start (L w' l) = l_start (L w l) /\ l_end (L w' l) = l_end (L w l) /\ l_u (L w' l) = l_u (L w l) /\ l_len (L w' l) = l_len (L w l)) /\
  (forall n, N w' n = N w n) /\ (forall v, v_dest (V w' v) = v_dest (V w v) /\ v_orig (V w' v) = v_orig (V w v)).
Proof.
  intros c o w w' Hf Ho (_ & _ & Hs) Hx H. specialize (Hs Hf).
  destruct o; try contradiction; cbn [apply_op] in H; [cbn in Ho; congruence|elim (Hx a); reflexivity| | | |].
  - unfold enforce_route in H. destruct (negb _); [discriminate|]. injection H as <-. repeat (split; [reflexivity|]). split; [repeat split|].
    split; [reflexivity|]. intro u. rewrite V_at. destruct (Nat.eqb u v); [|split; reflexivity]. destruct set_avoid; split; reflexivity.
  - injection H as <-. repeat (split; [reflexivity|]). split; [repeat split|].
    split; [reflexivity|]. intro u. rewrite V_at. destruct (Nat.eqb u v); split; reflexivity.
  - injection H as <-. repeat (split; [reflexivity|]). split; [repeat split|].
    split; [reflexivity|]. intro u. rewrite V_at. destruct (Nat.eqb u v); split; reflexivity.
  - injection H as <-. repeat (split; [reflexivity|]). split; [|split; [reflexivity|intro; split; reflexivity]].
    intro k. rewrite L_at. destruct (Nat.eqb k l); repeat split.
Qed.

(** a vehicle at home waits for its departure time *)
Lemma home_exact : forall c v w w' w3 w4, body_view c v w w' w3 w4 -> vx (V w3 v) = vx (V w v) -> v_state (V w v) = Home -> v_state (V w' v) = Home ->
  (Z.of_nat (w_T w) < v_dep (V w v))%Z.
Proof.
  intros c v w w' w3 w4 BV E Hh Hh'.
  assert (Hs3 : v_state (V w3 v) = Home) by (unfold vx in E; congruence).
  assert (Ha : alive (v_state (V w3 v))) by (rewrite Hs3; unfold alive; auto).
  destruct (bv_update _ _ _ _ _ _ BV Ha) as (wa & b & B1 & B2 & B3 & B4 & B5 & B6).
  rewrite (bv_still _ _ _ _ _ _ BV) in B4 by congruence. apply vride_vx in B4. apply vride_vx in B6. apply updated_view in B5.
  assert (Et : w_T wa = w_T w) by exact (fr_w_T B1).
  assert (Hs : v_state (V wa v) = Home) by (unfold vx in *; congruence).
  assert (Hb : v_state b = Home) by (unfold vx in *; congruence).
  assert (Hd : v_dep (V wa v) = v_dep (V w v)) by (unfold vx in *; congruence).
  destruct B5 as [a U1 U2 U3 U4 U5 U6|k a U1 _ _ _ _ _ _ _ _ _ _ _|k e1 e2 a U1 _ _ _ _ _ _ _ _ _ _]; subst a; [|congruence|congruence].
  rewrite <- Et, <- Hd. auto.
Qed.

(** ** The invariant *)
Definition on_time (c : cfg) (w : world) (v : vid) : Prop :=
  (v_state (V w v) = Home -> (Z.of_nat (w_T w) <= v_dep (V w v))%Z) /\
  (v_state (V w v) = Wait -> Z.of_nat (w_T w) = (v_dep (V w v) + 1)%Z) /\
  (v_state (V w v) = Run -> v_flag (V w v) = false /\ forall pre l, route_of (V w v) = pre ++ [l] ->
     (free_time w pre + (v_x (V w v) + v_remain (V w v)) / l_u (L w l) == inject_Z (Z.of_nat (w_T w) - 1 - v_dep (V w v)) * dt c)%Q /\
     (v_x (V w v) == l_len (L w l) \/ v_x (V w v) < l_len (L w l) /\ v_remain (V w v) == 0)%Q /\
     (0 <= v_remain (V w v) < l_u (L w l) * dt c)%Q) /\
  (v_state (V w v) = End_ -> (free_time w (route_of (V w v)) <= v_tt (V w v) < free_time w (route_of (V w v)) + dt c)%Q).
Definition Lone (c : cfg) (w : world) (v : vid) : Prop :=
  alone w v -> v_mode (V w v) = SingleTrip -> (0 <= v_dep (V w v))%Z -> free_net c w -> way_on w v -> on_time c w v.

Lemma lone_body : forall c w w3 w4 w' v, (0 < dt c)%Q -> (0 <= dN c <= 10e10)%Q -> reachP c settled w -> w_final w = true -> v < w_nv w ->
  Inv2 w None -> IncB w -> fr w w' -> body c w = Ok w' ->
  alone w v -> v_mode (V w v) = SingleTrip -> (0 <= v_dep (V w v))%Z -> free_net c w -> way_on w v -> on_time c w v ->
  body_view c v w w' w3 w4 -> on_time c (sw_T (S (w_T w)) w') v.
Proof.
  intros c w w3 w4 w' v Hd HN R Hfin Hv I IB F Hb Al Hm H0 FN WO J BV.
  assert (Hd' : (0 <= dt c)%Q) by lra.
  assert (HPk : forall o w, settled o w -> keep_speed o w) by (intros o x K; apply K).
  assert (HP : forall o w, settled o w -> sound_links o w) by (intros o x K; apply HPk in K; apply K).
  pose proof (reachP_reach _ _ _ R) as R'. pose proof (reach_Ends _ _ R') as En.
  pose proof (reachP_view c settled Hd' HP w w3 w4 w' v R Hv F BV) as T.
  destruct (trail_shape c w v R' Hv) as (S0 & S1 & S2 & Sw). pose proof (reach_Geo c settled HP w R) as G.
  pose proof (reach_Pos c settled Hd' HP w R v Hv) as P.
  pose proof (first_full c v w w3 G P Hv I (bv_first _ _ _ _ _ _ BV)) as FF.
  destruct J as (J1 & J2 & J3 & J4). pose proof (later_bound (w_T w) (v_dep (V w v)) (dt c) Hd') as LB.
  unfold on_time. change (V (sw_T (S (w_T w)) w') v) with (V w' v).
  change (free_time (sw_T (S (w_T w)) w')) with (free_time w'). change (L (sw_T (S (w_T w)) w')) with (L w').
  change (w_T (sw_T (S (w_T w)) w')) with (S (w_T w)).
  assert (Ed : v_dep (V w' v) = v_dep (V w v)).
  { destruct T as [a T1 T2 T3|k a T1 T2 T3 T4 T5|k x3 r3 x r a T1 T2 T3 T4 T5 T6 T7 T8 T9 T10 T11]; subst a; congruence. }
  rewrite Ed.
  assert (FN1 := proj1 FN).
  (* driving *)
  assert (Drive : (v_state (V w v) = Wait \/ v_state (V w v) = Run) ->
    exists pre l x r, route_of (V w' v) = pre ++ [l] /\ l < w_nl w /\
      (free_time w pre + (x + r) / l_u (L w l) == inject_Z (Z.of_nat (w_T w) - v_dep (V w v)) * dt c)%Q /\
      (x == l_len (L w l) \/ x < l_len (L w l) /\ r == 0)%Q /\ (0 <= r < l_u (L w l) * dt c)%Q /\
      (v_state (V w' v) = Run /\ v_x (V w' v) = x /\ v_remain (V w' v) = r \/
       (x == l_len (L w l))%Q /\ (v_state (V w' v) = End_ /\ v_tt (V w' v) = (inject_Z (Z.of_nat (w_T w) - v_dep (V w v)) * dt c)%Q \/ v_state (V w' v) = Abort))).
  { intro Hs. pose proof (first_exact c v w w3 Al (bv_first _ _ _ _ _ _ BV)) as FE.
    assert (Start : exists l pre, v_state (V w3 v) = Run /\ v_link (V w3 v) = Some l /\ l < w_nl w /\
       route_of (V w3 v) ++ (if opt_eqb (Some l) (v_linkold (V w3 v)) then [] else [l]) = pre ++ [l] /\
       (free_time w pre + v_x (V w3 v) / l_u (L w l) == inject_Z (Z.of_nat (w_T w) - 1 - v_dep (V w v)) * dt c)%Q /\
       (0 <= v_x (V w3 v) < l_len (L w l))%Q /\ (v_remain (V w3 v) == 0)%Q /\ v_dep (V w3 v) = v_dep (V w v)).
    { destruct FF as [E|[(A1 & A2 & A3 & A4)|[(il & out & A1 & A2 & A3 & A4 & A5 & A6 & A7 & A8 & Acn & A9 & A10 & A11 & A12 & A13 & A14 & A15)|(k & e2 & A1 & A2 & A3 & _)]]].
      - (* nothing happened *)
        unfold vx in E. destruct Hs as [Hs|Hs].
        { exfalso. apply (must_enter c w w' w3 w4 v Hd HN R Hfin Hb Al FN WO BV Hs). congruence. }
        destruct (S2 Hs) as (pre & l & S3 & S4 & S5). destruct (J3 Hs) as [Jf J5]. destruct (J5 pre l S3) as (J6 & J7 & J8).
        assert (Hl : l < w_nl w) by (rewrite S3, Forall_app in S0; destruct S0 as [_ S0]; inversion S0; assumption).
        destruct J7 as [J7|[J7 J9]].
        { exfalso. destruct (must_pass c w w' w3 w4 v l Hd HN R Hb Al Hm FN WO BV Hs S4 J7 Jf) as (out & O1 & O2). apply O2. congruence. }
        exists l, pre. assert (Rt : route_of (V w3 v) = route_of (V w v)) by (unfold route_of; congruence). rewrite Rt.
        replace (v_linkold (V w3 v)) with (v_linkold (V w v)) by congruence. replace (v_x (V w3 v)) with (v_x (V w v)) by congruence.
        replace (v_remain (V w3 v)) with (v_remain (V w v)) by congruence.
        split; [congruence|]. split; [congruence|]. split; [exact Hl|].
        split; [rewrite rec_same by exact S5; exact S3|].
        destruct P as [_ P]. destruct (P Hs l S4) as [P1 P2]. destruct (FN1 l Hl) as (_ & _ & Hu & _).
        split; [|split; [split; assumption|split; [exact J9|congruence]]].
        rewrite <- J6. rewrite J9. setoid_replace (v_x (V w v) + 0)%Q with (v_x (V w v)) by ring. reflexivity.
      - (* the vehicle enters *)
        destruct (bv_follow _ _ _ _ _ _ BV A2) as (l & El & _).
        assert (Hl : l < w_nl w).
        { pose proof (bv_fr3 _ _ _ _ _ _ BV) as F3. destruct (bv_inv3 _ _ _ _ _ _ BV) as [[T3 S3] _]. assert (Hv3 : v < w_nv w3) by (rewrite (fr_w_nv F3); exact Hv).
          destruct (s_link S3 Hv3 ltac:(discriminate)) as [K _]. destruct (K A2) as (k & K1 & K2). rewrite (fr_w_nl F3) in K2. congruence. }
        destruct (S1 (or_intror A1)) as [S3 S4]. exists l, []. unfold route_of in *.
        replace (v_tlog (V w3 v)) with (v_tlog (V w v)) by congruence.
        replace (v_linkold (V w3 v)) with (v_linkold (V w v)) by congruence. rewrite A3. rewrite S3, S4.
        replace (v_remain (V w3 v)) with (v_remain (V w v)) by congruence.
        split; [exact A2|]. split; [exact El|]. split; [exact Hl|]. split; [reflexivity|].
        destruct (FN1 l Hl) as (_ & _ & Hu & Hlen). specialize (J2 A1).
        rewrite J2. split.
        + replace (v_dep (V w v) + 1 - 1 - v_dep (V w v))%Z with 0%Z by lia. unfold free_time. cbn [map qsum]. unfold Qdiv. change (inject_Z 0) with 0%Q. ring.
        + split; [|split; [rewrite (proj1 (reach_Rem c settled Hd' HPk w R v Hv) (or_intror A1)); reflexivity|congruence]].
          split; [lra|]. assert ((0 < l_u (L w l) * dt c)%Q) by (apply Qmult_lt_0_compat; assumption). lra.
      - (* the vehicle changes the link *)
        destruct (S2 A1) as (pre & l & S3 & S4 & S5). assert (l = il) by congruence. subst l.
        destruct (J3 A1) as [Jf J5]. destruct (J5 pre il S3) as (J6 & J7 & J8).
        destruct FE as [E|[E|[(il' & out' & q & E1 & E2 & E3 & E4 & E5 & E6)|E]]]; [|congruence| |congruence].
        { exfalso. destruct (must_pass c w w' w3 w4 v il Hd HN R Hb Al Hm FN WO BV A1 A3 A5 Jf) as (o & O1 & O2). apply O2.
          apply vride_vx in E. unfold vx in E. congruence. }
        assert (il' = il) by congruence. assert (out' = out) by congruence. subst il' out'.
        destruct (FN1 out A9) as (_ & _ & Ho & Hol). destruct (FN1 il A10) as (_ & Hlo & Hi & Hil).
        assert (Hne : out <> il) by (intro K; subst out; apply Hlo; exact (Acn Hm)).
        assert (Hq : (q < l_u (L w out) * dt c)%Q).
        { rewrite E5. apply Qlt_shift_div_r; [exact Hi|].
          setoid_replace (l_u (L w out) * dt c * l_u (L w il))%Q with ((l_u (L w il) * dt c) * l_u (L w out))%Q by ring.
          apply Qmult_lt_compat_r; [exact Ho|lra]. }
        assert (Hx3 : (v_x (V w3 v) == q)%Q) by (rewrite E6; apply cut_ok; lra).
        exists out, (pre ++ [il]). unfold route_of in *.
        replace (v_tlog (V w3 v)) with (v_tlog (V w v)) by congruence.
        replace (v_linkold (V w3 v)) with (v_linkold (V w v)) by congruence.
        split; [exact A2|]. split; [exact A4|]. split; [exact A9|]. split.
        { rewrite S5. cbn [opt_eqb]. apply Nat.eqb_neq in Hne. rewrite Hne, S3. reflexivity. }
        split.
        { rewrite free_snoc, Hx3, E5, <- J6, A5. field. split; intro K; [rewrite K in Hi|rewrite K in Ho]; lra. }
        split; [split; [exact A13|rewrite Hx3; lra]|]. split; [rewrite A11; reflexivity|congruence].
      - exfalso. destruct (J3 A1) as [Jf _]. congruence. }
    destruct Start as (l & pre & X1 & X2 & X3 & X4 & X5 & [X6 X6'] & X7 & X8).
    destruct (drive_exact c v w w' w3 w4 l Al BV X1 X2) as (x & r & D1 & D2 & D3 & D4 & D5).
    exists pre, l, x, r. rewrite D4. split; [exact X4|]. split; [exact X3|].
    destruct (FN1 l X3) as (_ & _ & Hu & Hul). assert (Hst : (0 < l_u (L w l) * dt c)%Q) by (apply Qmult_lt_0_compat; assumption).
    assert (Sum : (x + r == v_x (V w3 v) + l_u (L w l) * dt c)%Q) by (destruct D1 as [(_ & -> & ->)|(_ & -> & ->)]; [rewrite X7|]; ring).
    split.
    { rewrite Sum, <- LB, <- X5. field. intro K. rewrite K in Hu. lra. }
    split.
    { destruct D1 as [(D1 & -> & ->)|(D1 & -> & ->)]; [|left; reflexivity].
      apply Qle_lteq in D1. destruct D1 as [D1|D1]; [right; split; [exact D1|exact X7]|left; exact D1]. }
    split.
    { destruct D1 as [(D1 & -> & ->)|(D1 & -> & ->)]; [rewrite X7; split; lra|split; lra]. }
    destruct D5 as [(D5 & D6 & D7 & D8)|(D5 & D6)]; [left; auto|right]. split; [exact D5|]. rewrite <- X8. exact D6. }
  destruct (v_state (V w v)) eqn:Es.
  - (* at home *)
    assert (E : vx (V w3 v) = vx (V w v)).
    { destruct FF as [E|[(A1 & _)|[(il & out & A1 & _)|(k & e2 & A1 & _)]]]; [exact E|congruence|congruence|congruence]. }
    specialize (J1 eq_refl).
    assert (Hst : v_state (V w' v) = Home \/ v_state (V w' v) = Wait /\ (v_dep (V w v) <= Z.of_nat (w_T w))%Z).
    { destruct T as [a T1 T2 T3|k a T1 T2 T3 T4 T5|k x3 r3 x r a T1 T2 T3 T4 T5 T6 T7 T8 T9 T10 T11]; subst a.
      - rewrite Es in T2. destruct T2 as [T2|(_ & T2 & T2')]; auto.
      - congruence.
      - exfalso. destruct T2 as [(T2 & _)|[(T2 & _)|(il & _ & T2 & _)]]; congruence. }
    split.
    { intro Hh. pose proof (home_exact c v w w' w3 w4 BV E Es Hh). lia. }
    split; [intro Hw; destruct Hst as [K|[_ K]]; [congruence|lia]|].
    split; intro K; destruct Hst as [Z|[Z _]]; congruence.
  - (* waiting *)
    destruct (Drive (or_introl eq_refl)) as (pre & l & x & r & X1 & X2 & X3 & X4 & X5 & X6). clear Drive.
    rewrite X1. split; [intro K; destruct X6 as [(Z & _)|(_ & [(Z & _)|Z])]; congruence|].
    split; [intro K; destruct X6 as [(Z & _)|(_ & [(Z & _)|Z])]; congruence|]. split.
    + intro Hr. split.
      { apply (unflag_body c w w' v I IB En Al Hb); [rewrite Es; discriminate|exact Hr]. }
      destruct X6 as [(_ & Z1 & Z2)|(_ & [(Z & _)|Z])]; [|congruence|congruence].
      intros pre' l' E. apply snoc_inj in E. destruct E as [<- <-]. rewrite (fr_free _ _ _ F), (fr_l_u F), (fr_l_len F), Z1, Z2.
      replace (Z.of_nat (S (w_T w)) - 1)%Z with (Z.of_nat (w_T w)) by lia. auto.
    + intro He. destruct X6 as [(Z & _)|(Z1 & [(_ & Z2)|Z])]; [congruence| |congruence].
      rewrite (fr_free _ _ _ F), free_snoc, Z2, <- X3, Z1. destruct (FN1 l X2) as (_ & _ & Hu & _).
      assert (Y : ((l_len (L w l) + r) / l_u (L w l) == l_len (L w l) / l_u (L w l) + r / l_u (L w l))%Q) by (field; intro K; rewrite K in Hu; lra).
      assert (Y1 : (0 <= r / l_u (L w l))%Q) by (apply Qle_shift_div_l; lra).
      assert (Y2 : (r / l_u (L w l) < dt c)%Q) by (apply Qlt_shift_div_r; lra). lra.
  - (* running *)
    destruct (Drive (or_intror eq_refl)) as (pre & l & x & r & X1 & X2 & X3 & X4 & X5 & X6). clear Drive.
    rewrite X1. split; [intro K; destruct X6 as [(Z & _)|(_ & [(Z & _)|Z])]; congruence|].
    split; [intro K; destruct X6 as [(Z & _)|(_ & [(Z & _)|Z])]; congruence|]. split.
    + intro Hr. split.
      { apply (unflag_body c w w' v I IB En Al Hb); [intros _; exact (proj1 (J3 eq_refl))|exact Hr]. }
      destruct X6 as [(_ & Z1 & Z2)|(_ & [(Z & _)|Z])]; [|congruence|congruence].
      intros pre' l' E. apply snoc_inj in E. destruct E as [<- <-]. rewrite (fr_free _ _ _ F), (fr_l_u F), (fr_l_len F), Z1, Z2.
      replace (Z.of_nat (S (w_T w)) - 1)%Z with (Z.of_nat (w_T w)) by lia. auto.
    + intro He. destruct X6 as [(Z & _)|(Z1 & [(_ & Z2)|Z])]; [congruence| |congruence].
      rewrite (fr_free _ _ _ F), free_snoc, Z2, <- X3, Z1. destruct (FN1 l X2) as (_ & _ & Hu & _).
      assert (Y : ((l_len (L w l) + r) / l_u (L w l) == l_len (L w l) / l_u (L w l) + r / l_u (L w l))%Q) by (field; intro K; rewrite K in Hu; lra).
      assert (Y1 : (0 <= r / l_u (L w l))%Q) by (apply Qle_shift_div_l; lra).
      assert (Y2 : (r / l_u (L w l) < dt c)%Q) by (apply Qlt_shift_div_r; lra). lra.
  - (* ended *)
    assert (Z : v_state (V w' v) = End_ /\ route_of (V w' v) = route_of (V w v) /\ v_tt (V w' v) = v_tt (V w v)).
    { destruct T as [a T1 T2 T3|k a T1 T2 T3 T4 T5|k x3 r3 x r a T1 T2 T3 T4 T5 T6 T7 T8 T9 T10 T11]; subst a.
      - destruct T2 as [T2|(T2 & _)]; [|congruence]. repeat split; congruence.
      - congruence.
      - exfalso. destruct T2 as [(T2 & _)|[(T2 & _)|(il & _ & T2 & _)]]; congruence. }
    destruct Z as (Z1 & Z2 & Z3). rewrite Z1, Z2, Z3, (fr_free _ _ _ F).
    split; [discriminate|]. split; [discriminate|]. split; [discriminate|]. intros _. apply J4. reflexivity.
  - (* aborted *)
    assert (Z : v_state (V w' v) = Abort).
    { destruct T as [a T1 T2 T3|k a T1 T2 T3 T4 T5|k x3 r3 x r a T1 T2 T3 T4 T5 T6 T7 T8 T9 T10 T11]; subst a.
      - destruct T2 as [T2|(T2 & _)]; congruence.
      - congruence.
      - exfalso. destruct T2 as [(T2 & _)|[(T2 & _)|(il & _ & T2 & _)]]; congruence. }
    rewrite Z. repeat split; discriminate.
Qed.

Theorem reach_Lone : forall c, (0 < dt c)%Q -> (0 <= dN c <= 10e10)%Q -> forall w, reachP c settled w -> forall v, v < w_nv w -> Lone c w v.
Proof.
  intros c Hd HN. apply reachP_ride.
  - intros w w3 w4 w' v R Hfin Hv I IB F Hb J BV Al Hm H0 FN WO.
    pose proof (reachP_reach _ _ _ R) as R'.
    assert (HP : forall o w, settled o w -> sound_links o w) by (intros o x [K _]; apply K).
    pose proof (reachP_view c settled ltac:(lra) HP w w3 w4 w' v R Hv F BV) as T.
    change (V (sw_T (S (w_T w)) w') v) with (V w' v) in Hm, H0. change (free_net c w') in FN. change (way_on w' v) in WO. change (alone w' v) in Al.
    assert (Em : v_dep (V w' v) = v_dep (V w v) /\ v_mode (V w' v) = v_mode (V w v)).
    { destruct T as [a T1 T2 T3|k a T1 T2 T3 T4 T5|k x3 r3 x r a T1 T2 T3 T4 T5 T6 T7 T8 T9 T10 T11]; subst a; split; congruence. }
    destruct Em as [Ed Em].
    assert (Al0 : alone w v).
    { destruct Al as [A1 A2]. split; [exact Hv|]. intros u Hu. apply A2. unfold exists_veh in *. rewrite (fr_w_nv F). exact Hu. }
    assert (Sg : forall n, n < w_nn w -> n_signal (N w' n) = n_signal (N w n)).
    { intros n Hn. pose proof Hb as B. apply body_runs in B. destruct B as (a & b & d & e & f & g & E1 & E2 & E3 & E4 & E5 & E6 & ->).
      pose proof (fr_w_nn (frs_fr (phase_links_frs _ _ E1))) as Hnn.
      apply phase_links_frs in E1. apply phase_transfer_frs in E3. apply phase_follow_frs in E4. apply phase_vehicles_frs in E5. apply route_phase_frs in E6.
      assert (X : nsig (N g n) = nsig (N b n)) by (rewrite (frs_sig E6), (frs_sig E5), (frs_sig E4), (frs_sig E3); reflexivity).
      assert (Y : nsig (N a n) = nsig (N w n)) by apply (frs_sig E1).
      unfold phase_nodes in E2. apply nodes_sig in E2; [|apply seq_NoDup]. destruct E2 as [A _].
      destruct (A n ltac:(apply in_seq; lia)) as (_ & _ & A3 & _). change (N (sw_TIME (now c g) g) n) with (N g n). unfold nsig in *. congruence. }
    assert (FN0 : free_net c w).
    { destruct FN as [A1 A2]. split.
      - intros l Hl. unfold exists_link in *. specialize (A1 l). rewrite (fr_w_nl F) in A1. specialize (A1 Hl).
        unfold ample in A1. rewrite (fr_l_cin F), (fr_l_cout F), (fr_l_start F), (fr_l_end F), (fr_l_u F), (fr_l_len F) in A1. exact A1.
      - intros n Hn. specialize (A2 n). rewrite (fr_w_nn F) in A2. specialize (A2 Hn).
        rewrite (Sg n Hn), (fr_n_fcap F) in A2. exact A2. }
    assert (SD : same_dest w w').
    { eapply run_dest; [exact I|apply body_run; exact Hb]. }
    assert (WO0 : way_on w v).
    { intros n Hn Ho. specialize (WO n).
      rewrite (fr_w_nn F), (fr_n_out F), (fr_v_orig F) in WO. destruct (WO Hn Ho) as [W1 W2]. split; [|exact W2].
      destruct (SD v) as [S1 S2]. rewrite <- W1. symmetry. apply S2. congruence. }
    eapply lone_body; eauto.
    + congruence.
    + rewrite <- Ed. exact H0.
    + apply J; auto; [congruence|rewrite <- Ed; exact H0].
  - intros w v J. exact J.
  - intros w o w' v R I Ho Hp Hx H Hv J Al Hm H0 FN WO. pose proof (reachP_reach _ _ _ R) as R'.
    destruct (mode_keep c settled w w' o v R Ho Hp Hx H Hv) as (E1 & E3 & E4 & E5 & E6 & E7 & E8).
    destruct (op_keep c o w w' v Ho Hx H Hv) as (K & _). unfold vkeep in K.
    pose proof (op_clock c o w w' R' Ho Hx H) as ET.
    destruct (w_final w) eqn:Hf.
    + destruct (settled_keep c o w w' Hf Ho Hp Hx H) as (K1 & K2 & K3 & K4 & K5 & K6).
      assert (Tf : forall ls, free_time w' ls = free_time w ls).
      { intro ls. unfold free_time. f_equal. apply map_ext. intro l. destruct (K4 l) as (_ & _ & _ & -> & ->). reflexivity. }
      assert (Jw : on_time c w v).
      { apply J.
        - destruct Al as [A1 A2]. split; [exact Hv|]. intros u Hu. apply A2. unfold exists_veh in *. rewrite K1. exact Hu.
        - congruence.
        - congruence.
        - destruct FN as [A1 A2]. split.
          + intros l Hl. unfold exists_link in *. specialize (A1 l). rewrite K3 in A1. specialize (A1 Hl). destruct (K4 l) as ((X1 & X1') & X2 & X3 & X4 & X5).
            unfold ample in A1. rewrite X1, X1', X2, X3, X4, X5 in A1. exact A1.
          + intros n Hn. specialize (A2 n). rewrite K2, K5 in A2. exact (A2 Hn).
        - intros n Hn Hout. specialize (WO n). rewrite K2, K5 in WO. destruct (K6 v) as [X1 X2]. rewrite X1, X2 in WO. exact (WO Hn Hout). }
      destruct Jw as (J1 & J2 & J3 & J4). unfold on_time. rewrite E1, E4, E5, E6, E7, E8, ET.
      split; [exact J1|]. split; [exact J2|]. split.
      * intro Hr. destruct (J3 Hr) as [Jf J5]. split; [congruence|]. intros pre l Hl. rewrite Tf. destruct (K4 l) as (_ & _ & _ & -> & ->). exact (J5 pre l Hl).
      * intro He. rewrite Tf. exact (J4 He).
    + pose proof (reach_home c w R' Hf v Hv) as Hh. pose proof (reach_clock c w R' Hf) as HT.
      assert (Hh' : v_state (V w' v) = Home) by congruence. unfold on_time. rewrite Hh', ET, HT. split; [intros _; exact H0|]. repeat split; discriminate.
  - intros w o w' v a nl nm R Ho Hp Hx H H1 H2 K Al Hm H0 FN WO. pose proof (reachP_reach _ _ _ R) as R'. unfold vkeep in K.
    assert (E2 : v_state (V w' v) = Home) by (change Home with (v_state (new_vehicle c a nl nm)); congruence).
    unfold on_time. rewrite E2. split; [|repeat split; discriminate]. intros _.
    rewrite (op_clock c o w w' R' Ho Hx H). destruct (w_final w) eqn:Hf.
    + destruct (settled_keep c o w w' Hf Ho Hp Hx H) as (K1 & _). lia.
    + rewrite (reach_clock c w R' Hf). exact H0.
Qed.

(** While a lone vehicle drives, it is exactly as far as free-flow travel since its departure takes it:
    free flow speed times the time since departure, one timestep for the departure itself. *)
Theorem position_lemma : forall c w v pre l, (0 < dt c)%Q -> (0 <= dN c <= 10e10)%Q -> reachP c settled w -> alone w v -> v_mode (V w v) = SingleTrip -> (0 <= v_dep (V w v))%Z ->
  free_net c w -> way_on w v -> v_state (V w v) = Run -> route_of (V w v) = pre ++ [l] ->
  (free_time w pre + (v_x (V w v) + v_remain (V w v)) / l_u (L w l) == inject_Z (Z.of_nat (w_T w) - 1 - v_dep (V w v)) * dt c)%Q /\
  (v_x (V w v) == l_len (L w l) \/ v_remain (V w v) == 0)%Q.
Proof.
  intros c w v pre l Hd HN R Al Hm H0 FN WO Hr Hl. destruct (reach_Lone c Hd HN w R v (proj1 Al) Al Hm H0 FN WO) as (_ & _ & J & _).
  destruct (J Hr) as [_ K]. destruct (K pre l Hl) as (K1 & K2 & _). split; [exact K1|]. destruct K2 as [K2|[_ K2]]; auto.
Qed.
(** A lone vehicle on the network departs on time. *)
Theorem departs_lemma : forall c w v, (0 < dt c)%Q -> (0 <= dN c <= 10e10)%Q -> reachP c settled w -> alone w v -> v_mode (V w v) = SingleTrip -> (0 <= v_dep (V w v))%Z ->
  free_net c w -> way_on w v -> (v_dep (V w v) + 1 < Z.of_nat (w_T w))%Z -> v_state (V w v) <> Home /\ v_state (V w v) <> Wait.
Proof.
  intros c w v Hd HN R Al Hm H0 FN WO HT. destruct (reach_Lone c Hd HN w R v (proj1 Al) Al Hm H0 FN WO) as (J1 & J2 & _).
  split; intro K; [specialize (J1 K)|specialize (J2 K)]; lia.
Qed.
(** The travel time of a lone vehicle is the free-flow travel time of its route, rounded up to less than one timestep more. *)
Theorem lone_time_lemma : forall c w v, (0 < dt c)%Q -> (0 <= dN c <= 10e10)%Q -> reachP c settled w -> alone w v -> v_mode (V w v) = SingleTrip -> (0 <= v_dep (V w v))%Z ->
  free_net c w -> way_on w v -> v_state (V w v) = End_ ->
  (free_time w (route_of (V w v)) <= v_tt (V w v) < free_time w (route_of (V w v)) + dt c)%Q.
Proof.
  intros c w v Hd HN R Al Hm H0 FN WO He. destruct (reach_Lone c Hd HN w R v (proj1 Al) Al Hm H0 FN WO) as (_ & _ & _ & J). exact (J He).
Qed.

(** Links with the default capacities, which are twice the capacity of the fundamental diagram, are ample if their
    free flow speed is not below the speed at which a vehicle takes one reaction time for its own length. *)
Theorem default_lemma : forall c w l q, reach c w -> exists_link w l -> (0 < c_react c)%Q -> (0 <= dN c)%Q -> (0 < l_kappa (L w l))%Q ->
  (1 <= l_u (L w l) * l_kappa (L w l) * c_react c)%Q -> l_cin (L w l) = Some q -> (l_cap (L w l) * 2 <= q)%Q -> (l_cap (L w l) * 2 <= l_cout (L w l))%Q ->
  ample c (L w l).
Proof.
  intros c w l q R Hl Hr HN Hk Hu Hq H1 H2. exists q. split; [exact Hq|].
  destruct (triangular_lemma c w l R Hl) as [T1 T2 _ _].
  pose proof (t_lanes (proj1 (proj1 (reach_Inv2 _ _ R))) Hl) as Ln.
  assert (Lm : (1 <= Qof_nat (l_lanes (L w l)))%Q) by (unfold Qof_nat; change 1%Q with (inject_Z 1); rewrite <- Zle_Qle; lia).
  set (u := l_u (L w l)) in *. set (K := l_kappa (L w l)) in *. set (W := l_w (L w l)) in *. set (p := l_cap (L w l)) in *. set (r := c_react c) in *.
  set (m := Qof_nat (l_lanes (L w l))) in *.
  assert (Prk : (0 < r * K)%Q) by nra.
  assert (Pu : (0 < u)%Q). { destruct (Qlt_le_dec 0 u) as [X|X]; [exact X|]. exfalso. assert (u * (r * K) <= 0)%Q by nra. lra. }
  assert (PW : (0 < W)%Q). { destruct (Qlt_le_dec 0 W) as [X|X]; [exact X|]. exfalso. assert (W * (r * K) <= 0)%Q by nra. lra. }
  assert (Z : (u + W <= (p * 2 * r) * (u + W))%Q).
  { assert (Y : ((p * 2 * r) * (u + W) == 2 * (u * m))%Q).
    { transitivity (2 * r * (p * (u + W)))%Q; [ring|]. rewrite T2, <- T1. ring. }
    rewrite Y. assert (u <= u * m)%Q by nra. assert (W <= u * m)%Q; [|lra]. rewrite <- T1.
    assert (E : (u * (W * (r * K)) == W * (u * K * r))%Q) by ring. rewrite E. nra. }
  assert (Z1 : (1 <= p * 2 * r)%Q). { destruct (Qlt_le_dec (p * 2 * r) 1) as [X|X]; [|exact X]. exfalso. nra. }
  assert (Z2 : forall x, (p * 2 <= x)%Q -> (dN c <= x * dt c)%Q).
  { intros x Hx. unfold dt. fold r. assert (1 <= x * r)%Q by nra. assert (E : (x * (r * dN c) == (x * r) * dN c)%Q) by ring. rewrite E. nra. }
  split; apply Z2; assumption.
Qed.
