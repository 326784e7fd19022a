(** * Bucket: the capacity allowances of links and nodes as token buckets (C07, C08). *)
From Coq Require Import Qminmax.
From Verif Require Import Base Types Sim Build Heap Lists Inv FrameBase Tac Frame Eff Eff2 Trace InvStep Reach Steps Effects Phases Attr Life Incoming Vev Ride TripLog Route Green Choice Counts LinkQueries NodeCap Origin Spec.
Local Open Scope nat_scope.

(** ** The remaining allowances of one link *)
Definition lflow (k : link) := (l_ca k, l_cd k, l_cinr k, l_coutr k, l_vehs k, l_lanes k, (l_start k, l_end k, l_len k)).
Lemma lflow_eq : forall a b, lflow a = lflow b -> l_ca a = l_ca b /\ l_cd a = l_cd b /\ l_cinr a = l_cinr b /\
  l_coutr a = l_coutr b /\ l_vehs a = l_vehs b /\ l_lanes a = l_lanes b /\ l_start a = l_start b /\ l_end a = l_end b /\ l_len a = l_len b.
Proof. unfold lflow; intros a b H. repeat split; congruence. Qed.

Lemma ostep_lflow : forall c w w' l, ostep c w w' -> l < w_nl w -> lflow (L w' l) = lflow (L w l).
Proof.
  intros c w w' l H Hl. destruct H.
  - reflexivity.
  - unfold added_link, L. cbn. unfold upd. destruct (Nat.eqb l (w_nl w)) eqn:E; [apply Nat.eqb_eq in E; lia|reflexivity].
  - reflexivity.
  - apply finalize_ok in H0. destruct (fz_L _ _ _ H0 l) as (q & ->). reflexivity.
  - unfold L. rewrite H0. reflexivity.
  - specialize (H0 l). unfold lkeep in H0. unfold lflow. congruence.
Qed.
Lemma ostep_nl : forall c w w', ostep c w w' -> w_nl w <= w_nl w'.
Proof.
  intros c w w' H. destruct H; cbn; try lia.
  - apply finalize_ok in H0. pose proof (fz_cnt _ _ _ H0) as Z. injection Z; intros; lia.
  - unfold wkeep in H2. injection H2; intros; lia.
  - unfold wkeep in H2. injection H2; intros; lia.
Qed.
Lemma osteps_lflow : forall c w w' l, osteps c w w' -> l < w_nl w -> lflow (L w' l) = lflow (L w l).
Proof.
  intros c w w' l H. induction H; intro Hl; [reflexivity|]. pose proof (ostep_nl _ _ _ H). rewrite IHosteps by lia. eapply ostep_lflow; eauto.
Qed.
Lemma op_lflow : forall c o w w' l, op_ok o w -> (forall a, o <> OExec a) -> apply_op c o w = Ok w' -> l < w_nl w -> lflow (L w' l) = lflow (L w l).
Proof. intros. eapply osteps_lflow; eauto. eapply apply_op_osteps; eauto. Qed.
Lemma op_clock : forall c o w w', reach c w -> op_ok o w -> (forall a, o <> OExec a) -> apply_op c o w = Ok w' -> w_T w' = w_T w.
Proof.
  intros c o w w' R Ho Hx H. pose proof (apply_op_osteps _ _ _ _ Ho Hx H) as O. pose proof (reach_clock _ _ R) as C.
  clear - O C. induction O; [reflexivity|]. destruct (ostep_clock _ _ _ H C) as [C' E]. rewrite IHO; auto.
Qed.

(** one event other than the link update *)
Lemma flow_step : forall c e w p w' p' k, not_link e = true -> Inv2 w p -> mstep c e w p w' p' ->
  ((l_cinr (L w' k) = l_cinr (L w k) /\ last0 (l_ca (L w' k)) = last0 (l_ca (L w k)) /\ Dq w' p' k = skipn (List.length (Dq w p k) - List.length (Dq w' p' k)) (Dq w p k)) \/
   ((dN c <= l_cinr (L w k))%Q /\ l_cinr (L w' k) = (l_cinr (L w k) - dN c)%Q /\
    last0 (l_ca (L w' k)) = (last0 (l_ca (L w k)) + c_deltan c)%Z)) /\
  (l_coutr (L w' k) = l_coutr (L w k) \/
   exists n out v, e = VShift n out v k /\ (dN c <= l_coutr (L w k))%Q /\ l_coutr (L w' k) = (l_coutr (L w k) - dN c)%Q).
Proof.
  intros c e w p w' p' k Ke I H. pose proof (mstep_link _ _ _ _ _ _ I H k) as LE. apply (mstep_eff _ _ _ _ _ _ I) in H.
  assert (Same : lflow (L w' k) = lflow (L w k) -> p' = p ->
    ((l_cinr (L w' k) = l_cinr (L w k) /\ last0 (l_ca (L w' k)) = last0 (l_ca (L w k)) /\ Dq w' p' k = skipn (List.length (Dq w p k) - List.length (Dq w' p' k)) (Dq w p k)) \/
   ((dN c <= l_cinr (L w k))%Q /\ l_cinr (L w' k) = (l_cinr (L w k) - dN c)%Q /\
    last0 (l_ca (L w' k)) = (last0 (l_ca (L w k)) + c_deltan c)%Z)) /\
  (l_coutr (L w' k) = l_coutr (L w k) \/
   exists n out v, e = VShift n out v k /\ (dN c <= l_coutr (L w k))%Q /\ l_coutr (L w' k) = (l_coutr (L w k) - dN c)%Q)).
  { intros K Kp. apply lflow_eq in K. destruct K as (K1 & K2 & K3 & K4 & K5 & _). subst p'. unfold Dq. rewrite K1, K3, K5, K4, Nat.sub_diag. cbn. auto. }
  destruct e; try discriminate Ke; cbn [eff] in H.
  - destruct H as (-> & -> & _ & H & _). apply Same; auto. rewrite H. reflexivity.
  - destruct H as (-> & -> & q & ca & _ & _ & _ & _ & _ & _ & Hr & Hc & H & _). specialize (H k). 
    destruct (Nat.eqb k out) eqn:E; [|apply Same; [rewrite H; reflexivity|reflexivity]]. apply Nat.eqb_eq in E. subst k.
    rewrite H. cbn. split; [right|left; reflexivity]. apply add_last_spec in Hc. destruct Hc as (pp & z & -> & ->). rewrite !last0_app. auto.
  - destruct H as (-> & -> & _ & _ & H & _). apply Same; auto. rewrite H. reflexivity.
  - destruct H as (-> & -> & cd & ca & rest & q & _ & _ & _ & _ & _ & _ & Hco & _ & Hci & _ & _ & _ & Hcd & Hca & Hr & _ & _ & _ & _ & H & _).
    specialize (H k). cbv zeta in H. rewrite H. split.
    + destruct (Nat.eqb k out) eqn:E2.
      * apply Nat.eqb_eq in E2. subst k. right. apply add_last_spec in Hca. destruct Hca as (pp & z & -> & ->). rewrite last0_app.
        destruct (Nat.eqb out il); cbn; rewrite last0_app; auto.
      * left. unfold Dq. rewrite H, E2. destruct (Nat.eqb k il) eqn:E1; cbn.
        -- apply Nat.eqb_eq in E1. subst k. rewrite Hr. cbn [List.length]. rewrite !app_nil_r. cbn [List.length].
           replace (S (List.length rest) - List.length rest) with 1 by lia. auto.
        -- rewrite !app_nil_r, Nat.sub_diag. auto.
    + destruct (Nat.eqb k il) eqn:E1.
      * apply Nat.eqb_eq in E1. subst k. right. exists n, out, v. split; auto. split; [auto|]. destruct (Nat.eqb il out); reflexivity.
      * left. destruct (Nat.eqb k out); reflexivity.
  - destruct H as (-> & rest & cd & lg & tl & Hr & _ & _ & _ & _ & Hcd & _ & _ & _ & _ & H & _).
    specialize (H k). destruct (Nat.eqb k l) eqn:E; [|apply Same; [rewrite H; reflexivity|reflexivity]].
    apply Nat.eqb_eq in E. subst k. split; [left|left; rewrite H; reflexivity]. split; [rewrite H; reflexivity|]. split; [rewrite H; reflexivity|].
    assert (ED : Dq w p l = v :: Dq w' p l).
    { unfold Dq. rewrite H, Hr. reflexivity. }
    rewrite ED. cbn [List.length]. match goal with |- _ = skipn ?k _ => replace k with 1 by lia end. reflexivity.
  - destruct H as (-> & -> & _ & _ & _ & H & _). specialize (H k). 
    destruct (Nat.eqb k out) eqn:E; rewrite H; cbn; (split; [left|left; reflexivity]); (split; [reflexivity|]); (split; [reflexivity|]);
    unfold Dq; rewrite H; cbn [List.length app]; rewrite ?(Nat.eqb_sym out k), ?E; cbn; rewrite ?app_nil_r, Nat.sub_diag; reflexivity.
  - destruct H as (-> & -> & _ & H & _). apply Same; auto; rewrite H; reflexivity.
  - destruct H as (-> & -> & H & _). apply Same; auto; rewrite H; reflexivity.
  - destruct H as (-> & -> & _ & H & _). apply Same; auto; rewrite H; reflexivity.
  - destruct H as (-> & -> & _ & _ & _ & H & _). apply Same; auto; rewrite H; reflexivity.
  - destruct H as (-> & -> & _ & _ & H & _). apply Same; auto; rewrite H; reflexivity.
  - destruct H as (-> & -> & H & _). apply Same; auto; rewrite (so_l H); reflexivity.
  - destruct H as (-> & -> & H & _). apply Same; auto; rewrite (so_l H); reflexivity.
  - destruct H as (-> & -> & _ & _ & H & _). apply Same; auto; rewrite H; reflexivity.
  - destruct H as (-> & -> & _ & _ & H & _). apply Same; auto; rewrite H; reflexivity.
  - destruct H as (-> & -> & _ & _ & H & _). apply Same; auto; rewrite H; reflexivity.
  - destruct H as (-> & -> & H & _). apply Same; auto; rewrite (so_l H); reflexivity.
  - destruct H as (-> & -> & _ & _ & H & _). apply Same; auto; rewrite H; reflexivity.
  - destruct H as (-> & -> & _ & H & _). apply Same; auto; rewrite H; reflexivity.
  - destruct H as (-> & -> & _ & H & _). apply Same; auto; rewrite H; reflexivity.
  - destruct H as (-> & -> & _ & H & _). apply Same; auto; rewrite H; reflexivity.
Qed.

(** ** Inflow *)
Definition refill (q lim r : Q) : Q := if qlt r lim then (r + q)%Q else r.

Lemma iofc_remain : forall c k q, l_cin k = Some q ->
  l_cinr (in_out_flow_constraint c k) = refill (q * dt c) (dN c * Qof_nat (l_lanes k)) (l_cinr k) /\
  l_coutr (in_out_flow_constraint c k) = refill (l_cout k * dt c) (dN c * Qof_nat (l_lanes k)) (l_coutr k).
Proof.
  intros c k q E. unfold in_out_flow_constraint, refill. rewrite E. cbv zeta.
  destruct (qlt (l_coutr k) _) eqn:E1; cbn [l_cinr sl_coutr]; destruct (qlt (l_cinr k) _) eqn:E2; rs; auto.
Qed.

Lemma inflow_run : forall c w w' l, run c not_link w w' -> Inv2 w None ->
  exists m, last0 (l_ca (L w' l)) = (last0 (l_ca (L w l)) + Z.of_nat m * c_deltan c)%Z /\
    (l_cinr (L w' l) == l_cinr (L w l) - Qof_nat m * dN c)%Q /\ (m = 0 \/ (0 <= l_cinr (L w' l))%Q) /\
    (m = 0 -> exists k, l_vehs (L w' l) = skipn k (l_vehs (L w l))).
Proof.
  intros c w w' l H I.
  pose (J := fun x p => Inv2 x p /\ exists m, last0 (l_ca (L x l)) = (last0 (l_ca (L w l)) + Z.of_nat m * c_deltan c)%Z /\
    (l_cinr (L x l) == l_cinr (L w l) - Qof_nat m * dN c)%Q /\ (m = 0 \/ (0 <= l_cinr (L x l))%Q) /\
    (m = 0 -> exists k, Dq x p l = skipn k (l_vehs (L w l)))).
  enough (G : J w' None). { destruct G as [_ (m & A & B & C & D)]. exists m. rewrite Dq_none in D. auto. }
  refine (@run_inv c J not_link _ w w' H _).
  - intros e x p x' p' Ke [Ix (m & A & B & C & D)] M. split; [eapply mstep_Inv2; eauto|].
    destruct (flow_step _ _ _ _ _ _ l Ke Ix M) as [[(E1 & E2 & E3)|(E1 & E2 & E3)] _].
    + exists m. rewrite E1, E2. repeat split; auto. intro Hm. destruct (D Hm) as (k & Ek). rewrite Ek in E3. rewrite E3.
      rewrite skipn_add. eexists; reflexivity.
    + exists (S m). rewrite E2, E3, A. split; [lia|]. split; [|split; [right; lra|discriminate]].
      rewrite B. unfold Qof_nat. rewrite Nat2Z.inj_succ. unfold Z.succ. rewrite inject_Z_plus. ring.
  - split; auto. exists 0. rewrite Dq_none. cbn [Qof_nat Z.of_nat]. split; [lia|]. split; [unfold Qof_nat; cbn; ring|]. split; [auto|].
    intros _. exists 0. reflexivity.
Qed.

Lemma inflow_tick : forall c w w' l q, reach c w -> tick c w = Ok w' -> l < w_nl w -> l_cin (L w l) = Some q ->
  exists m, last0 (l_ca (L w' l)) = (last0 (l_ca (L w l)) + Z.of_nat m * c_deltan c)%Z /\
    (l_cinr (L w' l) == refill (q * dt c) (dN c * Qof_nat (l_lanes (L w l))) (l_cinr (L w l)) - Qof_nat m * dN c)%Q /\
    (m = 0 \/ (0 <= l_cinr (L w' l))%Q) /\
    (m = 0 -> exists k, l_vehs (L w' l) = skipn k (l_vehs (L w l))) /\
    l_cin (L w' l) = Some q /\ l_lanes (L w' l) = l_lanes (L w l) /\ w_nl w' = w_nl w /\ w_T w' = S (w_T w).
Proof.
  intros c w w' l q R H Hl Hq. apply tick_fr in H. destruct H as (w2 & B & ->). pose proof (reach_Inv2 _ _ R) as I.
  pose proof (body_fr _ _ B) as F. apply body_split in B. destruct B as (w1 & E1 & E2).
  assert (I1 : Inv2 w1 None). { eapply run_Inv2'; [exact I|]. apply phase_links_run. exact E1. }
  apply phase_links_eff in E1. destruct E1 as (_ & _ & _ & _ & E1). destruct (E1 l Hl) as (d & _ & EL). clear E1.
  destruct (inflow_run _ _ _ l E2 I1) as (m & A1 & A2 & A3 & A4). exists m.
  change (L (sw_T (S (w_T w)) w2) l) with (L w2 l). rewrite EL in A1, A2, A4. unfold linked in A1, A2, A4.
  destruct (iofc_tti c (L w l)) as (X1 & X2 & X3). destruct (iofc_remain c (L w l) q Hq) as [X4 X5].
  cbn [l_ca sl_cd sl_ca l_cinr sl_tti l_vehs] in A1, A2, A4. rewrite last0_app in A1. rewrite X4 in A2. rewrite iofc_vehs in A4.
  pose proof (fr_l F l) as FL. unfold lstat in FL.
  split; [exact A1|]. split; [exact A2|]. split; [exact A3|]. split; [exact A4|].
  split; [congruence|]. split; [congruence|]. split; [|reflexivity]. exact (fr_w_nl F).
Qed.

Lemma refill_le : forall q lim r, (0 <= q)%Q -> (r <= refill q lim r <= r + q)%Q.
Proof. intros q lim r H. unfold refill. destruct (qlt r lim); lra. Qed.
Lemma refill_lim : forall q lim r m, (r <= m)%Q -> (lim + q <= m)%Q -> (refill q lim r <= m)%Q.
Proof. intros q lim r m H1 H2. unfold refill. destruct (qlt r lim) eqn:E; [apply qlt_iff in E; lra|auto]. Qed.
Lemma Qof_S : forall n, (Qof_nat (S n) == Qof_nat n + 1)%Q.
Proof. intro n. unfold Qof_nat. rewrite Nat2Z.inj_succ. unfold Z.succ. rewrite inject_Z_plus. reflexivity. Qed.
Lemma Qof_nn : forall n, (0 <= Qof_nat n)%Q.
Proof. intro n. unfold Qof_nat. change 0%Q with (inject_Z 0). rewrite <- Zle_Qle. lia. Qed.

Lemma keep_cin_op : forall c o w w' l, op_ok o w -> keep_cin l o w -> (forall a, o <> OExec a) -> apply_op c o w = Ok w' -> l < w_nl w ->
  l_cin (L w' l) = l_cin (L w l).
Proof.
  intros c o w w' l Ho K Hx H Hl. pose proof (op_nl _ _ _ _ Hx H Ho) as (N1 & _).
  assert (Hl2 : l < w_nl w') by lia.
  destruct (op_link c o w w' l Ho Hx H Hl2) as [_ _ E _|a nm E El _|q E E1|q E E1|q E E1|q E E1]; [auto|lia| | | |].
  - unfold change_free_flow_speed in E1. destruct (qlt q 0); [injection E1 as <-; reflexivity|]. cbv zeta in E1.
    repeat (apply bind_ok in E1; destruct E1 as (? & _ & E1)). injection E1 as <-. rewrite L_at, Nat.eqb_refl. reflexivity.
  - unfold change_jam_density in E1. destruct (qlt q 0); [injection E1 as <-; reflexivity|]. cbv zeta in E1.
    repeat (apply bind_ok in E1; destruct E1 as (? & _ & E1)). injection E1 as <-. rewrite L_at, Nat.eqb_refl. reflexivity.
  - subst o. cbn in K. congruence.
  - rewrite E1. reflexivity.
Qed.

Lemma inflow_later : forall c l w w' q, reach c w -> later c (keep_cin l) w w' -> l < w_nl w -> l_cin (L w l) = Some q -> (0 <= q * dt c)%Q ->
  (l < w_nl w' /\ l_cin (L w' l) = Some q /\ l_lanes (L w' l) = l_lanes (L w l) /\ w_T w <= w_T w') /\
  exists m, last0 (l_ca (L w' l)) = (last0 (l_ca (L w l)) + Z.of_nat m * c_deltan c)%Z /\
    (l_cinr (L w' l) + Qof_nat m * dN c <= l_cinr (L w l) + q * dt c * Qof_nat (w_T w' - w_T w))%Q /\
    (m = 0 \/ (0 <= l_cinr (L w' l))%Q).
Proof.
  intros c l w w' q R H Hl Hq Hp. induction H as [|w1 w2 H IH S].
  - split; [auto|]. exists 0. rewrite Nat.sub_diag. unfold Qof_nat. cbn [Z.of_nat]. split; [lia|]. split; [change (inject_Z 0) with 0%Q; lra|auto].
  - destruct IH as ((A1 & A2 & A3 & A4) & m & B1 & B2 & B3). assert (R1 : reach c w1) by (eapply later_reach; eauto).
    destruct S as [w1 o w2 Hok Hk Hx E|w1 w2 Hf E|w1].
    + pose proof (op_nl _ _ _ _ Hx E Hok) as (N1 & _). pose proof (op_clock _ _ _ _ R1 Hok Hx E) as T1.
      pose proof (keep_cin_op _ _ _ _ _ Hok Hk Hx E A1) as K1. pose proof (op_lflow _ _ _ _ _ Hok Hx E A1) as K2. apply lflow_eq in K2.
      destruct K2 as (K2 & _ & K3 & _ & _ & K4 & _). rewrite K1, K4, T1. split; [repeat split; auto; lia|]. exists m. rewrite K2, K3. auto.
    + destruct (inflow_tick c w1 w2 l q R1 E A1 A2) as (m' & C1 & C2 & C3 & _ & C4 & C5 & C6 & C7).
      split; [rewrite C5, C6, C7; repeat split; auto; lia|]. exists (m + m'). rewrite C1, B1. split; [lia|].
      assert (EQ : (Qof_nat (m + m') == Qof_nat m + Qof_nat m')%Q) by (unfold Qof_nat; rewrite Nat2Z.inj_add, inject_Z_plus; reflexivity).
      pose proof (refill_le (q * dt c) (dN c * Qof_nat (l_lanes (L w1 l))) (l_cinr (L w1 l)) Hp) as [RL1 RL2].
      split.
      * rewrite C7. replace (S (w_T w1) - w_T w) with (S (w_T w1 - w_T w)) by lia. rewrite Qof_S, EQ.
        set (a := (q * dt c)%Q) in *. set (k := Qof_nat (w_T w1 - w_T w)) in *.
        assert (((Qof_nat m + Qof_nat m') * dN c == Qof_nat m * dN c + Qof_nat m' * dN c)%Q) by ring.
        assert ((a * (k + 1) == a * k + a)%Q) by ring. lra.
      * destruct C3 as [-> |C3]; [|auto]. rewrite Nat.add_0_r. destruct B3 as [B3|B3]; [auto|right].
        assert ((Qof_nat 0 * dN c == 0)%Q) by (unfold Qof_nat; cbn; ring). lra.
    + exact (conj (conj A1 (conj A2 (conj A3 A4))) (ex_intro _ m (conj B1 (conj B2 B3)))).
Qed.

Lemma inflow_burst : forall c l w q, reachP c (keep_cin l) w -> l < w_nl w -> l_cin (L w l) = Some q -> (0 <= q)%Q -> (0 <= dt c)%Q -> (0 <= dN c)%Q ->
  (0 <= l_cinr (L w l))%Q /\ (l_cinr (L w l) <= Qmax q (dN c * Qof_nat (l_lanes (L w l)) + q * dt c))%Q.
Proof.
  intros c l w q R Hl Hq Hp Hd Hn. revert q Hl Hq Hp. revert w R.
  apply (reachP_ind' c (keep_cin l) (fun w => forall q, l < w_nl w -> l_cin (L w l) = Some q -> (0 <= q)%Q ->
    (0 <= l_cinr (L w l))%Q /\ (l_cinr (L w l) <= Qmax q (dN c * Qof_nat (l_lanes (L w l)) + q * dt c))%Q)).
  - intros tm q Hl. cbn in Hl. lia.
  - intros w w' R IH S q Hl Hq Hp. assert (R1 : reach c w) by (eapply reachP_reach; eauto). destruct S as [w o w' Hok Hk Hx E|w w' Hf E|w].
    + destruct (le_lt_dec (w_nl w) l) as [Hge|Hlt].
      * destruct (op_link c o w w' l Hok Hx E Hl) as [Hlt _ E1 _|a nm E1 El E2|q0 E1 E2|q0 E1 E2|q0 E1 E2|q0 E1 E2]; try (subst o; cbn in Hok; lia); [lia|].
        subst l. unfold new_link in E2. cbv zeta in E2. repeat (apply bind_ok in E2; destruct E2 as (? & _ & E2)). injection E2 as E2. rewrite <- E2 in *.
        cbn [l_cin l_cinr l_lanes] in *. assert (0 <= q * dt c)%Q by (apply Qmult_le_0_compat; auto).
        assert (0 <= dN c * Qof_nat (la_lanes a))%Q by (apply Qmult_le_0_compat; auto; apply Qof_nn).
        pose proof (Q.le_max_l q (dN c * Qof_nat (la_lanes a) + q * dt c)). pose proof (Q.le_max_r q (dN c * Qof_nat (la_lanes a) + q * dt c)).
        destruct (la_cin a); injection Hq as <-; split; auto; lra.
      * pose proof (keep_cin_op _ _ _ _ _ Hok Hk Hx E Hlt) as K1. pose proof (op_lflow _ _ _ _ _ Hok Hx E Hlt) as K2. apply lflow_eq in K2.
        destruct K2 as (K2 & _ & K3 & _ & _ & K4 & _). rewrite K3, K4. apply IH; auto. congruence.
    + pose proof (tick_fr _ _ _ E) as (w1 & B & Ew). pose proof (body_fr _ _ B) as F. assert (Hl0 : l < w_nl w). { rewrite <- (fr_w_nl F). rewrite Ew in Hl. exact Hl. }
      assert (Hq0 : l_cin (L w l) = Some q). { rewrite <- Hq, Ew. change (L (sw_T (S (w_T w)) w1) l) with (L w1 l). pose proof (fr_l F l) as G. unfold lstat in G. congruence. }
      destruct (inflow_tick c w w' l q R1 E Hl0 Hq0) as (m & C1 & C2 & C3 & _ & C4 & C5 & C6 & C7). destruct (IH q Hl0 Hq0 Hp) as [J1 J2]. rewrite C5.
      assert (Hqd : (0 <= q * dt c)%Q) by (apply Qmult_le_0_compat; auto).
      pose proof (refill_le (q * dt c) (dN c * Qof_nat (l_lanes (L w l))) (l_cinr (L w l)) Hqd) as [RL1 RL2].
      pose proof (refill_lim (q * dt c) (dN c * Qof_nat (l_lanes (L w l))) (l_cinr (L w l)) _ J2 (Q.le_max_r q (dN c * Qof_nat (l_lanes (L w l)) + q * dt c))) as RL3.
      assert (0 <= Qof_nat m * dN c)%Q by (apply Qmult_le_0_compat; auto; apply Qof_nn).
      split; [|lra]. destruct C3 as [-> |C3]; [|auto]. assert ((Qof_nat 0 * dN c == 0)%Q) by (unfold Qof_nat; cbn; ring). lra.
    + apply IH; auto.
Qed.

(** ** C07 *)
Theorem inflow_lemma : forall c l w w' q, reach c w -> later c (keep_cin l) w w' -> l < w_nl w ->
  l_cin (L w l) = Some q -> (0 <= q)%Q -> (0 <= dt c)%Q ->
  let entered := inject_Z (latest (l_ca (L w' l)) - latest (l_ca (L w l))) in
  let k := Qof_nat (w_T w' - w_T w) in
  (entered == 0 \/ entered <= q * dt c * k + l_cinr (L w l))%Q.
Proof.
  intros c l w w' q R H Hl Hq Hp Hd. destruct (inflow_later c l w w' q R H Hl Hq) as (_ & m & A & B & C); [apply Qmult_le_0_compat; auto|].
  rewrite <- !last0_latest, A. cbv zeta. replace (last0 (l_ca (L w l)) + Z.of_nat m * c_deltan c - last0 (l_ca (L w l)))%Z with (Z.of_nat m * c_deltan c)%Z by lia.
  destruct C as [-> |C]; [left; reflexivity|right]. rewrite inject_Z_mult. change (inject_Z (Z.of_nat m)) with (Qof_nat m). change (inject_Z (c_deltan c)) with (dN c). lra.
Qed.

Theorem inflow_bound_lemma : forall c l w w' q, reachP c (keep_cin l) w -> later c (keep_cin l) w w' -> l < w_nl w ->
  l_cin (L w l) = Some q -> (0 <= q)%Q -> (0 <= dt c)%Q -> (0 <= dN c)%Q ->
  let entered := inject_Z (latest (l_ca (L w' l)) - latest (l_ca (L w l))) in
  let k := Qof_nat (w_T w' - w_T w) in
  (entered <= q * dt c * k + Qmax q (dN c * Qof_nat (l_lanes (L w l)) + q * dt c))%Q.
Proof.
  intros c l w w' q R H Hl Hq Hp Hd Hn. destruct (inflow_burst c l w q R Hl Hq Hp Hd Hn) as [B1 B2].
  assert (0 <= q * dt c * Qof_nat (w_T w' - w_T w))%Q by (apply Qmult_le_0_compat; [apply Qmult_le_0_compat; auto|apply Qof_nn]).
  destruct (inflow_lemma c l w w' q (reachP_reach _ _ _ R) H Hl Hq Hp Hd) as [E|E]; cbv zeta in *; lra.
Qed.

Theorem closed_lemma : forall c l w, reachP c (keep_cin l) w -> l < w_nl w -> (exists q, l_cin (L w l) = Some q /\ (q == 0)%Q) -> (0 < dN c)%Q ->
  latest (l_ca (L w l)) = 0%Z /\ l_vehs (L w l) = [].
Proof.
  intros c l w R Hl Hq Hn. rewrite <- last0_latest. enough (G : last0 (l_ca (L w l)) = 0%Z /\ l_vehs (L w l) = [] /\ (l_cinr (L w l) == 0)%Q) by tauto.
  revert Hl Hq. revert w R.
  apply (reachP_ind' c (keep_cin l) (fun w => l < w_nl w -> (exists q, l_cin (L w l) = Some q /\ (q == 0)%Q) ->
    last0 (l_ca (L w l)) = 0%Z /\ l_vehs (L w l) = [] /\ (l_cinr (L w l) == 0)%Q)).
  - intros tm Hl. cbn in Hl. lia.
  - intros w w' R IH S Hl (q & Hq & Hz). assert (R1 : reach c w) by (eapply reachP_reach; eauto). destruct S as [w o w' Hok Hk Hx E|w w' Hf E|w].
    + destruct (le_lt_dec (w_nl w) l) as [Hge|Hlt].
      * destruct (op_link c o w w' l Hok Hx E Hl) as [Hlt _ E1 _|a nm E1 El E2|q0 E1 E2|q0 E1 E2|q0 E1 E2|q0 E1 E2]; try (subst o; cbn in Hok; lia); [lia|].
        subst l. unfold new_link in E2. cbv zeta in E2. repeat (apply bind_ok in E2; destruct E2 as (? & _ & E2)). injection E2 as E2. rewrite <- E2 in *.
        cbn [l_cin l_cinr l_lanes l_ca l_vehs] in *. split; [reflexivity|]. split; [reflexivity|]. destruct (la_cin a); injection Hq as <-; rewrite Hz; [apply Qmult_0_l|reflexivity].
      * pose proof (keep_cin_op _ _ _ _ _ Hok Hk Hx E Hlt) as K1. pose proof (op_lflow _ _ _ _ _ Hok Hx E Hlt) as K2. apply lflow_eq in K2.
        destruct K2 as (K2 & _ & K3 & _ & K5 & K4 & _). rewrite K2, K3, K5. apply IH; auto. exists q. split; congruence.
    + pose proof (tick_fr _ _ _ E) as (w1 & B & Ew). pose proof (body_fr _ _ B) as F. assert (Hl0 : l < w_nl w). { rewrite <- (fr_w_nl F). rewrite Ew in Hl. exact Hl. }
      assert (Hq0 : l_cin (L w l) = Some q). { rewrite <- Hq, Ew. change (L (sw_T (S (w_T w)) w1) l) with (L w1 l). pose proof (fr_l F l) as G. unfold lstat in G. congruence. }
      destruct (inflow_tick c w w' l q R1 E Hl0 Hq0) as (m & C1 & C2 & C3 & C8 & C4 & C5 & C6 & C7). destruct IH as (J1 & J2 & J3); [auto|eauto|].
      assert (Z : (refill (q * dt c) (dN c * Qof_nat (l_lanes (L w l))) (l_cinr (L w l)) == 0)%Q).
      { unfold refill. destruct (qlt _ _); [rewrite J3, Hz; ring|auto]. }
      rewrite Z in C2. destruct m as [|m].
      * destruct (C8 eq_refl) as (k & Ek). rewrite Ek, J2, C1, J1. split; [lia|]. split; [destruct k; reflexivity|]. rewrite C2. unfold Qof_nat. cbn. ring.
      * exfalso. destruct C3 as [C3|C3]; [discriminate|]. rewrite Qof_S in C2. pose proof (Qof_nn m) as Hm.
        assert (0 <= Qof_nat m * dN c)%Q by (apply Qmult_le_0_compat; lra). assert (((Qof_nat m + 1) * dN c == Qof_nat m * dN c + dN c)%Q) by ring. lra.
    + apply IH; eauto.
Qed.
