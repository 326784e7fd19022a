(** * Outflow: transfers out of a link and through a node are limited by their capacities (C08). *)
From Coq Require Import Qminmax.
From Verif Require Import Base Types Sim Build Heap Lists Inv FrameBase Tac Frame Eff Eff2 Trace InvStep Reach Steps Effects Phases Attr Life Incoming Vev Ride TripLog Route Green Choice Counts LinkQueries NodeCap Origin Bucket Spec.
Local Open Scope nat_scope.

(** ** link_arrival_time *)
Definition arrived_before (c : cfg) (k : nat) (w : world) : Prop :=
  forall v, v < w_nv w -> v_link (V w v) <> None -> exists t, t < k /\ v_larr (V w v) = (Qof_nat t * dt c)%Q.

Lemma ended_larr : forall c w a tl lg b, vride b = vride (sv_linkold None (sv_tlog tl (sv_log lg (ended c w a)))) -> v_larr b = v_larr a.
Proof.
  intros c w a tl lg b H. apply vride_eq in H. destruct H as (A1 & A2 & A3 & A4 & _). rewrite A4. unfold ended. rs. destruct (v_aborted a) eqn:E; rs; reflexivity.
Qed.
Lemma logged_larr : forall c w v, v_larr (logged c w v false) = v_larr (V w v).
Proof. intros. unfold logged. reflexivity. Qed.
Lemma driven_larr : forall c a, v_larr (driven c a) = v_larr a.
Proof. reflexivity. Qed.

Lemma followed_larr : forall c w l a, v_larr (followed c w l a) = v_larr a /\ v_state (followed c w l a) = v_state a /\ v_link (followed c w l a) = v_link a.
Proof. intros. unfold followed. destruct (qlt _ _); auto. Qed.

(** what an event does to the link and the arrival time of a vehicle *)
Lemma larr_step : forall c e w p w' p' v, Inv2 w p -> mstep c e w p w' p' ->
  (v_larr (V w' v) = v_larr (V w v) /\ (v_link (V w' v) = v_link (V w v) \/ v_link (V w' v) = None /\ ~ alive (v_state (V w' v))) /\
   (v_state (V w' v) = v_state (V w v) \/ v_state (V w v) = Home \/ ~ alive (v_state (V w' v)))) \/
  (exists n out, e = VEnter n v out /\ v_state (V w v) = Wait /\ v_larr (V w' v) = now c w /\ v_link (V w' v) = Some out) \/
  (exists n out il, e = VShift n out v il /\ v_state (V w v) = Run /\ v_link (V w v) = Some il /\ v_larr (V w' v) = now c w /\
     v_state (V w' v) = Run /\ v_link (V w' v) = Some out).
Proof.
  intros c e w p w' p' v I M. destruct (mstep_vev _ _ _ _ _ _ I M v).
  - apply vride_eq in H. left. intuition.
  - right; left. exists n, out. rewrite H6. auto.
  - right; right. exists n, out, il. rewrite H9. auto 10.
  - left. pose proof (ended_larr _ _ _ _ _ _ H6) as E1. apply ended_fields in H6. 
    destruct H6 as (F1 & _ & _ & _ & _ & _ & _ & _ & _ & _ & _ & _ & _ & Hs & _).
    assert (~ alive (v_state (V w' v))) by (rewrite Hs; destruct (v_aborted (V w v)); intros [K|[K|K]]; discriminate).
    split; [exact E1|]. split; [right; auto|right; right; auto].
  - left. rewrite H1. destruct (followed_larr c w l (V w v)) as (L1 & L2 & L3). rewrite L1, L2, L3. auto.
  - left. rewrite H1. destruct (logged_fields c w v) as (L1 & L2 & _). rewrite L1, L2, logged_larr. auto.
  - left. rewrite H3. auto.
  - left. rewrite H2. destruct (driven_fields c (V w v)) as (L1 & L2 & _). rewrite L1, L2, driven_larr. auto.
  - left. rewrite H2. auto.
  - left. rewrite H4. auto.
  - left. rewrite H3. auto.
Qed.

Lemma arrived_step : forall c k e w p w' p', Inv2 w p -> mstep c e w p w' p' -> w_T w < k -> arrived_before c k w -> arrived_before c k w'.
Proof.
  intros c k e w p w' p' I M Ht A v Hv Hl. pose proof (fr_w_nv (mstep_fr M)) as En. rewrite En in Hv.
  destruct (larr_step _ _ _ _ _ _ v I M) as [(E1 & [E2|[E2 _]] & _)|[(n & out & _ & _ & E & _)|(n & out & il & _ & _ & _ & E & _)]].
  - rewrite E1. apply A; congruence.
  - congruence.
  - rewrite E. exists (w_T w). auto.
  - rewrite E. exists (w_T w). auto.
Qed.
Lemma arrived_ostep : forall c k w w', Inv2 w None -> ostep c w w' -> arrived_before c k w -> arrived_before c k w'.
Proof.
  intros c k w w' I H A. destruct H.
  - exact A.
  - exact A.
  - intros v Hv Hl. unfold added_veh in *. cbn [w_nv sw_living sw_prefveh sw_nv] in Hv. unfold V in *. cbn in *. unfold upd in *.
    destruct (Nat.eqb v (w_nv w)) eqn:E; [elim Hl; reflexivity|]. apply Nat.eqb_neq in E. apply A; [lia|exact Hl].
  - apply finalize_ok in H0. intros v Hv Hl. pose proof (fz_cnt _ _ _ H0) as Z. injection Z; intros.
    unfold V in *. rewrite (fz_V _ _ _ H0) in *. apply A; [lia|exact Hl].
  - intros v Hv Hl. specialize (H v). unfold vkeep in H. unfold wkeep in H2. injection H2; intros.
    assert (v_link (V w' v) = v_link (V w v) /\ v_larr (V w' v) = v_larr (V w v)) as [E1 E2] by (split; congruence). rewrite E2. apply A; congruence.
  - intros v Hv Hl. unfold V in *. rewrite H in *. unfold wkeep in H2. injection H2; intros. apply A; [lia|exact Hl].
Qed.
Lemma arrived_run : forall c K k w w', Inv2 w None -> run c K w w' -> w_T w < k -> arrived_before c k w -> arrived_before c k w'.
Proof.
  intros c K k w w' I H Ht A. enough (Inv2 w' None /\ w_T w' < k /\ arrived_before c k w') by tauto.
  refine (@run_inv c (fun x p => Inv2 x p /\ w_T x < k /\ arrived_before c k x) K _ w w' H _); auto.
  intros e x p x' p' _ (I1 & T1 & A1) M. split; [eapply mstep_Inv2; eauto|]. split; [rewrite (fr_w_T (mstep_fr M)); auto|eapply arrived_step; eauto].
Qed.
Theorem reach_arrived : forall c w, reach c w -> arrived_before c (w_T w) w.
Proof.
  intros c w R. induction R as [tm|w o w' R IH Ho Hx H|w w' R IH Hf H|w R IH].
  - intros v Hv. cbn in Hv. lia.
  - pose proof (op_clock _ _ _ _ R Ho Hx H) as ET. pose proof (apply_op_osteps _ _ _ _ Ho Hx H) as O. pose proof (reach_Inv2 _ _ R) as I. rewrite ET.
    set (k := w_T w) in *. clearbody k. clear - O I IH. induction O as [|a b d O1 O IHO]; auto. apply IHO; [eapply arrived_ostep; eauto|eapply ostep_Inv2; eauto].
  - apply tick_fr in H. destruct H as (w1 & B & ->). pose proof (reach_Inv2 _ _ R) as I. cbn [w_T sw_T].
    intros v Hv Hl. change (V (sw_T (S (w_T w)) w1)) with (V w1) in *. refine (arrived_run c k_all (S (w_T w)) w w1 I (body_run _ _ B) _ _ v Hv Hl); [lia|].
    intros u Hu Ku. destruct (IH u Hu Ku) as (t & Ht & Et). exists t. split; [lia|auto].
  - exact IH.
Qed.

(** ** Vehicles that were on a link when the timestep began *)
Definition followed_from (c : cfg) (w0 w : world) : Prop :=
  forall v k, v < w_nv w0 -> v_link (V w0 v) = Some k ->
    (v_larr (V w v) == now c w0)%Q \/ v_link (V w v) = Some k \/ ~ alive (v_state (V w v)).

Lemma followed_from_step : forall c w0 e w p w' p', Inv2 w p -> mstep c e w p w' p' -> w_T w = w_T w0 ->
  followed_from c w0 w -> followed_from c w0 w'.
Proof.
  intros c w0 e w p w' p' I M ET A v k Hv Hk. assert (EN : now c w = now c w0) by (unfold now; rewrite ET; reflexivity).
  destruct (larr_step _ _ _ _ _ _ v I M) as [(E1 & E2 & E3)|[(n & out & _ & _ & E & _)|(n & out & il & _ & _ & _ & E & _)]].
  - rewrite E1. destruct (A v k Hv Hk) as [B|[B|B]]; [auto| |].
    + destruct E2 as [E2|[_ E2]]; [right; left; congruence|auto].
    + right; right. destruct E3 as [E3|[E3|E3]]; [rewrite E3; exact B| |auto]. elim B. left; auto.
  - left. rewrite E, EN. reflexivity.
  - left. rewrite E, EN. reflexivity.
Qed.

(** the marked vehicles that have been transferred by now *)
Definition gone (c : cfg) (mark : vid -> bool) (w0 w : world) : list vid :=
  filter (fun v => mark v && Qeq_bool (v_larr (V w v)) (now c w0)) (seq 0 (w_nv w0)).

Lemma filter_sub : forall (f g : nat -> bool) xs, (forall u, In u xs -> g u = true -> f u = true) -> List.length (filter g xs) <= List.length (filter f xs).
Proof.
  intros f g xs; induction xs as [|x xs IH]; intro H; [cbn; auto|]. cbn [filter].
  assert (IH' : List.length (filter g xs) <= List.length (filter f xs)) by (apply IH; intros; apply H; [right|]; auto).
  destruct (g x) eqn:E. { rewrite (H x (or_introl eq_refl) E). cbn. lia. } destruct (f x); cbn; lia.
Qed.
Lemma filter_one : forall (f g : nat -> bool) v xs, NoDup xs -> (forall u, u <> v -> g u = true -> f u = true) ->
  List.length (filter g xs) <= S (List.length (filter f xs)).
Proof.
  intros f g v xs Nd H. induction xs as [|x xs IH]; [cbn; lia|]. inversion Nd as [|? ? N1 N2]; subst. specialize (IH N2). cbn [filter].
  destruct (Nat.eq_dec x v) as [-> |Hne].
  - assert (List.length (filter g xs) <= List.length (filter f xs)). { apply filter_sub. intros u Hu. apply H. congruence. }
    destruct (g v), (f v); cbn; lia.
  - destruct (g x) eqn:E; [rewrite (H x Hne E); cbn; lia|]. destruct (f x); cbn; lia.
Qed.

(** only a transfer of a marked vehicle adds to them *)
Lemma gone_step : forall c mark w0 e w p w' p', Inv2 w p -> mstep c e w p w' p' -> w_T w = w_T w0 -> w_nv w = w_nv w0 ->
  followed_from c w0 w -> (forall v, v < w_nv w0 -> mark v = true -> v_link (V w0 v) <> None) ->
  List.length (gone c mark w0 w') <= List.length (gone c mark w0 w) \/
  exists n out v il, e = VShift n out v il /\ v < w_nv w0 /\ mark v = true /\ v_link (V w0 v) = Some il /\
    List.length (gone c mark w0 w') <= S (List.length (gone c mark w0 w)).
Proof.
  intros c mark w0 e w p w' p' I M ET EV A Hm.
  assert (EN : now c w = now c w0) by (unfold now; rewrite ET; reflexivity).
  assert (Sub : (forall v, v < w_nv w0 -> mark v = true -> v_larr (V w' v) = v_larr (V w v) \/ (v_larr (V w v) == now c w0)%Q) ->
    List.length (gone c mark w0 w') <= List.length (gone c mark w0 w)).
  { intro K. apply filter_sub. intros u Hu Hg. apply in_seq in Hu. apply andb_true_iff in Hg. destruct Hg as [G1 G2]. rewrite G1. cbn.
    destruct (K u) as [E|E]; [lia|auto|rewrite <- E; auto|]. apply Qeq_bool_iff; auto. }
  assert (Cases : (forall v, v < w_nv w0 -> mark v = true -> v_larr (V w' v) = v_larr (V w v) \/ (v_larr (V w v) == now c w0)%Q) \/
     exists n out v il, e = VShift n out v il /\ v < w_nv w0 /\ mark v = true /\ v_link (V w0 v) = Some il).
  { assert (K : forall v, v < w_nv w0 -> mark v = true -> (v_larr (V w' v) = v_larr (V w v) \/ (v_larr (V w v) == now c w0)%Q) \/
       exists n out il, e = VShift n out v il /\ v_link (V w0 v) = Some il).
    { intros v Hv Hk. destruct (v_link (V w0 v)) as [k|] eqn:Ek; [|elim (Hm v Hv Hk Ek)].
      destruct (larr_step _ _ _ _ _ _ v I M) as [(E1 & _)|[(n & out & _ & Hs & _)|(n & out & il & He & Hs & El & _)]]; [auto| |].
      - left; right. destruct (A v k Hv Ek) as [B|[B|B]]; [auto| |].
        + destruct I as [[T I] _]. assert (Hv1 : v < w_nv w) by lia. destruct (s_link I Hv1) as [_ Z]; [discriminate|]. rewrite Z in B; [discriminate|congruence].
        + elim B. rewrite Hs. right; left; auto.
      - destruct (A v k Hv Ek) as [B|[B|B]]; [auto| |].
        + right. exists n, out, il. split; auto. congruence.
        + elim B. rewrite Hs. right; right; auto. }
    destruct e; try (left; intros u Hu Ku; destruct (K u Hu Ku) as [Z|(? & ? & ? & Z & _)]; [exact Z|discriminate Z]).
    match type of M with mstep _ (VShift _ _ ?u _) _ _ _ _ => rename u into v0 end.
    destruct (lt_dec v0 (w_nv w0)) as [Hv|Hv]; [|left; intros u Hu Ku; destruct (K u Hu Ku) as [Z|(? & ? & ? & Z & _)]; [exact Z|injection Z; intros; subst; contradiction]].
    destruct (mark v0) eqn:Ek; [|left; intros u Hu Ku; destruct (K u Hu Ku) as [Z|(? & ? & ? & Z & _)]; [exact Z|injection Z; intros; subst; congruence]].
    destruct (K v0 Hv Ek) as [Z|(n1 & o1 & il1 & Z & Zl)].
    - left; intros u Hu Ku; destruct (K u Hu Ku) as [Z1|(? & ? & ? & Z1 & _)]; [exact Z1|injection Z1; intros; subst; exact Z].
    - right. exists n1, o1, v0, il1. auto. }
  destruct Cases as [K|(n & out & v & il & He & Hv & Hk & Hl)]; [left; auto|]. right. exists n, out, v, il. repeat split; auto.
  apply (filter_one _ _ v); [apply seq_NoDup|]. intros u Hu Hg. apply andb_true_iff in Hg. destruct Hg as [G1 G2]. rewrite G1. cbn.
  destruct (larr_step _ _ _ _ _ _ u I M) as [(E1 & _)|[(n1 & o1 & E & _)|(n1 & o1 & il1 & E & _)]]; subst e; try discriminate E.
  - rewrite <- E1. auto.
  - injection E; intros; subst; congruence.
Qed.

Lemma gone_start : forall c mark w, reach c w -> (0 < dt c)%Q -> (forall v, v < w_nv w -> mark v = true -> v_link (V w v) <> None) -> gone c mark w w = [].
Proof.
  intros c mark w R Hd Hm. unfold gone. destruct (filter _ _) as [|v r] eqn:E; [reflexivity|exfalso].
  assert (K : In v (v :: r)) by (left; auto). rewrite <- E in K. apply filter_In in K. destruct K as [K1 K2]. apply in_seq in K1.
  apply andb_true_iff in K2. destruct K2 as [K2 K3]. apply Qeq_bool_iff in K3.
  destruct (reach_arrived c w R v) as (t & Ht & Et); [lia|apply Hm; [lia|auto]|]. rewrite Et in K3. unfold now in K3.
  apply Qmult_inj_r in K3; [|lra]. unfold Qof_nat, inject_Z, Qeq in K3. cbn in K3. lia.
Qed.

Lemma reach_cin : forall c w, reach c w -> forall l, l < w_nl w -> exists q, l_cin (L w l) = Some q.
Proof.
  intros c w R. induction R as [tm|w o w' R IH Ho Hx H|w w' R IH Hf H|w R IH]; intros l Hl.
  - cbn in Hl. lia.
  - destruct (op_link c o w w' l Ho Hx H Hl) as [Hl0 _ E _|a nm E El E2|q E E1|q E E1|q E E1|q E E1].
    + rewrite E. auto.
    + unfold new_link in E2. cbv zeta in E2. repeat (apply bind_ok in E2; destruct E2 as (? & _ & E2)). injection E2 as E2. rewrite <- E2. cbn. destruct (la_cin a); eauto.
    + subst o. cbn in Ho. assert (l_cin (L w' l) = l_cin (L w l)) as ->; [|auto]. refine (keep_cin_op c _ w w' l _ _ Hx H Ho); cbn; auto.
    + subst o. cbn in Ho. assert (l_cin (L w' l) = l_cin (L w l)) as ->; [|auto]. refine (keep_cin_op c _ w w' l _ _ Hx H Ho); cbn; auto.
    + rewrite E1. exists q. reflexivity.
    + rewrite E1. subst o. exact (IH l Ho).
  - apply tick_fr in H. destruct H as (w1 & B & ->). pose proof (body_fr _ _ B) as F. rewrite <- (fr_w_nl F) in IH.
    destruct (IH l Hl) as (q & Hq). exists q. rewrite <- Hq. change (L (sw_T (S (w_T w)) w1) l) with (L w1 l). pose proof (fr_l F l) as G. unfold lstat in G. congruence.
  - exact (IH l Hl).
Qed.

(** ** One timestep *)
Definition on_link (l : lid) (w : world) (v : vid) : bool := opt_eqb (v_link (V w v)) (Some l).
Lemma crossed_gone : forall c w w' l, crossed c w (sw_T (S (w_T w)) w') l = gone c (on_link l w) w w'.
Proof. reflexivity. Qed.
Lemma on_link_spec : forall l w v, on_link l w v = true -> v_link (V w v) = Some l.
Proof. intros l w v H. unfold on_link in H. apply opt_eqb_eq in H. auto. Qed.

Lemma outflow_run : forall c w0 w1 w' l, reach c w0 -> (0 <= dN c)%Q -> run c not_link w1 w' -> Inv2 w1 None -> fr w0 w1 ->
  (forall v, V w1 v = V w0 v) -> (0 < dt c)%Q ->
  let k := List.length (gone c (on_link l w0) w0 w') in
  (l_coutr (L w' l) + Qof_nat k * dN c <= l_coutr (L w1 l))%Q /\
  (k = 0 /\ l_coutr (L w' l) = l_coutr (L w1 l) \/ (0 <= l_coutr (L w' l))%Q).
Proof.
  intros c w0 w1 w' l R Hn H I F EV Hd k.
  pose (J := fun x p => Inv2 x p /\ w_T x = w_T w0 /\ w_nv x = w_nv w0 /\ followed_from c w0 x /\
    (l_coutr (L x l) + Qof_nat (List.length (gone c (on_link l w0) w0 x)) * dN c <= l_coutr (L w1 l))%Q /\
    (List.length (gone c (on_link l w0) w0 x) = 0 /\ l_coutr (L x l) = l_coutr (L w1 l) \/ (0 <= l_coutr (L x l))%Q)).
  enough (G : J w' None) by (unfold J in G; unfold k; tauto).
  assert (Hm : forall v, v < w_nv w0 -> on_link l w0 v = true -> v_link (V w0 v) <> None).
  { intros v _ K. apply on_link_spec in K. congruence. }
  refine (@run_inv c J not_link _ w1 w' H _).
  - intros e x p x' p' Ke (Ix & A1 & A2 & A3 & A4 & A5) M. pose proof (mstep_fr M) as Fx.
    split; [eapply mstep_Inv2; eauto|]. split; [rewrite (fr_w_T Fx); auto|]. split; [rewrite (fr_w_nv Fx); auto|]. split; [eapply followed_from_step; eauto|].
    destruct (flow_step _ _ _ _ _ _ l Ke Ix M) as [_ FS].
    destruct (gone_step c (on_link l w0) w0 e x p x' p' Ix M A1 A2 A3 Hm) as [G|(n & out & v & il & He & Hv & Hk & Hl & G)].
    + set (g := List.length (gone c (on_link l w0) w0 x)) in *. set (g' := List.length (gone c (on_link l w0) w0 x')) in *.
      assert (Qof_nat g' * dN c <= Qof_nat g * dN c)%Q. { apply Qmult_le_compat_r; auto. unfold Qof_nat. rewrite <- Zle_Qle. lia. }
      destruct FS as [E|(n & out & v & He & E1 & E2)].
      * rewrite E. split; [lra|]. destruct A5 as [[Z1 Z2]|Z]; [left; split; [lia|auto]|auto].
      * rewrite E2. split; [lra|right; lra].
    + apply on_link_spec in Hk. assert (il = l) by congruence. subst il e.
      set (g := List.length (gone c (on_link l w0) w0 x)) in *. set (g' := List.length (gone c (on_link l w0) w0 x')) in *.
      assert (Qof_nat g' * dN c <= Qof_nat g * dN c + dN c)%Q.
      { assert (Qof_nat g' * dN c <= Qof_nat (S g) * dN c)%Q by (apply Qmult_le_compat_r; auto; unfold Qof_nat; rewrite <- Zle_Qle; lia).
        rewrite Qof_S in H0. assert (((Qof_nat g + 1) * dN c == Qof_nat g * dN c + dN c)%Q) by ring. lra. }
      assert (Z : (dN c <= l_coutr (L x l))%Q /\ l_coutr (L x' l) = (l_coutr (L x l) - dN c)%Q).
      { apply (mstep_eff _ _ _ _ _ _ Ix) in M. cbn [eff] in M.
        destruct M as (-> & -> & cd & ca & rest & q & _ & _ & _ & _ & _ & _ & Hco & _ & Hci & _ & _ & _ & Hcd & Hca & Hr & _ & _ & _ & _ & HL & _).
        split; [auto|]. rewrite HL. cbv zeta. rewrite Nat.eqb_refl. destruct (Nat.eqb l out); reflexivity. }
      destruct Z as [Z1 Z2]. rewrite Z2. split; [lra|right; lra].
  - unfold J. split; [auto|]. split; [exact (fr_w_T F)|]. split; [exact (fr_w_nv F)|].
    split. { intros v kk Hv Hk. right; left. rewrite EV. auto. }
    assert (G : gone c (on_link l w0) w0 w1 = []).
    { rewrite <- (gone_start c (on_link l w0) w0 R Hd Hm). unfold gone. apply filter_ext. intro v. rewrite EV. reflexivity. }
    rewrite G. cbn [List.length]. split; [unfold Qof_nat; cbn [Z.of_nat]; change (inject_Z 0) with 0%Q; lra|auto].
Qed.

Lemma outflow_tick : forall c w w' l, reach c w -> tick c w = Ok w' -> l < w_nl w -> (0 < dt c)%Q -> (0 <= dN c)%Q ->
  let r := refill (l_cout (L w l) * dt c) (dN c * Qof_nat (l_lanes (L w l))) (l_coutr (L w l)) in
  let k := List.length (crossed c w w' l) in
  (l_coutr (L w' l) + Qof_nat k * dN c <= r)%Q /\
  (k = 0 /\ l_coutr (L w' l) = r \/ (0 <= l_coutr (L w' l))%Q) /\
  l_cout (L w' l) = l_cout (L w l) /\ l_lanes (L w' l) = l_lanes (L w l) /\ w_nl w' = w_nl w /\ w_T w' = S (w_T w).
Proof.
  intros c w w' l R H Hl Hd Hn r k. destruct (reach_cin c w R l Hl) as (q & Hq). pose proof (reach_Inv2 _ _ R) as I.
  apply tick_fr in H. destruct H as (w2 & B & ->). pose proof (body_fr _ _ B) as F. apply body_split in B. destruct B as (w1 & E1 & E2).
  assert (R1 : run c k_links w w1) by (apply phase_links_run; exact E1).
  assert (I1 : Inv2 w1 None) by (eapply run_Inv2'; [exact I|exact R1]). pose proof (run_fr _ _ _ _ R1) as F1.
  apply phase_links_eff in E1. destruct E1 as (EV & _ & _ & _ & E1). destruct (E1 l Hl) as (d & _ & EL). clear E1.
  destruct (outflow_run c w w1 w2 l R Hn E2 I1 F1 EV Hd) as [A1 A2]. rewrite EL in A1, A2. unfold linked in A1, A2. cbn [l_coutr sl_cd sl_ca sl_tti] in A1, A2.
  destruct (iofc_remain c (L w l) q Hq) as [_ X5]. rewrite X5 in A1, A2. unfold k. rewrite crossed_gone.
  change (L (sw_T (S (w_T w)) w2) l) with (L w2 l). pose proof (fr_l F l) as FL. unfold lstat in FL.
  split; [exact A1|]. split; [exact A2|]. split; [congruence|]. split; [congruence|]. split; [exact (fr_w_nl F)|reflexivity].
Qed.

Lemma keep_cout_op : forall c o w w' l, op_ok o w -> keep_cout l o w -> (forall a, o <> OExec a) -> apply_op c o w = Ok w' -> l < w_nl w ->
  l_cout (L w' l) = l_cout (L w l).
Proof.
  intros c o w w' l Ho K Hx H Hl. pose proof (op_nl _ _ _ _ Hx H Ho) as (N1 & _).
  assert (Hl2 : l < w_nl w') by lia.
  destruct (op_link c o w w' l Ho Hx H Hl2) as [_ _ _ E|a nm E El _|q E E1|q E E1|q E E1|q E E1]; [auto|lia| | | |].
  - unfold change_free_flow_speed in E1. destruct (qlt q 0); [injection E1 as <-; reflexivity|]. cbv zeta in E1.
    repeat (apply bind_ok in E1; destruct E1 as (? & _ & E1)). injection E1 as <-. rewrite L_at, Nat.eqb_refl. reflexivity.
  - unfold change_jam_density in E1. destruct (qlt q 0); [injection E1 as <-; reflexivity|]. cbv zeta in E1.
    repeat (apply bind_ok in E1; destruct E1 as (? & _ & E1)). injection E1 as <-. rewrite L_at, Nat.eqb_refl. reflexivity.
  - rewrite E1. reflexivity.
  - subst o. cbn in K. congruence.
Qed.

Lemma tally_later : forall c P f w w' k, tally c P f w w' k -> later c P w w'.
Proof.
  intros c P f w w' k H; induction H; [constructor|..].
  - eapply lt_step; [exact IHtally|]. eapply st_op; eauto.
  - eapply lt_step; [exact IHtally|]. apply st_time.
  - eapply lt_step; [exact IHtally|]. apply st_tick; auto.
Qed.

Theorem outflow_lemma : forall c l w w' k, reach c w -> tally c (keep_cout l) (fun a b => List.length (crossed c a b l)) w w' k ->
  l < w_nl w -> (0 <= l_cout (L w l))%Q -> (0 < dt c)%Q -> (0 <= dN c)%Q ->
  k = 0 \/ (Qof_nat k * dN c <= l_cout (L w l) * dt c * Qof_nat (w_T w' - w_T w) + l_coutr (L w l))%Q.
Proof.
  intros c l w w' k R H Hl Hp Hd Hn.
  enough (G : (l < w_nl w' /\ l_cout (L w' l) = l_cout (L w l) /\ w_T w <= w_T w') /\
    (l_coutr (L w' l) + Qof_nat k * dN c <= l_cout (L w l) * dt c * Qof_nat (w_T w' - w_T w) + l_coutr (L w l))%Q /\
    (k = 0 \/ (0 <= l_coutr (L w' l))%Q)).
  { destruct G as (_ & G1 & [G2|G2]); [auto|right; lra]. }
  assert (Hqd : (0 <= l_cout (L w l) * dt c)%Q) by (apply Qmult_le_0_compat; lra).
  induction H as [|w1 w2 k o H IH Hok Hk Hx E|w1 k H IH|w1 w2 k H IH Hf E].
  - split; [auto|]. rewrite Nat.sub_diag. unfold Qof_nat. cbn [Z.of_nat]. change (inject_Z 0) with 0%Q. split; [lra|auto].
  - destruct IH as ((A1 & A2 & A4) & B2 & B3). assert (R1 : reach c w1) by (eapply later_reach; [exact R|eapply tally_later; eauto]).
    pose proof (op_nl _ _ _ _ Hx E Hok) as (N1 & _). pose proof (op_clock _ _ _ _ R1 Hok Hx E) as T1.
    pose proof (keep_cout_op _ _ _ _ _ Hok Hk Hx E A1) as K1. pose proof (op_lflow _ _ _ _ _ Hok Hx E A1) as K2. apply lflow_eq in K2.
    destruct K2 as (_ & _ & _ & K3 & _). rewrite K1, K3, T1. split; [repeat split; auto; lia|]. auto.
  - exact IH.
  - destruct IH as ((A1 & A2 & A4) & B2 & B3). assert (R1 : reach c w1) by (eapply later_reach; [exact R|eapply tally_later; eauto]).
    destruct (outflow_tick c w1 w2 l R1 E A1 Hd Hn) as (C1 & C2 & C3 & C4 & C5 & C6). set (j := List.length (crossed c w1 w2 l)) in *.
    split; [repeat split; [lia|congruence|lia]|]. rewrite A2 in C1, C2.
    assert (EQ : (Qof_nat (k + j) == Qof_nat k + Qof_nat j)%Q) by (unfold Qof_nat; rewrite Nat2Z.inj_add, inject_Z_plus; reflexivity).
    pose proof (refill_le _ (dN c * Qof_nat (l_lanes (L w1 l))) (l_coutr (L w1 l)) Hqd) as [RL1 RL2].
    split.
    + rewrite C6. replace (S (w_T w1) - w_T w) with (S (w_T w1 - w_T w)) by lia. rewrite Qof_S, EQ.
      set (a := (l_cout (L w l) * dt c)%Q) in *. set (z := Qof_nat (w_T w1 - w_T w)) in *.
      assert (((Qof_nat k + Qof_nat j) * dN c == Qof_nat k * dN c + Qof_nat j * dN c)%Q) by ring.
      assert ((a * (z + 1) == a * z + a)%Q) by ring. lra.
    + destruct C2 as [[Z1 Z2]|C2]; [|auto]. rewrite Z1, Nat.add_0_r. destruct B3 as [B3|B3]; [auto|right; rewrite Z2; lra].
Qed.

Theorem outflow_burst : forall c l w, reachP c (keep_cout l) w -> l < w_nl w -> (0 <= l_cout (L w l))%Q -> (0 < dt c)%Q -> (0 <= dN c)%Q ->
  (0 <= l_coutr (L w l))%Q /\ (l_coutr (L w l) <= dN c * Qof_nat (l_lanes (L w l)) + l_cout (L w l) * dt c)%Q.
Proof.
  intros c l w R Hl Hp Hd Hn. revert Hl Hp. revert w R.
  apply (reachP_ind' c (keep_cout l) (fun w => l < w_nl w -> (0 <= l_cout (L w l))%Q ->
    (0 <= l_coutr (L w l))%Q /\ (l_coutr (L w l) <= dN c * Qof_nat (l_lanes (L w l)) + l_cout (L w l) * dt c)%Q)).
  - intros tm Hl. cbn in Hl. lia.
  - intros w w' R IH S Hl Hp. assert (R1 : reach c w) by (eapply reachP_reach; eauto). destruct S as [w o w' Hok Hk Hx E|w w' Hf E|w].
    + destruct (le_lt_dec (w_nl w) l) as [Hge|Hlt].
      * destruct (op_link c o w w' l Hok Hx E Hl) as [Hlt _ E1 _|a nm E1 El E2|q0 E1 E2|q0 E1 E2|q0 E1 E2|q0 E1 E2]; try (subst o; cbn in Hok; lia); [lia|].
        subst l. unfold new_link in E2. cbv zeta in E2. repeat (apply bind_ok in E2; destruct E2 as (? & _ & E2)). injection E2 as E2. rewrite <- E2 in *.
        cbn [l_cout l_coutr l_lanes] in *. 
        assert (0 <= dN c * Qof_nat (la_lanes a))%Q by (apply Qmult_le_0_compat; auto; apply Qof_nn).
        set (q := match la_cout a with Some q => q | None => _ end) in *. assert (0 <= q * dt c)%Q by (apply Qmult_le_0_compat; lra). split; lra.
      * pose proof (keep_cout_op _ _ _ _ _ Hok Hk Hx E Hlt) as K1. pose proof (op_lflow _ _ _ _ _ Hok Hx E Hlt) as K2. apply lflow_eq in K2.
        destruct K2 as (_ & _ & _ & K3 & _ & K4 & _). rewrite K3, K4, K1. apply IH; auto. rewrite <- K1. auto.
    + pose proof (tick_fr _ _ _ E) as (w1 & B & Ew). pose proof (body_fr _ _ B) as F. assert (Hl0 : l < w_nl w). { rewrite <- (fr_w_nl F). rewrite Ew in Hl. exact Hl. }
      destruct (outflow_tick c w w' l R1 E Hl0 Hd Hn) as (C1 & C2 & C3 & C4 & C5 & C6). rewrite C3 in *. rewrite C4. destruct (IH Hl0 Hp) as [J1 J2].
      assert (Hqd : (0 <= l_cout (L w l) * dt c)%Q) by (apply Qmult_le_0_compat; lra).
      pose proof (refill_le _ (dN c * Qof_nat (l_lanes (L w l))) (l_coutr (L w l)) Hqd) as [RL1 RL2].
      pose proof (refill_lim _ (dN c * Qof_nat (l_lanes (L w l))) (l_coutr (L w l)) _ J2 (Qle_refl _)) as RL3.
      assert (0 <= Qof_nat (List.length (crossed c w w' l)) * dN c)%Q by (apply Qmult_le_0_compat; auto; apply Qof_nn).
      split; [|lra]. destruct C2 as [[_ C2]|C2]; [rewrite C2; lra|auto].
    + apply IH; auto.
Qed.

(** ** Nodes *)
Lemma fcapr_step : forall c e w p w' p' n, Inv2 w p -> mstep c e w p w' p' -> e <> VNode n ->
  (n_fcapr (N w' n) = n_fcapr (N w n) /\ (forall out v il, e = VShift n out v il -> n_fcap (N w n) = None)) \/
  exists out v il, e = VShift n out v il /\ (dN c <= n_fcapr (N w n))%Q /\ n_fcapr (N w' n) = (n_fcapr (N w n) - dN c)%Q.
Proof.
  intros c e w p w' p' m I M He. apply (mstep_eff _ _ _ _ _ _ I) in M. destruct e; cbn [eff] in M.
  - destruct M as (_ & _ & _ & _ & H & _). rewrite H. left; split; [auto|discriminate].
  - destruct M as (_ & _ & _ & _ & H & _). rewrite H. left; split; [auto|discriminate].
  - destruct M as (_ & _ & q & ca & _ & _ & _ & _ & _ & _ & _ & _ & _ & H & _). rewrite H. destruct (Nat.eqb m n) eqn:E; [apply Nat.eqb_eq in E; subst|]; left; (split; [auto|discriminate]).
  - destruct M as (_ & _ & _ & _ & _ & _ & _ & n1 & n2 & _ & _ & H). rewrite H. destruct (Nat.eqb m n) eqn:E; [apply Nat.eqb_eq in E; subst; congruence|left; split; [auto|discriminate]].
  - destruct M as (_ & _ & cd & ca & rest & q & _ & _ & _ & _ & _ & _ & _ & _ & _ & H1 & _ & _ & _ & _ & _ & _ & _ & H & _). rewrite H.
    destruct (Nat.eqb m n) eqn:E; [apply Nat.eqb_eq in E; subst m|left; split; [auto|intros ? ? ? Z; injection Z; intros; subst; rewrite Nat.eqb_refl in E; discriminate]]. unfold charge. destruct (n_fcap (N w n)) eqn:Ef; [|left; split; [auto|intros; auto]]. right. exists out, v, il. auto.
  - destruct M as (_ & rest & cd & lg & tl & _ & _ & _ & _ & _ & _ & _ & _ & H & _). rewrite H. left; split; [auto|discriminate].
  - destruct M as (_ & _ & _ & _ & _ & _ & H & _). rewrite H. destruct (Nat.eqb m n) eqn:E; [apply Nat.eqb_eq in E; subst|]; left; (split; [auto|discriminate]).
  - destruct M as (_ & _ & _ & _ & _ & _ & H). rewrite H. destruct (Nat.eqb m n) eqn:E; [apply Nat.eqb_eq in E; subst|]; left; (split; [auto|discriminate]).
  - destruct M as (_ & _ & _ & H & _). rewrite H. left; split; [auto|discriminate].
  - destruct M as (_ & _ & _ & _ & H & _). rewrite H. left; split; [auto|discriminate].
  - destruct M as (_ & _ & _ & _ & _ & _ & _ & _ & _ & H). rewrite H. destruct (Nat.eqb m _) eqn:E; left; (split; [auto|discriminate]).
  - destruct M as (_ & _ & _ & _ & _ & H & _). rewrite H. left; split; [auto|discriminate].
  - destruct M as (_ & _ & H & _). rewrite (so_n H). left; split; [auto|discriminate].
  - destruct M as (_ & _ & H & _). rewrite (so_n H). left; split; [auto|discriminate].
  - destruct M as (_ & _ & _ & _ & _ & H & _). rewrite H. left; split; [auto|discriminate].
  - destruct M as (_ & _ & _ & _ & _ & H & _). rewrite H. left; split; [auto|discriminate].
  - destruct M as (_ & _ & _ & _ & _ & H & _). rewrite H. left; split; [auto|discriminate].
  - destruct M as (_ & _ & H & _). rewrite (so_n H). left; split; [auto|discriminate].
  - destruct M as (_ & _ & _ & _ & _ & _ & _ & H). rewrite H. destruct (Nat.eqb m _) eqn:E; left; (split; [auto|discriminate]).
  - destruct M as (_ & _ & _ & _ & H & _). rewrite H. left; split; [auto|discriminate].
  - destruct M as (_ & _ & _ & _ & H & _). rewrite H. left; split; [auto|discriminate].
  - destruct M as (_ & _ & _ & _ & H & _). rewrite H. left; split; [auto|discriminate].
Qed.

Definition quiet (n : nid) (e : ev) : bool := match e with VNode m => negb (Nat.eqb m n) | VShift _ _ _ _ => false | _ => true end.

(** what is kept track of within a timestep that began in [w0] *)
Record track (c : cfg) (mark : vid -> bool) (w0 w : world) (p : pend) : Prop := mkTrack {
  tr_inv : Inv2 w p;
  tr_T : w_T w = w_T w0;
  tr_nv : w_nv w = w_nv w0;
  tr_from : followed_from c w0 w }.

Lemma track_step : forall c mark w0 e w p w' p', track c mark w0 w p -> mstep c e w p w' p' -> track c mark w0 w' p'.
Proof.
  intros c mark w0 e w p w' p' [A1 A2 A3 A4] M. pose proof (mstep_fr M) as Fx.
  constructor; [eapply mstep_Inv2; eauto|rewrite (fr_w_T Fx); auto|rewrite (fr_w_nv Fx); auto|eapply followed_from_step; eauto].
Qed.

Lemma quiet_run : forall c mark w0 n K w w', (forall e, K e = true -> quiet n e = true) ->
  (forall v, v < w_nv w0 -> mark v = true -> v_link (V w0 v) <> None) ->
  run c K w w' -> track c mark w0 w None ->
  track c mark w0 w' None /\ n_fcapr (N w' n) = n_fcapr (N w n) /\ List.length (gone c mark w0 w') <= List.length (gone c mark w0 w).
Proof.
  intros c mark w0 n K w w' HK Hm H T.
  refine (@run_inv c (fun x p => track c mark w0 x p /\ n_fcapr (N x n) = n_fcapr (N w n) /\ List.length (gone c mark w0 x) <= List.length (gone c mark w0 w)) K _ w w' H _); auto.
  intros e x p x' p' Ke (A1 & A2 & A3) M. apply HK in Ke. split; [eapply track_step; eauto|]. destruct A1 as [B1 B2 B3 B4]. split.
  - rewrite <- A2. destruct (fcapr_step c e x p x' p' n B1 M) as [[E _]|(out & v & il & E & _)]; [|auto|].
    + intros ->. cbn in Ke. rewrite Nat.eqb_refl in Ke. discriminate.
    + subst e. discriminate.
  - destruct (gone_step c mark w0 e x p x' p' B1 M B2 B3 B4 Hm) as [E|(n' & out & v & il & E & _)]; [lia|]. subst e. discriminate.
Qed.

Definition ends_at (n : nid) (w : world) (v : vid) : bool :=
  match v_link (V w v) with Some l => Nat.eqb (l_end (L w l)) n | None => false end.
Lemma crossed_at_gone : forall c w w' n, crossed_at c w (sw_T (S (w_T w)) w') n = gone c (ends_at n w) w w'.
Proof. reflexivity. Qed.

Lemma busy_run : forall c w0 n w w', (0 <= dN c)%Q -> n_fcap (N w0 n) <> None -> fr w0 w -> run c k_transfer w w' -> IncA w None -> track c (ends_at n w0) w0 w None ->
  gone c (ends_at n w0) w0 w = [] ->
  track c (ends_at n w0) w0 w' None /\
  let k := List.length (gone c (ends_at n w0) w0 w') in
  (n_fcapr (N w' n) + Qof_nat k * dN c <= n_fcapr (N w n))%Q /\
  (k = 0 /\ n_fcapr (N w' n) = n_fcapr (N w n) \/ (0 <= n_fcapr (N w' n))%Q).
Proof.
  intros c w0 n w w' Hn Hfc F H IA T G0. set (g := fun x => List.length (gone c (ends_at n w0) w0 x)).
  pose (J := fun x p => fr w0 x /\ IncA x p /\ track c (ends_at n w0) w0 x p /\
     (n_fcapr (N x n) + Qof_nat (g x) * dN c <= n_fcapr (N w n))%Q /\
     (g x = 0 /\ n_fcapr (N x n) = n_fcapr (N w n) \/ (0 <= n_fcapr (N x n))%Q)).
  enough (G : J w' None) by (unfold J, g in G; cbv zeta; tauto).
  assert (Hm : forall v, v < w_nv w0 -> ends_at n w0 v = true -> v_link (V w0 v) <> None).
  { intros v _ K E. unfold ends_at in K. rewrite E in K. discriminate. }
  refine (@run_inv c J k_transfer _ w w' H _).
  - intros e x p x' p' Ke (A0 & A1 & A2 & A3 & A4) M. pose proof (mstep_fr M) as Fx. pose proof A2 as A2'. destruct A2 as [B1 B2 B3 B4].
    assert (Kf : k_first e = true) by (destruct e; try discriminate Ke; reflexivity).
    split; [eapply fr_trans; eauto|]. split; [eapply IncA_step; eauto|]. split; [eapply track_step; eauto|].
    assert (He : e <> VNode n) by (intros ->; discriminate).
    pose proof (fcapr_step c e x p x' p' n B1 M He) as FS.
    destruct (gone_step c (ends_at n w0) w0 e x p x' p' B1 M B2 B3 B4 Hm) as [E|(n' & out & v & il & E & Hv & Hk & Hl & G)].
    + fold (g x') in E. fold (g x) in E. assert (Qof_nat (g x') * dN c <= Qof_nat (g x) * dN c)%Q.
      { apply Qmult_le_compat_r; auto. unfold Qof_nat. rewrite <- Zle_Qle. lia. }
      destruct FS as [[E1 _]|(out & v & il & _ & E1 & E2)].
      * rewrite E1. split; [lra|]. destruct A4 as [[Z1 Z2]|Z]; [left; split; [lia|auto]|auto].
      * rewrite E2. split; [lra|right; lra].
    + fold (g x') in G. fold (g x) in G.
      assert (Qof_nat (g x') * dN c <= Qof_nat (g x) * dN c + dN c)%Q.
      { assert (H0 : (Qof_nat (g x') * dN c <= Qof_nat (S (g x)) * dN c)%Q) by (apply Qmult_le_compat_r; auto; unfold Qof_nat; rewrite <- Zle_Qle; lia).
        rewrite Qof_S in H0. assert (((Qof_nat (g x) + 1) * dN c == Qof_nat (g x) * dN c + dN c)%Q) by ring. lra. }
      subst e. assert (Hn' : n' = n).
      { apply (mstep_eff _ _ _ _ _ _ B1) in M. cbn [eff] in M.
        destruct M as (-> & _ & cd & ca & rest & q & _ & Hin & _ & _ & _ & _ & _ & _ & _ & _ & Hlk & Hst & _).
        destruct (ia_in _ _ A1 _ _ Hin) as (_ & [(k & (S1 & S2 & _) & S3 & _)|[(o & Z)|[Z|Z]]]); [|discriminate|congruence|congruence].
        assert (k = il) by congruence. subst k. unfold ends_at in Hk. rewrite Hl in Hk. apply Nat.eqb_eq in Hk.
        rewrite <- S3, <- Hk. apply (fr_l_end A0). }
      subst n'. destruct FS as [[_ E1]|(out' & v' & il' & _ & E1 & E2)].
      * exfalso. specialize (E1 _ _ _ eq_refl). rewrite (fr_n_fcap A0) in E1. contradiction.
      * rewrite E2. split; [lra|right; lra].
  - unfold J, g. rewrite G0. cbn [List.length]. split; [exact F|]. split; [exact IA|]. split; [exact T|]. split; [|left; auto]. assert ((Qof_nat 0 * dN c == 0)%Q) by (unfold Qof_nat; cbn; ring). lra.
Qed.

Lemma update_fcapr : forall c n a b fc m, node_update c n a = Ok b -> n_fcap (N a n) = Some fc -> n_lanes (N a n) = Some m ->
  n_fcapr (N b n) = refill (fc * dt c) (dN c * Qof_nat m) (n_fcapr (N a n)).
Proof.
  intros c n a b fc m H Hf Hm. unfold node_update in H. apply bind_ok in H. destruct H as (n1 & E1 & H).
  apply bind_ok in H. destruct H as (n2 & E2 & H). injection H as <-. rewrite N_at, Nat.eqb_refl.
  assert (S : n_fcap n1 = n_fcap (N a n) /\ n_lanes n1 = n_lanes (N a n) /\ n_fcapr n1 = n_fcapr (N a n)).
  { unfold signal_control in E1. cbv zeta in E1. binv E1. destruct (qlt _ _); auto. }
  destruct S as (S1 & S2 & S3). unfold flow_capacity_update in E2. rewrite S1, Hf, S2, Hm in E2. cbn in E2. injection E2 as <-.
  unfold refill. rewrite S3. destruct (qlt _ _); cbn; auto.
Qed.

Lemma node_tick : forall c w w' n fc m, reach c w -> tick c w = Ok w' -> n < w_nn w -> n_fcap (N w n) = Some fc -> n_lanes (N w n) = Some m ->
  (0 < dt c)%Q -> (0 <= dN c)%Q ->
  let r := refill (fc * dt c) (dN c * Qof_nat m) (n_fcapr (N w n)) in
  let k := List.length (crossed_at c w w' n) in
  (n_fcapr (N w' n) + Qof_nat k * dN c <= r)%Q /\
  (k = 0 /\ n_fcapr (N w' n) = r \/ (0 <= n_fcapr (N w' n))%Q) /\
  n_fcap (N w' n) = Some fc /\ n_lanes (N w' n) = Some m /\ w_nn w' = w_nn w /\ w_T w' = S (w_T w).
Proof.
  intros c w w' n fc m R H Hn Hfc Hm Hd HN r k. pose proof (reach_Inv2 _ _ R) as I.
  apply tick_fr in H. destruct H as (wz & B & ->). pose proof (body_fr _ _ B) as F. apply body_runs in B.
  destruct B as (w1 & w2 & w3 & w4 & w5 & w6 & E1 & E2 & E3 & E4 & E5 & E6 & ->).
  assert (R1 : run c k_links w w1) by (apply phase_links_run; exact E1).
  assert (R2 : run c k_nodes w1 w2) by (apply phase_nodes_run; exact E2).
  assert (R3 : run c k_transfer w2 w3) by (apply phase_transfer_run; exact E3).
  assert (R4 : run c k_follow w3 w4) by (apply phase_follow_run; exact E4).
  assert (R5 : run c k_vehicles w4 w5) by (apply phase_vehicles_run; exact E5).
  assert (R6 : run c k_route w5 w6) by (apply route_phase_run; exact E6).
  pose proof (run_fr _ _ _ _ R1) as F1. pose proof (run_fr _ _ _ _ R2) as F2.
  assert (Hmk : forall v, v < w_nv w -> ends_at n w v = true -> v_link (V w v) <> None).
  { intros v _ K E. unfold ends_at in K. rewrite E in K. discriminate. }
  assert (T0 : track c (ends_at n w) w w None). { constructor; auto. intros v kk Hv Hk. auto. }
  assert (G0 : gone c (ends_at n w) w w = []) by (apply gone_start; auto).
  destruct (quiet_run c _ w n k_links w w1 ltac:(intros []; cbn; auto; discriminate) Hmk R1 T0) as (T1 & C1 & G1).
  destruct (gen_split c n (seq 0 (w_nn w1)) w1 w2 E2) as [_ K].
  { apply seq_NoDup. } { intros j Hj. apply in_seq in Hj. lia. }
  destruct K as (a & b & Ra & Eb & Rb). { apply in_seq. rewrite (fr_w_nn F1). lia. }
  destruct (quiet_run c _ w n (k_oth n) w1 a ltac:(intros []; cbn; auto; discriminate) Hmk Ra T1) as (Ta & Ca & Ga).
  pose proof (run_fr _ _ _ _ Ra) as Fa.
  apply bind_ok in Eb. destruct Eb as (b1 & Eg & Eu).
  assert (Hna : n < w_nn a). { rewrite (fr_w_nn Fa), (fr_w_nn F1). exact Hn. }
  assert (Rg : run c (k_ent n) a b1) by (eapply gen_loop_ent; eauto).
  destruct (quiet_run c _ w n (k_ent n) a b1 ltac:(intros []; cbn; auto; discriminate) Hmk Rg Ta) as (Tb & Cb & Gb).
  pose proof (run_fr _ _ _ _ Rg) as Fg.
  assert (Rn : run c (fun e => match e with VNode _ => true | _ => false end) b1 b).
  { eapply run_one with (e := VNode n); [reflexivity|]. constructor; auto. rewrite (fr_w_nn Fg). auto. }
  assert (Fab : fr w b1) by (eapply fr_trans; [exact F1|eapply fr_trans; eauto]).
  assert (Cu : n_fcapr (N b n) = refill (fc * dt c) (dN c * Qof_nat m) (n_fcapr (N b1 n))).
  { eapply update_fcapr; [exact Eu| |]; [rewrite (fr_n_fcap Fab); auto|rewrite (fr_n_lanes Fab); auto]. }
  destruct (quiet_run c (ends_at n w) w (S n) (fun e => match e with VNode j => Nat.eqb j n | _ => false end) b1 b) as (Tc & _ & Gc); auto.
  { intros []; cbn; try discriminate. intro Z. apply Nat.eqb_eq in Z. subst. apply negb_true_iff, Nat.eqb_neq. lia. }
  { eapply run_one with (e := VNode n); [apply Nat.eqb_refl|]. constructor; auto. rewrite (fr_w_nn Fg). auto. }
  destruct (quiet_run c _ w n (k_oth n) b w2 ltac:(intros []; cbn; auto; discriminate) Hmk Rb Tc) as (T2 & C2 & G2).
  assert (G2' : gone c (ends_at n w) w w2 = []).
  { rewrite G0 in G1. cbn in G1. destruct (gone c (ends_at n w) w w2) as [|? ?] eqn:Z; [reflexivity|]. cbn in G2. lia. }
  assert (IA2 : IncA w2 None).
  { assert (R12 : run c k_first w w2).
    { eapply run_trans; [eapply run_weaken; [|exact R1]|eapply run_weaken; [|exact R2]]; intros []; cbn; auto; discriminate. }
    destruct (run_with c IncA k_first) with (w := w) (w' := w2) as [_ Z]; auto.
    - intros; eapply IncA_step; eauto.
    - apply IncOK_A. apply (ib_ok _ (reach_IncB _ _ R)). }
  destruct (busy_run c w n w2 w3 HN ltac:(congruence) (fr_trans F1 F2) R3 IA2 T2 G2') as (T3 & C3 & D3).
  destruct (quiet_run c _ w n k_follow w3 w4 ltac:(intros []; cbn; auto; discriminate) Hmk R4 T3) as (T4 & C4 & G4).
  destruct (quiet_run c _ w n k_vehicles w4 w5 ltac:(intros []; cbn; auto; discriminate) Hmk R5 T4) as (T5 & C5 & G5).
  destruct (quiet_run c _ w n k_route w5 w6 ltac:(intros []; cbn; auto; discriminate) Hmk R6 T5) as (T6 & C6 & G6).
  assert (Hr : n_fcapr (N w2 n) = r) by (rewrite C2, Cu, Cb, Ca, C1; reflexivity). rewrite Hr in C3, D3.
  unfold k. rewrite crossed_at_gone. set (wz := sw_TIME (now c w6) w6) in *. change (N (sw_T (S (w_T w)) wz) n) with (N w6 n).
  change (gone c (ends_at n w) w wz) with (gone c (ends_at n w) w w6).
  assert (CC : n_fcapr (N w6 n) = n_fcapr (N w3 n)) by congruence. rewrite CC.
  assert (GG : List.length (gone c (ends_at n w) w w6) <= List.length (gone c (ends_at n w) w w3)) by lia.
  split.
  { assert (Qof_nat (List.length (gone c (ends_at n w) w w6)) * dN c <= Qof_nat (List.length (gone c (ends_at n w) w w3)) * dN c)%Q; [|lra].
    apply Qmult_le_compat_r; auto. unfold Qof_nat. rewrite <- Zle_Qle. lia. }
  split. { destruct D3 as [[Z1 Z2]|Z]; [left; split; [lia|auto]|auto]. }
  split; [rewrite <- Hfc; exact (fr_n_fcap F n)|]. split; [rewrite <- Hm; exact (fr_n_lanes F n)|]. split; [exact (fr_w_nn F)|reflexivity].
Qed.

(** creation of nodes and finalization give the full first allowance *)
Definition fcap_inv (c : cfg) (w : world) : Prop :=
  forall n fc, n < w_nn w -> n_fcap (N w n) = Some fc -> (exists m, n_lanes (N w n) = Some m) /\
    ((0 <= fc)%Q -> (0 <= n_fcapr (N w n))%Q /\
       forall m, n_lanes (N w n) = Some m -> (n_fcapr (N w n) <= dN c * Qof_nat m + fc * dt c)%Q).

Lemma fcap_ostep : forall c w w', (0 < dt c)%Q -> (0 <= dN c)%Q -> ostep c w w' -> fcap_inv c w -> fcap_inv c w'.
Proof.
  intros c w w' Hd Hn H A.
  assert (New : forall fc q m, q = (fc * dt c)%Q -> (0 <= fc)%Q -> (0 <= q)%Q /\ (q <= dN c * Qof_nat m + fc * dt c)%Q).
  { intros fc q m -> Hf. assert (0 <= fc * dt c)%Q by (apply Qmult_le_0_compat; lra).
    assert (0 <= dN c * Qof_nat m)%Q by (apply Qmult_le_0_compat; auto; apply Qof_nn). split; lra. }
  destruct H.
  - intros n fc Hn'. unfold added_node in *. cbn [w_nn sw_nn sw_nodes] in Hn'. unfold N. cbn [w_nodes sw_nn sw_nodes]. unfold upd.
    destruct (Nat.eqb n (w_nn w)) eqn:E; intro Hfc.
    + unfold new_node in H0. cbv zeta in H0. apply bind_ok in H0. destruct H0 as ([ph t0] & _ & H0). injection H0 as <-. cbn [n_fcap n_lanes n_fcapr] in *.
      rewrite Hfc. split; [destruct (na_lanes a); eauto|]. intro Hf. split; [apply (New fc _ 0 eq_refl Hf)|intros; apply (New fc _ m eq_refl Hf)].
    + apply Nat.eqb_neq in E. apply (A n fc); [lia|auto].
  - intros n fc Hn' Hfc. unfold added_link in *.
    assert (K : n_fcap (N (added_link (la_start a) (la_end a) k w) n) = n_fcap (N w n) /\ n_lanes (N (added_link (la_start a) (la_end a) k w) n) = n_lanes (N w n) /\
      n_fcapr (N (added_link (la_start a) (la_end a) k w) n) = n_fcapr (N w n)).
    { unfold added_link. rewrite !N_at. destruct (Nat.eqb n (la_end a)) eqn:E1, (Nat.eqb n (la_start a)) eqn:E2;
      rewrite ?Nat.eqb_eq, ?Nat.eqb_neq in *; subst; rewrite ?Nat.eqb_refl; try (destruct (Nat.eqb _ _) eqn:E3; [apply Nat.eqb_eq in E3|]); subst; auto. }
    unfold added_link in K. destruct K as (K1 & K2 & K3). rewrite K1 in Hfc. rewrite K2, K3. apply (A n fc); auto.
  - exact A.
  - intros n fc Hn' Hfc. pose proof (finalize_ok _ _ _ _ H0) as Z. pose proof (fz_cnt _ _ _ Z) as Z1. injection Z1; intros.
    assert (Hn0 : n < w_nn w) by lia. rewrite (finalize_node _ _ _ _ n H0 Hn0) in *. destruct (c_adjust c); [|apply A; auto].
    unfold adjust_node_capacity in *. cbv zeta in *. destruct (n_fcap (N w n)) as [fc0|] eqn:Ef; [apply A; auto; rewrite <- Hfc; auto|].
    destruct (map _ (n_in _)); [congruence|]. destruct (map _ (n_out _)); [congruence|]. rewrite N_at, Nat.eqb_refl in *.
    cbn [n_fcap n_lanes n_fcapr sn_lanes sn_fcapr sn_fcap] in *. injection Hfc as Hfc.
    split; [destruct (n_lanes (N w n)); eauto|]. intro Hf. rewrite Hfc in *. split; [apply (New fc _ 0 eq_refl Hf)|intros; apply (New fc _ m eq_refl Hf)].
  - intros n fc Hn' Hfc. unfold wkeep in H2. injection H2; intros. unfold N in *. rewrite H1 in *. apply (A n fc); [lia|auto].
  - intros n fc Hn' Hfc. unfold wkeep in H2. injection H2; intros. pose proof (H1 n) as Z. unfold nkeep in Z.
    assert (n_fcap (N w' n) = n_fcap (N w n) /\ n_lanes (N w' n) = n_lanes (N w n) /\ n_fcapr (N w' n) = n_fcapr (N w n)) as (K1 & K2 & K3) by (repeat split; congruence).
    rewrite K1 in Hfc. rewrite K2, K3. apply (A n fc); [lia|auto].
Qed.

Theorem reach_fcap : forall c w, reach c w -> (0 < dt c)%Q -> (0 <= dN c)%Q -> fcap_inv c w.
Proof.
  intros c w R Hd Hn. induction R as [tm|w o w' R IH Ho Hx H|w w' R IH Hf H|w R IH].
  - intros n fc Hn'. cbn in Hn'. lia.
  - pose proof (apply_op_osteps _ _ _ _ Ho Hx H) as O. clear - O IH Hd Hn. induction O as [|a b d O1 O IHO]; auto. apply IHO. eapply fcap_ostep; eauto.
  - intros n fc Hn' Hfc. pose proof (tick_fr _ _ _ H) as (w1 & B & Ew). pose proof (body_fr _ _ B) as F.
    assert (Hn0 : n < w_nn w). { rewrite <- (fr_w_nn F). rewrite Ew in Hn'. exact Hn'. }
    assert (Hf0 : n_fcap (N w n) = Some fc). { rewrite <- Hfc, Ew. symmetry. exact (fr_n_fcap F n). }
    destruct (IH n fc Hn0 Hf0) as [(m & Hm) J].
    destruct (node_tick c w w' n fc m R H Hn0 Hf0 Hm Hd Hn) as (C1 & C2 & C3 & C4 & C5 & C6). split; [eauto|]. intro Hp. destruct (J Hp) as [J1 J2]. specialize (J2 m Hm).
    assert (Hqd : (0 <= fc * dt c)%Q) by (apply Qmult_le_0_compat; lra).
    pose proof (refill_le _ (dN c * Qof_nat m) (n_fcapr (N w n)) Hqd) as [RL1 RL2].
    pose proof (refill_lim _ (dN c * Qof_nat m) (n_fcapr (N w n)) _ J2 (Qle_refl _)) as RL3.
    assert (0 <= Qof_nat (List.length (crossed_at c w w' n)) * dN c)%Q by (apply Qmult_le_0_compat; auto; apply Qof_nn).
    split; [destruct C2 as [[_ C2]|C2]; [rewrite C2; lra|auto]|]. intros m' Hm'. assert (m' = m) by congruence. subst m'. lra.
  - exact IH.
Qed.

Lemma op_node : forall c o w w' n, op_ok o w -> (forall a, o <> OExec a) -> apply_op c o w = Ok w' -> w_final w = true -> n < w_nn w ->
  n_fcap (N w' n) = n_fcap (N w n) /\ n_lanes (N w' n) = n_lanes (N w n) /\ n_fcapr (N w' n) = n_fcapr (N w n) /\ w_final w' = true /\ w_nn w' = w_nn w.
Proof.
  intros c o w w' n Ho Hx H Hf Hn. pose proof (apply_op_osteps _ _ _ _ Ho Hx H) as O. clear H Ho Hx. induction O as [w|a b d O1 O IH]; [auto|].
  assert (K : n_fcap (N b n) = n_fcap (N a n) /\ n_lanes (N b n) = n_lanes (N a n) /\ n_fcapr (N b n) = n_fcapr (N a n) /\ w_final b = true /\ w_nn b = w_nn a).
  { destruct O1; try congruence.
    - auto.
    - unfold N. rewrite H1. unfold wkeep in H2. injection H2; intros. repeat split; congruence.
    - specialize (H1 n). unfold nkeep in H1. unfold wkeep in H2. injection H2; intros. repeat split; congruence. }
  destruct K as (K1 & K2 & K3 & K4 & K5). destruct IH as (J1 & J2 & J3 & J4 & J5); [auto|lia|]. repeat split; congruence.
Qed.

Theorem node_lemma : forall c P n fc w w' k, reach c w -> w_final w = true ->
  tally c P (fun a b => List.length (crossed_at c a b n)) w w' k ->
  n < w_nn w -> n_fcap (N w n) = Some fc -> (0 <= fc)%Q -> (0 < dt c)%Q -> (0 <= dN c)%Q ->
  exists m, n_lanes (N w n) = Some m /\
   (Qof_nat k * dN c <= fc * dt c * Qof_nat (w_T w' - w_T w) + n_fcapr (N w n))%Q /\
   (n_fcapr (N w n) <= dN c * Qof_nat m + fc * dt c)%Q.
Proof.
  intros c P n fc w w' k R Hfin H Hn Hf Hp Hd HN. destruct (reach_fcap c w R Hd HN n fc Hn Hf) as [(m & Hm) B]. destruct (B Hp) as [B1 B2].
  exists m. split; [auto|]. split; [|auto].
  enough (G : (w_final w' = true /\ n < w_nn w' /\ n_fcap (N w' n) = Some fc /\ n_lanes (N w' n) = Some m /\ w_T w <= w_T w') /\
    (n_fcapr (N w' n) + Qof_nat k * dN c <= fc * dt c * Qof_nat (w_T w' - w_T w) + n_fcapr (N w n))%Q /\
    (0 <= n_fcapr (N w' n))%Q).
  { destruct G as (_ & G1 & G2). lra. }
  assert (Hqd : (0 <= fc * dt c)%Q) by (apply Qmult_le_0_compat; lra).
  induction H as [|w1 w2 k o H IH Hok Hk Hx E|w1 k H IH|w1 w2 k H IH Hf1 E].
  - split; [auto|]. rewrite Nat.sub_diag. unfold Qof_nat. cbn [Z.of_nat]. change (inject_Z 0) with 0%Q. split; [lra|auto].
  - destruct IH as ((A0 & A1 & A2 & A3 & A4) & C2 & C3). assert (R1 : reach c w1) by (eapply later_reach; [exact R|eapply tally_later; eauto]).
    pose proof (op_clock _ _ _ _ R1 Hok Hx E) as T1. destruct (op_node c o w1 w2 n Hok Hx E A0 A1) as (K1 & K2 & K3 & K4 & K5).
    rewrite K1, K2, K3, T1. split; [repeat split; auto; lia|]. auto.
  - exact IH.
  - destruct IH as ((A0 & A1 & A2 & A3 & A4) & C2 & C3). assert (R1 : reach c w1) by (eapply later_reach; [exact R|eapply tally_later; eauto]).
    destruct (node_tick c w1 w2 n fc m R1 E A1 A2 A3 Hd HN) as (D1 & D2 & D3 & D4 & D5 & D6). set (j := List.length (crossed_at c w1 w2 n)) in *.
    assert (Hfin2 : w_final w2 = true). { pose proof (tick_fr _ _ _ E) as (wb & Bb & ->). cbn. rewrite (fr_w_final (body_fr _ _ Bb)). auto. }
    split; [repeat split; auto; lia|].
    assert (EQ : (Qof_nat (k + j) == Qof_nat k + Qof_nat j)%Q) by (unfold Qof_nat; rewrite Nat2Z.inj_add, inject_Z_plus; reflexivity).
    pose proof (refill_le _ (dN c * Qof_nat m) (n_fcapr (N w1 n)) Hqd) as [RL1 RL2].
    split.
    + rewrite D6. replace (S (w_T w1) - w_T w) with (S (w_T w1 - w_T w)) by lia. rewrite Qof_S, EQ.
      set (a := (fc * dt c)%Q) in *. set (z := Qof_nat (w_T w1 - w_T w)) in *.
      assert (((Qof_nat k + Qof_nat j) * dN c == Qof_nat k * dN c + Qof_nat j * dN c)%Q) by ring.
      assert ((a * (z + 1) == a * z + a)%Q) by ring. lra.
    + destruct D2 as [[Z1 Z2]|D2]; [|auto]. rewrite Z2. lra.
Qed.

Theorem outflow_bound_lemma : forall c l w w' k, reachP c (keep_cout l) w ->
  tally c (keep_cout l) (fun a b => List.length (crossed c a b l)) w w' k ->
  l < w_nl w -> (0 <= l_cout (L w l))%Q -> (0 < dt c)%Q -> (0 <= dN c)%Q ->
  (Qof_nat k * dN c <= l_cout (L w l) * dt c * Qof_nat (w_T w' - w_T w) + l_coutr (L w l))%Q /\
  (l_coutr (L w l) <= dN c * Qof_nat (l_lanes (L w l)) + l_cout (L w l) * dt c)%Q.
Proof.
  intros c l w w' k R H Hl Hp Hd Hn. destruct (outflow_burst c l w R Hl Hp Hd Hn) as [B1 B2]. split; [|auto].
  assert (0 <= l_cout (L w l) * dt c * Qof_nat (w_T w' - w_T w))%Q by (apply Qmult_le_0_compat; [apply Qmult_le_0_compat; lra|apply Qof_nn]).
  destruct (outflow_lemma c l w w' k (reachP_reach _ _ _ R) H Hl Hp Hd Hn) as [E|E]; [|auto]. subst k.
  assert ((Qof_nat 0 * dN c == 0)%Q) by (unfold Qof_nat; cbn; ring). lra.
Qed.
