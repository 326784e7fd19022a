(** * Spacing: vehicles of a lane keep their distance (C05) and links are never overfull (C06). *)
From Verif Require Import Base Types Sim Build Heap Lists Inv FrameBase Tac Frame Eff Eff2 Trace InvStep Reach Steps Effects Phases Attr Life Incoming Vev Ride TripLog Route Green Choice Enforce Counts LinkQueries FD NodeCap Origin Bucket Outflow Trials Motion Spec.
Local Open Scope nat_scope.

(** ** Sequences *)
Definition spaced (f : nat -> Q) (lanes : nat) (gap : Q) (D : list nat) : Prop :=
  forall i u v, nth_error D i = Some u -> nth_error D (i + lanes) = Some v -> (f v + gap <= f u)%Q.

Lemma spaced_tail : forall f n g v D, spaced f n g (v :: D) -> spaced f n g D.
Proof. intros f n g v D H i u x H1 H2. apply (H (S i)); assumption. Qed.
Lemma spaced_skipn : forall f n g k D, spaced f n g D -> spaced f n g (skipn k D).
Proof.
  intros f n g k D. revert k. induction D as [|x D IH]; intros k H; [destruct k; exact H|]. destruct k; [exact H|]. cbn.
  apply IH. eapply spaced_tail; eauto.
Qed.
Lemma spaced_ext : forall f f' n g D, (forall z, In z D -> f' z = f z) -> spaced f n g D -> spaced f' n g D.
Proof.
  intros f f' n g D E H i u v H1 H2. rewrite (E u), (E v) by (eapply nth_error_In; eauto). eauto.
Qed.
Lemma spaced_snoc : forall f n g D v, 1 <= n -> spaced f n g D ->
  (forall u, n <= List.length D -> nth_error D (List.length D - n) = Some u -> (f v + g <= f u)%Q) -> spaced f n g (D ++ [v]).
Proof.
  intros f n g D v Hn H K i u x H1 H2. assert (Hi : i + n < List.length (D ++ [v])) by (apply nth_error_Some; congruence).
  rewrite app_length in Hi. cbn in Hi.
  assert (Hu : nth_error D i = Some u) by (rewrite nth_error_app1 in H1 by lia; exact H1).
  destruct (Nat.eq_dec (i + n) (List.length D)) as [E|E].
  - rewrite nth_error_app2 in H2 by lia. replace (i + n - List.length D) with 0 in H2 by lia. injection H2 as <-.
    apply K; [lia|]. replace (List.length D - n) with i by lia. exact Hu.
  - rewrite nth_error_app1 in H2 by lia. eauto.
Qed.

(** ** The state of the spacing inside a timestep; [k l] vehicles have been moved onto [l] *)
Definition xs (w : world) (v : vid) : Q := v_x (V w v).
Record Sp (c : cfg) (k : lid -> nat) (w : world) (p : pend) : Prop := mkSp {
  sp_x : forall l, l < w_nl w -> spaced (xs w) (l_lanes (L w l)) (jam_gap c (L w l)) (Dq w p l);
  sp_old : forall l i u, l < w_nl w -> nth_error (Dq w p l) i = Some u -> i + k l < List.length (Dq w p l) -> (v_xold (V w u) <= v_x (V w u))%Q;
  sp_wait : forall v, v < w_nv w -> v_state (V w v) = Wait -> v_xold (V w v) = 0%Q }.

Lemma sp_same : forall c k e w p w' p', mstep c e w p w' p' -> Sp c k w p -> (forall l, Dq w' p' l = Dq w p l) ->
  (forall v, v_x (V w' v) = v_x (V w v) /\ v_xold (V w' v) = v_xold (V w v) /\ v_state (V w' v) = v_state (V w v)) -> Sp c k w' p'.
Proof.
  intros c k e w p w' p' M [S1 S2 S3] HD HV. pose proof (mstep_fr M) as F. constructor.
  - intros l Hl. rewrite (fr_w_nl F) in Hl. rewrite HD, (fr_l_lanes F). unfold jam_gap. rewrite (fr_l_dpl F).
    apply spaced_ext with (f := xs w); [intros z _; unfold xs; apply HV|]. apply S1. exact Hl.
  - intros l i u Hl. rewrite (fr_w_nl F) in Hl. rewrite HD. destruct (HV u) as (-> & -> & _). apply S2. exact Hl.
  - intros v Hv. rewrite (fr_w_nv F) in Hv. destruct (HV v) as (_ & -> & ->). apply S3. exact Hv.
Qed.

Lemma from_end_at : forall (D : list nat) n u, n <= List.length D -> nth_error D (List.length D - n) = Some u -> from_end D n = Some u.
Proof. intros D n u H1 H2. unfold from_end. apply Nat.leb_le in H1. rewrite H1. exact H2. Qed.
Lemma space_at : forall c w k u, has_space c w k = true -> l_lanes k <= List.length (l_vehs k) ->
  nth_error (l_vehs k) (List.length (l_vehs k) - l_lanes k) = Some u -> (jam_gap c k < v_x (V w u))%Q.
Proof.
  intros c w k u H H1 H2. unfold has_space in H. rewrite (from_end_at _ _ _ H1 H2) in H. apply orb_true_iff in H.
  destruct H as [H|H]; [apply Nat.ltb_lt in H; lia|]. apply qlt_iff in H. exact H.
Qed.

Lemma gen_follow : forall (o : option nat) z v a, v_x (if opt_eqb o (Some z) then sv_follower (Some v) a else a) = v_x a /\
  v_xold (if opt_eqb o (Some z) then sv_follower (Some v) a else a) = v_xold a /\
  v_state (if opt_eqb o (Some z) then sv_follower (Some v) a else a) = v_state a.
Proof. intros. destruct (opt_eqb o (Some z)); auto. Qed.
Lemma gen_lead : forall (o : option nat) z a, v_x (if opt_eqb o (Some z) then sv_leader None a else a) = v_x a /\
  v_xold (if opt_eqb o (Some z) then sv_leader None a else a) = v_xold a /\
  v_state (if opt_eqb o (Some z) then sv_leader None a else a) = v_state a.
Proof. intros. destruct (opt_eqb o (Some z)); auto. Qed.

Lemma sp_enter : forall c k n v out w w', (forall l, k l = 0) -> Inv2 w None -> mstep c (VEnter n v out) w None w' None -> Sp c k w None -> Sp c k w' None.
Proof.
  intros c k n v out w w' Hk I M [S1 S2 S3]. pose proof (mstep_fr M) as F. pose proof (mstep_Inv2 _ _ _ _ _ _ I M) as I'.
  apply (mstep_eff _ _ _ _ _ _ I) in M. cbn [eff] in M.
  destruct M as (_ & _ & q & ca & H1 & H2 & H3 & H4 & _ & H5 & _ & _ & H6 & _ & _ & _ & _ & _ & H7 & H8).
  assert (Hv : v < w_nv w /\ v_state (V w v) = Wait).
  { destruct I as [[T I] _]. assert (In v (n_queue (N w n))) by (rewrite H2; left; reflexivity). apply (s_queue I) in H. tauto. }
  assert (Hx : v_x (V w' v) = 0%Q /\ v_xold (V w' v) = 0%Q).
  { rewrite H7. split; [reflexivity|]. transitivity (v_xold (V w v)); [reflexivity|]. apply S3; apply Hv. }
  assert (HV : forall z, z <> v -> v_x (V w' z) = v_x (V w z) /\ v_xold (V w' z) = v_xold (V w z) /\ v_state (V w' z) = v_state (V w z)).
  { intros z Hz. rewrite (H8 z Hz). apply gen_follow. }
  assert (Hn : forall l, ~ In v (l_vehs (L w l))).
  { intros l K. destruct I as [[T I] _]. rewrite <- Dq_none in K. apply (s_D I) in K. destruct K as (_ & K & _). destruct Hv; congruence. }
  assert (HD : forall l, Dq w' None l = if Nat.eqb l out then l_vehs (L w l) ++ [v] else l_vehs (L w l)).
  { intro l. rewrite Dq_none, H6. destruct (Nat.eqb l out) eqn:E; [apply Nat.eqb_eq in E; subst|]; reflexivity. }
  assert (Ext : forall z l, In z (l_vehs (L w l)) -> xs w' z = xs w z).
  { intros z l Hz. unfold xs. apply HV. intros ->. exact (Hn l Hz). }
  constructor.
  - intros l Hl. rewrite (fr_w_nl F) in Hl. rewrite HD, (fr_l_lanes F). unfold jam_gap. rewrite (fr_l_dpl F).
    specialize (S1 l Hl). rewrite Dq_none in S1.
    destruct (Nat.eqb l out) eqn:E.
    + apply Nat.eqb_eq in E. subst l. apply spaced_snoc.
      * apply (t_lanes (proj1 (proj1 I))). exact Hl.
      * eapply spaced_ext; [|exact S1]. intros z Hz. exact (Ext z out Hz).
      * intros u K1 K2. rewrite (Ext u out) by (eapply nth_error_In; exact K2). pose proof (space_at _ _ _ _ H5 K1 K2) as K3. unfold xs.
        destruct Hx as [-> _]. unfold jam_gap in K3. lra.
    + eapply spaced_ext; [|exact S1]. intros z Hz. exact (Ext z l Hz).
  - intros l i u Hl H9. rewrite (fr_w_nl F) in Hl. rewrite Hk. intros _.
    destruct (Nat.eq_dec u v) as [-> |Huv]; [destruct Hx as [-> ->]; lra|].
    destruct (HV u Huv) as (-> & -> & _). rewrite HD in H9. apply nth_error_In in H9.
    assert (H10 : In u (l_vehs (L w l))).
    { destruct (Nat.eqb l out); [|exact H9]. apply in_app_or in H9. destruct H9 as [H9|[H9|[]]]; [exact H9|congruence]. }
    apply In_nth_error in H10. destruct H10 as [j H10]. apply (S2 l j u Hl); rewrite Dq_none; [exact H10|]. rewrite Hk.
    rewrite Nat.add_0_r. apply nth_error_Some. congruence.
  - intros z Hz Hs. rewrite (fr_w_nv F) in Hz. destruct (Nat.eq_dec z v) as [-> |Hzv]; [apply Hx|].
    destruct (HV z Hzv) as (_ & -> & E). apply S3; congruence.
Qed.

Lemma sp_end : forall c k v l w p w' p', Inv2 w p -> mstep c (VEnd v l) w p w' p' -> Sp c k w p -> Sp c k w' p'.
Proof.
  intros c k v l w p w' p' I M [S1 S2 S3]. pose proof (mstep_fr M) as F. pose proof (mstep_Inv2 _ _ _ _ _ _ I M) as I'.
  apply (mstep_eff _ _ _ _ _ _ I) in M. cbn [eff] in M.
  destruct M as (-> & rest & cd & lg & tl & H1 & H2 & H3 & H4 & H5 & _ & _ & _ & _ & _ & H6 & H7 & _ & _ & H8).
  assert (HV : forall z, z <> v -> v_x (V w' z) = v_x (V w z) /\ v_xold (V w' z) = v_xold (V w z) /\ v_state (V w' z) = v_state (V w z)).
  { intros z Hz. rewrite (H7 z Hz). apply gen_lead. }
  assert (Hst : v_state (V w' v) <> Run /\ v_state (V w' v) <> Wait).
  { assert (E : vride (V w' v) = vride (sv_linkold None (sv_tlog tl (sv_log lg (ended c w (V w v)))))) by (rewrite H8; apply vride_pref).
    apply ended_fields in E. destruct E as (_ & _ & _ & _ & _ & _ & _ & _ & _ & _ & _ & _ & _ & E & _). rewrite E.
    destruct (v_aborted (V w v)); split; discriminate. }
  assert (HD : forall k0, Dq w p k0 = if Nat.eqb k0 l then v :: Dq w' p k0 else Dq w' p k0).
  { intro k0. unfold Dq. rewrite H6. destruct (Nat.eqb k0 l) eqn:E; [|reflexivity]. apply Nat.eqb_eq in E. subst k0. rewrite H1. reflexivity. }
  assert (Hnv : forall l0 z, In z (Dq w' p l0) -> z <> v).
  { intros l0 z Hz ->. destruct I' as [[_ I'] _]. apply (s_D I') in Hz. tauto. }
  constructor.
  - intros l0 Hl. rewrite (fr_w_nl F) in Hl. rewrite (fr_l_lanes F). unfold jam_gap. rewrite (fr_l_dpl F). specialize (S1 l0 Hl).
    apply spaced_ext with (f := xs w). { intros z Hz. apply HV. exact (Hnv l0 z Hz). }
    rewrite HD in S1. destruct (Nat.eqb l0 l); [exact (spaced_tail _ _ _ _ _ S1)|exact S1].
  - intros l0 i u Hl Hi Hk. rewrite (fr_w_nl F) in Hl. destruct (HV u (Hnv l0 u (nth_error_In _ _ Hi))) as (-> & -> & _).
    specialize (S2 l0). rewrite HD in S2. destruct (Nat.eqb l0 l).
    + apply (S2 (S i) u Hl Hi). cbn. lia.
    + apply (S2 i u Hl Hi Hk).
  - intros z Hz Hs. rewrite (fr_w_nv F) in Hz. destruct (Nat.eq_dec z v) as [-> |Hzv]; [destruct Hst; congruence|].
    destruct (HV z Hzv) as (_ & -> & E). apply S3; congruence.
Qed.

Lemma t_x_le : forall c w out u q, (t_x c w out (Some u) q <= 0 \/ t_x c w out (Some u) q + jam_gap c (L w out) <= v_xold (V w u))%Q.
Proof.
  intros c w out u q. unfold t_x, jam_gap. cbv zeta.
  assert (K : forall x1 y, (x1 <= y)%Q -> ((if qle (l_len (L w out)) x1 then l_len (L w out) else x1) <= y)%Q).
  { intros x1 y H. destruct (qle _ _) eqn:E; [apply qle_iff in E; lra|exact H]. }
  destruct (qlt (v_xold (V w u) - l_dpl (L w out) * dN c) 0)%Q eqn:E1.
  - left. apply K. destruct (qlt 0 q) eqn:E2; [lra|]. apply qlt_false in E2. lra.
  - right. assert (Z : ((if qle (l_len (L w out)) (if qlt (v_xold (V w u) - l_dpl (L w out) * dN c) q then v_xold (V w u) - l_dpl (L w out) * dN c else q) then l_len (L w out)
      else if qlt (v_xold (V w u) - l_dpl (L w out) * dN c) q then v_xold (V w u) - l_dpl (L w out) * dN c else q) <= v_xold (V w u) - l_dpl (L w out) * dN c)%Q); [|lra].
    apply K. destruct (qlt _ q) eqn:E2; [lra|]. apply qlt_false in E2. lra.
Qed.
Lemma moved_xo : forall c w out ld ln q a, v_x (moved c w out ld ln q a) = t_x c w out ld q /\ v_xold (moved c w out ld ln q a) = v_xold a.
Proof. intros. split; reflexivity. Qed.

Definition more (k : lid -> nat) (out : lid) (l : lid) : nat := if Nat.eqb l out then S (k l) else k l.

Lemma sp_shift : forall c k n out v il w p w' p', Inv2 w p -> mstep c (VShift n out v il) w p w' p' -> k out < l_lanes (L w out) ->
  Sp c k w p -> Sp c (more k out) w' p'.
Proof.
  intros c k n out v il w p w' p' I M Hko [S1 S2 S3]. pose proof (mstep_fr M) as F. pose proof (mstep_Inv2 _ _ _ _ _ _ I M) as I'.
  apply (mstep_eff _ _ _ _ _ _ I) in M. cbn [eff] in M.
  destruct M as (-> & -> & cd & ca & rest & q & H1 & H2 & H3 & H4 & H5 & H6 & H7 & H8 & H9 & H10 & H11 & H12 & H13 & H14 & H15 & H16 & _ & _ & _ & H17 & H18 & H19 & H20).
  set (vs := out_vehs w il out rest) in *.
  assert (HV : forall z, z <> v -> v_x (V w' z) = v_x (V w z) /\ v_xold (V w' z) = v_xold (V w z) /\ v_state (V w' z) = v_state (V w z)).
  { intros z Hz. rewrite (H20 z Hz). cbv zeta. destruct (gen_follow (t_leader w out vs) z v (if opt_eqb (v_follower (V w v)) (Some z) then sv_leader None (V w z) else V w z)) as (-> & -> & ->).
    apply gen_lead. }
  assert (HL : forall l, l_vehs (L w' l) = if Nat.eqb l il then rest else l_vehs (L w l)).
  { intro l. rewrite H17. cbv zeta. destruct (Nat.eqb l il), (Nat.eqb l out); reflexivity. }
  assert (HD : forall l, Dq w' (Some (v, out)) l = (if Nat.eqb l il then rest else l_vehs (L w l)) ++ (if Nat.eqb l out then [v] else [])).
  { intro l. unfold Dq. rewrite HL. reflexivity. }
  assert (Hnv : forall l z, In z (if Nat.eqb l il then rest else l_vehs (L w l)) -> z <> v).
  { intros l z Hz ->. destruct I as [[T I] _]. destruct (Nat.eqb l il) eqn:E.
    - pose proof (s_D_nd I il) as Nd. rewrite Dq_none, H15 in Nd. inversion Nd; contradiction.
    - rewrite <- Dq_none in Hz. apply (s_D I) in Hz. apply Nat.eqb_neq in E. destruct Hz as (_ & _ & Hz & _). congruence. }
  (* the queue of [l] without its front vehicle, if that is the one that leaves *)
  assert (S1' : forall l, l < w_nl w -> spaced (xs w') (l_lanes (L w l)) (jam_gap c (L w l)) (if Nat.eqb l il then rest else l_vehs (L w l))).
  { intros l Hl. apply spaced_ext with (f := xs w). { intros z Hz. apply HV. exact (Hnv l z Hz). }
    specialize (S1 l Hl). rewrite Dq_none in S1. destruct (Nat.eqb l il) eqn:E; [|exact S1].
    apply Nat.eqb_eq in E. subst l. rewrite H15 in S1. exact (spaced_tail _ _ _ _ _ S1). }
  assert (S2' : forall l i u, l < w_nl w -> nth_error (if Nat.eqb l il then rest else l_vehs (L w l)) i = Some u ->
    i + k l < List.length (if Nat.eqb l il then rest else l_vehs (L w l)) -> (v_xold (V w u) <= v_x (V w u))%Q).
  { intros l i u Hl Hi Hlen. specialize (S2 l). rewrite Dq_none in S2. destruct (Nat.eqb l il) eqn:E; [|exact (S2 i u Hl Hi Hlen)].
    apply Nat.eqb_eq in E. subst l. rewrite H15 in S2. apply (S2 (S i) u Hl Hi). cbn. lia. }
  assert (Evs : vs = if Nat.eqb out il then rest else l_vehs (L w out)) by reflexivity.
  assert (Lane : 1 <= l_lanes (L w out)) by (apply (t_lanes (proj1 (proj1 I))); exact H4).
  constructor.
  - intros l Hl. rewrite (fr_w_nl F) in Hl. rewrite HD, (fr_l_lanes F). unfold jam_gap. rewrite (fr_l_dpl F). fold (jam_gap c (L w l)).
    destruct (Nat.eqb l out) eqn:E; [|rewrite app_nil_r; apply S1'; exact Hl].
    apply Nat.eqb_eq in E. subst l. apply spaced_snoc; [exact Lane|apply S1'; exact Hl|]. rewrite <- Evs. intros u K1 K2.
    assert (Hu : u <> v) by (apply (Hnv out); rewrite <- Evs; eapply nth_error_In; exact K2).
    unfold xs. destruct (HV u Hu) as (-> & _). rewrite H19, (proj1 (moved_xo c w out _ _ q _)).
    assert (EL : t_leader w out vs = Some u).
    { unfold t_leader. apply Nat.leb_le in K1. rewrite K1. apply Nat.leb_le in K1. apply from_end_at; assumption. }
    rewrite EL. destruct (t_x_le c w out u q) as [X|X].
    + assert (G : (jam_gap c (L w out) < v_x (V w u))%Q); [|lra].
      rewrite Evs in K1, K2. destruct (Nat.eqb out il) eqn:E.
      * apply Nat.eqb_eq in E. subst il. apply (space_at c w (L w out) u H8); rewrite H15; cbn [List.length]; [lia|].
        replace (S (List.length rest) - l_lanes (L w out)) with (S (List.length rest - l_lanes (L w out))) by lia. exact K2.
      * apply (space_at c w (L w out) u H8); assumption.
    + assert (v_xold (V w u) <= v_x (V w u))%Q; [|lra].
      rewrite Evs in K1, K2. apply (S2' out _ u H4 K2). lia.
  - intros l i u Hl Hi Hlen. rewrite (fr_w_nl F) in Hl. rewrite HD in Hi, Hlen. rewrite app_length in Hlen. unfold more in Hlen.
    assert (Hi' : i < List.length (if Nat.eqb l il then rest else l_vehs (L w l))).
    { destruct (Nat.eqb l out); cbn [List.length] in Hlen; lia. }
    rewrite nth_error_app1 in Hi by exact Hi'. destruct (HV u (Hnv l u (nth_error_In _ _ Hi))) as (-> & -> & _).
    apply (S2' l i u Hl Hi). destruct (Nat.eqb l out); cbn [List.length] in Hlen; lia.
  - intros z Hz Hs. rewrite (fr_w_nv F) in Hz. destruct (Nat.eq_dec z v) as [-> |Hzv].
    + rewrite H19, moved_state in Hs. congruence.
    + destruct (HV z Hzv) as (_ & -> & E). apply S3; congruence.
Qed.

Lemma sp_step : forall c k e w p w' p', k_first e = true -> still e = true -> (forall n v l, e = VEnter n v l -> forall l, k l = 0) ->
  Inv2 w p -> mstep c e w p w' p' -> Sp c k w p -> Sp c k w' p'.
Proof.
  intros c k e w p w' p' Hf Hs Hk I M S. pose proof (mstep_eff _ _ _ _ _ _ I M) as H.
  destruct e; try discriminate Hf; try discriminate Hs; cbn [eff] in H.
  - destruct H as (-> & -> & _ & HV & _ & _ & _ & d & _ & HL). eapply sp_same; eauto.
    + intro k0. rewrite !Dq_none, HL. destruct (Nat.eqb k0 l) eqn:E; [|reflexivity]. apply Nat.eqb_eq in E. subst.
      unfold linked. rs. apply iofc_vehs.
    + intro v. rewrite HV. auto.
  - destruct H as (-> & -> & HV & HL & _). eapply sp_same; eauto.
    + intro k0. rewrite !Dq_none, HL. reflexivity.
    + intro u. rewrite HV. auto.
  - destruct H as (-> & -> & _). eapply sp_enter; eauto.
  - destruct H as (-> & -> & _ & HV & HL & _). eapply sp_same; eauto.
    + intro k0. rewrite !Dq_none, HL. reflexivity.
    + intro u. rewrite HV. auto.
  - eapply sp_end; eauto.
  - destruct H as (-> & -> & HV & _ & _ & HL & _). eapply sp_same; eauto.
    + intro k0. unfold Dq. rewrite HL. destruct (Nat.eqb k0 out); cbn; rewrite ?app_nil_r; reflexivity.
    + intro u. rewrite HV. auto.
  - destruct H as (-> & -> & HV & HL & _). eapply sp_same; eauto.
    + intro k0. rewrite !Dq_none, HL. reflexivity.
    + intro u. rewrite HV. auto.
  - destruct H as (-> & -> & HV & HL & _). eapply sp_same; eauto.
    + intro k0. rewrite !Dq_none, HL. reflexivity.
    + intro u. rewrite HV. auto.
Qed.

Lemma Sp_le : forall c k k' w p, (forall l, k l <= k' l) -> Sp c k w p -> Sp c k' w p.
Proof.
  intros c k k' w p H [S1 S2 S3]. constructor; auto. intros l i u Hl Hi Hlen. apply (S2 l i u Hl Hi). specialize (H l). lia.
Qed.

Lemma sp_trace : forall c es w p w' p', trace c es w p w' p' -> forall k, Forall (fun e => k_transfer e = true) es -> Inv2 w p ->
  (forall l, k l + shifts l es <= l_lanes (L w l)) -> Sp c k w p -> Sp c (fun l => k l + shifts l es) w' p' /\ Inv2 w' p'.
Proof.
  intros c es w p w' p' T. induction T as [w p|e es w p w1 p1 w2 p2 M T IH]; intros k Fe I Hk S.
  - split; [|exact I]. eapply Sp_le; [|exact S]. intro l. cbn. lia.
  - inversion Fe as [|? ? F1 F2]; subst. pose proof (mstep_Inv2 _ _ _ _ _ _ I M) as I1.
    destruct (still e) eqn:Es.
    + destruct (IH k F2 I1) as [A B].
      * intro l. rewrite (fr_l_lanes (mstep_fr M)). specialize (Hk l). change (e :: es) with ([e] ++ es) in Hk. rewrite shifts_app in Hk. lia.
      * apply (sp_step c k e w p w1 p1); [destruct e; cbn in *; congruence|exact Es| |exact I|exact M|exact S]. intros n v l -> . discriminate F1.
      * split; [|exact B]. eapply Sp_le; [|exact A]. intro l. change (e :: es) with ([e] ++ es). rewrite shifts_app. lia.
    + destruct e; try discriminate Es. destruct (IH (more k out) F2 I1) as [A B].
      * intro l. rewrite (fr_l_lanes (mstep_fr M)). specialize (Hk l). unfold more. unfold shifts in *. cbn [filter onto] in Hk.
        rewrite (Nat.eqb_sym l out). destruct (Nat.eqb out l); cbn [List.length] in Hk; lia.
      * apply (sp_shift c k n out v il w p w1 p1 I M); [|exact S]. specialize (Hk out). unfold shifts in Hk. cbn [filter onto] in Hk. rewrite Nat.eqb_refl in Hk. cbn [List.length] in Hk.
        lia.
      * split; [|exact B]. eapply Sp_le; [|exact A]. intro l. unfold more, shifts. cbn [filter onto].
        rewrite (Nat.eqb_sym l out). destruct (Nat.eqb out l); cbn [List.length]; lia.
Qed.

(** the queues after the transfers only lose vehicles at the front *)
Definition k_rest (e : ev) : bool := (k_follow e || k_vehicles e || k_route e)%bool.
Lemma rest_queue : forall c w3 w', Inv2 w3 None -> run c k_rest w3 w' -> forall l, exists d, l_vehs (L w' l) = skipn d (l_vehs (L w3 l)).
Proof.
  intros c w3 w' I R l.
  destruct (run_with c (fun x p => p = None /\ exists d, l_vehs (L x l) = skipn d (l_vehs (L w3 l))) k_rest) with (w := w3) (w' := w') as (_ & _ & Z); auto.
  - intros e x p x' p' Ke Ix [-> (d & E)] M. pose proof (mstep_eff _ _ _ _ _ _ Ix M) as H.
    assert (Same : (forall k, L x' k = L x k) -> exists d, l_vehs (L x' l) = skipn d (l_vehs (L w3 l))) by (intro Z; rewrite Z; eauto).
    destruct e; try discriminate Ke; cbn [eff] in H.
    + destruct H as (-> & rest & cd & lg & tl & H1 & _ & _ & _ & _ & _ & _ & _ & _ & _ & H6 & _). split; [reflexivity|].
      rewrite H6. destruct (Nat.eqb l l0) eqn:El; [|eauto]. apply Nat.eqb_eq in El. subst l0. exists (d + 1).
      rewrite <- skipn_add, <- E, H1. reflexivity.
    + destruct H as (_ & -> & H & _). auto.
    + destruct H as (_ & -> & _ & H & _). auto.
    + destruct H as (_ & -> & _ & _ & _ & H & _). auto.
    + destruct H as (_ & -> & _ & _ & H & _). auto.
    + destruct H as (_ & -> & H & _). split; [reflexivity|]. apply Same. apply (so_l H).
    + destruct H as (_ & -> & H & _). split; [reflexivity|]. apply Same. apply (so_l H).
    + destruct H as (_ & -> & _ & _ & H & _). auto.
    + destruct H as (_ & -> & _ & _ & H & _). auto.
    + destruct H as (_ & -> & _ & _ & H & _). auto.
    + destruct H as (_ & -> & H & _). split; [reflexivity|]. apply Same. apply (so_l H).
    + destruct H as (_ & -> & _ & _ & H & _). auto.
    + destruct H as (_ & -> & _ & H & _). auto.
    + destruct H as (_ & -> & _ & H & _). auto.
  - split; [reflexivity|]. exists 0. reflexivity.
Qed.

(** ** One timestep *)
Record Sound (c : cfg) (w : world) : Prop := mkSound {
  so_space : forall l, l < w_nl w -> spaced (xs w) (l_lanes (L w l)) (jam_gap c (L w l)) (l_vehs (L w l));
  so_settled : forall v, v < w_nv w -> v_state (V w v) = Run -> (v_xold (V w v) <= v_x (V w v))%Q;
  so_fresh : forall v, v < w_nv w -> v_state (V w v) = Home \/ v_state (V w v) = Wait -> v_xold (V w v) = 0%Q;
  so_singles : Singles w }.

Lemma sound_body : forall c w w', (0 <= dt c)%Q -> Geo w -> (forall v, v < w_nv w -> Pos w v) -> Inv2 w None -> IncB w -> Ends w None ->
  body c w = Ok w' -> Sound c w -> Sound c w'.
Proof.
  intros c w w' Hd G Ps I J En H [A1 A2 A3 A4]. pose proof (body_fr _ _ H) as F.
  pose proof (fun v Hv => body_viewed c v w w' Hv I J En H) as BV.
  assert (Settled : forall v, v < w_nv w' -> v_state (V w' v) = Run -> (v_xold (V w' v) <= v_x (V w' v))%Q).
  { intros v Hv Hr. rewrite (fr_w_nv F) in Hv. destruct (BV v Hv) as (w3 & w4 & B).
    destruct (proj2 (motion_body c v w w' w3 w4 Hd G Hv F (Ps v Hv) B) Hr) as (l & _ & _ & _ & _ & (M1 & M2) & _ & _ & _ & M3 & _).
    rewrite M3. exact M2. }
  assert (Fresh : forall v, v < w_nv w' -> v_state (V w' v) = Home \/ v_state (V w' v) = Wait -> v_xold (V w' v) = 0%Q).
  { intros v Hv Hs. rewrite (fr_w_nv F) in Hv. destruct (BV v Hv) as (w3 & w4 & B).
    destruct (body_early c v w w' w3 w4 Hv B Hs) as (E1 & _ & E2 & _). rewrite E2. auto. }
  constructor; auto; [|exact (Singles_fr _ _ F A4)].
  (* the phases *)
  destruct (body_runs _ _ H) as (w1 & w2 & w3 & w4 & w5 & w6 & E1 & E2 & E3 & E4 & E5 & E6 & Ew).
  pose proof (phase_links_run _ _ E1) as R1. pose proof (phase_nodes_run _ _ E2) as R2.
  assert (R12 : run c (fun e => k_first e && still e)%bool w w2).
  { eapply run_trans; [eapply run_weaken; [|exact R1]|eapply run_weaken; [|exact R2]]; intros []; cbn; auto; discriminate. }
  destruct (run_with c (fun x p => IncA x p /\ Sp c (fun _ => 0) x p) (fun e => k_first e && still e)%bool) with (w := w) (w' := w2) as (I2 & IA2 & S2); auto.
  { intros e x p x' p' Ke Ix [Jx Sx] M. apply andb_true_iff in Ke. destruct Ke as [K1 K2]. split; [eapply IncA_step; eauto|].
    eapply (sp_step c (fun _ => 0)); eauto. }
  { split; [exact (IncOK_A _ (ib_ok _ J))|]. constructor.
    - intros l Hl. rewrite Dq_none. auto.
    - intros l i u Hl Hi _. destruct I as [[T I] _]. apply nth_error_In in Hi. apply (s_D I) in Hi. apply A2; tauto.
    - intros v Hv Hs. auto. }
  pose proof (run_fr _ _ _ _ R12) as F2.
  destruct (phase_shifts c w2 w3 I2 IA2 (Singles_fr _ _ F2 A4) E3) as (es & Fe & Tr & Cnt).
  destruct (sp_trace c es w2 None w3 None Tr (fun _ => 0) Fe I2 Cnt S2) as [S3 I3].
  pose proof (fr_trans F2 (trace_fr Tr)) as F3.
  assert (Rr : run c k_rest w3 w6).
  { eapply run_trans; [|eapply run_trans].
    - eapply run_weaken; [|apply phase_follow_run; exact E4]. intros e K. unfold k_rest. rewrite K. reflexivity.
    - eapply run_weaken; [|apply phase_vehicles_run; exact E5]. intros e K. unfold k_rest. rewrite K, orb_true_r. reflexivity.
    - eapply run_weaken; [|apply route_phase_run; exact E6]. intros e K. unfold k_rest. rewrite K, !orb_true_r. reflexivity. }
  intros l Hl. rewrite (fr_w_nl F) in Hl. rewrite (fr_l_lanes F). unfold jam_gap. rewrite (fr_l_dpl F). fold (jam_gap c (L w l)).
  destruct (rest_queue c w3 w6 I3 Rr l) as (d & Ed).
  assert (Ed' : l_vehs (L w' l) = skipn d (l_vehs (L w3 l))) by (rewrite Ew; exact Ed). rewrite Ed'.
  intros i u v Hu Hv.
  assert (Nth : forall j, nth_error (skipn d (l_vehs (L w3 l))) j = nth_error (l_vehs (L w3 l)) (d + j)).
  { intro j. generalize (l_vehs (L w3 l)). clear. induction d as [|d IH]; intro D; [reflexivity|]. destruct D as [|x D]; [destruct j; reflexivity|]. cbn. apply IH. }
  (* both vehicles still drive on [l] after the timestep *)
  assert (On : forall j z, nth_error (skipn d (l_vehs (L w3 l))) j = Some z -> z < w_nv w /\ v_state (V w' z) = Run /\ v_link (V w' z) = Some l).
  { intros j z Hz. pose proof (body_run _ _ H) as Rb. pose proof (run_Inv2' _ _ _ _ I Rb) as I'. destruct I' as [[T' I'] _].
    rewrite <- Ed', <- Dq_none in Hz. apply nth_error_In in Hz. apply (s_D I') in Hz. rewrite (fr_w_nv F) in Hz. tauto. }
  destruct (On _ _ Hu) as (Hu1 & Hu2 & Hu3). destruct (On _ _ Hv) as (Hv1 & Hv2 & Hv3). rewrite Nth in Hu, Hv.
  (* after the transfers *)
  pose proof (sp_x _ _ _ _ S3 l) as Sx. rewrite (fr_w_nl F3) in Sx. specialize (Sx Hl). rewrite Dq_none, (fr_l_lanes F3) in Sx.
  unfold jam_gap in Sx. rewrite (fr_l_dpl F3) in Sx. fold (jam_gap c (L w l)) in Sx.
  replace (d + (i + l_lanes (L w l))) with (d + i + l_lanes (L w l)) in Hv by lia.
  specialize (Sx _ _ _ Hu Hv). unfold xs in Sx.
  assert (Lead : v_leader (V w3 v) = Some u).
  { destruct I3 as [[T3 I3] _]. pose proof (s_leader I3 l (d + i + l_lanes (L w l))) as Z. rewrite Dq_none in Z. rewrite (Z _ Hv).
    rewrite (fr_l_lanes F3). destruct (d + i + l_lanes (L w l) <? l_lanes (L w l)) eqn:Ez; [apply Nat.ltb_lt in Ez; lia|].
    replace (d + i + l_lanes (L w l) - l_lanes (L w l)) with (d + i) by lia. exact Hu. }
  (* the same phases as in the views *)
  assert (Same : forall z y3 y4, body_view c z w w' y3 y4 -> y3 = w3).
  { intros z y3 y4 B. destruct (bv_phases _ _ _ _ _ _ B) as (x1 & x2 & P1 & P2 & P3 & P4). congruence. }
  destruct (BV u Hu1) as (y3 & y4 & Bu). pose proof (Same _ _ _ Bu). subst y3.
  destruct (BV v Hv1) as (y3 & z4 & Bv). pose proof (Same _ _ _ Bv). subst y3.
  destruct (proj2 (motion_body c u w w' w3 y4 Hd G Hu1 F (Ps u Hu1) Bu) Hu2) as (lu & _ & _ & _ & _ & (M1 & M2) & _).
  destruct (drive_view _ _ _ _ _ _ Bv) as [(D1 & D2 & _)|(D1 & lv & D2 & [D3|(D3 & _)])]; try congruence.
  assert (lv = l).
  { rewrite driven_mo in D3. pose proof (followed_mo c w3 lv (V w3 v)) as Fo. remember (followed c w3 lv (V w3 v)) as f. unfold vmo in *. congruence. }
  subst lv.
  assert (Ex : v_x (V w' v) = v_xnext (followed c w3 l (V w3 v))).
  { rewrite driven_mo in D3. remember (followed c w3 l (V w3 v)) as f. unfold vmo in *. congruence. }
  assert (Fx : (follow_x c w3 l (V w3 v) + jam_gap c (L w l) <= v_x (V w3 u))%Q).
  { unfold follow_x. cbv zeta. rewrite Lead. unfold jam_gap in *. rewrite (fr_l_dpl F3).
    destruct (qlt (v_x (V w3 u) - l_dpl (L w l) * dN c) (v_x (V w3 v)))%Q eqn:Q1; destruct (qlt _ (v_x (V w3 v) + _)%Q) eqn:Q2;
      try (apply qlt_false in Q2); try lra. }
  assert (Fn : (v_xnext (followed c w3 l (V w3 v)) <= follow_x c w3 l (V w3 v))%Q).
  { unfold followed. destruct (qlt _ _) eqn:Q1; [apply qlt_iff in Q1; cbn; lra|cbn; lra]. }
  unfold xs. rewrite Ex. lra.
Qed.

(** ** Histories *)
Lemma spaced_gap : forall f n g g' D, (g' <= g)%Q -> spaced f n g D -> spaced f n g' D.
Proof. intros f n g g' D Hg H i u v H1 H2. specialize (H i u v H1 H2). lra. Qed.

(** the operations between timesteps leave the vehicles on the links alone *)
Lemma op_links : forall c o w w', reach c w -> op_ok o w -> (forall a, o <> OExec a) -> apply_op c o w = Ok w' ->
  (forall l, l_vehs (L w' l) = []) \/ (w_nl w' = w_nl w /\ forall l, lkeep (L w' l) = lkeep (L w l)).
Proof.
  intros c o w w' R Ho Hx H.
  assert (R' : reach c w') by (eapply rc_op; eauto). pose proof (reach_Inv2 _ _ R') as I'.
  assert (All : (forall v, v < w_nv w' -> v_state (V w' v) = Home) -> forall l, l_vehs (L w' l) = []).
  { intros A l. destruct (l_vehs (L w' l)) as [|u D] eqn:E; [reflexivity|]. exfalso. destruct I' as [[T I'] _].
    assert (K : In u (Dq w' None l)) by (rewrite Dq_none, E; left; reflexivity). apply (s_D I') in K. destruct K as (K1 & K2 & _).
    rewrite (A u K1) in K2. discriminate. }
  assert (New : forall v, w_nv w <= v -> v < w_nv w' -> v_state (V w' v) = Home).
  { intros v H1 H2. destruct (op_newborn c o w w' v Ho Hx H H1 H2) as (a & nl & nm & K). unfold vkeep in K.
    change Home with (v_state (new_vehicle c a nl nm)). congruence. }
  destruct (w_final w) eqn:Ef.
  - destruct (w_nv w) as [|n] eqn:En.
    + left. apply All. intros v Hv. apply New; [lia|exact Hv].
    + right. destruct (op_keep c o w w' 0 Ho Hx H ltac:(lia)) as (_ & _ & K). destruct (K Ef) as (_ & K1 & _ & K2 & _). split; auto.
  - left. apply All. intros v Hv. destruct (Nat.lt_ge_cases v (w_nv w)) as [Hv'|Hv']; [|apply New; assumption].
    destruct (op_keep c o w w' v Ho Hx H Hv') as (K & _). unfold vkeep in K. assert (E : v_state (V w' v) = v_state (V w v)) by congruence.
    rewrite E. apply (reach_home _ _ R); assumption.
Qed.

Lemma op_nv_same : forall c o w w', (forall a, o <> OExec a) -> apply_op c o w = Ok w' -> op_ok o w -> (forall a, o <> OAddVehicle a) ->
  (forall a b d e f g, o <> OAddDemand a b d e f g) -> w_nv w' = w_nv w.
Proof.
  intros c o w w' Hx H Ho Ha Hd. destruct o; cbn [apply_op] in H.
  - unfold add_node in H. apply bind_ok in H. destruct H as (nd & _ & H). destruct (smem _ _); [discriminate|]. injection H as <-. reflexivity.
  - unfold add_link in H. cbn zeta in H. destruct (negb _); [discriminate|].
    apply bind_ok in H. destruct H as (k & _ & H). destruct (smem _ _); [discriminate|]. injection H as <-. reflexivity.
  - elim (Ha a); reflexivity.
  - elim (Hd _ _ _ _ _ _ eq_refl).
  - apply finalize_ok in H. pose proof (fz_cnt _ _ _ H) as E. injection E; auto.
  - elim (Hx a); reflexivity.
  - unfold add_dest in H. destruct (v_mode (V w v)); [discriminate|]. destruct (v_dest (V w v)).
    + injection H as <-. reflexivity.
    + unfold route_pref_update in H. cbn zeta in H. binv H; reflexivity.
  - unfold enforce_route in H. destruct (negb _); [discriminate|]. injection H as <-. reflexivity.
  - injection H as <-. reflexivity.
  - injection H as <-. reflexivity.
  - unfold override_signal in H. cbv zeta in H.
    assert (F : forall ls x gs, w_nv (fold_left (fun w l => if existsb (mem l) gs
                                     then modl l (sl_group (groups_of l gs)) w else w) ls x) = w_nv x).
    { intros ls; induction ls as [|k ls IH]; intros x gs'; cbn [fold_left]; auto. rewrite IH. destruct (existsb _ _); reflexivity. }
    destruct groups as [gs|]; [|injection H as <-; reflexivity].
    destruct (negb _); [discriminate|]. destruct (negb _); [discriminate|]. injection H as <-. rewrite F. reflexivity.
  - unfold change_free_flow_speed in H. cbn zeta in H. binv H; reflexivity.
  - unfold change_jam_density in H. cbn zeta in H. binv H; reflexivity.
  - injection H as <-. reflexivity.
  - injection H as <-. reflexivity.
  - injection H as <-. reflexivity.
  - unfold add_trip_request in H. destruct (negb _); [discriminate|]. injection H as <-. reflexivity.
  - unfold assign_taxi in H. destruct (negb _); [discriminate|]. apply bind_ok in H. destruct H as (w1 & E & H). injection H as <-.
    unfold add_dest in E. destruct (v_mode (V w v)); [discriminate|]. destruct (v_dest (V w v)).
    + injection E as <-. reflexivity.
    + unfold route_pref_update in E. cbn zeta in E. binv E; reflexivity.
Qed.

Lemma singles_op : forall c o w w', op_ok o w -> keep_room o w -> (forall a, o <> OExec a) -> apply_op c o w = Ok w' -> Singles w -> Singles w'.
Proof.
  intros c o w w' Ho [_ P] Hx H A v Hv. destruct (Nat.lt_ge_cases v (w_nv w)) as [Hv'|Hv'].
  { destruct (op_keep c o w w' v Ho Hx H Hv') as (K & _). unfold vkeep in K. transitivity (v_mode (V w v)); [congruence|]. apply A. exact Hv'. }
  assert (Add : forall a x y, va_mode a = SingleTrip -> Singles x -> add_vehicle c a x = Ok y -> Singles y).
  { intros a x y Ha Sx E z Hz. unfold add_vehicle in E. cbn zeta in E. destruct (negb _); [discriminate|]. destruct (smem _ _); [discriminate|].
    injection E as <-. unfold V. cbn. cbn in Hz. unfold upd. destruct (Nat.eqb z (w_nv x)) eqn:Ez; [exact Ha|].
    apply Nat.eqb_neq in Ez. apply Sx. lia. }
  destruct o; try (exfalso; pose proof (op_nv_same c _ w w' Hx H Ho ltac:(discriminate) ltac:(discriminate)) as Z; lia); cbn [apply_op] in H.
  - eapply Add; eauto.
  - apply (adddemand_inv Singles) in H; auto. intros t x y Sx E. eapply Add; eauto. reflexivity.
Qed.

Lemma op_gap : forall c o w w' l, (0 <= dN c)%Q -> reach c w -> op_ok o w -> keep_room o w -> (forall a, o <> OExec a) -> apply_op c o w = Ok w' -> l < w_nl w ->
  (jam_gap c (L w' l) <= jam_gap c (L w l))%Q.
Proof.
  intros c o w w' l Hn R Ho [_ P] Hx H Hl. destruct (op_nl _ _ _ _ Hx H Ho) as (Hl' & _).
  assert (Same : l_dpl (L w' l) = l_dpl (L w l) -> (jam_gap c (L w' l) <= jam_gap c (L w l))%Q) by (unfold jam_gap; intros ->; lra).
  destruct (op_link c o w w' l Ho Hx H ltac:(lia)) as [_ K _ _|a nm _ K _|q -> K|q -> K|q -> K|q -> K].
  - apply Same. unfold lpar in K. congruence.
  - lia.
  - apply change_speed_par in K. apply Same. destruct K as [-> |(_ & _ & _ & K & _)]; [reflexivity|exact K].
  - assert (R' : reach c w') by (eapply rc_op; eauto). pose proof (triangular_lemma c w l R Hl) as T.
    pose proof (triangular_lemma c w' l R' ltac:(lia)) as T'. apply change_jam_par in K.
    destruct K as [-> |(K0 & _ & _ & K1 & K2)]; [apply Same; reflexivity|]. apply tr_spacing in T, T'. rewrite K1, K2, <- T in T'.
    destruct P as [P|[P1 P2]]; [lra|]. unfold jam_gap. apply Qmult_le_compat_r.
    + apply Qnot_lt_le. intro Z.
      assert (Hz : (0 <= l_dpl (L w l) * l_kappa (L w l))%Q) by (rewrite T; unfold Qof_nat; rewrite <- (Zle_Qle 0); lia).
      assert (D0 : (0 <= l_dpl (L w l))%Q).
      { apply Qnot_lt_le. intro Z'. nra. }
      nra.
    + exact Hn.
  - apply Same. rewrite K. reflexivity.
  - apply Same. rewrite K. reflexivity.
Qed.

Theorem reach_Sound : forall c (P : op -> world -> Prop), (0 <= dt c)%Q -> (0 <= dN c)%Q -> (forall o w, P o w -> keep_room o w) ->
  forall w, reachP c P w -> Sound c w.
Proof.
  intros c P Hd Hn HP w R. apply (reachP_ind' c P (Sound c)); [| |exact R].
  - intro tm. constructor; unfold Singles; intros x Hx; cbn in Hx; exfalso; lia.
  - clear w R. intros w w' R A S. pose proof (reachP_reach _ _ _ R) as R'. destruct S as [w o w' Hok Hp Hx E|w w' Hf E|w].
    + pose proof (HP _ _ Hp) as Hk. destruct A as [A1 A2 A3 A4].
      assert (Old : forall v, v < w_nv w -> v_xold (V w' v) = v_xold (V w v) /\ v_x (V w' v) = v_x (V w v) /\ v_state (V w' v) = v_state (V w v)).
      { intros v Hv. destruct (op_keep c o w w' v Hok Hx E Hv) as (K & _). unfold vkeep in K. repeat split; congruence. }
      assert (New : forall v, w_nv w <= v -> v < w_nv w' -> v_xold (V w' v) = 0%Q /\ v_state (V w' v) = Home).
      { intros v H1 H2. destruct (op_newborn c o w w' v Hok Hx E H1 H2) as (a & nl & nm & K). unfold vkeep in K.
        change Home with (v_state (new_vehicle c a nl nm)). change 0%Q with (v_xold (new_vehicle c a nl nm)). split; congruence. }
      constructor.
      * intros l Hl. destruct (op_links c o w w' R' Hok Hx E) as [Z|[Z1 Z2]]; [rewrite Z; intros i u v Hi; destruct i; discriminate Hi|].
        rewrite Z1 in Hl. specialize (Z2 l). unfold lkeep in Z2.
        assert (Ev : l_vehs (L w' l) = l_vehs (L w l)) by congruence. assert (El : l_lanes (L w' l) = l_lanes (L w l)) by congruence.
        rewrite Ev, El. eapply spaced_gap; [eapply op_gap; eauto|]. eapply spaced_ext; [|exact (A1 l Hl)].
        intros z Hz. unfold xs. apply Old. pose proof (reach_Inv2 _ _ R') as I. destruct I as [[T I] _]. rewrite <- Dq_none in Hz. apply (s_D I) in Hz. tauto.
      * intros v Hv Hr. destruct (Nat.lt_ge_cases v (w_nv w)) as [Hv'|Hv'].
        -- destruct (Old v Hv') as (-> & -> & Es). apply A2; congruence.
        -- destruct (New v Hv' Hv). congruence.
      * intros v Hv Hr. destruct (Nat.lt_ge_cases v (w_nv w)) as [Hv'|Hv'].
        -- destruct (Old v Hv') as (-> & _ & Es). apply A3; [exact Hv'|]. rewrite <- Es. exact Hr.
        -- apply (New v Hv' Hv).
      * eapply singles_op; eauto.
    + assert (HP' : forall o x, P o x -> sound_links o x) by (intros o x K; apply HP in K; apply K).
      apply tick_fr in E. destruct E as (w1 & E & ->).
      assert (A1 : Sound c w1).
      { eapply sound_body; [exact Hd|exact (reach_Geo c P HP' w R)|exact (reach_Pos c P Hd HP' w R)|exact (reach_Inv2 _ _ R')|exact (reach_IncB _ _ R')|exact (reach_Ends _ _ R')|exact E|exact A]. }
      destruct A1 as [B1 B2 B3 B4]. constructor; assumption.
    + destruct A as [B1 B2 B3 B4]. constructor; assumption.
Qed.

(** vehicles further back in the same lane *)
Lemma spaced_far : forall f n g D m i u v, (1 <= n) -> spaced f n g D -> nth_error D i = Some u -> nth_error D (i + m * n) = Some v ->
  (f v + Qof_nat m * g <= f u)%Q.
Proof.
  intros f n g D m. induction m as [|m IH]; intros i u v Hn H H1 H2.
  - cbn in H2. rewrite Nat.add_0_r in H2. assert (u = v) by congruence. subst.
    assert (Z : (Qof_nat 0 * g == 0)%Q) by (unfold Qof_nat; cbn; ring). rewrite Z. lra.
  - assert (Hy : exists y, nth_error D (i + n) = Some y).
    { destruct (nth_error D (i + n)) as [y|] eqn:E; [eauto|]. exfalso. apply nth_error_None in E.
      assert (Hlt : i + S m * n < List.length D) by (apply nth_error_Some; congruence). cbn in Hlt. lia. }
    destruct Hy as [y Hy]. pose proof (H i u y H1 Hy) as K1.
    assert (K2 : (f v + Qof_nat m * g <= f y)%Q).
    { apply (IH (i + n) y v Hn H Hy). replace (i + n + m * n) with (i + S m * n) by (cbn; lia). exact H2. }
    assert (Z : (Qof_nat (S m) * g == Qof_nat m * g + g)%Q).
    { unfold Qof_nat. rewrite Nat2Z.inj_succ. unfold Z.succ. rewrite inject_Z_plus. ring. }
    rewrite Z. lra.
Qed.

(** C05: the distance between a vehicle and its leader *)
Theorem spacing_lemma : forall c w l i u v, (0 <= dt c)%Q -> (0 <= dN c)%Q -> reachP c keep_room w -> exists_link w l ->
  nth_error (l_vehs (L w l)) i = Some u -> nth_error (l_vehs (L w l)) (i + l_lanes (L w l)) = Some v ->
  v_leader (V w v) = Some u /\ v_lane (V w u) = v_lane (V w v) /\ (v_x (V w v) + jam_gap c (L w l) <= v_x (V w u))%Q.
Proof.
  intros c w l i u v Hd Hn R Hl H1 H2. pose proof (reach_Inv2 _ _ (reachP_reach _ _ _ R)) as I.
  assert (Ln : 1 <= l_lanes (L w l)) by (apply (t_lanes (proj1 (proj1 I))); exact Hl).
  destruct I as [[T I] _]. split; [|split].
  - pose proof (s_leader I l (i + l_lanes (L w l))) as Z. rewrite Dq_none in Z. rewrite (Z _ H2).
    destruct (i + l_lanes (L w l) <? l_lanes (L w l)) eqn:Ez; [apply Nat.ltb_lt in Ez; lia|].
    replace (i + l_lanes (L w l) - l_lanes (L w l)) with i by lia. exact H1.
  - assert (Step : forall m y, m <= l_lanes (L w l) -> nth_error (l_vehs (L w l)) (i + m) = Some y -> v_lane (V w y) = (v_lane (V w u) + m) mod l_lanes (L w l)).
    { intro m. induction m as [|m IH]; intros y Hm Hy.
      - rewrite Nat.add_0_r in *. assert (y = u) by congruence. subst y. symmetry. apply Nat.mod_small.
        pose proof (s_lane I l i) as Z. rewrite Dq_none in Z. apply (Z _ H1).
      - destruct (nth_error (l_vehs (L w l)) (i + m)) as [z|] eqn:Ez.
        + pose proof (s_lane I l (i + m)) as Z. rewrite Dq_none in Z. destruct (Z _ Ez) as [_ Z']. replace (i + S m) with (S (i + m)) in Hy by lia.
          rewrite (Z' _ Hy), (IH z) by (auto; lia). rewrite Nat.add_mod_idemp_l by lia. f_equal. lia.
        + apply nth_error_None in Ez. assert (i + S m < List.length (l_vehs (L w l))) by (apply nth_error_Some; congruence). lia. }
    rewrite (Step (l_lanes (L w l)) v (le_n _) H2). replace (v_lane (V w u) + l_lanes (L w l)) with (v_lane (V w u) + 1 * l_lanes (L w l)) by lia. rewrite Nat.mod_add by lia.
    symmetry. apply Nat.mod_small. pose proof (s_lane I l i) as Z. rewrite Dq_none in Z. apply (Z _ H1).
  - exact (so_space _ _ (reach_Sound c _ Hd Hn (fun _ _ K => K) w R) l Hl i u v H1 H2).
Qed.

Theorem leader_lemma : forall c w l u v, (0 <= dt c)%Q -> (0 <= dN c)%Q -> reachP c keep_room w -> exists_veh w v ->
  on_link w v l -> v_leader (V w v) = Some u ->
  on_link w u l /\ v_lane (V w u) = v_lane (V w v) /\ (v_x (V w v) + jam_gap c (L w l) <= v_x (V w u))%Q /\
  (0 < l_kappa (L w l) -> jam_gap c (L w l) == dN c * Qof_nat (l_lanes (L w l)) / l_kappa (L w l))%Q.
Proof.
  intros c w l u v Hd Hn R Hv [H1 H2] H3. pose proof (reach_Inv2 _ _ (reachP_reach _ _ _ R)) as I. pose proof I as I0. destruct I as [[T I] _].
  assert (Hl : l < w_nl w) by (destruct (s_link I Hv ltac:(discriminate)) as [Z _]; destruct (Z H1) as (k & Z1 & Z2); congruence).
  assert (In v (l_vehs (L w l))) by (rewrite <- Dq_none; apply (s_D I); repeat split; auto; discriminate).
  apply In_nth_error in H. destruct H as [j Hj]. pose proof (s_leader I l j) as Z. rewrite Dq_none in Z. specialize (Z _ Hj). rewrite H3 in Z.
  destruct (j <? l_lanes (L w l)) eqn:Ej; [discriminate|]. apply Nat.ltb_ge in Ej. symmetry in Z.
  replace j with (j - l_lanes (L w l) + l_lanes (L w l)) in Hj by lia.
  destruct (spacing_lemma c w l _ u v Hd Hn R Hl Z Hj) as (_ & S2 & S3).
  split; [apply nth_error_In in Z; rewrite <- Dq_none in Z; apply (s_D I) in Z; split; tauto|]. split; [exact S2|]. split; [exact S3|].
  intro Hk. pose proof (tr_spacing _ _ (triangular_lemma c w l (reachP_reach _ _ _ R) Hl)) as Tr. unfold jam_gap. rewrite <- Tr. field. lra.
Qed.

(** C06: the number of vehicles on a link *)
Theorem density_lemma : forall c w l, (0 <= dt c)%Q -> (0 <= dN c)%Q -> reachP c keep_room w -> exists_link w l -> (0 < l_kappa (L w l))%Q ->
  (Qof_nat (List.length (l_vehs (L w l))) * dN c <= l_kappa (L w l) * l_len (L w l) + Qof_nat (l_lanes (L w l)) * dN c)%Q.
Proof.
  intros c w l Hd Hn R Hl Hk. pose proof (reachP_reach _ _ _ R) as R'. pose proof (reach_Inv2 _ _ R') as I.
  assert (Ln : 1 <= l_lanes (L w l)) by (apply (t_lanes (proj1 (proj1 I))); exact Hl). destruct I as [[T I] _].
  assert (Rs : reachP c sound_links w).
  { destruct R as (tm & R). exists tm. eapply later_weaken; [|exact R]. intros o x K. apply K. }
  destruct (reach_Geo c _ (fun _ _ K => K) w Rs l Hl) as [Gl _].
  assert (P0 : (0 <= l_kappa (L w l) * l_len (L w l))%Q) by (apply Qmult_le_0_compat; lra).
  destruct (l_vehs (L w l)) as [|u D] eqn:E.
  { assert (Z : (Qof_nat (@List.length nat []) * dN c == 0)%Q) by (unfold Qof_nat; cbn; ring). rewrite Z.
    assert (0 <= Qof_nat (l_lanes (L w l)) * dN c)%Q; [|lra]. apply Qmult_le_0_compat; [unfold Qof_nat; rewrite <- (Zle_Qle 0); lia|exact Hn]. }
  rewrite <- E. set (n := List.length (l_vehs (L w l))). set (q := (n - 1) / l_lanes (L w l)).
  assert (Hlen : 1 <= n) by (unfold n; rewrite E; cbn; lia).
  assert (Hq1 : l_lanes (L w l) * q <= n - 1) by (apply Nat.mul_div_le; lia).
  assert (Hq2 : n - 1 < l_lanes (L w l) * S q) by (apply Nat.mul_succ_div_gt; lia).
  assert (Hv : exists v, nth_error (l_vehs (L w l)) (0 + q * l_lanes (L w l)) = Some v).
  { destruct (nth_error (l_vehs (L w l)) (0 + q * l_lanes (L w l))) as [v|] eqn:Ev; [eauto|]. apply nth_error_None in Ev. fold n in Ev. lia. }
  destruct Hv as [v Hv]. assert (Hu : nth_error (l_vehs (L w l)) 0 = Some u) by (rewrite E; reflexivity).
  pose proof (spaced_far (xs w) _ _ _ q 0 u v Ln (so_space _ _ (reach_Sound c _ Hd Hn (fun _ _ K => K) w R) l Hl) Hu Hv) as S. unfold xs in S.
  assert (Bound : forall z, In z (l_vehs (L w l)) -> (0 <= v_x (V w z) <= l_len (L w l))%Q).
  { intros z Hz. rewrite <- Dq_none in Hz. apply (s_D I) in Hz. destruct Hz as (Z1 & Z2 & Z3 & _). apply (position_in_link c w z l Hd Rs Z1). split; assumption. }
  pose proof (Bound u (nth_error_In _ _ Hu)) as [_ B1]. pose proof (Bound v (nth_error_In _ _ Hv)) as [B2 _].
  assert (K1 : (Qof_nat q * jam_gap c (L w l) <= l_len (L w l))%Q) by lra.
  pose proof (tr_spacing _ _ (triangular_lemma c w l R' Hl)) as Tr.
  assert (K2 : (Qof_nat q * jam_gap c (L w l) * l_kappa (L w l) == Qof_nat (q * l_lanes (L w l)) * dN c)%Q).
  { unfold jam_gap. setoid_replace (Qof_nat q * (l_dpl (L w l) * dN c) * l_kappa (L w l))%Q with (Qof_nat q * (l_dpl (L w l) * l_kappa (L w l)) * dN c)%Q by ring.
    rewrite Tr. unfold Qof_nat. rewrite Nat2Z.inj_mul, inject_Z_mult. ring. }
  assert (K3 : (Qof_nat (q * l_lanes (L w l)) * dN c <= l_kappa (L w l) * l_len (L w l))%Q).
  { rewrite <- K2, (Qmult_comm (l_kappa (L w l))). apply Qmult_le_compat_r; lra. }
  assert (K4 : (Qof_nat n * dN c <= Qof_nat (q * l_lanes (L w l) + l_lanes (L w l)) * dN c)%Q).
  { apply Qmult_le_compat_r; [|exact Hn]. unfold Qof_nat. rewrite <- Zle_Qle. cbn in Hq2. lia. }
  assert (K5 : (Qof_nat (q * l_lanes (L w l) + l_lanes (L w l)) * dN c == Qof_nat (q * l_lanes (L w l)) * dN c + Qof_nat (l_lanes (L w l)) * dN c)%Q).
  { unfold Qof_nat. rewrite Nat2Z.inj_add, inject_Z_plus. ring. }
  lra.
Qed.
