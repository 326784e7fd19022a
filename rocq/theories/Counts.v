(** * Counts: cumulative curves of the links and the order of the vehicles on them. *)
From Verif Require Import Base Types Sim Build Heap FrameBase Tac Frame Lists Inv Eff Eff2 Trace InvStep Reach Steps Effects.

(** [l'] is [l] with [n] (0 or 1) times [d] added to its last entry *)
Definition bump (n : nat) (d : Z) (l l' : list Z) : Prop :=
  (n = 0 /\ l' = l) \/ (n = 1 /\ add_last l d = Some l').

(** one event, seen from one link *)
Definition link_event (c : cfg) (e : ev) (w : world) (p : pend) (w' : world) (p' : pend) (k : lid) : Prop :=
  (e = VLink k /\ l_ca (L w' k) = l_ca (L w k) ++ [last0 (l_ca (L w k))] /\
   l_cd (L w' k) = l_cd (L w k) ++ [last0 (l_cd (L w k))] /\ Dq w' p' k = Dq w p k) \/
  (e <> VLink k /\ exists a d, bump (List.length a) (c_deltan c) (l_ca (L w k)) (l_ca (L w' k)) /\
     bump d (c_deltan c) (l_cd (L w k)) (l_cd (L w' k)) /\
     Dq w' p' k = skipn d (Dq w p k ++ a) /\ d <= List.length (Dq w p k)).

Lemma link_event_same : forall c e w p w' p' k, (forall l, e <> VLink l) -> L w' k = L w k -> p' = p ->
  link_event c e w p w' p' k.
Proof.
  intros c e w p w' p' k H E Ep. right. split; [auto|]. exists [], 0.
  unfold bump, Dq. rewrite E, Ep, app_nil_r. cbn. repeat split; auto; lia.
Qed.

Lemma mstep_link : forall c e w p w' p', Inv2 w p -> mstep c e w p w' p' ->
  forall k, link_event c e w p w' p' k.
Proof.
  intros c e w p w' p' I H k. apply (mstep_eff _ _ _ _ _ _ I) in H. destruct e; cbn [eff] in H.
  - destruct H as (-> & -> & _ & _ & _ & _ & _ & d & _ & H). rewrite (Nat.eqb_sym k l) in H || idtac.
    destruct (Nat.eq_dec k l) as [->|N].
    + left. unfold Dq. rewrite H, Nat.eqb_refl. unfold linked. rs.
      destruct (iofc_tti c (L w l)) as (E1 & E2 & E3). rewrite iofc_vehs. auto.
    + right. split; [congruence|]. exists [], 0. specialize (H k). apply Nat.eqb_neq in N. rewrite N in H.
      unfold bump, Dq. rewrite H. cbn. repeat split; auto; try lia. rewrite !app_nil_r; auto.
  - destruct H as (-> & -> & _ & H & _). apply link_event_same; auto; discriminate.
  - destruct H as (-> & -> & q & ca & _ & _ & _ & _ & _ & _ & _ & Hc & H & _). specialize (H k).
    right. split; [discriminate|]. destruct (Nat.eqb k out) eqn:E.
    + apply Nat.eqb_eq in E; subst. exists [v], 0. unfold bump, Dq. rewrite H. cbn.
      rewrite !app_nil_r. repeat split; auto; lia.
    + exists [], 0. unfold bump, Dq. rewrite H. cbn. rewrite !app_nil_r. repeat split; auto; lia.
  - destruct H as (-> & -> & _ & _ & H & _). apply link_event_same; auto; discriminate.
  - destruct H as (-> & -> & cd & ca & rest & q & _ & _ & _ & _ & _ & _ & _ & _ & _ & _ & _ & _ & Hcd & Hca & Hr & _ & _ & _ & _ & H & _).
    specialize (H k). right. split; [discriminate|].
    destruct (Nat.eqb k il) eqn:E1; [apply Nat.eqb_eq in E1; subst k|];
    (destruct (Nat.eqb _ out) eqn:E2; [apply Nat.eqb_eq in E2; subst out|]).
    + exists [v], 1. unfold bump, Dq. rewrite H, Nat.eqb_refl, Hr. cbn. rewrite !app_nil_r. repeat split; auto; lia.
    + exists [], 1. unfold bump, Dq. rewrite H, E2, Hr. cbn. rewrite !app_nil_r. repeat split; auto; lia.
    + exists [v], 0. unfold bump, Dq. rewrite H, Nat.eqb_refl. cbn. rewrite !app_nil_r. repeat split; auto; lia.
    + exists [], 0. unfold bump, Dq. rewrite H, E2. cbn. rewrite !app_nil_r. repeat split; auto; lia.
  - destruct H as (-> & rest & cd & lg & tl & Hr & _ & _ & _ & _ & Hcd & _ & _ & _ & _ & H & _).
    specialize (H k). right. split; [discriminate|]. destruct (Nat.eqb k l) eqn:E.
    + apply Nat.eqb_eq in E; subst. exists [], 1. unfold bump, Dq. rewrite H, Hr. cbn.
      rewrite !app_nil_r. repeat split; auto; lia.
    + exists [], 0. unfold bump, Dq. rewrite H. cbn. rewrite !app_nil_r. repeat split; auto; lia.
  - destruct H as (-> & -> & _ & _ & _ & H & _). specialize (H k). right. split; [discriminate|].
    exists [], 0. unfold bump, Dq. rewrite H. destruct (Nat.eqb k out); cbn; rewrite ?app_nil_r; repeat split; auto; lia.
  - destruct H as (-> & -> & _ & H & _). apply link_event_same; auto; discriminate.
  - destruct H as (-> & -> & H & _). apply link_event_same; auto; discriminate.
  - destruct H as (-> & -> & _ & H & _). apply link_event_same; auto; discriminate.
  - destruct H as (-> & -> & _ & _ & _ & H & _). apply link_event_same; auto; discriminate.
  - destruct H as (-> & -> & _ & _ & H & _). apply link_event_same; auto; discriminate.
  - destruct H as (-> & -> & H & _). apply link_event_same; auto; [discriminate|apply (so_l H)].
  - destruct H as (-> & -> & H & _). apply link_event_same; auto; [discriminate|apply (so_l H)].
  - destruct H as (-> & -> & _ & _ & H & _). apply link_event_same; auto; discriminate.
  - destruct H as (-> & -> & _ & _ & H & _). apply link_event_same; auto; discriminate.
  - destruct H as (-> & -> & _ & _ & H & _). apply link_event_same; auto; discriminate.
  - destruct H as (-> & -> & H & _). apply link_event_same; auto; [discriminate|apply (so_l H)].
  - destruct H as (-> & -> & _ & _ & H & _). apply link_event_same; auto; discriminate.
  - destruct H as (-> & -> & _ & H & _). apply link_event_same; auto; discriminate.
  - destruct H as (-> & -> & _ & H & _). apply link_event_same; auto; discriminate.
  - destruct H as (-> & -> & _ & H & _). apply link_event_same; auto; discriminate.
Qed.

(** ** Lists of counts *)
Definition bumps (l l' : list Z) (d : Z) : Prop := exists p z, l = p ++ [z] /\ l' = p ++ [(z + d)%Z].

Lemma last0_app : forall p z, last0 (p ++ [z]) = z.
Proof. intros. unfold last0. rewrite last_opt_app. reflexivity. Qed.

Lemma nth_last0 : forall l, nth (List.length l - 1) l 0%Z = last0 l.
Proof.
  intro l. unfold last0. rewrite last_opt_nth. destruct l as [|x l]; [reflexivity|].
  destruct (nth_error (x :: l) (List.length (x :: l) - 1)) eqn:E.
  - apply nth_error_nth with (d := 0%Z) in E. auto.
  - apply nth_error_None in E. cbn in E. lia.
Qed.

(** never decreasing *)
Definition mono (l : list Z) : Prop :=
  forall i j, i <= j -> j < List.length l -> (nth i l 0 <= nth j l 0)%Z.
Definition below (l m : list Z) : Prop := forall i, (nth i l 0 <= nth i m 0)%Z.
Definition nonneg (l : list Z) : Prop := forall i, (0 <= nth i l 0)%Z.

Lemma nth_snoc : forall (p : list Z) z i,
  nth i (p ++ [z]) 0%Z = if Nat.eqb i (List.length p) then z else nth i p 0%Z.
Proof.
  intros p z i. destruct (Nat.eqb i (List.length p)) eqn:E.
  - apply Nat.eqb_eq in E. subst. rewrite app_nth2 by lia. rewrite Nat.sub_diag. reflexivity.
  - apply Nat.eqb_neq in E. destruct (lt_dec i (List.length p)).
    + rewrite app_nth1; auto.
    + rewrite !nth_overflow; auto; try rewrite app_length; cbn; lia.
Qed.

Lemma mono_snoc : forall l, mono l -> nonneg l -> mono (l ++ [last0 l]).
Proof.
  intros l M P i j Hij Hj. rewrite app_length in Hj. cbn in Hj. rewrite !nth_snoc.
  destruct (Nat.eqb i (List.length l)) eqn:Ei; destruct (Nat.eqb j (List.length l)) eqn:Ej;
  rewrite ?Nat.eqb_eq, ?Nat.eqb_neq in *; try lia.
  - rewrite <- nth_last0. apply M; lia.
  - apply M; lia.
Qed.
Lemma nonneg_snoc : forall l, nonneg l -> nonneg (l ++ [last0 l]).
Proof.
  intros l P i. rewrite nth_snoc. destruct (Nat.eqb _ _); [|auto]. rewrite <- nth_last0. auto.
Qed.
Lemma below_snoc : forall l m, List.length l = List.length m -> below l m ->
  below (l ++ [last0 l]) (m ++ [last0 m]).
Proof.
  intros l m E B i. rewrite !nth_snoc, E. destruct (Nat.eqb _ _); [|auto].
  rewrite <- !nth_last0, E. auto.
Qed.

Lemma bump_spec : forall n d l l', bump n d l l' ->
  (l' = l \/ exists p z, l = p ++ [z] /\ l' = p ++ [(z + Z.of_nat n * d)%Z]) /\
  (n = 0 \/ n = 1) /\
  List.length l' = List.length l /\ removelast l' = removelast l /\
  last0 l' = (last0 l + Z.of_nat n * d)%Z.
Proof.
  intros n d l l' [[-> ->]|[-> H]].
  - repeat split; auto. lia.
  - apply add_last_spec in H. destruct H as (p & z & -> & ->).
    repeat split; auto.
    + right. exists p, z. split; auto. do 2 f_equal. lia.
    + rewrite !app_length. reflexivity.
    + rewrite !removelast_last. reflexivity.
    + rewrite !last0_app. lia.
Qed.

Lemma bump_mono : forall n d l l', (0 <= d)%Z -> bump n d l l' -> mono l -> nonneg l -> mono l' /\ nonneg l'.
Proof.
  intros n d l l' Hd H M P. apply bump_spec in H. destruct H as [[->|(p & z & -> & ->)] _]; auto.
  split.
  - intros i j Hij Hj. rewrite app_length in Hj. cbn in Hj.
    assert (K := M i j Hij). rewrite app_length in K. cbn in K. specialize (K Hj).
    rewrite !nth_snoc in *. destruct (Nat.eqb i _) eqn:Ei; destruct (Nat.eqb j _) eqn:Ej;
    rewrite ?Nat.eqb_eq, ?Nat.eqb_neq in *; try lia.
  - intro i. specialize (P i). rewrite nth_snoc in *. destruct (Nat.eqb i _); lia.
Qed.

(** [below] survives bumps, given the order of the last entries afterwards *)
Lemma bump_below : forall n1 n2 d l m l' m', (0 <= d)%Z -> List.length l = List.length m ->
  bump n1 d l l' -> bump n2 d m m' -> below l m -> (last0 l' <= last0 m')%Z -> below l' m'.
Proof.
  intros n1 n2 d l m l' m' Hd E H1 H2 B Hl i.
  pose proof (bump_spec _ _ _ _ H1) as (_ & _ & E1 & R1 & _).
  pose proof (bump_spec _ _ _ _ H2) as (_ & _ & E2 & R2 & _).
  destruct (le_lt_dec (List.length l) i) as [Hi|Hi].
  - rewrite !nth_overflow; lia.
  - destruct (Nat.eq_dec i (List.length l - 1)) as [->|Ni].
    + rewrite <- E1 at 1. rewrite E, <- E2, !nth_last0. auto.
    + assert (K : forall (x y : list Z), removelast x = removelast y -> List.length x = List.length y ->
                  i < List.length x - 1 -> nth i x 0%Z = nth i y 0%Z).
      { intros x y Er El Hx.
        assert (x <> []) by (intro; subst; cbn in Hx; lia).
        assert (y <> []) by (intro; subst; cbn in El; rewrite El in Hx; cbn in Hx; lia).
        rewrite (app_removelast_last 0%Z H), (app_removelast_last 0%Z H0), Er.
        assert (List.length (removelast y) = List.length y - 1).
        { rewrite (app_removelast_last 0%Z H0) at 2. rewrite app_length. cbn. lia. }
        rewrite !app_nth1; auto; rewrite H3; lia. }
      rewrite (K l' l), (K m' m); auto; lia.
Qed.

(** ** The invariant of the curves *)
Record Cl (c : cfg) (k : link) (d : list vid) : Prop := mkCl {
  cl_len : List.length (l_ca k) = List.length (l_cd k);
  cl_last : (last0 (l_ca k) - last0 (l_cd k) = c_deltan c * Z.of_nat (List.length d))%Z;
  cl_mono : mono (l_ca k) /\ mono (l_cd k);
  cl_nn : nonneg (l_ca k) /\ nonneg (l_cd k);
  cl_below : below (l_cd k) (l_ca k) }.

Definition CInv (c : cfg) (w : world) (p : pend) : Prop :=
  forall l, l < w_nl w -> Cl c (L w l) (Dq w p l).

Lemma Cl_event : forall c e w p w' p' k, (0 <= c_deltan c)%Z -> Cl c (L w k) (Dq w p k) ->
  link_event c e w p w' p' k -> Cl c (L w' k) (Dq w' p' k).
Proof.
  intros c e w p w' p' k Hd [K1 K2 [K3 K3'] [K4 K4'] K5] [(_ & Ea & Ed & Eq)|(_ & a & d & Ba & Bd & Eq & Hl)].
  - constructor; rewrite Ea, Ed.
    + rewrite !app_length, K1. reflexivity.
    + rewrite !last0_app, Eq. auto.
    + split; apply mono_snoc; auto.
    + split; apply nonneg_snoc; auto.
    + apply below_snoc; auto.
  - pose proof (bump_spec _ _ _ _ Ba) as (_ & Na & La & _ & Sa).
    pose proof (bump_spec _ _ _ _ Bd) as (_ & Nd & Ld & _ & Sd).
    destruct (bump_mono _ _ _ _ Hd Ba K3 K4) as [M1 M2].
    destruct (bump_mono _ _ _ _ Hd Bd K3' K4') as [M3 M4].
    assert (Elen : Z.of_nat (List.length (Dq w' p' k)) = (Z.of_nat (List.length (Dq w p k)) + Z.of_nat (List.length a) - Z.of_nat d)%Z).
    { rewrite Eq, skipn_length, app_length. lia. }
    assert (Elast : (last0 (l_ca (L w' k)) - last0 (l_cd (L w' k)) = c_deltan c * Z.of_nat (List.length (Dq w' p' k)))%Z).
    { rewrite Elen, Sa, Sd. lia. }
    constructor; auto.
    + congruence.
    + eapply (bump_below _ _ _ (l_cd (L w k)) (l_ca (L w k))); eauto; try congruence.
      assert (0 <= c_deltan c * Z.of_nat (List.length (Dq w' p' k)))%Z by (apply Z.mul_nonneg_nonneg; lia). lia.
Qed.

Lemma Cl_nil : forall c k d, l_ca k = [] -> l_cd k = [] -> d = [] -> Cl c k d.
Proof.
  intros c k d E1 E2 ->. constructor; rewrite ?E1, ?E2; try reflexivity.
  - cbn. lia.
  - split; intros i j _ Hj; cbn in Hj; lia.
  - split; intros [|i]; cbn; lia.
  - intros [|i]; cbn; lia.
Qed.

Lemma new_link_empty : forall c a nm k, new_link c a nm = Ok k ->
  l_ca k = [] /\ l_cd k = [] /\ l_vehs k = [] /\ l_tti k = [] /\ l_tta k = [] /\ l_enter k = [].
Proof.
  intros c a nm k H. unfold new_link in H.
  repeat (apply bind_ok in H; let x := fresh "x" in destruct H as (x & _ & H)).
  injection H as <-. repeat split; reflexivity.
Qed.

Lemma added_link_L : forall s e k w j, L (added_link s e k w) j = if Nat.eqb j (w_nl w) then k else L w j.
Proof. intros. unfold added_link, L, modn, upd. cbn. reflexivity. Qed.

Lemma finalize_L : forall c tm w w', finalize c tm w = Ok w' -> forall l,
  exists tta, L w' l = sl_tta tta (L w l).
Proof.
  intros c tm w w' H. unfold finalize in H. cbn zeta in H.
  apply bind_ok in H. destruct H as (w1 & E & H). injection H as <-. intro l.
  assert (P : forall ns x, (forall n, L (fold_left (fun w n => adjust_node_capacity c n w) ns x) n = L x n)).
  { induction ns as [|a ns IH]; intros x n; [reflexivity|]. cbn [fold_left]. rewrite IH.
    unfold adjust_node_capacity. destruct (n_fcap _); [reflexivity|].
    destruct (map _ _); [reflexivity|]. destruct (map _ _); reflexivity. }
  assert (Q : forall tmx ts ls x y, foldM (init_after_tmax_fix c tmx ts) ls x = Ok y ->
            exists tta, L y l = sl_tta tta (L x l)).
  { intros tmx ts. induction ls as [|a ls IH]; intros x y F; cbn [foldM] in F.
    - injection F as <-. exists (l_tta (L x l)). destruct (L x l); reflexivity.
    - apply bind_ok in F. destruct F as (z & F1 & F). destruct (IH _ _ F) as (tta & ->).
      unfold init_after_tmax_fix in F1.
      repeat (apply bind_ok in F1; let x := fresh "x" in destruct F1 as (x & _ & F1)).
      injection F1 as <-. rewrite L_at. destruct (Nat.eqb l a); eexists; reflexivity. }
  destruct (Q _ _ _ _ _ E) as (tta & Eq). exists tta.
  destruct (c_adjust c).
  - transitivity (L (fold_left (fun w0 n => adjust_node_capacity c n w0) (seq 0 (w_nn w1))
      (sw_rcdist (fun _ _ => Some 0%Q) (sw_rcnext (fun _ _ => Some 0) (sw_rcpref (fun _ _ => 0%Q) (sw_rcrec [] w1))))) l).
    + reflexivity.
    + rewrite P. exact Eq.
  - exact Eq.
Qed.

(** how an operation changes the fields of a link that carry its history *)
Definition lhist (k : link) := (l_ca k, l_cd k, l_tti k, l_vehs k, l_enter k).
Lemma ostep_lhist : forall c w w', ostep c w w' -> forall l, l < w_nl w -> lhist (L w' l) = lhist (L w l).
Proof.
  intros c w w' H l Hl. destruct H.
  - reflexivity.
  - rewrite added_link_L. replace (Nat.eqb l (w_nl w)) with false; [reflexivity|]. symmetry; apply Nat.eqb_neq; lia.
  - reflexivity.
  - destruct (finalize_L _ _ _ _ H0 l) as (tta & ->). reflexivity.
  - unfold L. rewrite H0. reflexivity.
  - specialize (H0 l). unfold lkeep in H0. unfold lhist. congruence.
Qed.

Lemma ostep_nl : forall c w w', ostep c w w' -> w_nl w' = w_nl w \/
  exists s e k a nm, w' = added_link s e k w /\ new_link c a nm = Ok k.
Proof.
  intros c w w' H. destruct H; unfold wkeep in *; auto; try (left; congruence).
  - right. eauto 10.
  - left. apply finalize_ss in H0. destruct H0 as [_ E _ _]. congruence.
Qed.

Lemma Dq_fresh : forall w, Inv2 w None -> Dq w None (w_nl w) = [].
Proof.
  intros w [[T I] _]. destruct (Dq w None (w_nl w)) as [|v d] eqn:E; auto.
  assert (In v (Dq w None (w_nl w))) by (rewrite E; left; auto).
  apply (@In_D_lt (Dq w None) None w) in H; auto. lia.
Qed.

Lemma ostep_CInv : forall c w w', Inv2 w None -> CInv c w None -> ostep c w w' -> CInv c w' None.
Proof.
  intros c w w' I J H l Hl.
  destruct (lt_dec l (w_nl w)) as [Hlt|Hge].
  - pose proof (ostep_lhist _ _ _ H l Hlt) as E. unfold lhist in E.
    destruct (J l Hlt) as [K1 K2 K3 K4 K5]. rewrite Dq_none in *.
    constructor; replace (l_ca (L w' l)) with (l_ca (L w l)) by congruence;
    replace (l_cd (L w' l)) with (l_cd (L w l)) by congruence;
    replace (l_vehs (L w' l)) with (l_vehs (L w l)) by congruence; auto.
  - destruct (ostep_nl _ _ _ H) as [E|(s & e & k & a & nm & -> & En)]; [lia|].
    cbn in Hl. assert (l = w_nl w) by (cbn in Hl; lia). subst l.
    destruct (new_link_empty _ _ _ _ En) as (E1 & E2 & E3 & _).
    rewrite Dq_none, added_link_L, Nat.eqb_refl. apply Cl_nil; auto.
Qed.

Theorem reach_CInv : forall c w, (0 <= c_deltan c)%Z -> reach c w -> CInv c w None.
Proof.
  intros c w Hd. apply (reach_inv c (CInv c)).
  - intros tm l Hl. cbn in Hl. lia.
  - intros e a p b q I J M l Hl.
    assert (El : w_nl b = w_nl a) by (apply mstep_fr in M; apply (fr_w_nl M)). rewrite El in Hl.
    eapply Cl_event; eauto. eapply mstep_link; eauto.
  - intros a J. exact J.
  - intros a b. apply ostep_CInv.
Qed.

(** ** First in, first out *)
Definition fifo (c : cfg) (w : world) (p : pend) (w' : world) (p' : pend) : Prop :=
  w_nl w <= w_nl w' /\ forall l, l < w_nl w -> exists a d,
    Dq w' p' l = skipn d (Dq w p l ++ a) /\ d <= List.length (Dq w p l ++ a) /\
    last0 (l_ca (L w' l)) = (last0 (l_ca (L w l)) + c_deltan c * Z.of_nat (List.length a))%Z /\
    last0 (l_cd (L w' l)) = (last0 (l_cd (L w l)) + c_deltan c * Z.of_nat d)%Z.

Lemma skipn_add : forall A (l : list A) i j, skipn j (skipn i l) = skipn (i + j) l.
Proof.
  intros A l i; revert l; induction i as [|i IH]; intros l j; [reflexivity|].
  destruct l as [|x l]; [destruct j; reflexivity|]. cbn. apply IH.
Qed.

Lemma fifo_trans : forall c a p b q d r, fifo c a p b q -> fifo c b q d r -> fifo c a p d r.
Proof.
  intros c a p b q d r [N1 H1] [N2 H2]. split; [lia|]. intros l Hl.
  destruct (H1 l Hl) as (a1 & d1 & E1 & L1 & A1 & C1).
  destruct (H2 l ltac:(lia)) as (a2 & d2 & E2 & L2 & A2 & C2).
  exists (a1 ++ a2), (d1 + d2). rewrite E1 in *.
  assert (skipn d1 (Dq a p l ++ a1) ++ a2 = skipn d1 (Dq a p l ++ a1 ++ a2)) as Ek.
  { rewrite (app_assoc _ a1 a2), (skipn_app d1 (Dq a p l ++ a1) a2).
    replace (d1 - List.length (Dq a p l ++ a1)) with 0 by lia. reflexivity. }
  rewrite Ek in *. rewrite skipn_length in L2. split.
  - rewrite E2. rewrite skipn_add. reflexivity.
  - rewrite !app_length in *. split; [lia|]. split; lia.
Qed.

Theorem later_fifo : forall c P w w', reach c w -> later c P w w' -> fifo c w None w' None.
Proof.
  intros c P. apply later_relp.
  - intros w p. split; auto. intros l Hl. exists [], 0. rewrite !app_nil_r. cbn. repeat split; lia.
  - intros a p b q d r. apply fifo_trans.
  - intros e w p w' p' I M. pose proof (fr_w_nl (mstep_fr M)) as En. split; [lia|]. intros l Hl.
    destruct (mstep_link _ _ _ _ _ _ I M l) as [(_ & Ea & Ed & Eq)|(_ & a & d & Ba & Bd & Eq & Hd)].
    + exists [], 0. rewrite Ea, Ed, Eq, !last0_app, app_nil_r. cbn. repeat split; lia.
    + exists a, d. apply bump_spec in Ba, Bd. destruct Ba as (_ & _ & _ & _ & Ea), Bd as (_ & _ & _ & _ & Ed).
      rewrite app_length. repeat split; auto; lia.
  - intros w. split; [cbn; lia|]. intros l Hl. exists [], 0. rewrite !app_nil_r. cbn [skipn List.length]. change (L (sw_T (S (w_T w)) w) l) with (L w l).
    repeat split; lia.
  - intros w w' I H. assert (w_nl w <= w_nl w').
    { destruct (ostep_nl _ _ _ H) as [E|(s & e & k & a & nm & -> & En)]; [lia|cbn; lia]. }
    split; auto. intros l Hl. pose proof (ostep_lhist _ _ _ H l Hl) as E. unfold lhist in E.
    exists [], 0. rewrite !Dq_none, app_nil_r.
    replace (l_ca (L w' l)) with (l_ca (L w l)) by congruence.
    replace (l_cd (L w' l)) with (l_cd (L w l)) by congruence.
    replace (l_vehs (L w' l)) with (l_vehs (L w l)) by congruence. cbn. repeat split; lia.
Qed.

(** ** One entry per timestep *)

Definition not_link (e : ev) : bool := match e with VLink _ => false | _ => true end.

Definition same_past (w w' : world) : Prop :=
  forall l, List.length (l_ca (L w' l)) = List.length (l_ca (L w l)) /\
            removelast (l_ca (L w' l)) = removelast (l_ca (L w l)) /\
            List.length (l_cd (L w' l)) = List.length (l_cd (L w l)) /\
            removelast (l_cd (L w' l)) = removelast (l_cd (L w l)) /\
            l_tti (L w' l) = l_tti (L w l).

Lemma mstep_tti : forall c e w p w' p', Inv2 w p -> mstep c e w p w' p' -> not_link e = true ->
  forall l, l_tti (L w' l) = l_tti (L w l).
Proof.
  intros c e w p w' p' I H N l. apply (mstep_eff _ _ _ _ _ _ I) in H. destruct e; cbn [eff] in H; try discriminate N.
  - destruct H as (_ & _ & _ & H & _). rewrite H; auto.
  - destruct H as (_ & _ & q & ca & _ & _ & _ & _ & _ & _ & _ & _ & H & _). rewrite H. destruct (Nat.eqb l out) eqn:E; auto.
    apply Nat.eqb_eq in E; subst; reflexivity.
  - destruct H as (_ & _ & _ & _ & H & _). rewrite H; auto.
  - destruct H as (_ & _ & cd & ca & rest & q & _ & _ & _ & _ & _ & _ & _ & _ & _ & _ & _ & _ & _ & _ & _ & _ & _ & _ & _ & H & _).
    rewrite H. cbn zeta. destruct (Nat.eqb l il); destruct (Nat.eqb l out); reflexivity.
  - destruct H as (_ & rest & cd & lg & tl & _ & _ & _ & _ & _ & _ & _ & _ & _ & _ & H & _). rewrite H.
    destruct (Nat.eqb l l0) eqn:E; auto. apply Nat.eqb_eq in E; subst; reflexivity.
  - destruct H as (_ & _ & _ & _ & _ & H & _). rewrite H. destruct (Nat.eqb l out); reflexivity.
  - destruct H as (_ & _ & _ & H & _). rewrite H; auto.
  - destruct H as (_ & _ & H & _). rewrite H; auto.
  - destruct H as (_ & _ & _ & H & _). rewrite H; auto.
  - destruct H as (_ & _ & _ & _ & _ & H & _). rewrite H; auto.
  - destruct H as (_ & _ & _ & _ & H & _). rewrite H; auto.
  - destruct H as (_ & _ & H & _). rewrite (so_l H); auto.
  - destruct H as (_ & _ & H & _). rewrite (so_l H); auto.
  - destruct H as (_ & _ & _ & _ & H & _). rewrite H; auto.
  - destruct H as (_ & _ & _ & _ & H & _). rewrite H; auto.
  - destruct H as (_ & _ & _ & _ & H & _). rewrite H; auto.
  - destruct H as (_ & _ & H & _). rewrite (so_l H); auto.
  - destruct H as (_ & _ & _ & _ & H & _). rewrite H; auto.
  - destruct H as (_ & _ & _ & H & _). rewrite H; auto.
  - destruct H as (_ & _ & _ & H & _). rewrite H; auto.
  - destruct H as (_ & _ & _ & H & _). rewrite H; auto.
Qed.

Lemma run_same_past : forall c w w', Inv2 w None -> run c not_link w w' -> same_past w w'.
Proof.
  intros c w w' I R.
  enough (Inv2 w' None /\ same_past w w') by tauto.
  eapply run_inv with (I := fun x p => Inv2 x p /\ same_past w x); [|exact R|].
  - intros e x p x' p' Ke [Ix S] M. split; [eapply mstep_Inv2; eauto|].
    intro l. destruct (S l) as (S1 & S2 & S3 & S4 & S5).
    assert (Nl : e <> VLink l) by (intro; subst; discriminate).
    destruct (mstep_link _ _ _ _ _ _ Ix M l) as [(K & _)|(_ & a & d & Ba & Bd & _)]; [contradiction|].
    apply bump_spec in Ba, Bd. destruct Ba as (_ & _ & A1 & A2 & _), Bd as (_ & _ & D1 & D2 & _).
    rewrite (mstep_tti _ _ _ _ _ _ Ix M Ke). repeat split; congruence.
  - split; auto. intro l; auto.
Qed.

(** the rest of a timestep after [phase_links] *)
Lemma body_split : forall c w w', body c w = Ok w' -> exists w1, phase_links c w = Ok w1 /\ run c not_link w1 w'.
Proof.
  intros c w w' H. apply body_runs in H.
  destruct H as (w1 & w2 & w3 & w4 & w5 & w6 & E1 & E2 & E3 & E4 & E5 & E6 & ->).
  exists w1. split; auto.
  eapply run_trans; [eapply run_weaken; [|eapply phase_nodes_run; eauto]; intros []; cbn; congruence|].
  eapply run_trans; [eapply run_weaken; [|eapply phase_transfer_run; eauto]; intros []; cbn; congruence|].
  eapply run_trans; [eapply run_weaken; [|eapply phase_follow_run; eauto]; intros []; cbn; congruence|].
  eapply run_trans; [eapply run_weaken; [|eapply phase_vehicles_run; eauto]; intros []; cbn; congruence|].
  eapply run_trans; [eapply run_weaken; [|eapply route_phase_run; eauto]; intros []; cbn; congruence|].
  eapply run_one with (e := VTime); [reflexivity|constructor].
Qed.

Lemma set_tti_ext : forall c w w' k, w_T w' = w_T w -> (forall v, V w' v = V w v) ->
  set_traveltime_instant c w' k = set_traveltime_instant c w k.
Proof.
  intros c w w' k ET EV.
  assert (E : link_speed w' k = link_speed w k).
  { unfold link_speed. destruct (l_vehs k); [reflexivity|].
    rewrite (map_ext (fun v => v_v (V w' v)) (fun v => v_v (V w v))); [reflexivity|].
    intro; rewrite EV; auto. }
  unfold set_traveltime_instant. rewrite ET, E. reflexivity.
Qed.

Lemma phase_links_eff : forall c w w', phase_links c w = Ok w' ->
  (forall v, V w' v = V w v) /\ (forall n, N w' n = N w n) /\ w_T w' = w_T w /\
  (forall l, w_nl w <= l -> L w' l = L w l) /\
  (forall l, l < w_nl w -> exists d,
     set_traveltime_instant c w (in_out_flow_constraint c (L w l)) =
       Ok (sl_tti (l_tti (L w l) ++ [d]) (in_out_flow_constraint c (L w l))) /\
     L w' l = linked c d (L w l)).
Proof.
  intros c w w' H. unfold phase_links in H.
  assert (G : forall xs x, NoDup xs -> foldM (link_update c) xs x = Ok w' ->
    (forall v, V w' v = V x v) /\ (forall n, N w' n = N x n) /\ w_T w' = w_T x /\
    (forall l, ~ In l xs -> L w' l = L x l) /\
    (forall l, In l xs -> exists d,
       set_traveltime_instant c x (in_out_flow_constraint c (L x l)) =
         Ok (sl_tti (l_tti (L x l) ++ [d]) (in_out_flow_constraint c (L x l))) /\
       L w' l = linked c d (L x l))).
  { induction xs as [|a xs IH]; intros x Nd F; cbn [foldM] in F.
    - injection F as <-. repeat split; auto. intros l [].
    - apply bind_ok in F. destruct F as (y & E & F). inversion Nd; subst.
      unfold link_update in E. apply bind_ok in E. destruct E as (k2 & E & K). injection K as <-.
      destruct (set_tti_ok _ _ _ _ E) as (d & ->). destruct (iofc_tti c (L x a)) as (E1 & E2 & E3).
      destruct (IH _ H3 F) as (P1 & P2 & P3 & P4 & P5).
      split; [exact P1|]. split; [exact P2|]. split; [exact P3|]. split.
      + intros l Hl. rewrite P4 by (intro; apply Hl; right; auto). rewrite L_at.
        replace (Nat.eqb l a) with false; [reflexivity|]. symmetry; apply Nat.eqb_neq. intro; subst; apply Hl; left; auto.
      + intros l [->|Hl].
        * exists d. rewrite <- E1. split; [exact E|]. rewrite P4 by auto. rewrite L_at, Nat.eqb_refl.
          unfold linked. rs. rewrite ?E1, ?E2, ?E3. reflexivity.
        * destruct (P5 l Hl) as (d' & Q1 & Q2). exists d'.
          rewrite L_at in Q1, Q2. replace (Nat.eqb l a) with false in Q1, Q2 by (symmetry; apply Nat.eqb_neq; intro; subst; auto).
          split; [|exact Q2]. rewrite <- Q1. symmetry. apply set_tti_ext; reflexivity. }
  destruct (G _ _ (seq_NoDup _ _) H) as (P1 & P2 & P3 & P4 & P5).
  repeat (split; [assumption|]). split.
  - intros l Hl. apply P4. rewrite in_seq. lia.
  - intros l Hl. apply P5. rewrite in_seq. lia.
Qed.

Lemma removelast_snoc : forall (l m : list Z) z, removelast l = removelast (m ++ [z]) ->
  List.length l = List.length (m ++ [z]) -> exists x, l = m ++ [x].
Proof.
  intros l m z R E. rewrite removelast_last in R. rewrite app_length in E. cbn in E.
  assert (l <> []) by (intro; subst; cbn in E; lia).
  exists (last l 0%Z). rewrite <- R. apply app_removelast_last; auto.
Qed.

Lemma body_curves : forall c w w', Inv2 w None -> body c w = Ok w' -> forall l, l < w_nl w ->
  (exists x, l_ca (L w' l) = l_ca (L w l) ++ [x]) /\
  (exists x, l_cd (L w' l) = l_cd (L w l) ++ [x]) /\
  (exists x, l_tti (L w' l) = l_tti (L w l) ++ [x]).
Proof.
  intros c w w' I H l Hl. destruct (body_split _ _ _ H) as (w1 & E & R).
  assert (I1 : Inv2 w1 None) by (eapply run_Inv2; [eapply phase_links_run; eauto|auto]).
  destruct (phase_links_eff _ _ _ E) as (_ & _ & _ & _ & P). destruct (P l Hl) as (d & _ & Ed).
  destruct (run_same_past _ _ _ I1 R l) as (S1 & S2 & S3 & S4 & S5).
  destruct (iofc_tti c (L w l)) as (T1 & T2 & T3).
  rewrite Ed in *. unfold linked in *. rs. cbn in S1, S2, S3, S4, S5. 
  split; [|split].
  - eapply removelast_snoc; eauto.
  - eapply removelast_snoc; eauto.
  - eauto.
Qed.

(** number of entries, and the clock before finalization *)
Definition TInv (w : world) : Prop :=
  (w_final w = false -> w_T w = 0) /\
  forall l, l < w_nl w -> List.length (l_ca (L w l)) = w_T w /\ List.length (l_cd (L w l)) = w_T w /\
                          List.length (l_tti (L w l)) = w_T w.

Lemma ostep_T : forall c w w', ostep c w w' -> TInv w -> TInv w'.
Proof.
  intros c w w' H [T0 T1].
  assert (ET : w_T w' = w_T w /\ (w_final w' = false -> w_final w = false)).
  { destruct H; unfold wkeep in *; try (cbn; auto; fail).
    - split; [|auto]. rewrite (T0 H). unfold finalize in H0. cbn zeta in H0.
      apply bind_ok in H0. destruct H0 as (w1 & E & H0). injection H0 as <-.
      assert (w_T w1 = 0).
      { apply (foldM_inv (fun x => w_T x = 0)) in E; auto.
        intros a x x' _ Hx F. unfold init_after_tmax_fix in F. cbn zeta in F.
        repeat (apply bind_ok in F; let x := fresh "x" in destruct F as (x & _ & F)). injection F as <-. exact Hx. }
      assert (P : forall ns x, w_T (fold_left (fun w n => adjust_node_capacity c n w) ns x) = w_T x).
      { induction ns as [|a ns IH]; intros x; [reflexivity|]. cbn [fold_left]. rewrite IH.
        unfold adjust_node_capacity. destruct (n_fcap _); [reflexivity|].
        destruct (map _ _); [reflexivity|]. destruct (map _ _); reflexivity. }
      cbn. destruct (c_adjust c); [rewrite P|]; exact H0.
    - split; [congruence|]. intro. congruence.
    - split; [congruence|]. intro. congruence. }
  destruct ET as [ET EF]. split; [intro K; rewrite ET; auto|].
  intros l Hl. rewrite ET. destruct (lt_dec l (w_nl w)) as [Hlt|Hge].
  - pose proof (ostep_lhist _ _ _ H l Hlt) as E. unfold lhist in E.
    replace (l_ca (L w' l)) with (l_ca (L w l)) by congruence.
    replace (l_cd (L w' l)) with (l_cd (L w l)) by congruence.
    replace (l_tti (L w' l)) with (l_tti (L w l)) by congruence. auto.
  - destruct (ostep_nl _ _ _ H) as [E|(s & e & k & a & nm & Ew & En)]; [lia|].
    destruct (new_link_empty _ _ _ _ En) as (E1 & E2 & _ & E3 & _).
    assert (w_final w = false).
    { destruct H; auto; unfold wkeep in *; try (rewrite Ew in *; cbn in *; lia).
      - apply (f_equal w_nl) in Ew. cbn in Ew. lia.
      - assert (w_nl w' = S (w_nl w)) by (rewrite Ew; reflexivity). assert (w_nl w' = w_nl w) by congruence. lia.
      - assert (w_nl w' = S (w_nl w)) by (rewrite Ew; reflexivity). assert (w_nl w' = w_nl w) by congruence. lia. }
    assert (l = w_nl w) by (rewrite Ew in Hl; cbn in Hl; lia). subst l.
    rewrite Ew, added_link_L, Nat.eqb_refl, E1, E2, E3, (T0 H0). auto.
Qed.

Theorem reach_TInv : forall c w, reach c w -> TInv w.
Proof.
  intros c w H. induction H as [tm|w o w' H IH Hok Hx E|w w' H IH F E|w H IH].
  - split; [auto|]. intros l Hl. cbn in Hl. lia.
  - apply apply_op_osteps in E; auto. clear - E IH. induction E; auto. apply IHE. eapply ostep_T; eauto.
  - apply tick_fr in E. destruct E as (w1 & E & ->). pose proof (body_fr _ _ E) as Fr.
    destruct IH as [T0 T1]. split.
    + intro K. cbn in K. rewrite (fr_w_final Fr) in K. congruence.
    + intros l Hl. cbn in Hl. rewrite (fr_w_nl Fr) in Hl.
      destruct (body_curves _ _ _ (reach_Inv2 _ _ H) E l Hl) as ((x & Ea) & (y & Ed) & (z & Et)).
      change (L (sw_T (S (w_T w)) w1) l) with (L w1 l). rewrite Ea, Ed, Et, !app_length.
      destruct (T1 l Hl) as (K1 & K2 & K3). cbn. lia.
  - exact IH.
Qed.

(** what is recorded stays *)
Theorem recorded_stays : forall c P w w', reach c w -> later c P w w' -> forall l, l < w_nl w ->
  (exists s, l_ca (L w' l) = l_ca (L w l) ++ s) /\ (exists s, l_cd (L w' l) = l_cd (L w l) ++ s) /\
  (exists s, l_tti (L w' l) = l_tti (L w l) ++ s).
Proof.
  intros c P w w' Hr H l Hl. induction H as [|w1 w2 H IH K].
  - repeat split; exists []; rewrite app_nil_r; auto.
  - assert (R1 : reach c w1) by (eapply later_reach; eauto).
    assert (Hl1 : l < w_nl w1) by (destruct (later_fifo _ _ _ _ Hr H); lia).
    enough ((exists s, l_ca (L w2 l) = l_ca (L w1 l) ++ s) /\ (exists s, l_cd (L w2 l) = l_cd (L w1 l) ++ s) /\
            (exists s, l_tti (L w2 l) = l_tti (L w1 l) ++ s)) as ((x & X) & (y & Y) & (z & Z)).
    { destruct IH as ((x' & X') & (y' & Y') & (z' & Z')).
      rewrite X, Y, Z, X', Y', Z', <- !app_assoc. repeat split; eexists; reflexivity. }
    destruct K as [w1 o w2 Hok Hp Hx E|w1 w2 F E|w1].
    + enough (lhist (L w2 l) = lhist (L w1 l)) as Eh.
      { unfold lhist in Eh. repeat split; exists []; rewrite app_nil_r; congruence. }
      apply apply_op_osteps in E; auto. clear - E Hl1. induction E; auto.
      assert (l < w_nl b) by (destruct (ostep_nl _ _ _ H) as [K|(s & e & k & x & nm & -> & En)]; [lia|cbn; lia]).
      rewrite (IHE H0). eapply ostep_lhist; eauto.
    + apply tick_fr in E. destruct E as (w3 & E & ->).
      destruct (body_curves _ _ _ (reach_Inv2 _ _ R1) E l Hl1) as ((x & Ea) & (y & Ed) & (z & Et)).
      repeat split; eexists; eauto.
    + repeat split; exists []; rewrite app_nil_r; reflexivity.
Qed.
