(** * Life: the life cycle of a trip (C12). *)
From Verif Require Import Base Types Sim Build Heap FrameBase Tac Frame Lists Inv Eff Eff2 Trace InvStep Reach Steps Effects Phases Spec.

Definition life (a : vehicle) := (v_state a, v_arr a, v_tt a, v_dep a).

Lemma life_eq : forall a b, life a = life b ->
  v_state a = v_state b /\ v_arr a = v_arr b /\ v_tt a = v_tt b /\ v_dep a = v_dep b.
Proof. unfold life; intros a b H. repeat split; congruence. Qed.

(** every event, seen from one vehicle *)
Inductive life_event (c : cfg) (w : world) (e : ev) (v : vid) (b : vehicle) : Prop :=
| le_same : life b = life (V w v) -> life_event c w e v b
| le_depart : e = VDepart v -> v_state (V w v) = Home -> (v_dep (V w v) <= Z.of_nat (w_T w))%Z ->
    life b = (Wait, v_arr (V w v), v_tt (V w v), v_dep (V w v)) -> life_event c w e v b
| le_enter : forall n out, e = VEnter n v out -> v_state (V w v) = Wait ->
    life b = (Run, v_arr (V w v), v_tt (V w v), v_dep (V w v)) -> life_event c w e v b
| le_end : forall l, e = VEnd v l -> v_state (V w v) = Run ->
    life b = (if v_aborted (V w v) then (Abort, (-1)%Z, (-1)%Q, v_dep (V w v))
              else (End_, Z.of_nat (w_T w), (inject_Z (Z.of_nat (w_T w) - v_dep (V w v)) * dt c)%Q, v_dep (V w v))) ->
    life_event c w e v b.

Lemma life_followed : forall c w l a, life (followed c w l a) = life a.
Proof. intros. unfold followed. destruct (qlt _ _); reflexivity. Qed.
Lemma life_logged : forall c w v b, life (logged c w v b) = life (V w v).
Proof. reflexivity. Qed.
Lemma life_next_dest : forall a, life (next_dest a) = life a.
Proof. intro a. unfold next_dest. destruct (v_dests a); reflexivity. Qed.
Lemma life_ended : forall c w a, life (ended c w a) =
  if v_aborted a then (Abort, (-1)%Z, (-1)%Q, v_dep a)
  else (End_, Z.of_nat (w_T w), (inject_Z (Z.of_nat (w_T w) - v_dep a) * dt c)%Q, v_dep a).
Proof. intros. unfold ended. rs. destruct (v_aborted a); reflexivity. Qed.
Lemma life_closed : forall (b : bool) a tl lg, life (let x := sv_linkold None (sv_tlog tl (sv_log lg a)) in
  if b then sv_pref PrefNone x else x) = life a.
Proof. intros [] a tl lg; reflexivity. Qed.
Lemma life_if : forall (b : bool) x y, life (if b then x else y) = if b then life x else life y.
Proof. intros []; reflexivity. Qed.
Lemma life_soft : forall w w', soft w w' -> forall v, life (V w' v) = life (V w v).
Proof. intros w w' S v. pose proof (so_v S v) as E. unfold vhard in E. unfold life. congruence. Qed.

Lemma mstep_life : forall c e w p w' p', Inv2 w p -> mstep c e w p w' p' -> forall v,
  life_event c w e v (V w' v).
Proof.
  intros c e w p w' p' I M v. pose proof (mstep_eff c e w p w' p' I M) as H. destruct e; cbn [eff] in H.
  - destruct H as (_ & _ & _ & H & _). apply le_same. rewrite H. reflexivity.
  - destruct H as (_ & _ & H & _). apply le_same. rewrite H. reflexivity.
  - destruct H as (-> & _ & q & ca & H1 & H2 & _ & _ & _ & _ & _ & _ & _ & _ & _ & _ & _ & _ & A & B).
    destruct (Nat.eq_dec v v0) as [-> | Hne].
    + eapply le_enter; [reflexivity| |rewrite A; reflexivity].
      destruct I as [[T I] _]. assert (K : In v0 (n_queue (N w n))) by (rewrite H2; left; auto).
      apply (s_queue I) in K. tauto.
    + apply le_same. rewrite B by auto. destruct (opt_eqb _ _); reflexivity.
  - destruct H as (_ & _ & _ & H & _). apply le_same. rewrite H. reflexivity.
  - destruct H as (-> & _ & cd & ca & rest & q & H).
    do 19 (destruct H as [_ H]). destruct H as (_ & _ & A & B).
    apply le_same. destruct (Nat.eq_dec v v0) as [-> | Hne].
    + rewrite A. reflexivity.
    + rewrite B by auto. cbv zeta. destruct (opt_eqb (t_leader _ _ _) _), (opt_eqb (v_follower _) _); reflexivity.
  - destruct H as (-> & rest & cd & lg & tl & H1 & _ & H2 & H3 & _ & _ & _ & _ & _ & _ & _ & A & _ & _ & B).
    destruct (Nat.eq_dec v v0) as [-> | Hne].
    + eapply le_end; [reflexivity|auto|]. rewrite B, life_closed. apply life_ended.
    + apply le_same. rewrite A by auto. destruct (opt_eqb _ _); reflexivity.
  - destruct H as (_ & _ & H & _). apply le_same. rewrite H. reflexivity.
  - destruct H as (_ & _ & H & _). apply le_same. rewrite H. reflexivity.
  - destruct H as (_ & _ & _ & _ & _ & _ & l & _ & H). apply le_same. rewrite H.
    destruct (Nat.eqb v v0) eqn:E; [|reflexivity]. apply Nat.eqb_eq in E; subst. apply life_followed.
  - destruct H as (_ & _ & _ & _ & _ & _ & _ & H). apply le_same. rewrite H.
    destruct (Nat.eqb v v0) eqn:E; [|reflexivity]. apply Nat.eqb_eq in E; subst. apply life_logged.
  - destruct H as (_ & _ & _ & H1 & H2 & _ & _ & _ & H & _). specialize (H v).
    destruct (Nat.eqb v v0) eqn:E.
    + apply Nat.eqb_eq in E; subst. apply le_depart; auto. rewrite H. reflexivity.
    + apply le_same. rewrite H. reflexivity.
  - destruct H as (_ & _ & _ & _ & _ & _ & _ & _ & H). apply le_same. rewrite H. destruct (Nat.eqb v v0); reflexivity.
  - destruct H as (_ & _ & S & _). apply le_same. apply life_soft; auto.
  - destruct H as (_ & _ & S & _). apply le_same. apply life_soft; auto.
  - destruct H as (_ & _ & _ & _ & _ & _ & _ & _ & H). apply le_same. rewrite H. destruct (Nat.eqb v v0); reflexivity.
  - destruct H as (_ & _ & _ & _ & _ & _ & _ & _ & H). apply le_same. rewrite H.
    destruct (Nat.eqb v v0); [apply life_next_dest|reflexivity].
  - destruct H as (_ & _ & _ & _ & _ & _ & _ & _ & H). apply le_same. rewrite H. destruct (Nat.eqb v v0); reflexivity.
  - destruct H as (_ & _ & S & _). apply le_same. apply life_soft; auto.
  - destruct H as (_ & _ & _ & H & _). apply le_same. rewrite H. reflexivity.
  - destruct H as (_ & _ & H & _). apply le_same. rewrite H. reflexivity.
  - destruct H as (_ & _ & H & _). apply le_same. rewrite H. reflexivity.
  - destruct H as (_ & _ & H & _). apply le_same. rewrite H. reflexivity.
Qed.

(** operations: existing vehicles keep their life, new ones start at home *)
Lemma ostep_life : forall c w w', ostep c w w' -> forall v, v < w_nv w' ->
  (v < w_nv w /\ life (V w' v) = life (V w v)) \/
  (w_nv w <= v /\ v_state (V w' v) = Home /\ v_arr (V w' v) = (-1)%Z /\ v_tt (V w' v) = (-1)%Q).
Proof.
  intros c w w' H v Hv. destruct H; unfold wkeep in *; try (left; split; [exact Hv|reflexivity]).
  - cbn in Hv. destruct (Nat.eq_dec v (w_nv w)) as [-> | Hne].
    + right. unfold V; cbn. rewrite upd_same. auto.
    + left. split; [lia|]. unfold V; cbn. rewrite upd_other; auto.
  - left. apply finalize_ss in H0. destruct H0 as [E1 E2 _ _]. unfold V. rewrite E1. split; [|reflexivity]. congruence.
  - left. split; [congruence|]. specialize (H v). unfold vkeep in H. unfold life. congruence.
  - left. split; [congruence|]. unfold V. rewrite H. reflexivity.
Qed.

(** ** State order *)
Lemma may_trans : forall a b d, may_become a b -> may_become b d -> may_become a d.
Proof.
  intros a b d H; induction H; intro K; auto.
  - apply mb_home; auto.
  - apply mb_wait; auto.
  - inversion K; subst; constructor.
  - inversion K; subst; constructor.
Qed.

Definition onward (w w' : world) : Prop := w_nv w <= w_nv w' /\ forall v, v < w_nv w ->
  may_become (v_state (V w v)) (v_state (V w' v)) /\ v_dep (V w' v) = v_dep (V w v) /\
  (v_state (V w v) = End_ \/ v_state (V w v) = Abort -> v_arr (V w' v) = v_arr (V w v) /\ v_tt (V w' v) = v_tt (V w v)).

Lemma onward_trans : forall a b d, onward a b -> onward b d -> onward a d.
Proof.
  intros a b d [N1 H] [N2 K]. split; [lia|]. intros v Hv.
  destruct (H v Hv) as (H1 & H2 & H3). destruct (K v) as (K1 & K2 & K3); [lia|].
  split; [eapply may_trans; eauto|]. split; [congruence|]. intro E. destruct (H3 E) as [E1 E2].
  assert (E' : v_state (V b v) = End_ \/ v_state (V b v) = Abort).
  { destruct E as [E|E]; rewrite E in H1; inversion H1; auto. }
  destruct (K3 E'). split; congruence.
Qed.

Theorem later_onward : forall c P w w', reach c w -> later c P w w' -> onward w w'.
Proof.
  intros c P. apply (later_rel c onward).
  - intro w. split; auto. intros; split; [constructor|auto].
  - exact onward_trans.
  - intros e w p w' p' I M. split; [rewrite (fr_w_nv (mstep_fr M)); auto|]. intros v Hv.
    destruct (mstep_life c e w p w' p' I M v) as [H|_ H _ K|n out _ H K|l _ H K].
    + apply life_eq in H. destruct H as (-> & -> & -> & ->). split; [constructor|auto].
    + unfold life in K. injection K as -> -> -> ->. rewrite H. split; [apply mb_home; constructor|]. split; auto.
    + unfold life in K. injection K as -> -> -> ->. rewrite H. split; [apply mb_wait; constructor|]. split; auto.
    + destruct (v_aborted (V w v)); unfold life in K; injection K as -> -> -> ->; rewrite H.
      * split; [constructor|]. split; [auto|]. intros [K|K]; discriminate K.
      * split; [constructor|]. split; [auto|]. intros [K|K]; discriminate K.
  - intro w. split; auto. intros; split; [constructor|auto].
  - intros w w' I H.
    assert (w_nv w <= w_nv w').
    { destruct H; unfold wkeep in *; try (cbn; lia; fail).
      - apply finalize_ss in H0. destruct H0 as [_ E2 _ _]. injection E2; intros. lia.
      - replace (w_nv w') with (w_nv w) by congruence. lia.
      - replace (w_nv w') with (w_nv w) by congruence. lia. }
    split; auto. intros v Hv. destruct (ostep_life c w w' H v) as [[_ K]|[K _]]; [lia| |lia].
    apply life_eq in K. destruct K as (-> & -> & -> & ->). split; [constructor|auto].
Qed.

(** ** Times *)
Definition lifeA (c : cfg) (w : world) (p : pend) : Prop := forall v, v < w_nv w ->
  (v_state (V w v) <> Home -> (v_dep (V w v) < Z.of_nat (w_T w))%Z) /\
  (v_state (V w v) <> End_ -> v_arr (V w v) = (-1)%Z /\ v_tt (V w v) = (-1)%Q) /\
  (v_state (V w v) = End_ -> (v_dep (V w v) < v_arr (V w v) <= Z.of_nat (w_T w))%Z /\
     v_tt (V w v) = (inject_Z (v_arr (V w v) - v_dep (V w v)) * dt c)%Q).
Definition lifeB (c : cfg) (w : world) (p : pend) : Prop := forall v, v < w_nv w ->
  (v_state (V w v) <> Home -> (v_dep (V w v) < Z.of_nat (w_T w))%Z \/
     v_state (V w v) = Wait /\ (v_dep (V w v) <= Z.of_nat (w_T w))%Z) /\
  (v_state (V w v) <> End_ -> v_arr (V w v) = (-1)%Z /\ v_tt (V w v) = (-1)%Q) /\
  (v_state (V w v) = End_ -> (v_dep (V w v) < v_arr (V w v) <= Z.of_nat (w_T w))%Z /\
     v_tt (V w v) = (inject_Z (v_arr (V w v) - v_dep (V w v)) * dt c)%Q).

Lemma lifeA_step : forall c e w p w' p', k_first e = true -> Inv2 w p -> lifeA c w p -> mstep c e w p w' p' -> lifeA c w' p'.
Proof.
  intros c e w p w' p' Ke I J M v Hv. rewrite (fr_w_nv (mstep_fr M)) in Hv.
  rewrite (fr_w_T (mstep_fr M)). specialize (J v Hv). destruct J as (J1 & J2 & J3).
  destruct (mstep_life c e w p w' p' I M v) as [H|E _ _ _|n out _ H K|l _ H K].
  - apply life_eq in H. destruct H as (-> & -> & -> & ->). auto.
  - subst e. discriminate Ke.
  - unfold life in K. injection K as -> -> -> ->. rewrite H in *.
    split; [intros _; apply J1; discriminate|]. split; [intros _; apply J2; discriminate|discriminate].
  - assert (Hd : (v_dep (V w v) < Z.of_nat (w_T w))%Z) by (apply J1; rewrite H; discriminate).
    destruct (v_aborted (V w v)); unfold life in K; injection K as -> -> -> ->.
    + split; [auto|]. split; [auto|discriminate].
    + split; [auto|]. split; [congruence|]. intros _. split; [lia|reflexivity].
Qed.

Lemma lifeB_step : forall c e w p w' p', k_last e = true -> Inv2 w p -> lifeB c w p -> mstep c e w p w' p' -> lifeB c w' p'.
Proof.
  intros c e w p w' p' Ke I J M v Hv. rewrite (fr_w_nv (mstep_fr M)) in Hv.
  rewrite (fr_w_T (mstep_fr M)). specialize (J v Hv). destruct J as (J1 & J2 & J3).
  destruct (mstep_life c e w p w' p' I M v) as [H|E H Hd K|n out E H K|l _ H K].
  - apply life_eq in H. destruct H as (-> & -> & -> & ->). auto.
  - unfold life in K. injection K as -> -> -> ->. rewrite H in *.
    split; [auto|]. split; [intros _; apply J2; discriminate|discriminate].
  - subst e. discriminate Ke.
  - assert (Hd : (v_dep (V w v) < Z.of_nat (w_T w))%Z).
    { destruct J1 as [K'|[K' _]]; auto; congruence. }
    destruct (v_aborted (V w v)); unfold life in K; injection K as -> -> -> ->.
    + split; [auto|]. split; [auto|discriminate].
    + split; [auto|]. split; [congruence|]. intros _. split; [lia|reflexivity].
Qed.

Lemma ostep_lifeA : forall c w w', clock0 w -> lifeA c w None -> ostep c w w' -> lifeA c w' None.
Proof.
  intros c w w' C J H v Hv. destruct (ostep_clock _ _ _ H C) as [_ ->].
  destruct (ostep_life c w w' H v Hv) as [[Hlt K]|(_ & -> & -> & ->)].
  - apply life_eq in K. destruct K as (-> & -> & -> & ->). apply J; auto.
  - split; [congruence|]. split; [auto|discriminate].
Qed.

Lemma lifeA_follow : forall c e w p w' p', k_follow e = true -> Inv2 w p -> lifeA c w p -> mstep c e w p w' p' -> lifeA c w' p'.
Proof.
  intros c e w p w' p' Ke I J M v Hv. rewrite (fr_w_nv (mstep_fr M)) in Hv.
  rewrite (fr_w_T (mstep_fr M)).
  destruct (mstep_life c e w p w' p' I M v) as [H|E _ _ _|n out E H K|l E H K]; try (subst e; discriminate Ke).
  apply life_eq in H. destruct H as (-> & -> & -> & ->). auto.
Qed.
Lemma lifeA_B : forall c w, lifeA c w None -> lifeB c w None.
Proof. intros c w J v Hv. destruct (J v Hv) as (A & B & D). split; [left; auto|auto]. Qed.
Lemma lifeB_A : forall c w, lifeB c w None -> lifeA c (sw_T (S (w_T w)) w) None.
Proof.
  intros c w J v Hv. destruct (J v Hv) as (A & B & D).
  change (V (sw_T (S (w_T w)) w) v) with (V w v). cbn [w_T sw_T].
  split; [intro K; destruct (A K) as [|[_ ?]]; lia|]. split; [auto|]. intro K. destruct (D K). split; [lia|auto].
Qed.

Theorem reach_lifeA : forall c w, reach c w -> lifeA c w None.
Proof.
  intros c w H. eapply reach_phase with (A := lifeA c) (F := lifeA c) (B := lifeB c); [..|exact H].
  - intros; eapply lifeA_step; eauto.
  - auto.
  - intros; eapply lifeA_follow; eauto.
  - intros; eapply lifeA_B; eauto.
  - intros; eapply lifeB_step; eauto.
  - intros tm v Hv. cbn in Hv. lia.
  - intros; eapply lifeB_A; eauto.
  - intros; eapply ostep_lifeA; eauto.
Qed.

(** a trip that has ended did so in an executed timestep *)
Theorem reach_past : forall c w, reach c w -> forall v, v < w_nv w -> v_state (V w v) = End_ ->
  (v_arr (V w v) < Z.of_nat (w_T w))%Z.
Proof.
  intros c w H. induction H as [tm|w o w' H IH Hok Hx E|w w' H IH Hf E|w H IH]; auto.
  - intros v Hv. cbn in Hv. lia.
  - pose proof (reach_clock _ _ H) as C. apply apply_op_osteps in E; auto. clear - E IH C. induction E; auto.
    apply IHE; [|eapply ostep_clock; eauto]. intros v Hv Hs. destruct (ostep_clock _ _ _ H C) as [_ ->].
    destruct (ostep_life c a b H v Hv) as [[Hlt K]|(_ & K & _)]; [|congruence].
    apply life_eq in K. destruct K as (E1 & -> & _). apply IH; auto. congruence.
  - intros v Hv Hs.
    pose proof (reach_lifeA _ _ H) as A. pose proof (reach_Inv2 _ _ H) as I.
    apply tick_fr in E. destruct E as (w1 & E & ->).
    assert (B : lifeB c w1 None).
    { eapply body_phase with (A := lifeA c) (F := lifeA c) (B := lifeB c); eauto.
      - intros; eapply lifeA_step; eauto.
      - intros; eapply lifeA_follow; eauto.
      - intros; eapply lifeA_B; eauto.
      - intros; eapply lifeB_step; eauto. }
    change (V (sw_T (S (w_T w)) w1) v) with (V w1 v) in *. cbn [w_T sw_T].
    destruct (B v Hv) as (_ & _ & D). destruct (D Hs) as [D1 _].
    rewrite (fr_w_T (body_fr _ _ E)) in D1. lia.
Qed.

(** ** The statements *)
Theorem times_lemma : forall c w v, reach c w -> exists_veh w v ->
  (v_state (V w v) <> Home -> (v_dep (V w v) < Z.of_nat (w_T w))%Z) /\
  (v_state (V w v) <> End_ -> v_arr (V w v) = (-1)%Z /\ v_tt (V w v) = (-1)%Q) /\
  (v_state (V w v) = End_ -> (v_dep (V w v) < v_arr (V w v) < Z.of_nat (w_T w))%Z /\
     v_tt (V w v) = (inject_Z (v_arr (V w v) - v_dep (V w v)) * dt c)%Q).
Proof.
  intros c w v R Hv. destruct (reach_lifeA c w R v Hv) as (A & B & D). split; [auto|]. split; [auto|].
  intro K. destruct (D K) as [D1 D2]. pose proof (reach_past c w R v Hv K). split; [lia|auto].
Qed.
Theorem advance_lemma : forall c P w w' v, reach c w -> later c P w w' -> exists_veh w v ->
  may_become (v_state (V w v)) (v_state (V w' v)) /\ v_dep (V w' v) = v_dep (V w v) /\
  (v_state (V w v) = End_ \/ v_state (V w v) = Abort ->
     v_arr (V w' v) = v_arr (V w v) /\ v_tt (V w' v) = v_tt (V w v)).
Proof. intros c P w w' v R K Hv. destruct (later_onward c P w w' R K) as [_ H]. apply H; auto. Qed.
Theorem tt_nonneg_lemma : forall c w v, (0 <= dt c)%Q -> reach c w -> exists_veh w v -> v_state (V w v) = End_ ->
  (0 <= v_tt (V w v))%Q.
Proof.
  intros c w v D R Hv K. destruct (times_lemma c w v R Hv) as (_ & _ & H). destruct (H K) as [H1 ->].
  apply Qmult_le_0_compat; [|auto]. change 0%Q with (inject_Z 0). rewrite <- Zle_Qle. lia.
Qed.
