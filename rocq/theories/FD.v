(** * FD: the fundamental diagram of links (C34). *)
From Coq Require Import QArith Qfield Lqa.
From Verif Require Import Base Types Sim Build Heap Lists Inv FrameBase Tac Frame Eff Eff2 Trace InvStep Reach Steps Effects Phases Attr Spec.
Local Open Scope Q_scope.

Lemma qdiv_ok : forall a b r, qdiv a b = Ok r -> ~ b == 0 /\ r == a / b.
Proof.
  intros a b r H. unfold qdiv in H. destruct (qeq b 0) eqn:E; [discriminate H|]. injection H as <-.
  apply qeq_false in E. split; [exact E|reflexivity].
Qed.

(** what stays true of every link *)
Record fd_inv (c : cfg) (k : link) : Prop := mkFd {
  fi_tau : ~ l_tau k == 0 /\ l_tau k * Qof_nat (l_lanes k) == c_react c;
  fi_lanes : ~ Qof_nat (l_lanes k) == 0;
  fi_kappa : ~ l_kappa k == 0;
  fi_w : l_w k == 1 / l_tau k / l_kappa k;
  fi_uw : ~ l_u k + l_w k == 0;
  fi_cap : l_cap k == l_u k * l_w k * l_kappa k / (l_u k + l_w k);
  fi_delta : l_delta k == 1 / l_kappa k;
  fi_dpl : l_dpl k == 1 / l_kappa k * Qof_nat (l_lanes k);
  fi_ffs : l_ffs k = l_u k }.

Lemma new_link_fd : forall c a nm k, new_link c a nm = Ok k -> fd_inv c k /\ l_u k = la_ffs a /\ l_lanes k = la_lanes a /\ l_len k = la_len a /\
  (la_jampl a = None -> l_kappa k = la_jam a) /\ (forall kp, la_jampl a = Some kp -> l_kappa k == kp * Qof_nat (la_lanes a)).
Proof.
  intros c a nm k H. unfold new_link in H. cbv zeta in H.
  apply bind_ok in H. destruct H as (kappa & E0 & H). apply bind_ok in H. destruct H as (tau & E1 & H).
  apply bind_ok in H. destruct H as (it & E2 & H). apply bind_ok in H. destruct H as (wsp & E3 & H).
  apply bind_ok in H. destruct H as (cap & E4 & H). apply bind_ok in H. destruct H as (delta & E5 & H).
  apply bind_ok in H. destruct H as (ks & E6 & H). injection H as <-.
  apply qdiv_ok in E1. apply qdiv_ok in E2. apply qdiv_ok in E3. apply qdiv_ok in E4. apply qdiv_ok in E5. apply qdiv_ok in E6.
  destruct E1 as [A1 B1], E2 as [A2 B2], E3 as [A3 B3], E4 as [A4 B4], E5 as [A5 B5], E6 as [A6 B6].
  split; [constructor; rs; try assumption; try reflexivity|].
  - split; [exact A2|]. rewrite B1. field. exact A1.
  - rewrite B3, B2. reflexivity.
  - rewrite B5. reflexivity.
  - rs. repeat split.
    + intro E. rewrite E in E0. injection E0 as ->. reflexivity.
    + intros kp E. rewrite E in E0. destruct (qeq _ _); [|discriminate]. injection E0 as <-. reflexivity.
Qed.

Lemma change_speed_fd : forall c l q w w', change_free_flow_speed l q w = Ok w' -> fd_inv c (L w l) -> fd_inv c (L w' l).
Proof.
  intros c l q w w' H [I1 I2 I3 I4 I5 I6 I7 I8 I9]. unfold change_free_flow_speed in H. destruct (qlt q 0); [injection H as <-; constructor; auto|].
  cbv zeta in H. apply bind_ok in H. destruct H as (it & E2 & H). apply bind_ok in H. destruct H as (wsp & E3 & H).
  apply bind_ok in H. destruct H as (cap & E4 & H). apply bind_ok in H. destruct H as (delta & E5 & H). injection H as <-.
  apply qdiv_ok in E2. apply qdiv_ok in E3. apply qdiv_ok in E4. apply qdiv_ok in E5.
  destruct E2 as [A2 B2], E3 as [A3 B3], E4 as [A4 B4], E5 as [A5 B5].
  rewrite L_at, Nat.eqb_refl. constructor; rs; auto.
  rewrite B3, B2. reflexivity.
Qed.
Lemma change_jam_fd : forall c l q w w', change_jam_density l q w = Ok w' -> fd_inv c (L w l) -> fd_inv c (L w' l).
Proof.
  intros c l q w w' H [I1 I2 I3 I4 I5 I6 I7 I8 I9]. unfold change_jam_density in H. destruct (qlt q 0); [injection H as <-; constructor; auto|].
  cbv zeta in H. apply bind_ok in H. destruct H as (it & E2 & H). apply bind_ok in H. destruct H as (wsp & E3 & H).
  apply bind_ok in H. destruct H as (cap & E4 & H). apply bind_ok in H. destruct H as (delta & E5 & H). injection H as <-.
  apply qdiv_ok in E2. apply qdiv_ok in E3. apply qdiv_ok in E4. apply qdiv_ok in E5.
  destruct E2 as [A2 B2], E3 as [A3 B3], E4 as [A4 B4], E5 as [A5 B5].
  rewrite L_at, Nat.eqb_refl. constructor; rs; auto.
  - rewrite B3, B2. reflexivity.
  - rewrite B5. reflexivity.
Qed.

Lemma lpar_fd : forall c k k', lpar k' = lpar k -> fd_inv c k -> fd_inv c k'.
Proof.
  intros c k k' E [I1 I2 I3 I4 I5 I6 I7 I8 I9]. unfold lpar in E.
  assert (l_tau k' = l_tau k) by congruence. assert (l_lanes k' = l_lanes k) by congruence. assert (l_kappa k' = l_kappa k) by congruence.
  assert (l_u k' = l_u k) by congruence. assert (l_w k' = l_w k) by congruence. assert (l_cap k' = l_cap k) by congruence.
  assert (l_delta k' = l_delta k) by congruence. assert (l_dpl k' = l_dpl k) by congruence. assert (l_ffs k' = l_ffs k) by congruence.
  constructor; try congruence.
Qed.
Lemma lstat_lpar : forall w w', fr w w' -> forall l, lpar (L w' l) = lpar (L w l).
Proof. intros w w' F l. pose proof (fr_l F l) as E. unfold lstat in E. unfold lpar. congruence. Qed.

Lemma reach_fd : forall c w, reach c w -> forall l, (l < w_nl w)%nat -> fd_inv c (L w l).
Proof.
  intros c w R. induction R as [tm|w o w' R IH Ho Hx H|w w' R IH Hf H|w R IH]; intros l Hl.
  - cbn in Hl. lia.
  - destruct (op_link c o w w' l Ho Hx H Hl) as [Hk E _ _|a nm -> -> E|q -> E|q -> E|q -> E|q -> E]; cbn [op_ok] in Ho.
    + eapply lpar_fd; eauto.
    + apply new_link_fd in E. tauto.
    + eapply change_speed_fd; eauto.
    + eapply change_jam_fd; eauto.
    + rewrite E. apply (lpar_fd c (L w l)); auto.
    + rewrite E. apply (lpar_fd c (L w l)); auto.
  - apply tick_fr in H. destruct H as (w1 & E & ->). pose proof (body_fr _ _ E) as F.
    change (L (sw_T (S (w_T w)) w1) l) with (L w1 l). eapply lpar_fd; [apply lstat_lpar; exact F|]. apply IH.
    cbn in Hl. rewrite (fr_w_nl F) in Hl. exact Hl.
  - apply IH. exact Hl.
Qed.

(** ** Statements *)
Theorem triangular_lemma : forall c w l, reach c w -> (l < w_nl w)%nat -> triangular c (L w l).
Proof.
  intros c w l R Hl. destruct (reach_fd c w R l Hl) as [[I0 I1] I2 I3 I4 I5 I6 I7 I8 I9]. constructor; auto.
  - rewrite I4, <- I1. field. auto.
  - rewrite I6. field. auto.
  - rewrite I8. field. auto.
Qed.

Lemma mul_pos_div : forall a b, 0 < b -> a / b * b == a.
Proof. intros a b H. field. intro E. rewrite E in H. discriminate H. Qed.

Theorem diagram_lemma : forall c a, triangular c a -> 0 < c_react c -> 0 < l_u a -> 0 < l_kappa a -> (1 <= l_lanes a)%nat ->
  let k' := l_cap a / l_u a in
  0 < l_w a /\ 0 < l_cap a /\ l_cap a == l_u a * l_w a * l_kappa a / (l_u a + l_w a) /\
  0 < k' /\ k' < l_kappa a /\ l_u a * k' == l_cap a /\ l_w a * (l_kappa a - k') == l_cap a /\
  l_cap a < Qof_nat (l_lanes a) / c_react c /\ l_cap a < l_u a * l_kappa a /\
  (forall k, fd_flow a k <= l_cap a) /\ fd_flow a k' == l_cap a.
Proof.
  intros c a [T1 T2 _ _] Hr Hu Hk Hm k'. set (m := Qof_nat (l_lanes a)) in *.
  assert (Pm : 0 < m).
  { unfold m, Qof_nat. change 0 with (inject_Z 0). rewrite <- Zlt_Qlt. lia. }
  set (u := l_u a) in *. set (W := l_w a) in *. set (K := l_kappa a) in *. set (q := l_cap a) in *. set (r := c_react c) in *.
  assert (PW : 0 < W).
  { assert (E : 0 < W * (r * K)) by (rewrite T1; exact Pm). assert (0 < r * K) by nra.
    destruct (Qlt_le_dec 0 W) as [|N]; [assumption|]. exfalso. nra. }
  assert (Puw : 0 < u + W) by lra.
  assert (Hq : q == u * W * K / (u + W)) by (rewrite <- T2; field; lra).
  assert (Pq : 0 < q).
  { rewrite Hq. apply Qlt_shift_div_l; [exact Puw|]. assert (0 < u * W) by nra. nra. }
  assert (Pk : 0 < k') by (apply Qlt_shift_div_l; [exact Hu|lra]).
  assert (Hk' : u * k' == q) by (unfold k'; field; lra).
  assert (HW : W * (K - k') == q).
  { assert (X : u * (W * (K - k')) == u * q).
    { transitivity (u * W * K - W * (u * k')); [ring|]. rewrite Hk', <- T2. ring. }
    apply Qmult_inj_l in X; [exact X|lra]. }
  assert (Lk : k' < K) by nra.
  assert (WK : W * K == m / r).
  { rewrite <- T1. field. lra. }
  assert (Fk : fd_flow a k' == q).
  { unfold fd_flow, qmin. destruct (qle _ _); assumption. }
  repeat split; auto.
  - rewrite <- WK. nra.
  - nra.
  - intro k. unfold fd_flow, qmin. fold u W K. destruct (qle (u * k) (W * (K - k))) eqn:E.
    + apply qle_iff in E. destruct (Qlt_le_dec k' k); nra.
    + apply qle_false in E. destruct (Qlt_le_dec k' k); nra.
Qed.

Theorem speed_change_lemma : forall c w w' l q, reach c w -> (l < w_nl w)%nat -> change_free_flow_speed l q w = Ok w' ->
  (q < 0 -> w' = w) /\
  (0 <= q -> l_u (L w' l) = q /\ l_kappa (L w' l) = l_kappa (L w l) /\ l_w (L w' l) == l_w (L w l) /\ l_dpl (L w' l) = l_dpl (L w l)) /\
  triangular c (L w' l) /\ forall k, k <> l -> L w' k = L w k.
Proof.
  intros c w w' l q R Hl H.
  assert (T : triangular c (L w' l)).
  { apply triangular_lemma; [|unfold change_free_flow_speed in H; cbn zeta in H; binv H; exact Hl].
    eapply rc_op with (o := OChangeSpeed l q); eauto; discriminate. }
  destruct (reach_fd c w R l Hl) as [[I0 I1] I2 I3 I4 I5 I6 I7 I8 I9].
  unfold change_free_flow_speed in H. cbn zeta in H. destruct (qlt q 0) eqn:E.
  - injection H as <-. apply qlt_iff in E. split; [auto|]. split; [intro; exfalso; lra|]. auto.
  - apply qlt_false in E. apply bind_ok in H. destruct H as (it & E2 & H). apply bind_ok in H. destruct H as (wsp & E3 & H).
    apply bind_ok in H. destruct H as (cap & E4 & H). apply bind_ok in H. destruct H as (delta & E5 & H). injection H as <-.
    apply qdiv_ok in E2. apply qdiv_ok in E3. destruct E2 as [A2 B2], E3 as [A3 B3].
    split; [intro; exfalso; lra|]. split; [|split; [exact T|]].
    + intros _. rewrite L_at, Nat.eqb_refl. rs. repeat split. rewrite B3, B2, I4. reflexivity.
    + intros k Hk. rewrite L_at, (proj2 (Nat.eqb_neq _ _) Hk). reflexivity.
Qed.
Theorem jam_change_lemma : forall c w w' l q, reach c w -> (l < w_nl w)%nat -> change_jam_density l q w = Ok w' ->
  (q < 0 -> w' = w) /\
  (0 <= q -> l_kappa (L w' l) = q /\ l_u (L w' l) = l_u (L w l) /\ 0 < q) /\
  triangular c (L w' l) /\ forall k, k <> l -> L w' k = L w k.
Proof.
  intros c w w' l q R Hl H.
  assert (T : triangular c (L w' l)).
  { apply triangular_lemma; [|unfold change_jam_density in H; cbn zeta in H; binv H; exact Hl].
    eapply rc_op with (o := OChangeJam l q); eauto; discriminate. }
  unfold change_jam_density in H. cbn zeta in H. destruct (qlt q 0) eqn:E.
  - injection H as <-. apply qlt_iff in E. split; [auto|]. split; [intro; exfalso; lra|]. auto.
  - apply qlt_false in E. apply bind_ok in H. destruct H as (it & E2 & H). apply bind_ok in H. destruct H as (wsp & E3 & H).
    apply bind_ok in H. destruct H as (cap & E4 & H). apply bind_ok in H. destruct H as (delta & E5 & H). injection H as <-.
    apply qdiv_ok in E3. destruct E3 as [A3 B3].
    split; [intro; exfalso; lra|]. split; [|split; [exact T|]].
    + intros _. rewrite L_at, Nat.eqb_refl. rs. repeat split. destruct (Qlt_le_dec 0 q); [assumption|]. exfalso. apply A3. lra.
    + intros k Hk. rewrite L_at, (proj2 (Nat.eqb_neq _ _) Hk). reflexivity.
Qed.
(** the link made by addLink *)
Theorem link_made_lemma : forall c a w w', add_link c a w = Ok w' ->
  let k := L w' (w_nl w) in
  l_u k = la_ffs a /\ l_len k = la_len a /\ l_lanes k = la_lanes a /\
  (la_jampl a = None -> l_kappa k = la_jam a) /\ (forall kp, la_jampl a = Some kp -> l_kappa k == kp * Qof_nat (la_lanes a)).
Proof.
  intros c a w w' H. unfold add_link in H. cbn zeta in H. destruct (negb _); [discriminate|].
  apply bind_ok in H. destruct H as (k & E & H). destruct (smem _ _); [discriminate|]. injection H as <-.
  unfold L; cbn. rewrite upd_same. apply new_link_fd in E. tauto.
Qed.
