(** * Demand: adddemand, automatic TMAX, departure times. *)
From Coq Require Import Qabs.
From Verif Require Import Base Types Sim Build Heap Lists Inv FrameBase Tac Frame Eff Eff2 Trace InvStep Reach Steps Effects Phases Life Incoming Exec Registry Spec.
Local Open Scope nat_scope.

(** the vehicle a demand creates for timestep [t] *)
Definition demanded (o d : nid) (t : Z) (a : vehicle) : Prop :=
  v_orig a = o /\ v_dest a = Some d /\ v_dep a = t /\ v_state a = Home /\ v_mode a = SingleTrip.

Lemma add_vehicle_new : forall c a w w', add_vehicle c a w = Ok w' ->
  w_nv w' = S (w_nv w) /\ (forall v, v <> w_nv w -> V w' v = V w v) /\
  v_orig (V w' (w_nv w)) = va_orig a /\ v_dest (V w' (w_nv w)) = va_dest a /\ v_dep (V w' (w_nv w)) = dep_step c (va_dep a) /\
  v_state (V w' (w_nv w)) = Home /\ v_mode (V w' (w_nv w)) = va_mode a.
Proof.
  intros c a w w' H. unfold add_vehicle in H. cbv zeta in H. destruct (negb _); [discriminate|].
  destruct (smem _ _); [discriminate|]. injection H as <-. cbn. split; [auto|]. split.
  - intros v Hv. unfold V; cbn. apply upd_other; auto.
  - unfold V; cbn. rewrite upd_same. cbn. auto.
Qed.

Lemma qtrunc_floor : forall q, (0 <= q)%Q -> qtrunc q = Qfloor q.
Proof.
  intros [a b] H. unfold Qle in H; cbn in H. unfold qtrunc, Qfloor. cbn. apply Z.quot_div_nonneg; lia.
Qed.

Section Demand.
Variable c : cfg.
Hypothesis HN : (0 < dN c)%Q.

(** the number of platoons contained in [f] vehicles *)
Definition plats (f : Q) : nat := Z.to_nat (Qfloor (f / dN c)).

Lemma floor_small : forall x, (0 <= x < dN c)%Q -> Qfloor (x / dN c) = 0%Z.
Proof.
  intros x [H0 H]. assert (K : (x / dN c < 1)%Q) by (apply Qlt_shift_div_r; auto; lra).
  assert (K0 : (0 <= x / dN c)%Q) by (apply Qle_shift_div_l; auto; lra).
  pose proof (Qfloor_le (x / dN c)) as F. pose proof (Qlt_floor (x / dN c)) as F2. rewrite inject_Z_plus in F2.
  change (inject_Z 1) with 1%Q in F2.
  set (z := Qfloor (x / dN c)) in *.
  assert (z < 1)%Z by (rewrite Zlt_Qlt; change (inject_Z 1) with 1%Q; lra).
  assert (-1 < z)%Z by (rewrite Zlt_Qlt; change (inject_Z (-1)) with (-1)%Q; lra). lia.
Qed.
Lemma floor_plus_int : forall x (k : Z), Qfloor ((x + inject_Z k * dN c) / dN c) = (Qfloor (x / dN c) + k)%Z.
Proof.
  intros x k. assert (E : ((x + inject_Z k * dN c) / dN c == x / dN c + inject_Z k)%Q) by (field; lra). rewrite E.
  pose proof (Qfloor_le (x / dN c)) as F1. pose proof (Qlt_floor (x / dN c)) as F2.
  pose proof (Qfloor_le (x / dN c + inject_Z k)) as F3. pose proof (Qlt_floor (x / dN c + inject_Z k)) as F4.
  rewrite inject_Z_plus in F2, F4. change (inject_Z 1) with 1%Q in *.
  set (a := Qfloor (x / dN c)) in *. set (b := Qfloor (x / dN c + inject_Z k)) in *.
  assert (inject_Z (a + k) < inject_Z (b + 1))%Q by (rewrite !inject_Z_plus; change (inject_Z 1) with 1%Q; lra).
  assert (inject_Z b < inject_Z (a + k + 1))%Q by (rewrite !inject_Z_plus; change (inject_Z 1) with 1%Q; lra).
  rewrite <- Zlt_Qlt in H, H0. lia.
Qed.

Lemma emit_spec : forall a o d t, va_orig a = o -> va_dest a = Some d -> dep_step c (va_dep a) = t -> va_mode a = SingleTrip ->
  forall fuel f w f' w', (0 <= f)%Q -> emit c a fuel f w = Ok (f', w') ->
  w_nv w' = w_nv w + plats f /\ (f' == f - inject_Z (Z.of_nat (plats f)) * dN c)%Q /\ (0 <= f' < dN c)%Q /\
  (forall v, v < w_nv w -> V w' v = V w v) /\
  (forall v, w_nv w <= v < w_nv w' -> demanded o d t (V w' v)).
Proof.
  intros a o d t Ho Hd Ht Hm fuel; induction fuel as [|k IH]; intros f w f' w' Hf H; cbn [emit] in H.
  - destruct (qle (dN c) f) eqn:E; qb; [discriminate|]. injection H as <- <-.
    assert (P : plats f = 0) by (unfold plats; rewrite floor_small; auto). rewrite P. change (inject_Z (Z.of_nat 0)) with 0%Q.
    split; [lia|]. split; [lra|]. split; [lra|]. split; [auto|]. intros; lia.
  - destruct (qle (dN c) f) eqn:E; qb.
    + apply bind_ok in H. destruct H as (w1 & E1 & H). apply add_vehicle_new in E1.
      destruct E1 as (A1 & A2 & A3 & A4 & A5 & A6 & A7).
      apply IH in H; [|lra]. destruct H as (B1 & B2 & B3 & B4 & B5).
      assert (P : plats f = S (plats (f - dN c))).
      { unfold plats. assert (Ef : (f == (f - dN c) + inject_Z 1 * dN c)%Q) by (change (inject_Z 1) with 1%Q; lra).
        rewrite Ef at 1. rewrite floor_plus_int.
        assert (0 <= Qfloor ((f - dN c) / dN c))%Z.
        { change 0%Z with (Qfloor 0). apply Qfloor_resp_le. apply Qle_shift_div_l; lra. }
        lia. }
      rewrite P. split; [lia|]. split.
      { rewrite Nat2Z.inj_succ. unfold Z.succ. rewrite inject_Z_plus. change (inject_Z 1) with 1%Q. lra. }
      split; [auto|]. split.
      * intros v Hv. rewrite B4 by lia. apply A2. lia.
      * intros v Hv. destruct (Nat.eq_dec v (w_nv w)) as [-> | Hne]; [|apply B5; lia].
        rewrite B4 by lia. unfold demanded. rewrite A3, A4, A5, A6, A7. auto.
    + injection H as <- <-.
      assert (P : plats f = 0) by (unfold plats; rewrite floor_small; auto). rewrite P. change (inject_Z (Z.of_nat 0)) with 0%Q.
      split; [lia|]. split; [lra|]. split; [lra|]. split; [auto|]. intros; lia.
Qed.

(** platoons created up to the [k]-th timestep, starting with [f] vehicles left over *)
Definition upto (fl f : Q) (k : nat) : nat := plats (f + inject_Z (Z.of_nat k) * (fl * dt c)).

Lemma plats_mono : forall a b, (a <= b)%Q -> plats a <= plats b.
Proof.
  intros a b H. unfold plats.
  assert ((Qfloor (a / dN c) <= Qfloor (b / dN c))%Z).
  { apply Qfloor_resp_le. apply Qle_shift_div_l; auto. assert (E : (a / dN c * dN c == a)%Q) by (field; lra). lra. }
  lia.
Qed.
Lemma plats_comp : forall a b, (a == b)%Q -> plats a = plats b.
Proof. intros a b H. unfold plats. rewrite H. reflexivity. Qed.
Lemma plats_plus : forall a n, (0 <= a)%Q -> plats (a + inject_Z (Z.of_nat n) * dN c) = plats a + n.
Proof.
  intros a n H. unfold plats. rewrite floor_plus_int.
  assert (0 <= Qfloor (a / dN c))%Z by (change 0%Z with (Qfloor 0); apply Qfloor_resp_le; apply Qle_shift_div_l; lra). lia.
Qed.

Lemma demand_loop_spec : forall o d fl n z0 f w f' w', (0 <= fl * dt c)%Q -> (0 <= f < dN c)%Q ->
  demand_loop c o d fl (map (fun i => (z0 + Z.of_nat i)%Z) (seq 0 n)) f w = Ok (f', w') ->
  w_nv w' = w_nv w + upto fl f n /\ (forall v, v < w_nv w -> V w' v = V w v) /\
  (forall i j, i < n -> upto fl f i <= j < upto fl f (S i) -> demanded o d (z0 + Z.of_nat i) (V w' (w_nv w + j))).
Proof.
  intros o d fl n; induction n as [|n IH]; intros z0 f w f' w' Hs Hf H.
  - cbn in H. injection H as <- <-.
    assert (P : upto fl f 0 = 0). { unfold upto. rewrite (plats_comp _ f) by (change (inject_Z (Z.of_nat 0)) with 0%Q; lra).
      unfold plats. rewrite floor_small; auto. }
    rewrite P. split; [lia|]. split; [auto|]. intros; lia.
  - cbn [seq map demand_loop] in H. apply bind_ok in H. destruct H as ([f2 w1] & E & H).
    eapply (emit_spec _ o d (z0 + Z.of_nat 0)%Z) in E; try reflexivity; [|lra].
    destruct E as (B1 & B2 & B3 & B4 & B5).
    rewrite <- seq_shift, map_map in H.
    assert (Em : map (fun x => (z0 + Z.of_nat (S x))%Z) (seq 0 n) = map (fun i => (z0 + 1 + Z.of_nat i)%Z) (seq 0 n)) by (apply map_ext; intros; lia).
    rewrite Em in H. apply IH in H; auto. destruct H as (C1 & C2 & C3).
    set (n1 := plats (f + fl * dt c)) in *.
    assert (Up : forall k, upto fl f (S k) = upto fl f2 k + n1).
    { intros k. unfold upto. rewrite <- plats_plus.
      - apply plats_comp. rewrite B2, Nat2Z.inj_succ. unfold Z.succ. rewrite inject_Z_plus. change (inject_Z 1) with 1%Q. lra.
      - assert (0 <= inject_Z (Z.of_nat k))%Q by (change 0%Q with (inject_Z 0); rewrite <- Zle_Qle; lia). nra. }
    rewrite Up. split; [lia|]. split.
    + intros v Hv. rewrite C2 by lia. apply B4. auto.
    + intros i j Hi Hj. destruct i as [|i].
      * rewrite Up in Hj. assert (P0 : upto fl f2 0 = 0). { unfold upto. rewrite (plats_comp _ f2) by (change (inject_Z (Z.of_nat 0)) with 0%Q; lra). unfold plats. rewrite floor_small; auto. }
        rewrite P0 in Hj. rewrite C2 by lia. apply B5. lia.
      * rewrite !Up in Hj. replace (w_nv w + j) with (w_nv w1 + (j - n1)) by lia.
        replace (z0 + Z.of_nat (S i))%Z with (z0 + 1 + Z.of_nat i)%Z by lia. apply C3; lia.
Qed.

Lemma upto_mono : forall fl f a b, (0 <= fl * dt c)%Q -> a <= b -> upto fl f a <= upto fl f b.
Proof.
  intros fl f a b Hs H. apply plats_mono.
  assert (inject_Z (Z.of_nat a) <= inject_Z (Z.of_nat b))%Q by (rewrite <- Zle_Qle; lia). nra.
Qed.
Lemma upto_find : forall fl f n j, (0 <= fl * dt c)%Q -> (0 <= f < dN c)%Q -> j < upto fl f n -> exists i, i < n /\ upto fl f i <= j < upto fl f (S i).
Proof.
  intros fl f n j Hs Hf; induction n as [|n IH]; intros H.
  - exfalso. unfold upto in H. rewrite (plats_comp _ f) in H by (change (inject_Z (Z.of_nat 0)) with 0%Q; lra).
    unfold plats in H. rewrite floor_small in H; auto. cbn in H. lia.
  - destruct (Nat.lt_ge_cases j (upto fl f n)) as [L|G]; [destruct (IH L) as (i & Hi & K); exists i; split; auto; lia|exists n; split; auto].
Qed.
End Demand.

Lemma count_below : forall (P : nat -> bool) a m k, k <= m -> (forall i, i < m -> P (a + i) = (i <? k)) ->
  List.length (filter P (seq a m)) = k.
Proof.
  intros P a m; revert a. induction m as [|m IH]; intros a k Hk H; cbn [seq filter].
  - cbn. lia.
  - pose proof (H 0 ltac:(lia)) as H0. rewrite Nat.add_0_r in H0. rewrite H0. destruct k as [|k].
    + cbn. rewrite (IH (S a) 0); [auto|lia|]. intros i Hi. specialize (H (S i) ltac:(lia)). rewrite Nat.add_succ_r in H. exact H.
    + cbn. f_equal. apply IH; [lia|]. intros i Hi. specialize (H (S i) ltac:(lia)). rewrite Nat.add_succ_r in H. exact H.
Qed.

Section C22.
Variables (c : cfg) (o d : nid) (t0 t1 flow volume fl : Q) (w w' : world).
Hypothesis HN : (0 < dN c)%Q.
Hypothesis HD : (0 < dt c)%Q.
Hypothesis Hfl : flow_asked t0 t1 flow volume fl.
Hypothesis Hpos : (0 <= fl)%Q.
Hypothesis E : adddemand c o d t0 t1 flow volume w = Ok w'.
Let z0 := qtrunc (t0 / dt c).
Let z1 := qtrunc (t1 / dt c).
Let n := Z.to_nat (z1 - z0).

Lemma adddemand_spec :
  w_nv w' = w_nv w + upto c fl 0 n /\ (forall v, v < w_nv w -> V w' v = V w v) /\
  (forall i j, i < n -> upto c fl 0 i <= j < upto c fl 0 (S i) -> demanded o d (z0 + Z.of_nat i) (V w' (w_nv w + j))).
Proof.
  unfold adddemand in E. apply bind_ok in E. destruct E as (q & E1 & H). apply bind_ok in H. destruct H as ([f' w1] & E2 & H).
  injection H as ->.
  assert (Hq : (q == fl)%Q).
  { unfold flow_asked in Hfl. destruct (qlt 0 volume) eqn:Ev; qb.
    - destruct Hfl as [[_ K]|[K _]]; [|lra]. unfold qdiv in E1. destruct (qeq _ _) eqn:Ed; [discriminate|]. injection E1 as <-. apply Qeq_bool_neq in Ed.
      apply (Qmult_inj_r _ _ (t1 - t0)); auto. rewrite K. field. exact Ed.
    - injection E1 as <-. destruct Hfl as [[K _]|[_ K]]; [lra|]. rewrite K. reflexivity. }
  assert (Hs : (0 <= q * dt c)%Q) by (rewrite Hq; nra).
  unfold zrange in E2. fold z0 z1 n in E2. apply demand_loop_spec in E2; auto; [|lra].
  assert (U : forall k, upto c q 0 k = upto c fl 0 k) by (intros k; unfold upto; apply plats_comp; rewrite Hq; reflexivity).
  destruct E2 as (A1 & A2 & A3). rewrite U in A1. split; [auto|]. split; [auto|]. intros i j Hi Hj. apply A3; auto. rewrite !U. auto.
Qed.

Theorem demand_each_lemma :
  (forall v, v < w_nv w -> V w' v = V w v) /\
  forall v, w_nv w <= v < w_nv w' ->
    v_orig (V w' v) = o /\ v_dest (V w' v) = Some d /\ v_state (V w' v) = Home /\ v_mode (V w' v) = SingleTrip /\ (z0 <= v_dep (V w' v) < z1)%Z.
Proof.
  destruct adddemand_spec as (A1 & A2 & A3). split; auto. intros v Hv.
  destruct (upto_find c HN fl 0 n (v - w_nv w)) as (i & Hi & K); [nra|lra|lia|].
  specialize (A3 i _ Hi K). replace (w_nv w + (v - w_nv w)) with v in A3 by lia. destruct A3 as (B1 & B2 & B3 & B4 & B5).
  rewrite B3. repeat split; auto; unfold n in Hi; lia.
Qed.

Theorem demand_count_lemma : forall t, (z0 <= t <= z1)%Z ->
  List.length (filter (fun v => (v_dep (V w' v) <? t)%Z) (seq (w_nv w) (w_nv w' - w_nv w))) =
  Z.to_nat (Qfloor (fl * (inject_Z (t - z0) * dt c) / dN c)).
Proof.
  intros t Ht. destruct adddemand_spec as (A1 & A2 & A3). set (k := Z.to_nat (t - z0)).
  assert (Ek : Z.to_nat (Qfloor (fl * (inject_Z (t - z0) * dt c) / dN c)) = upto c fl 0 k).
  { unfold upto, plats. assert (Ez : Z.of_nat k = (t - z0)%Z) by (unfold k; lia). rewrite Ez.
    assert (Eq : (0 + inject_Z (t - z0) * (fl * dt c) == fl * (inject_Z (t - z0) * dt c))%Q) by ring. rewrite Eq. reflexivity. }
  rewrite Ek. assert (Hs : (0 <= fl * dt c)%Q) by nra.
  replace (w_nv w' - w_nv w) with (upto c fl 0 n) by lia. apply count_below.
  - apply upto_mono; auto. unfold k, n; lia.
  - intros j Hj. destruct (upto_find c HN fl 0 n j Hs) as (i & Hi & K); [lra|auto|].
    destruct (A3 i j Hi K) as (_ & _ & B3 & _). rewrite B3.
    destruct (Nat.lt_ge_cases i k) as [L|G].
    + replace (_ <? t)%Z with true by (symmetry; apply Z.ltb_lt; unfold k in L; lia). symmetry. apply Nat.ltb_lt.
      assert (upto c fl 0 (S i) <= upto c fl 0 k) by (apply upto_mono; auto). lia.
    + replace (_ <? t)%Z with false by (symmetry; apply Z.ltb_ge; unfold k in G; lia). symmetry. apply Nat.ltb_ge.
      assert (upto c fl 0 k <= upto c fl 0 i) by (apply upto_mono; auto). lia.
Qed.

Lemma trunc_close : forall t, (0 <= t)%Q -> (inject_Z (qtrunc (t / dt c)) * dt c <= t < (inject_Z (qtrunc (t / dt c)) + 1) * dt c)%Q.
Proof.
  intros t H. assert (K : (0 <= t / dt c)%Q) by (apply Qle_shift_div_l; lra).
  rewrite (qtrunc_floor _ K). pose proof (Qfloor_le (t / dt c)) as F1. pose proof (Qlt_floor (t / dt c)) as F2.
  rewrite inject_Z_plus in F2. change (inject_Z 1) with 1%Q in F2.
  assert (Et : (t / dt c * dt c == t)%Q) by (field; lra). split; nra.
Qed.

Theorem demand_total_lemma : (0 <= t0 <= t1)%Q ->
  (Qabs (inject_Z (Z.of_nat (w_nv w' - w_nv w)) * dN c - fl * (t1 - t0)) < dN c + fl * dt c)%Q.
Proof.
  intros Ht. destruct adddemand_spec as (A1 & _). replace (w_nv w' - w_nv w) with (upto c fl 0 n) by lia.
  pose proof (trunc_close t0 ltac:(lra)) as K0. pose proof (trunc_close t1 ltac:(lra)) as K1. fold z0 in K0. fold z1 in K1.
  assert (Hz : (z0 <= z1)%Z).
  { assert (inject_Z z0 < inject_Z (z1 + 1))%Q.
    { rewrite inject_Z_plus. change (inject_Z 1) with 1%Q. nra. }
    rewrite <- Zlt_Qlt in H. lia. }
  unfold upto, plats. assert (En : Z.of_nat n = (z1 - z0)%Z) by (unfold n; lia). rewrite En.
  set (x := (0 + inject_Z (z1 - z0) * (fl * dt c))%Q).
  assert (Hi : (inject_Z (z1 - z0) == inject_Z z1 - inject_Z z0)%Q) by (unfold Z.sub; rewrite inject_Z_plus, inject_Z_opp; ring).
  assert (Hi0 : (0 <= inject_Z (z1 - z0))%Q) by (change 0%Q with (inject_Z 0); rewrite <- Zle_Qle; lia).
  assert (Hx0 : (0 <= x)%Q) by (unfold x; assert (0 <= fl * dt c)%Q by nra; nra).
  assert (Hx : (x == fl * (inject_Z z1 * dt c - inject_Z z0 * dt c))%Q) by (unfold x; rewrite Hi; ring).
  pose proof (Qfloor_le (x / dN c)) as F1. pose proof (Qlt_floor (x / dN c)) as F2.
  rewrite inject_Z_plus in F2. change (inject_Z 1) with 1%Q in F2.
  assert (Hf : (0 <= Qfloor (x / dN c))%Z) by (change 0%Z with (Qfloor 0); apply Qfloor_resp_le; apply Qle_shift_div_l; lra).
  rewrite Z2Nat.id by auto. set (m := inject_Z (Qfloor (x / dN c))) in *.
  assert (Ex : (x / dN c * dN c == x)%Q) by (field; lra).
  assert (G1 : (m * dN c <= x)%Q) by nra. assert (G2 : (x < m * dN c + dN c)%Q) by nra.
  apply Qabs_Qlt_condition. split; nra.
Qed.
End C22.

(** ** Departures happen in time *)
Definition gone (w : world) (v : vid) : Prop := v_state (V w v) = Home -> (Z.of_nat (w_T w) < v_dep (V w v))%Z.

Lemma mstep_gone : forall c e w p w' p' v, Inv2 w p -> mstep c e w p w' p' -> gone w v -> gone w' v.
Proof.
  intros c e w p w' p' v I M G K. unfold gone in G. rewrite (fr_w_T (mstep_fr M)).
  destruct (mstep_life c e w p w' p' I M v) as [H|_ H _ H2|n out _ H H2|l _ H H2].
  - apply life_eq in H. destruct H as (E & _ & _ & ->). apply G. congruence.
  - unfold life in H2. injection H2 as E1 E2 E3 E4. congruence.
  - unfold life in H2. injection H2 as E1 E2 E3 E4. congruence.
  - destruct (v_aborted (V w v)); unfold life in H2; injection H2 as E1 E2 E3 E4; congruence.
Qed.
Lemma run_gone : forall c K w w' v, Inv2 w None -> run c K w w' -> gone w v -> gone w' v.
Proof.
  intros c K w w' v I R G. eapply (run_with c (fun x _ => gone x v) K); [|exact I|exact G|exact R].
  intros; eapply mstep_gone; eauto.
Qed.

Lemma veh_update_gone : forall c v w w', Inv2 w None -> In v (w_living w) -> veh_update c v w = Ok w' -> gone w' v.
Proof.
  intros c v w w' I Hl H. unfold veh_update in H. cbn zeta in H.
  assert (R0 : run c (k_veh v) w (record_log c v false w)) by (eapply run_one with (e := VLog v); [apply Nat.eqb_refl|constructor; auto]).
  pose proof (record_log_living c v false w) as P3. pose proof (run_Inv2' _ _ _ _ I R0) as I0.
  set (w0 := record_log c v false w) in *. clearbody w0.
  assert (Hl0 : In v (w_living w0)) by (rewrite P3; auto).
  match type of H with match v_state (V ?W v) with _ => _ end = _ => set (w1 := W) in * end.
  assert (run c (k_veh v) w0 w1 /\ gone w1 v /\ w_living w1 = w_living w0) as (R1 & G1 & L1).
  { unfold w1. destruct (v_state (V w0 v)) eqn:Es; try (split; [apply run_refl|split; [intro; congruence|reflexivity]]).
    destruct (Z.leb (v_dep (V w0 v)) (Z.of_nat (w_T w0))) eqn:Ed.
    - split; [|split; [|reflexivity]].
      + eapply run_one with (e := VDepart v); [apply Nat.eqb_refl|]. constructor; auto.
      + intro K. exfalso. revert K. rewrite V_modn, V_at, Nat.eqb_refl. discriminate.
    - split; [apply run_refl|split; [|reflexivity]]. intros _. apply Z.leb_gt in Ed. exact Ed. }
  pose proof (run_Inv2' _ _ _ _ I0 R1) as I1. clearbody w1.
  assert (R2 : run c (k_veh v) w1 w').
  { destruct (v_state (V w1 v)) eqn:Es; try (injection H as <-; apply run_refl).
    - eapply maybe_pref_run; eauto.
    - eapply drive_run; eauto. rewrite L1; auto. }
  eapply run_gone; eauto.
Qed.

Lemma update_loop_gone : forall c vs w w', Inv2 w None -> foldM (update_living c) vs w = Ok w' ->
  Inv2 w' None /\ (forall v, gone w v -> gone w' v) /\ (forall v, In v vs -> gone w' v).
Proof.
  intros c vs; induction vs as [|u vs IH]; intros w w' I H; cbn [foldM] in H.
  - injection H as <-. split; [auto|split; [auto|intros v []]].
  - apply bind_ok in H. destruct H as (w1 & E & H). unfold update_living in E.
    destruct (mem u (w_living w)) eqn:Em; [|discriminate]. apply mem_iff in Em.
    pose proof (veh_update_gone _ _ _ _ I Em E) as G. apply veh_update_run in E; auto.
    pose proof (run_Inv2' _ _ _ _ I E) as I1. destruct (IH _ _ I1 H) as (I' & A & B).
    split; [auto|]. split.
    + intros v Hv. apply A. exact (run_gone _ _ _ _ v I E Hv).
    + intros v [<- | Hv]; auto.
Qed.

(** after a timestep only vehicles that depart later are at home *)
Theorem tick_gone : forall c w w' v, reach c w -> tick c w = Ok w' -> v < w_nv w -> v_state (V w' v) = Home ->
  (Z.of_nat (w_T w) < v_dep (V w' v))%Z.
Proof.
  intros c w w' v R E Hv Hs. apply tick_fr in E. destruct E as (w1 & E & ->).
  pose proof (reach_Inv2 _ _ R) as I. pose proof (fr_w_T (body_fr _ _ E)) as ET. apply body_runs in E.
  destruct E as (x1 & x2 & x3 & x4 & x5 & x6 & E1 & E2 & E3 & E4 & E5 & E6 & ->).
  apply phase_links_run in E1. apply phase_nodes_run in E2. apply phase_transfer_run in E3.
  apply phase_follow_run in E4. apply route_phase_run in E6.
  pose proof (run_Inv2' _ _ _ _ I E1) as I1. pose proof (run_Inv2' _ _ _ _ I1 E2) as I2.
  pose proof (run_Inv2' _ _ _ _ I2 E3) as I3. pose proof (run_Inv2' _ _ _ _ I3 E4) as I4.
  assert (Nv4 : w_nv x4 = w_nv w).
  { destruct E1 as (? & _ & T1). destruct E2 as (? & _ & T2). destruct E3 as (? & _ & T3). destruct E4 as (? & _ & T4).
    rewrite (fr_w_nv (trace_fr T4)), (fr_w_nv (trace_fr T3)), (fr_w_nv (trace_fr T2)), (fr_w_nv (trace_fr T1)). auto. }
  destruct (update_loop_gone c _ _ _ I4 E5) as (I5 & A & B).
  assert (G5 : gone x5 v).
  { destruct (in_dec Nat.eq_dec v (w_living x4)) as [i|n]; [apply B; auto|]. apply A. intro K. exfalso. apply n.
    apply (s_living (proj2 (proj1 I4))). rewrite K. split; [lia|unfold alive; auto]. }
  pose proof (run_gone _ _ _ _ v I5 E6 G5) as G6. unfold gone in G6. specialize (G6 Hs).
  change (w_T x6 = w_T w) in ET. rewrite ET in G6. exact G6.
Qed.

(** ** Automatic TMAX *)
Lemma qmax_list_ge : forall xs x, (x <= qmax_list x xs)%Q /\ (forall y, In y xs -> (y <= qmax_list x xs)%Q).
Proof.
  intros xs; induction xs as [|a xs IH]; intros x; cbn [qmax_list fold_left].
  - split; [apply Qle_refl|intros y []].
  - fold (qmax_list (if qlt x a then a else x) xs). destruct (IH (if qlt x a then a else x)) as [A B].
    destruct (qlt x a) eqn:E; qb; (split; [lra|]); intros y [<- | Hy]; auto; lra.
Qed.

Lemma init_tmax : forall c tm ts l w w', init_after_tmax_fix c tm ts l w = Ok w' -> w_tmax w' = w_tmax w /\ w_tsize w' = w_tsize w.
Proof.
  intros c tm ts l w w' K. unfold init_after_tmax_fix in K. cbn zeta in K.
  apply bind_ok in K. destruct K as (dx & _ & K). apply bind_ok in K. destruct K as (q1 & _ & K).
  apply bind_ok in K. destruct K as (q2 & _ & K). apply bind_ok in K. destruct K as (ff & _ & K). injection K as <-. auto.
Qed.
Lemma finalize_tmax : forall c tm w w', finalize c tm w = Ok w' ->
  let t := match w_tmax w with Some t => t | None => match tm with Some t => t | None => auto_tmax c w end end in
  w_tmax w' = Some t /\ w_tsize w' = Z.to_nat (qtrunc (t / dt c)).
Proof.
  intros c tm w w' H t. unfold finalize in H. cbn zeta in H. fold t in H.
  apply bind_ok in H. destruct H as (w1 & E & H).
  apply (foldM_inv (fun x => w_tmax x = Some t /\ w_tsize x = Z.to_nat (qtrunc (t / dt c)))) in E; auto.
  - assert (A : forall ns x, w_tmax x = Some t /\ w_tsize x = Z.to_nat (qtrunc (t / dt c)) ->
      let y := fold_left (fun w n => adjust_node_capacity c n w) ns x in w_tmax y = Some t /\ w_tsize y = Z.to_nat (qtrunc (t / dt c))).
    { intro ns; induction ns as [|n ns IH]; intros x Hx; cbv zeta; cbn [fold_left]; [exact Hx|]. apply IH.
      unfold adjust_node_capacity. destruct (n_fcap (N x n)); [exact Hx|]. destruct (map _ _); [exact Hx|].
      destruct (map _ _); exact Hx. }
    injection H as <-. destruct (c_adjust c); [|exact E]. apply A. exact E.
  - intros l x x' _ [X1 X2] K. apply init_tmax in K. destruct K as [-> ->]. auto.
Qed.

Section C33.
Variables (c : cfg) (w w' : world).
Hypothesis HD : (0 < dt c)%Q.
Hypothesis Hn : w_tmax w = None.
Hypothesis E : finalize c None w = Ok w'.

Lemma qmax_list_le : forall xs x b, (x <= b)%Q -> (forall y, In y xs -> (y <= b)%Q) -> (qmax_list x xs <= b)%Q.
Proof.
  intros xs; induction xs as [|a xs IH]; intros x b Hx H; cbn [qmax_list fold_left]; auto.
  fold (qmax_list (if qlt x a then a else x) xs). apply IH; [destruct (qlt x a); auto; apply H; left; auto|]. intros; apply H; right; auto.
Qed.

Theorem tmax_lemma : exists k : Z, w_tmax w' = Some (inject_Z k * 1800)%Q /\
  (forall v, exists_veh w v -> (inject_Z (v_dep (V w v)) * dt c + 1800 < inject_Z k * 1800)%Q) /\
  (forall x, (0 <= x)%Q -> (forall v, exists_veh w v -> (inject_Z (v_dep (V w v)) * dt c <= x)%Q) -> (inject_Z k * 1800 <= x + 3600)%Q).
Proof.
  pose proof (finalize_tmax _ _ _ _ E) as H. rewrite Hn in H. cbv zeta iota in H. destruct H as [H _].
  exists (Qfloor (last_departure c w / 1800) + 2)%Z. split; [exact H|].
  set (d := last_departure c w). pose proof (Qfloor_le (d / 1800)) as F1. pose proof (Qlt_floor (d / 1800)) as F2.
  assert (Ed : (d / 1800 * 1800 == d)%Q) by (field). rewrite inject_Z_plus in F2 |- *. change (inject_Z 1) with 1%Q in F2.
  change (inject_Z 2) with 2%Q. set (m := inject_Z (Qfloor (d / 1800))) in *. split.
  - intros v Hv. assert (inject_Z (v_dep (V w v)) * dt c <= d)%Q; [|lra].
    apply (proj2 (qmax_list_ge _ _)). apply in_map_iff. exists v. split; auto. apply in_seq. unfold exists_veh in Hv. lia.
  - intros x H0 Hx. assert (d <= x)%Q; [|lra]. apply qmax_list_le; auto. intros y Hy. apply in_map_iff in Hy.
    destruct Hy as (v & <- & Hv). apply in_seq in Hv. apply Hx. unfold exists_veh. lia.
Qed.

Lemma steps_positive : (dt c <= 1800)%Q -> 0 < w_tsize w'.
Proof.
  intros Hd. pose proof (finalize_tmax _ _ _ _ E) as H. rewrite Hn in H. cbv zeta iota in H. destruct H as [_ ->].
  assert (K0 : (0 <= last_departure c w)%Q) by exact (proj1 (qmax_list_ge _ _)).
  assert (Hf : (0 <= Qfloor (last_departure c w / 1800))%Z).
  { change 0%Z with (Qfloor 0). apply Qfloor_resp_le. apply Qle_shift_div_l; lra. }
  assert (A : (1800 <= auto_tmax c w)%Q).
  { unfold auto_tmax. rewrite inject_Z_plus. change (inject_Z 2) with 2%Q.
    assert (0 <= inject_Z (Qfloor (last_departure c w / 1800)))%Q by (change 0%Q with (inject_Z 0); rewrite <- Zle_Qle; auto). lra. }
  assert (B : (1 <= auto_tmax c w / dt c)%Q) by (apply Qle_shift_div_l; lra).
  rewrite qtrunc_floor by lra. assert (1 <= Qfloor (auto_tmax c w / dt c))%Z by (change 1%Z with (Qfloor 1); apply Qfloor_resp_le; auto). lia.
Qed.

Lemma steps_cover : (dt c <= 1800)%Q -> forall v, exists_veh w v -> (v_dep (V w v) < Z.of_nat (w_tsize w'))%Z.
Proof.
  intros Hd v Hv. destruct tmax_lemma as (k & H & A & _). specialize (A v Hv).
  pose proof (finalize_tmax _ _ _ _ E) as G. cbv zeta in G. destruct G as [G1 G2].
  rewrite G1 in H. injection H as H. rewrite H in G2. rewrite G2.
  destruct (Z.le_gt_cases 0 (v_dep (V w v))) as [Hp|Hneg]; [|lia].
  assert (Hq : (0 <= inject_Z (v_dep (V w v)))%Q) by (change 0%Q with (inject_Z 0); rewrite <- Zle_Qle; lia).
  assert (K : (inject_Z (v_dep (V w v)) + 1 <= inject_Z k * 1800 / dt c)%Q) by (apply Qle_shift_div_l; nra).
  rewrite qtrunc_floor by lra. pose proof (Qlt_floor (inject_Z k * 1800 / dt c)) as F2.
  assert (inject_Z (v_dep (V w v) + 1) < inject_Z (Qfloor (inject_Z k * 1800 / dt c) + 1))%Q.
  { rewrite (inject_Z_plus (v_dep (V w v))). change (inject_Z 1) with 1%Q. lra. }
  rewrite <- Zlt_Qlt in H0. lia.
Qed.
End C33.

Lemma iter_gone : forall c k w w', reach c w -> w_final w = true -> iterM (tick c) k w = Ok w' ->
  reach c w' /\ w_nv w' = w_nv w /\ (forall v, v < w_nv w -> v_dep (V w' v) = v_dep (V w v)) /\
  (k > 0 -> forall v, v < w_nv w -> v_state (V w' v) = Home -> (Z.of_nat (w_T w') <= v_dep (V w' v))%Z).
Proof.
  intros c k; induction k as [|k IH]; intros w w' R Hf H; cbn in H.
  - injection H as <-. split; [auto|]. split; [auto|]. split; [auto|lia].
  - apply bind_ok in H. destruct H as (a & E & H).
    assert (Ra : reach c a) by (eapply rc_tick; eauto). pose proof (tick_clock _ _ _ E) as (C1 & C2 & C3).
    destruct (IH a w') as (R' & N' & D' & G'); auto; [congruence|].
    assert (Na : w_nv a = w_nv w) by (apply tick_fr in E; destruct E as (b & E & ->); exact (fr_w_nv (body_fr _ _ E))).
    assert (Da : forall v, v < w_nv w -> v_dep (V a v) = v_dep (V w v)).
    { intros v Hv. apply (advance_lemma c any_op w a v R); auto. eapply lt_step; [constructor|]. apply st_tick; auto. }
    split; [auto|]. split; [congruence|]. split.
    + intros v Hv. rewrite D', Da; auto; lia.
    + intros _ v Hv Hs. destruct k as [|k]; [|apply G'; auto; lia].
      cbn in H. injection H as <-. pose proof (tick_gone _ _ _ _ R E Hv Hs). lia.
Qed.

Theorem covered_lemma : forall c w r w', (0 < dt c <= 1800)%Q -> reachable c w -> w_final w = false -> w_tmax w = None ->
  exec_simulation c ToEnd w = Ok (r, w') -> r = 1%Z /\
  forall v, exists_veh w v -> (v_dep (V w v) < Z.of_nat (w_T w'))%Z /\ v_state (V w' v) <> Home.
Proof.
  intros c w r w' Hd R Hf Hn H. unfold exec_simulation in H. rewrite Hf in H. apply bind_ok in H. destruct H as (w1 & E1 & H).
  pose proof (steps_cover c w w1 (proj1 Hd) Hn E1 (proj2 Hd)) as Cov.
  pose proof (finalize_ok _ _ _ _ E1) as Fz. cbn [end_of_arg] in H.
  assert (R1 : reach c w1).
  { eapply rc_op with (o := OFinalize None); [apply reachable_reach; exact R| | |exact E1]; cbn; auto; congruence. }
  assert (Le : w_T w1 <= w_tsize w1) by (rewrite (fz_T _ _ _ Fz); lia).
  rewrite exec_until_spec in H by auto. rewrite Z.leb_refl in H. cbn [andb] in H.
  assert (Vw : forall v, V w1 v = V w v) by (intro v; unfold V; rewrite (fz_V _ _ _ Fz); auto).
  assert (Nw : w_nv w1 = w_nv w) by (pose proof (fz_cnt _ _ _ Fz) as K; injection K; auto).
  destruct (w_T w1 =? w_tsize w1) eqn:ET.
  - exfalso. apply Nat.eqb_eq in ET. rewrite (fz_T _ _ _ Fz) in ET. pose proof (steps_positive c w w1 (proj1 Hd) Hn E1 (proj2 Hd)). lia.
  - apply Nat.eqb_neq in ET. rewrite (fz_T _ _ _ Fz) in ET. replace (_ <? _)%Z with false in H by (symmetry; apply Z.ltb_ge; lia).
    apply bind_ok in H. destruct H as (w2 & E2 & H). injection H as Er <-.
    assert (Ec : exec_count (Z.of_nat (w_tsize w1)) w1 = w_tsize w1) by (unfold exec_count; rewrite (fz_T _ _ _ Fz); lia).
    rewrite Ec in E2. pose proof (iter_clock _ _ _ _ E2) as (C1 & C2 & C3). rewrite (fz_T _ _ _ Fz) in C1. cbn in C1.
    rewrite C1, Nat.eqb_refl in Er. split; auto. intros v Hv. cbn. rewrite C1. split; [auto|].
    destruct (iter_gone _ _ _ _ R1 (fz_final _ _ _ Fz) E2) as (_ & _ & D & G). unfold exists_veh in Hv.
    intro K. change (v_state (V w2 v) = Home) in K. specialize (G ltac:(lia) v ltac:(lia) K). rewrite D in G by lia. rewrite Vw in G. specialize (Cov v Hv). lia.
Qed.

(** ** adddemand succeeds *)

Lemma add_vehicle_auto : forall c o d t w, o < w_nn w -> d < w_nn w -> auto_names_free w ->
  exists w', add_vehicle c (demand_vehicle o d t) w = Ok w' /\ w_nn w' = w_nn w /\ auto_names_free w'.
Proof.
  intros c o d t w Ho Hd F. destruct (add_vehicle c (demand_vehicle o d t) w) as [w'|e] eqn:E.
  - exists w'. split; auto. pose proof (proj2 (proj2 (new_object_lemma c w w')) _ E) as (En & Em). cbn in Em.
    pose proof (add_vehicle_new _ _ _ _ E) as (_ & Ev & _).
    unfold add_vehicle in E. cbv zeta in E. destruct (negb _); [discriminate|]. destruct (smem _ _); [discriminate|].
    split; [injection E as <-; reflexivity|]. intros k Hk. unfold veh_names. rewrite En. rewrite names_snoc. intro K. apply in_app_or in K.
    destruct K as [K|[K|[]]].
    + apply (F k); [lia|]. unfold veh_names. apply in_map_iff in K. destruct K as (i & K & Hi). apply in_map_iff. exists i. split; auto.
      rewrite <- K, Ev; auto. apply in_seq in Hi. lia.
    + rewrite Em in K. apply dec_inj in K. lia.
  - exfalso. unfold add_vehicle in E. cbv zeta in E. cbn [va_orig va_dest va_prefer va_avoid demand_vehicle node_ok app forallb va_name] in E.
    apply Nat.ltb_lt in Ho, Hd. rewrite Ho, Hd in E. cbn [andb negb] in E.
    destruct (smem (dec (w_nv w)) (veh_names w)) eqn:Em; [|discriminate]. apply smem_iff in Em. apply (F (w_nv w)); auto.
Qed.

Lemma emit_succeeds : forall c o d t, (0 < dN c)%Q -> forall fuel f w, plats c f <= fuel -> o < w_nn w -> d < w_nn w -> auto_names_free w ->
  exists f' w', emit c (demand_vehicle o d t) fuel f w = Ok (f', w') /\ w_nn w' = w_nn w /\ auto_names_free w'.
Proof.
  intros c o d t HN fuel; induction fuel as [|k IH]; intros f w Hp Ho Hd F; cbn [emit].
  - destruct (qle (dN c) f) eqn:E; [|eauto]. qb. exfalso.
    assert (K : plats c f = S (plats c (f - dN c))).
    { unfold plats. assert (Ef : (f == (f - dN c) + inject_Z 1 * dN c)%Q) by (change (inject_Z 1) with 1%Q; lra).
      rewrite Ef at 1. rewrite floor_plus_int by auto.
      assert (0 <= Qfloor ((f - dN c) / dN c))%Z by (change 0%Z with (Qfloor 0); apply Qfloor_resp_le; apply Qle_shift_div_l; lra). lia. }
    lia.
  - destruct (qle (dN c) f) eqn:E; [|eauto]. qb.
    destruct (add_vehicle_auto c o d t w Ho Hd F) as (w1 & E1 & N1 & F1). rewrite E1. cbn [bind].
    destruct (IH (f - dN c)%Q w1) as (f' & w' & E2 & N2 & F2); auto; try lia.
    { assert (K : plats c f = S (plats c (f - dN c))).
      { unfold plats. assert (Ef : (f == (f - dN c) + inject_Z 1 * dN c)%Q) by (change (inject_Z 1) with 1%Q; lra).
        rewrite Ef at 1. rewrite floor_plus_int by auto.
        assert (0 <= Qfloor ((f - dN c) / dN c))%Z by (change 0%Z with (Qfloor 0); apply Qfloor_resp_le; apply Qle_shift_div_l; lra). lia. }
      lia. }
    exists f', w'. split; auto. split; auto. congruence.
Qed.

Lemma demand_loop_succeeds : forall c o d fl, (0 < dN c)%Q -> forall ts f w, o < w_nn w -> d < w_nn w -> auto_names_free w ->
  exists f' w', demand_loop c o d fl ts f w = Ok (f', w').
Proof.
  intros c o d fl HN ts; induction ts as [|t ts IH]; intros f w Ho Hd F; cbn [demand_loop]; [eauto|].
  destruct (emit_succeeds c o d t HN (emit_fuel c (f + fl * dt c)) (f + fl * dt c) w) as (f' & w' & E & N1 & F1); auto.
  rewrite E. cbn [bind]. apply IH; auto; lia.
Qed.

Theorem demand_succeeds_lemma : forall c o d t0 t1 flow volume w, (0 < dN c)%Q -> exists_node w o -> exists_node w d -> auto_names_free w ->
  (0 < volume -> ~ t0 == t1)%Q -> exists w', adddemand c o d t0 t1 flow volume w = Ok w'.
Proof.
  intros c o d t0 t1 flow volume w HN Ho Hd F Hv. unfold adddemand. destruct (qlt 0 volume) eqn:Ev; qb.
  - unfold qdiv. destruct (qeq (t1 - t0) 0) eqn:Ed; qb; [exfalso; apply (Hv Ev); lra|]. cbn [bind].
    destruct (demand_loop_succeeds c o d (volume / (t1 - t0)) HN (zrange (qtrunc (t0 / dt c)) (qtrunc (t1 / dt c))) 0 w) as (f' & w' & E); auto.
    rewrite E. cbn. eauto.
  - cbn [bind]. destruct (demand_loop_succeeds c o d flow HN (zrange (qtrunc (t0 / dt c)) (qtrunc (t1 / dt c))) 0 w) as (f' & w' & E); auto.
    rewrite E. cbn. eauto.
Qed.

(** ** Departure times *)
Theorem depart_lemma : forall c a w w', (0 < dt c)%Q -> add_vehicle c a w = Ok w' ->
  match va_dep a with
  | DepStep t => v_dep (V w' (w_nv w)) = t /\ v_depsec (V w' (w_nv w)) = (inject_Z t * dt c)%Q
  | DepSec t => ((0 <= t)%Q -> (inject_Z (v_dep (V w' (w_nv w))) * dt c <= t < (inject_Z (v_dep (V w' (w_nv w))) + 1) * dt c)%Q) /\
                (v_depsec (V w' (w_nv w)) == t <-> t == 0 \/ dt c == 1)%Q
  end.
Proof.
  intros c a w w' HD E. pose proof (add_vehicle_new _ _ _ _ E) as (_ & _ & _ & _ & Ed & _).
  assert (Es : v_depsec (V w' (w_nv w)) = dep_second c (va_dep a)).
  { unfold add_vehicle in E. cbv zeta in E. destruct (negb _); [discriminate|]. destruct (smem _ _); [discriminate|]. injection E as <-.
    unfold V; cbn. rewrite upd_same. reflexivity. }
  rewrite Ed, Es. destruct (va_dep a) as [t|t]; cbn [dep_step dep_second]; [auto|]. split.
  - intro Ht. apply (trunc_close c HD); auto.
  - split; intro K.
    + assert (K2 : (t * (dt c - 1) == 0)%Q) by lra. apply Qmult_integral in K2. destruct K2; [left|right]; lra.
    + destruct K as [K|K]; rewrite K; lra.
Qed.
