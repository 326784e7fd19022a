(** * LinkQueries: the count and travel-time queries of Link, uxsim.py 691-876. *)
From Verif Require Import Base Types Sim Build Heap FrameBase Tac Frame Lists Inv Eff Eff2 Trace InvStep Reach Steps Effects Counts Spec.

(** The access pattern shared by 703-709, 724-730, 812-818 and 833-839: [tt = int(t//DELTAT)],
    the last element beyond the end, the first one below 0. *)
Definition slot (c : cfg) (t : Q) : Z := Qfloor (t / dt c).
Definition clamp_get {A} (l : list A) (tt : Z) : result A :=
  if Z.leb (Z.of_nat (List.length l)) tt then of_opt IndexError (last_opt l)
  else if Z.ltb tt 0 then of_opt IndexError (nth_error l 0)
  else of_opt IndexError (nth_error l (Z.to_nat tt)).

(** [Link.arrival_count], 691-709; [departure_count], 711-730; [instant_travel_time],
    798-818; [actual_travel_time], 820-839 *)
Definition arrival_count (c : cfg) (k : link) (t : Q) : result Z := clamp_get (l_ca k) (slot c t).
Definition departure_count (c : cfg) (k : link) (t : Q) : result Z := clamp_get (l_cd k) (slot c t).
Definition instant_travel_time (c : cfg) (k : link) (t : Q) : result Q := clamp_get (l_tti k) (slot c t).
Definition actual_travel_time (c : cfg) (k : link) (t : Q) : result Q := clamp_get (l_tta k) (slot c t).

(** [Link.inflow_between], 732-748 *)
Definition inflow_between (c : cfg) (k : link) (t0 t1 : Q) : result Q :=
  a1 <- arrival_count c k t1 ;; a0 <- arrival_count c k t0 ;; qdiv (inject_Z (a1 - a0)) (t1 - t0)%Q.

(** [Link.num_vehicles_t], 772-785 *)
Definition num_vehicles_t (c : cfg) (k : link) (t : Q) : result Z :=
  a <- arrival_count c k t ;; d <- departure_count c k t ;; Ok (a - d)%Z.

(** [Link.average_density], 787-796; [average_speed], 841-855; [average_flow], 857-870 *)
Definition average_density (c : cfg) (k : link) (t : Q) : result Q :=
  n <- num_vehicles_t c k t ;; qdiv (inject_Z n) (l_len k).
Definition average_speed (c : cfg) (k : link) (t : Q) : result Q :=
  tt <- instant_travel_time c k t ;; qdiv (l_len k) tt.
Definition average_flow (c : cfg) (k : link) (t : Q) : result Q :=
  v <- average_speed c k t ;; d <- average_density c k t ;; Ok (v * d)%Q.

(** [Link.average_travel_time_between], 750-770; [vehicles_enter_log] has the keys
    [T*DELTAT] for the timesteps [T] in [l_enter] *)
Definition enter_times (c : cfg) (k : link) (t0 t1 : Q) : list Q :=
  filter (fun t => qle t0 t && qlt t t1) (map (fun e => (Qof_nat (fst e) * dt c)%Q) (l_enter k)).
Definition average_travel_time_between (c : cfg) (k : link) (t0 t1 : Q) : result Q :=
  match enter_times c k t0 t1 with
  | [] => qdiv (l_len k) (l_u k)
  | ts => xs <- mapM (actual_travel_time c k) ts ;; Ok (qsum xs / Qof_nat (List.length xs))%Q
  end.

(** ** Facts *)

Lemma Qfloor_slot : forall c t k, (0 < dt c)%Q ->
  (inject_Z k * dt c <= t)%Q -> (t < (inject_Z k + 1) * dt c)%Q -> slot c t = k.
Proof.
  intros c t k Hd H1 H2. unfold slot.
  assert (A : (inject_Z k <= t / dt c)%Q) by (apply Qle_shift_div_l; auto).
  assert (B : (t / dt c < inject_Z (k + 1))%Q).
  { apply Qlt_shift_div_r; auto. rewrite inject_Z_plus. exact H2. }
  apply Z.le_antisymm.
  - assert (K : (inject_Z (Qfloor (t / dt c)) < inject_Z (k + 1))%Q) by (eapply Qle_lt_trans; [apply Qfloor_le|exact B]).
    rewrite <- Zlt_Qlt in K. lia.
  - rewrite <- (Qfloor_Z k). apply Qfloor_resp_le; auto.
Qed.

Lemma slot_neg : forall c t, (0 < dt c)%Q -> (t < 0)%Q -> (slot c t < 0)%Z.
Proof.
  intros c t Hd H. unfold slot.
  assert (t / dt c < 0)%Q by (apply Qlt_shift_div_r; auto; rewrite Qmult_0_l; auto).
  assert (K : (inject_Z (Qfloor (t / dt c)) < inject_Z 0)%Q) by (eapply Qle_lt_trans; [apply Qfloor_le|exact H0]).
  rewrite <- Zlt_Qlt in K. auto.
Qed.

Lemma slot_ge : forall c t k, (0 < dt c)%Q -> (inject_Z k * dt c <= t)%Q -> (k <= slot c t)%Z.
Proof.
  intros c t k Hd H. unfold slot. rewrite <- (Qfloor_Z k) at 1. apply Qfloor_resp_le.
  apply Qle_shift_div_l; auto.
Qed.

Lemma slot_mono : forall c t t', (0 < dt c)%Q -> (t <= t')%Q -> (slot c t <= slot c t')%Z.
Proof.
  intros c t t' Hd H. unfold slot. apply Qfloor_resp_le. unfold Qdiv.
  apply Qmult_le_compat_r; auto. apply Qinv_le_0_compat. lra.
Qed.

(** the recorded value of the timestep that contains [t] *)
Lemma clamp_inside : forall A c (l : list A) t k x, (0 < dt c)%Q -> nth_error l k = Some x ->
  (Qof_nat k * dt c <= t)%Q -> (t < (Qof_nat k + 1) * dt c)%Q -> clamp_get l (slot c t) = Ok x.
Proof.
  intros A c l t k x Hd Hx H1 H2. rewrite (Qfloor_slot c t (Z.of_nat k)); auto.
  pose proof (nth_error_lt _ _ Hx). unfold clamp_get.
  replace (Z.leb (Z.of_nat (List.length l)) (Z.of_nat k)) with false by (symmetry; apply Z.leb_gt; lia).
  replace (Z.ltb (Z.of_nat k) 0) with false by (symmetry; apply Z.ltb_ge; lia).
  rewrite Nat2Z.id, Hx. reflexivity.
Qed.

Lemma clamp_before : forall A c (l : list A) t x, (0 < dt c)%Q -> nth_error l 0 = Some x ->
  (t < 0)%Q -> clamp_get l (slot c t) = Ok x.
Proof.
  intros A c l t x Hd Hx H1. apply (slot_neg c) in H1; auto. unfold clamp_get.
  replace (Z.leb (Z.of_nat (List.length l)) (slot c t)) with false by (symmetry; apply Z.leb_gt; lia).
  apply Z.ltb_lt in H1. rewrite H1, Hx. reflexivity.
Qed.

Lemma clamp_after : forall A c (l : list A) t x, (0 < dt c)%Q -> last_opt l = Some x ->
  (Qof_nat (List.length l) * dt c <= t)%Q -> clamp_get l (slot c t) = Ok x.
Proof.
  intros A c l t x Hd Hx H1. apply slot_ge in H1; auto. unfold clamp_get.
  apply Z.leb_le in H1. rewrite H1, Hx. reflexivity.
Qed.

Lemma clamp_empty : forall A (l : list A) z, l = [] -> clamp_get l z = Err IndexError.
Proof. intros A l z ->. unfold clamp_get. cbn. destruct (Z.leb 0 z); destruct (Z.ltb z 0); destruct (Z.to_nat z); reflexivity. Qed.

Lemma clamp_some : forall A (l : list A) z, l <> [] -> exists x i, clamp_get l z = Ok x /\ nth_error l i = Some x /\
  Z.of_nat i = Z.max 0 (Z.min z (Z.of_nat (List.length l) - 1)).
Proof.
  intros A l z Hn. unfold clamp_get. destruct (Z.leb (Z.of_nat (List.length l)) z) eqn:E1; [apply Z.leb_le in E1|apply Z.leb_gt in E1].
  - rewrite last_opt_nth. destruct l as [|y l]; [congruence|].
    destruct (nth_error (y :: l) (List.length (y :: l) - 1)) eqn:E.
    + exists a, (List.length (y :: l) - 1). split; [reflexivity|]. split; [auto|].
      cbn [List.length] in *. lia.
    + apply nth_error_None in E. cbn [List.length] in E. lia.
  - destruct (Z.ltb z 0) eqn:E2; [apply Z.ltb_lt in E2|apply Z.ltb_ge in E2].
    + destruct l as [|y l]; [congruence|]. exists y, 0. split; [reflexivity|]. split; [reflexivity|]. cbn [List.length] in *. lia.
    + destruct (nth_error l (Z.to_nat z)) eqn:E.
      * exists a, (Z.to_nat z). split; [reflexivity|]. split; [auto|]. lia.
      * apply nth_error_None in E. lia.
Qed.

Lemma clamp_mono : forall l z z' a b, nondecreasing l -> (z <= z')%Z ->
  clamp_get l z = Ok a -> clamp_get l z' = Ok b -> (a <= b)%Z.
Proof.
  intros l z z' a b M H Ha Hb.
  assert (l <> []) by (intro; subst; rewrite clamp_empty in Ha; [discriminate|auto]).
  destruct (clamp_some _ l z H0) as (x & i & E1 & E2 & E3).
  destruct (clamp_some _ l z' H0) as (y & j & F1 & F2 & F3).
  assert (x = a) by congruence. assert (y = b) by congruence. subst.
  eapply M; [|exact E2|exact F2]. lia.
Qed.

Lemma nth_error_nth0 : forall (l : list Z) i a, nth_error l i = Some a -> nth i l 0%Z = a.
Proof. intros. eapply nth_error_nth in H. exact H. Qed.

Lemma last0_latest : forall l, last0 l = latest l.
Proof.
  intro l. unfold last0, latest. destruct l as [|x l] using rev_ind; [reflexivity|].
  rewrite last_opt_app, last_last. reflexivity.
Qed.

(** C02 *)
Theorem curves_lemma : forall c w l, (0 <= c_deltan c)%Z -> reach c w -> l < w_nl w ->
  curves_ok c (w_T w) (L w l) (List.length (l_vehs (L w l))).
Proof.
  intros c w l Hd H Hl. destruct (reach_CInv c w Hd H l Hl) as [K1 K2 [K3 K4] [K5 K6] K7].
  destruct (reach_TInv c w H) as [_ T]. destruct (T l Hl) as (T1 & T2 & _).
  constructor; auto.
  - rewrite <- !last0_latest, K2, Dq_none. reflexivity.
  - intros i j a b Hij Ha Hb. apply nth_error_lt in Hb as Hb'. rewrite <- (nth_error_nth0 _ _ _ Ha), <- (nth_error_nth0 _ _ _ Hb).
    apply K3; auto.
  - intros i j a b Hij Ha Hb. apply nth_error_lt in Hb as Hb'. rewrite <- (nth_error_nth0 _ _ _ Ha), <- (nth_error_nth0 _ _ _ Hb).
    apply K4; auto.
  - intros i a d Ha Hb. rewrite <- (nth_error_nth0 _ _ _ Ha), <- (nth_error_nth0 _ _ _ Hb). split; [apply K6|apply K7].
Qed.

(** the count at a recorded time, asked at any later time, is the count that was on the link
    when this time was recorded *)
Theorem count_true : forall c P w w' l t, (0 <= c_deltan c)%Z -> (0 < dt c)%Q ->
  reach c w -> later c P w w' -> l < w_nl w -> 0 < w_T w ->
  (Qof_nat (w_T w - 1) * dt c <= t)%Q -> (t < Qof_nat (w_T w) * dt c)%Q ->
  num_vehicles_t c (L w' l) t = Ok (c_deltan c * Z.of_nat (List.length (l_vehs (L w l))))%Z.
Proof.
  intros c P w w' l t Hd Hdt H Hw Hl HT H1 H2.
  destruct (curves_lemma c w l Hd H Hl) as [C1 C2 C3 _ _ _].
  destruct (recorded_stays c P w w' H Hw l Hl) as ((s1 & S1) & (s2 & S2) & _).
  assert (E2 : (t < (Qof_nat (w_T w - 1) + 1) * dt c)%Q).
  { replace (w_T w) with (S (w_T w - 1)) in H2 by lia. unfold Qof_nat in *.
    rewrite Nat2Z.inj_succ, <- Z.add_1_r, inject_Z_plus in H2. exact H2. }
  assert (G : forall (a s : list Z), List.length a = w_T w -> nth_error (a ++ s) (w_T w - 1) = Some (latest a)).
  { intros a s El. rewrite nth_error_app1 by lia. destruct a as [|x a] using rev_ind; [cbn in El; lia|].
    rewrite app_length in El. cbn in El. unfold latest. rewrite last_last.
    rewrite nth_error_app2 by lia. replace (w_T w - 1 - List.length a) with 0 by lia. reflexivity. }
  unfold num_vehicles_t, arrival_count, departure_count. rewrite S1, S2.
  rewrite (clamp_inside _ c _ t _ _ Hdt (G _ s1 C1) H1 E2).
  rewrite (clamp_inside _ c _ t _ _ Hdt (G _ s2 C2) H1 E2). cbn [bind]. rewrite C3. reflexivity.
Qed.

(** C03 *)
Theorem fifo_lemma : forall c P w w' l, reach c w -> later c P w w' -> l < w_nl w ->
  exists a d, in_out w w' l a d /\
    latest (l_ca (L w' l)) = (latest (l_ca (L w l)) + c_deltan c * Z.of_nat (List.length a))%Z /\
    latest (l_cd (L w' l)) = (latest (l_cd (L w l)) + c_deltan c * Z.of_nat d)%Z.
Proof.
  intros c P w w' l H K Hl. destruct (later_fifo c P w w' H K) as [_ F].
  destruct (F l Hl) as (a & d & F1 & F2 & F3 & F4). rewrite !Dq_none in *.
  exists a, d. rewrite <- !last0_latest. unfold in_out. auto.
Qed.

(** C23 *)
Theorem counts_defined : forall c w l t, (0 <= c_deltan c)%Z -> reach c w -> l < w_nl w -> 0 < w_T w ->
  exists a d q, arrival_count c (L w l) t = Ok a /\ departure_count c (L w l) t = Ok d /\
    instant_travel_time c (L w l) t = Ok q /\ (0 <= d <= a)%Z.
Proof.
  intros c w l t Hd H Hl HT. destruct (reach_TInv c w H) as [_ T]. destruct (T l Hl) as (T1 & T2 & T3).
  destruct (curves_lemma c w l Hd H Hl) as [_ _ _ _ _ C].
  assert (N1 : l_ca (L w l) <> []) by (intro K; rewrite K in T1; cbn in T1; lia).
  assert (N2 : l_cd (L w l) <> []) by (intro K; rewrite K in T2; cbn in T2; lia).
  assert (N3 : l_tti (L w l) <> []) by (intro K; rewrite K in T3; cbn in T3; lia).
  destruct (clamp_some _ _ (slot c t) N1) as (a & i & A1 & A2 & A3).
  destruct (clamp_some _ _ (slot c t) N2) as (d & j & B1 & B2 & B3).
  destruct (clamp_some _ _ (slot c t) N3) as (q & k & D1 & _).
  exists a, d, q. repeat (split; [assumption|]).
  assert (i = j) by (apply Nat2Z.inj; rewrite A3, B3, T1, T2; reflexivity). subst j. eapply C; eauto.
Qed.

Theorem count_monotone : forall c w l t t' a a' d d', (0 <= c_deltan c)%Z -> (0 < dt c)%Q -> reach c w -> l < w_nl w ->
  (t <= t')%Q -> arrival_count c (L w l) t = Ok a -> arrival_count c (L w l) t' = Ok a' ->
  departure_count c (L w l) t = Ok d -> departure_count c (L w l) t' = Ok d' ->
  (a <= a' /\ d <= d')%Z.
Proof.
  intros c w l t t' a a' d d' Hd Hdt H Hl Ht A1 A2 D1 D2.
  destruct (curves_lemma c w l Hd H Hl) as [_ _ _ C1 C2 _]. apply (slot_mono c) in Ht; auto.
  split; [eapply clamp_mono with (1 := C1); eauto|eapply clamp_mono with (1 := C2); eauto].
Qed.

Theorem inflow_additive : forall c k t0 t1 t2 q01 q12 q02,
  inflow_between c k t0 t1 = Ok q01 -> inflow_between c k t1 t2 = Ok q12 -> inflow_between c k t0 t2 = Ok q02 ->
  (q02 * (t2 - t0) == q01 * (t1 - t0) + q12 * (t2 - t1))%Q.
Proof.
  intros c k t0 t1 t2 q01 q12 q02 H1 H2 H3. unfold inflow_between in *.
  destruct (arrival_count c k t0) as [a0|]; [|destruct (arrival_count c k t1); discriminate].
  destruct (arrival_count c k t1) as [a1|]; [|discriminate].
  destruct (arrival_count c k t2) as [a2|]; [|discriminate]. cbn [bind] in *. unfold qdiv in *.
  destruct (qeq (t1 - t0) 0) eqn:E1; [discriminate|]. destruct (qeq (t2 - t1) 0) eqn:E2; [discriminate|].
  destruct (qeq (t2 - t0) 0) eqn:E3; [discriminate|]. apply qeq_false in E1, E2, E3.
  injection H1 as <-. injection H2 as <-. injection H3 as <-. unfold Zminus. rewrite !inject_Z_plus, !inject_Z_opp.
  field; auto.
Qed.
