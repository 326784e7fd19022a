(** * CppFlow: the inflow of links in the compiled engine (C72). *)
From Coq Require Import Qminmax.
From Verif Require Import Base Types Sim Build Heap Lists Inv FrameBase Tac Frame Eff Eff2 Trace InvStep Reach Steps Effects Phases Attr Life Incoming Vev Ride TripLog Route Signal Green Choice Enforce Counts LinkQueries FD NodeCap Origin Bucket Outflow Trials Motion Spacing Spec Distance Totals.
From Verif Require Import State Cpp SpecCpp CppOK CppOK2 CppLoop CppInv CppSafe.
Local Open Scope nat_scope.

(** ** Histories in which the operations satisfy [P] *)
Inductive claterP (c : cfg) (P : op -> world -> Prop) (w : world) : world -> Prop :=
| clp_refl : claterP c P w w
| clp_op : forall w1 o w2, claterP c P w w1 -> op_ok o w1 -> P o w1 -> (forall a, o <> OExec a) -> apply_op c o w1 = Ok w2 -> claterP c P w w2
| clp_tick : forall w1 w2, claterP c P w w1 -> w_final w1 = true -> cpp_tick c w1 = Ok w2 -> claterP c P w w2.
Lemma claterP_creach : forall c P w w', creach c w -> claterP c P w w' -> creach c w'.
Proof. intros c P w w' R H. induction H as [|w1 o w2 H IH A _ B E|w1 w2 H IH F E]; [exact R|eapply cr_op; eauto|eapply cr_tick; eauto]. Qed.

(** ** A timestep *)
Definition taken (c : cfg) (l : lid) (w w' : world) : Prop :=
  exists m, last0 (l_ca (L w' l)) = (last0 (l_ca (L w l)) + Z.of_nat m * c_deltan c)%Z /\
    (l_cinr (L w' l) == l_cinr (L w l) - Qof_nat m * dN c)%Q /\ (m = 0 \/ (0 <= l_cinr (L w' l))%Q) /\
    (m = 0 -> exists k, l_vehs (L w' l) = skipn k (l_vehs (L w l))).
Lemma Qof_add : forall a b, (Qof_nat (a + b) == Qof_nat a + Qof_nat b)%Q.
Proof. intros. unfold Qof_nat. rewrite Nat2Z.inj_add, inject_Z_plus. reflexivity. Qed.
Lemma taken_refl : forall c l w w', L w' l = L w l -> taken c l w w'.
Proof.
  intros c l w w' E. exists 0. rewrite E. split; [lia|]. split; [unfold Qof_nat; cbn; ring|]. split; [auto|]. intros _. exists 0. reflexivity.
Qed.
Lemma taken_trans : forall c l a b d, taken c l a b -> taken c l b d -> taken c l a d.
Proof.
  intros c l a b d (m & A1 & A2 & A3 & A4) (k & B1 & B2 & B3 & B4). exists (m + k). split; [rewrite B1, A1; lia|]. split; [rewrite B2, A2, Qof_add; ring|]. split.
  - destruct B3 as [->|B3]; [|right; exact B3]. destruct A3 as [->|A3]; [left; reflexivity|right]. rewrite B2. setoid_replace (Qof_nat 0 * dN c)%Q with 0%Q by (unfold Qof_nat; cbn; ring). lra.
  - intro Z. destruct A4 as (i & Ei); [lia|]. destruct B4 as (j & Ej); [lia|]. rewrite Ej, Ei, skipn_add. eexists; reflexivity.
Qed.
Lemma taken_chain : forall c b l w w', b <> PhLinks -> Inv2 w None -> cchain c b w w' -> taken c l w w'.
Proof.
  intros c b l w w' Hb I H. enough (Inv2 w' None /\ taken c l w w') by tauto. induction H as [|x y H IH P|x y H IH P].
  - split; [exact I|apply taken_refl; reflexivity].
  - destruct IH as [Ix Tx]. split; [eapply cpart_Inv2; eauto|]. eapply taken_trans; [exact Tx|]. destruct (cpart_L _ _ _ _ P) as [(K & _)|E]; [contradiction|]. apply taken_refl. apply E.
  - destruct IH as [Ix Tx]. split; [eapply run_Inv2'; eauto|]. eapply taken_trans; [exact Tx|]. apply inflow_run; [|exact Ix].
    eapply run_weaken; [|exact P]. intros e He. destruct b; cbn in He; try discriminate; [apply andb_true_iff in He; tauto|]. destruct e; cbn in He |- *; congruence.
Qed.

(** the limit below which the compiled engine counts capacities; above it they are unlimited *)
Lemma caps_cinr : forall c k q, l_cin k = Some q -> (q < 10e9)%Q -> l_cinr (cpp_caps c k) = refill (q * dt c) (dN c * Qof_nat (l_lanes k)) (l_cinr k).
Proof.
  intros c k q E Hq. unfold cpp_caps, refill. cbv zeta.
  assert (Z : forall k1, l_cin k1 = l_cin k -> l_cinr k1 = l_cinr k ->
    l_cinr (match l_cin k1 with Some cin => if qlt cin (10e9)%Q then (if qlt (l_cinr k1) (dN c * Qof_nat (l_lanes k)) then sl_cinr (l_cinr k1 + cin * dt c)%Q k1 else k1) else sl_cinr (10e9)%Q k1 | None => sl_cinr (10e9)%Q k1 end) =
    if qlt (l_cinr k) (dN c * Qof_nat (l_lanes k)) then (l_cinr k + q * dt c)%Q else l_cinr k).
  { intros k1 E1 E2. rewrite E1, E, E2. rewrite (proj2 (qlt_iff q (10e9)) Hq). destruct (qlt (l_cinr k) _); [reflexivity|exact E2]. }
  destruct (qlt (l_cout k) (10e9)%Q); [destruct (qlt (l_coutr k) _)|]; apply Z; reflexivity.
Qed.
Lemma link_cinr : forall c l w w' q, cpp_link_update c l w = Ok w' -> l_cin (L w l) = Some q -> (q < 10e9)%Q ->
  l_cinr (L w' l) = refill (q * dt c) (dN c * Qof_nat (l_lanes (L w l))) (l_cinr (L w l)).
Proof.
  intros c l w w' q H E Hq. unfold cpp_link_update in H. injection H as <-. rewrite L_modl, Nat.eqb_refl. cbn [l_cinr sl_cd sl_ca].
  rewrite (caps_cinr c _ q); [reflexivity|exact E|exact Hq].
Qed.
Lemma links_refill : forall c q ls w w', NoDup ls -> (q < 10e9)%Q -> foldM (cpp_link_update c) ls w = Ok w' -> forall l,
  (In l ls -> l_cin (L w l) = Some q -> l_cinr (L w' l) = refill (q * dt c) (dN c * Qof_nat (l_lanes (L w l))) (l_cinr (L w l)) /\ last0 (l_ca (L w' l)) = last0 (l_ca (L w l)) /\ l_vehs (L w' l) = l_vehs (L w l)) /\
  (~ In l ls -> L w' l = L w l).
Proof.
  intros c q ls. induction ls as [|k ls IH]; intros w w' Nd Hq E l; cbn [foldM] in E; [injection E as <-; split; [intros []|reflexivity]|].
  apply bind_ok in E. destruct E as (w1 & E1 & E). inversion Nd as [|? ? Nk Nd']; subst. destruct (IH w1 w' Nd' Hq E l) as [A B].
  pose proof (cpp_link_at _ _ _ _ E1) as (P & Q1 & _ & _ & Q4). split.
  - intros [->|Hl] Hc.
    + rewrite (B Nk). split; [eapply link_cinr; eauto|]. split; [rewrite Q1; apply last0_app|exact Q4].
    + assert (Ne : l <> k) by (intros ->; contradiction). rewrite (P l Ne) in A. auto.
  - intro Hl. rewrite B by (intro K; apply Hl; right; exact K). apply P. intros ->. apply Hl. left; reflexivity.
Qed.

Lemma cpp_inflow_tick : forall c w w' l q, creach c w -> cpp_tick c w = Ok w' -> l < w_nl w -> l_cin (L w l) = Some q -> (q < 10e9)%Q ->
  exists m, last0 (l_ca (L w' l)) = (last0 (l_ca (L w l)) + Z.of_nat m * c_deltan c)%Z /\
    (l_cinr (L w' l) == refill (q * dt c) (dN c * Qof_nat (l_lanes (L w l))) (l_cinr (L w l)) - Qof_nat m * dN c)%Q /\
    (m = 0 \/ (0 <= l_cinr (L w' l))%Q) /\
    (m = 0 -> exists k, l_vehs (L w' l) = skipn k (l_vehs (L w l))) /\
    l_cin (L w' l) = Some q /\ l_lanes (L w' l) = l_lanes (L w l) /\ w_nl w' = w_nl w /\ w_T w' = S (w_T w).
Proof.
  intros c w w' l q R H Hl Hc Hq. apply cpp_tick_body in H. destruct H as (w2 & H & ->). pose proof (creach_Inv2 _ _ R) as I. pose proof (cpp_body_fr _ _ _ H) as F.
  apply cpp_body_chain in H; [|exact I]. destruct H as (wa & wb & wc & E1 & C1 & C2 & C3 & C4).
  pose proof (cchain_Inv2 _ _ _ _ I C1) as Ia. pose proof (cchain_Inv2 _ _ _ _ Ia C2) as Ib. pose proof (cchain_Inv2 _ _ _ _ Ib C3) as Ic.
  assert (T : taken c l wa w2).
  { eapply taken_trans; [exact (taken_chain c PhNodes l wa wb ltac:(discriminate) Ia C2)|]. eapply taken_trans; [exact (taken_chain c PhFollow l wb wc ltac:(discriminate) Ib C3)|].
    exact (taken_chain c PhVehicles l wc w2 ltac:(discriminate) Ic C4). }
  destruct (links_refill c q _ _ _ (seq_NoDup _ _) Hq E1 l) as [A _]. destruct A as (A1 & A2 & A3); [apply in_seq; lia|exact Hc|].
  destruct T as (m & B1 & B2 & B3 & B4). exists m. change (L (sw_T (S (w_T w)) w2) l) with (L w2 l). rewrite A1 in B2. rewrite A2 in B1. rewrite A3 in B4.
  pose proof (fr_l F l) as FL. unfold lstat in FL.
  split; [exact B1|]. split; [exact B2|]. split; [exact B3|]. split; [exact B4|].
  split; [congruence|]. split; [congruence|]. split; [|reflexivity]. exact (fr_w_nl F).
Qed.

Lemma cpp_op_clock : forall c o w w', creach c w -> op_ok o w -> (forall a, o <> OExec a) -> apply_op c o w = Ok w' -> w_T w' = w_T w.
Proof.
  intros c o w w' R Hok Hx E. pose proof (creach_clock c w R) as K. apply apply_op_osteps in E; auto.
  clear - E K. induction E; [reflexivity|]. destruct (ostep_clock _ _ _ H K) as [C' E']. rewrite IHE; auto.
Qed.

(** ** Any stretch of a history *)
Lemma cpp_inflow_later : forall c l w w' q, creach c w -> claterP c (keep_cin l) w w' -> l < w_nl w -> l_cin (L w l) = Some q -> (q < 10e9)%Q -> (0 <= q * dt c)%Q ->
  (l < w_nl w' /\ l_cin (L w' l) = Some q /\ l_lanes (L w' l) = l_lanes (L w l) /\ w_T w <= w_T w') /\
  exists m, last0 (l_ca (L w' l)) = (last0 (l_ca (L w l)) + Z.of_nat m * c_deltan c)%Z /\
    (l_cinr (L w' l) + Qof_nat m * dN c <= l_cinr (L w l) + q * dt c * Qof_nat (w_T w' - w_T w))%Q /\
    (m = 0 \/ (0 <= l_cinr (L w' l))%Q).
Proof.
  intros c l w w' q R H Hl Hq Hb Hp. induction H as [|w1 o w2 H IH Hok Hk Hx E|w1 w2 H IH Hf E].
  - split; [auto|]. exists 0. rewrite Nat.sub_diag. unfold Qof_nat. cbn [Z.of_nat]. split; [lia|]. split; [change (inject_Z 0) with 0%Q; lra|auto].
  - destruct IH as ((A1 & A2 & A3 & A4) & m & B1 & B2 & B3). assert (R1 : creach c w1) by (eapply claterP_creach; eauto).
    pose proof (op_nl _ _ _ _ Hx E Hok) as (N1 & _). pose proof (cpp_op_clock _ _ _ _ R1 Hok Hx E) as T1.
    pose proof (keep_cin_op _ _ _ _ _ Hok Hk Hx E A1) as K1. pose proof (op_lflow _ _ _ _ _ Hok Hx E A1) as K2. apply lflow_eq in K2.
    destruct K2 as (K2 & _ & K3 & _ & _ & K4 & _). rewrite K1, K4, T1. split; [repeat split; auto; lia|]. exists m. rewrite K2, K3. auto.
  - destruct IH as ((A1 & A2 & A3 & A4) & m & B1 & B2 & B3). assert (R1 : creach c w1) by (eapply claterP_creach; eauto).
    destruct (cpp_inflow_tick c w1 w2 l q R1 E A1 A2 Hb) as (m' & C1 & C2 & C3 & _ & C4 & C5 & C6 & C7).
    split; [rewrite C5, C6, C7; repeat split; auto; lia|]. exists (m + m'). rewrite C1, B1. split; [lia|].
    pose proof (refill_le (q * dt c) (dN c * Qof_nat (l_lanes (L w1 l))) (l_cinr (L w1 l)) Hp) as [RL1 RL2].
    split.
    + rewrite C7. replace (S (w_T w1) - w_T w) with (S (w_T w1 - w_T w)) by lia. rewrite Qof_S, Qof_add.
      set (a := (q * dt c)%Q) in *. set (k := Qof_nat (w_T w1 - w_T w)) in *.
      assert (((Qof_nat m + Qof_nat m') * dN c == Qof_nat m * dN c + Qof_nat m' * dN c)%Q) by ring.
      assert ((a * (k + 1) == a * k + a)%Q) by ring. lra.
    + destruct C3 as [-> |C3]; [|auto]. rewrite Nat.add_0_r. destruct B3 as [B3|B3]; [auto|right].
      assert ((Qof_nat 0 * dN c == 0)%Q) by (unfold Qof_nat; cbn; ring). lra.
Qed.

Lemma cpp_tick_cin : forall c w w' l, creach c w -> cpp_tick c w = Ok w' -> w_nl w' = w_nl w /\ l_cin (L w' l) = l_cin (L w l).
Proof.
  intros c w w' l R E. apply cpp_tick_body in E. destruct E as (w2 & E & ->). pose proof (cpp_body_fr _ _ _ E) as F. split; [exact (fr_w_nl F)|].
  change (L (sw_T (S (w_T w)) w2) l) with (L w2 l). pose proof (fr_l F l) as G. unfold lstat in G. congruence.
Qed.

Lemma cpp_inflow_burst : forall c l w q, creachP c (keep_cin l) w -> l < w_nl w -> l_cin (L w l) = Some q -> (0 <= q)%Q -> (q < 10e9)%Q -> (0 <= dt c)%Q -> (0 <= dN c)%Q ->
  (0 <= l_cinr (L w l))%Q /\ (l_cinr (L w l) <= Qmax q (dN c * Qof_nat (l_lanes (L w l)) + q * dt c))%Q.
Proof.
  intros c l w q R Hl Hq Hp Hb Hd Hn. revert q Hl Hq Hp Hb. induction R as [tm|w o w' R IH Hok Hk Hx E|w w' R IH Hf E]; intros q Hl Hq Hp Hb.
  - cbn in Hl. lia.
  - destruct (le_lt_dec (w_nl w) l) as [Hge|Hlt].
    + destruct (op_link c o w w' l Hok Hx E Hl) as [Hlt _ E1 _|a nm E1 El E2|q0 E1 E2|q0 E1 E2|q0 E1 E2|q0 E1 E2]; try (subst o; cbn in Hok; lia); [lia|].
      subst l. unfold new_link in E2. cbv zeta in E2. repeat (apply bind_ok in E2; destruct E2 as (? & _ & E2)). injection E2 as E2. rewrite <- E2 in *.
      cbn [l_cin l_cinr l_lanes] in *. assert (0 <= q * dt c)%Q by (apply Qmult_le_0_compat; auto).
      assert (0 <= dN c * Qof_nat (la_lanes a))%Q by (apply Qmult_le_0_compat; auto; apply Qof_nn).
      pose proof (Q.le_max_l q (dN c * Qof_nat (la_lanes a) + q * dt c)). pose proof (Q.le_max_r q (dN c * Qof_nat (la_lanes a) + q * dt c)).
      destruct (la_cin a); injection Hq as <-; split; auto; lra.
    + pose proof (keep_cin_op _ _ _ _ _ Hok Hk Hx E Hlt) as K1. pose proof (op_lflow _ _ _ _ _ Hok Hx E Hlt) as K2. apply lflow_eq in K2.
      destruct K2 as (K2 & _ & K3 & _ & _ & K4 & _). rewrite K3, K4. apply IH; auto. congruence.
  - pose proof (creachP_creach _ _ _ R) as R1. destruct (cpp_tick_cin c w w' l R1 E) as [F1 F2].
    assert (Hl0 : l < w_nl w) by lia. assert (Hq0 : l_cin (L w l) = Some q) by congruence.
    destruct (cpp_inflow_tick c w w' l q R1 E Hl0 Hq0 Hb) as (m & C1 & C2 & C3 & _ & C4 & C5 & C6 & C7). destruct (IH q Hl0 Hq0 Hp Hb) as [J1 J2]. rewrite C5.
    assert (Hqd : (0 <= q * dt c)%Q) by (apply Qmult_le_0_compat; auto).
    pose proof (refill_le (q * dt c) (dN c * Qof_nat (l_lanes (L w l))) (l_cinr (L w l)) Hqd) as [RL1 RL2].
    pose proof (refill_lim (q * dt c) (dN c * Qof_nat (l_lanes (L w l))) (l_cinr (L w l)) _ J2 (Q.le_max_r q (dN c * Qof_nat (l_lanes (L w l)) + q * dt c))) as RL3.
    assert (0 <= Qof_nat m * dN c)%Q by (apply Qmult_le_0_compat; auto; apply Qof_nn).
    split; [|lra]. destruct C3 as [-> |C3]; [|auto]. assert ((Qof_nat 0 * dN c == 0)%Q) by (unfold Qof_nat; cbn; ring). lra.
Qed.

(** ** C72 *)
Theorem cpp_inflow : forall c l w w' q, creach c w -> claterP c (keep_cin l) w w' -> l < w_nl w ->
  l_cin (L w l) = Some q -> (0 <= q)%Q -> (q < 10e9)%Q -> (0 <= dt c)%Q ->
  let entered := inject_Z (latest (l_ca (L w' l)) - latest (l_ca (L w l))) in
  let k := Qof_nat (w_T w' - w_T w) in
  (entered == 0 \/ entered <= q * dt c * k + l_cinr (L w l))%Q.
Proof.
  intros c l w w' q R H Hl Hq Hp Hb Hd. destruct (cpp_inflow_later c l w w' q R H Hl Hq Hb) as (_ & m & A & B & C); [apply Qmult_le_0_compat; auto|].
  rewrite <- !last0_latest, A. cbv zeta. replace (last0 (l_ca (L w l)) + Z.of_nat m * c_deltan c - last0 (l_ca (L w l)))%Z with (Z.of_nat m * c_deltan c)%Z by lia.
  destruct C as [-> |C]; [left; reflexivity|right]. rewrite inject_Z_mult. change (inject_Z (Z.of_nat m)) with (Qof_nat m). change (inject_Z (c_deltan c)) with (dN c). lra.
Qed.

Theorem cpp_inflow_bound : forall c l w w' q, creachP c (keep_cin l) w -> claterP c (keep_cin l) w w' -> l < w_nl w ->
  l_cin (L w l) = Some q -> (0 <= q)%Q -> (q < 10e9)%Q -> (0 <= dt c)%Q -> (0 <= dN c)%Q ->
  let entered := inject_Z (latest (l_ca (L w' l)) - latest (l_ca (L w l))) in
  let k := Qof_nat (w_T w' - w_T w) in
  (entered <= q * dt c * k + Qmax q (dN c * Qof_nat (l_lanes (L w l)) + q * dt c))%Q.
Proof.
  intros c l w w' q R H Hl Hq Hp Hb Hd Hn. destruct (cpp_inflow_burst c l w q R Hl Hq Hp Hb Hd Hn) as [B1 B2].
  assert (0 <= q * dt c * Qof_nat (w_T w' - w_T w))%Q by (apply Qmult_le_0_compat; [apply Qmult_le_0_compat; auto|apply Qof_nn]).
  destruct (cpp_inflow c l w w' q (creachP_creach _ _ _ R) H Hl Hq Hp Hb Hd) as [E|E]; cbv zeta in *; lra.
Qed.

Theorem cpp_closed : forall c l w, creachP c (keep_cin l) w -> l < w_nl w -> (exists q, l_cin (L w l) = Some q /\ (q == 0)%Q) -> (0 < dN c)%Q ->
  latest (l_ca (L w l)) = 0%Z /\ l_vehs (L w l) = [].
Proof.
  intros c l w R Hl Hq Hn. rewrite <- last0_latest. enough (G : last0 (l_ca (L w l)) = 0%Z /\ l_vehs (L w l) = [] /\ (l_cinr (L w l) == 0)%Q) by tauto.
  revert Hl Hq. induction R as [tm|w o w' R IH Hok Hk Hx E|w w' R IH Hf E]; intros Hl (q & Hq & Hz).
  - cbn in Hl. lia.
  - destruct (le_lt_dec (w_nl w) l) as [Hge|Hlt].
    + destruct (op_link c o w w' l Hok Hx E Hl) as [Hlt _ E1 _|a nm E1 El E2|q0 E1 E2|q0 E1 E2|q0 E1 E2|q0 E1 E2]; try (subst o; cbn in Hok; lia); [lia|].
      subst l. unfold new_link in E2. cbv zeta in E2. repeat (apply bind_ok in E2; destruct E2 as (? & _ & E2)). injection E2 as E2. rewrite <- E2 in *.
      cbn [l_cin l_cinr l_lanes l_ca l_vehs] in *. split; [reflexivity|]. split; [reflexivity|]. destruct (la_cin a); injection Hq as <-; rewrite Hz; [apply Qmult_0_l|reflexivity].
    + pose proof (keep_cin_op _ _ _ _ _ Hok Hk Hx E Hlt) as K1. pose proof (op_lflow _ _ _ _ _ Hok Hx E Hlt) as K2. apply lflow_eq in K2.
      destruct K2 as (K2 & _ & K3 & _ & K5 & K4 & _). rewrite K2, K3, K5. apply IH; auto. exists q. split; congruence.
  - pose proof (creachP_creach _ _ _ R) as R1. destruct (cpp_tick_cin c w w' l R1 E) as [F1 F2].
    assert (Hl0 : l < w_nl w) by lia. assert (Hq0 : l_cin (L w l) = Some q) by congruence.
    assert (Hb : (q < 10e9)%Q) by (rewrite Hz; reflexivity).
    destruct (cpp_inflow_tick c w w' l q R1 E Hl0 Hq0 Hb) as (m & C1 & C2 & C3 & C8 & C4 & C5 & C6 & C7). destruct IH as (J1 & J2 & J3); [auto|eauto|].
    assert (Z : (refill (q * dt c) (dN c * Qof_nat (l_lanes (L w l))) (l_cinr (L w l)) == 0)%Q).
    { unfold refill. destruct (qlt _ _); [rewrite J3, Hz; ring|auto]. }
    rewrite Z in C2. destruct m as [|m].
    + destruct (C8 eq_refl) as (k & Ek). rewrite Ek, J2, C1, J1. split; [lia|]. split; [destruct k; reflexivity|]. rewrite C2. unfold Qof_nat. cbn. ring.
    + exfalso. destruct C3 as [C3|C3]; [discriminate|]. rewrite Qof_S in C2. pose proof (Qof_nn m) as Hm.
      assert (0 <= Qof_nat m * dN c)%Q by (apply Qmult_le_0_compat; lra). assert (((Qof_nat m + 1) * dN c == Qof_nat m * dN c + dN c)%Q) by ring. lra.
Qed.
