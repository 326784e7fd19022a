(** * CppOut: the outflow of links in the compiled engine (C72). *)
From Coq Require Import Qminmax.
From Verif Require Import Base Types Sim Build Heap Lists Inv FrameBase Tac Frame Eff Eff2 Trace InvStep Reach Steps Effects Phases Attr Life Incoming Vev Ride TripLog Route Signal Green Choice Enforce Counts LinkQueries FD NodeCap Origin Bucket Outflow Trials Motion Spacing Spec Distance Totals.
From Verif Require Import State Cpp SpecCpp CppOK CppOK2 CppLoop CppInv CppSafe CppFlow.
Local Open Scope nat_scope.

(** [k] things happened on the way, [f] telling how many happened in a timestep *)
Inductive ctally (c : cfg) (P : op -> world -> Prop) (f : world -> world -> nat) (w : world) : world -> nat -> Prop :=
| ct_refl : ctally c P f w w 0
| ct_op : forall w1 o w2 k, ctally c P f w w1 k -> op_ok o w1 -> P o w1 -> (forall a, o <> OExec a) -> apply_op c o w1 = Ok w2 -> ctally c P f w w2 k
| ct_tick : forall w1 w2 k, ctally c P f w w1 k -> w_final w1 = true -> cpp_tick c w1 = Ok w2 -> ctally c P f w w2 (k + f w1 w2).
Lemma ctally_creach : forall c P f w w' k, creach c w -> ctally c P f w w' k -> creach c w'.
Proof. intros c P f w w' k R H. induction H as [|w1 o w2 k H IH A _ B E|w1 w2 k H IH F E]; [exact R|eapply cr_op; eauto|eapply cr_tick; eauto]. Qed.

(** ** The steps of the engine's own *)
Lemma cpart_place : forall c b w w', cpart c b w w' -> forall v, vplace (V w' v) = vplace (V w v).
Proof.
  intros c b w w' H. destruct H as [l w w' _ H|n nd w _ H|n w _|u w w' H]; intro v; try reflexivity.
  - unfold cpp_link_update in H. injection H as <-. reflexivity.
  - unfold cpp_follow in H. apply bind_ok in H. destruct H as (l & _ & H). cbv zeta in H. injection H as <-.
    rewrite V_modv. destruct (Nat.eqb v u) eqn:Eq; [|reflexivity]. apply Nat.eqb_eq in Eq; subst u.
    match goal with |- context [if qlt ?a ?b then sv_xnext _ _ else _] => destruct (qlt a b) end; reflexivity.
Qed.
Lemma vplace_eq : forall a b, vplace a = vplace b -> v_state a = v_state b /\ v_link a = v_link b /\ v_larr a = v_larr b.
Proof. intros a b H. unfold vplace in H. injection H as H1 H2 H3. auto. Qed.

Lemma cchain_arrived : forall c b k w w', Inv2 w None -> cchain c b w w' -> w_T w < k -> arrived_before c k w -> arrived_before c k w'.
Proof.
  intros c b k w w' I H Ht A. pose proof (fun x (C : cchain c b w x) => cchain_Inv2 _ _ _ _ I C) as J. induction H as [|x y H IH P|x y H IH P]; [exact A| |].
  - intros v Hv Hl. destruct (vplace_eq _ _ (cpart_place _ _ _ _ P v)) as (_ & E2 & E3). rewrite E3. apply IH; [|congruence].
    pose proof (fr_w_nv (proj1 (cpart_ceq _ _ _ _ P))). lia.
  - eapply arrived_run; [exact (J x H)|exact P| |exact IH]. rewrite (fr_w_T (cchain_fr _ _ _ _ H)). exact Ht.
Qed.
Theorem creach_arrived : forall c w, creach c w -> arrived_before c (w_T w) w.
Proof.
  intros c w R. induction R as [tm|w o w' R IH Ho Hx H|w w' R IH Hf H].
  - intros v Hv. cbn in Hv. lia.
  - pose proof (cpp_op_clock _ _ _ _ R Ho Hx H) as ET. pose proof (apply_op_osteps _ _ _ _ Ho Hx H) as O. pose proof (creach_Inv2 _ _ R) as I. rewrite ET.
    set (k := w_T w) in *. clearbody k. clear - O I IH. induction O as [|a b d O1 O IHO]; auto. apply IHO; [eapply arrived_ostep; eauto|eapply ostep_Inv2; eauto].
  - apply cpp_tick_body in H. destruct H as (w2 & H & ->). pose proof (creach_Inv2 _ _ R) as I. cbn [w_T sw_T].
    apply cpp_body_chain in H; [|exact I]. destruct H as (wa & wb & wc & E1 & C1 & C2 & C3 & C4).
    pose proof (cchain_Inv2 _ _ _ _ I C1) as Ia. pose proof (cchain_Inv2 _ _ _ _ Ia C2) as Ib. pose proof (cchain_Inv2 _ _ _ _ Ib C3) as Ic.
    pose proof (fr_w_T (cchain_fr _ _ _ _ C1)) as T1. pose proof (fr_w_T (cchain_fr _ _ _ _ C2)) as T2. pose proof (fr_w_T (cchain_fr _ _ _ _ C3)) as T3.
    assert (A0 : arrived_before c (S (w_T w)) w) by (intros u Hu Ku; destruct (IH u Hu Ku) as (t & Ht & Et); exists t; split; [lia|auto]).
    apply (cchain_arrived _ _ _ _ _ I C1) in A0; [|lia]. apply (cchain_arrived _ _ _ _ _ Ia C2) in A0; [|lia].
    apply (cchain_arrived _ _ _ _ _ Ib C3) in A0; [|lia]. apply (cchain_arrived _ _ _ _ _ Ic C4) in A0; [|lia]. exact A0.
Qed.
Lemma cgone_start : forall c mark w, creach c w -> (0 < dt c)%Q -> (forall v, v < w_nv w -> mark v = true -> v_link (V w v) <> None) -> gone c mark w w = [].
Proof.
  intros c mark w R Hd Hm. unfold gone. destruct (filter _ _) as [|v r] eqn:E; [reflexivity|exfalso].
  assert (K : In v (v :: r)) by (left; auto). rewrite <- E in K. apply filter_In in K. destruct K as [K1 K2]. apply in_seq in K1.
  apply andb_true_iff in K2. destruct K2 as [K2 K3]. apply Qeq_bool_iff in K3.
  destruct (creach_arrived c w R v) as (t & Ht & Et); [lia|apply Hm; [lia|auto]|]. rewrite Et in K3. unfold now in K3.
  apply Qmult_inj_r in K3; [|lra]. unfold Qof_nat, inject_Z, Qeq in K3. cbn in K3. lia.
Qed.

(** ** A timestep *)
Definition drained (c : cfg) (w0 : world) (r : Q) (l : lid) (x : world) (p : pend) : Prop :=
  Inv2 x p /\ w_T x = w_T w0 /\ w_nv x = w_nv w0 /\ followed_from c w0 x /\
  (l_coutr (L x l) + Qof_nat (List.length (gone c (Outflow.on_link l w0) w0 x)) * dN c <= r)%Q /\
  (List.length (gone c (Outflow.on_link l w0) w0 x) = 0 /\ l_coutr (L x l) = r \/ (0 <= l_coutr (L x l))%Q).

Lemma drained_step : forall c w0 r l e x p x' p', (0 <= dN c)%Q -> not_link e = true -> mstep c e x p x' p' -> drained c w0 r l x p -> drained c w0 r l x' p'.
Proof.
  intros c w0 r l e x p x' p' Hn Ke M (Ix & A1 & A2 & A3 & A4 & A5). pose proof (mstep_fr M) as Fx.
  assert (Hm : forall v, v < w_nv w0 -> Outflow.on_link l w0 v = true -> v_link (V w0 v) <> None).
  { intros v _ K. apply on_link_spec in K. congruence. }
  split; [eapply mstep_Inv2; eauto|]. split; [rewrite (fr_w_T Fx); auto|]. split; [rewrite (fr_w_nv Fx); auto|]. split; [eapply followed_from_step; eauto|].
  destruct (flow_step _ _ _ _ _ _ l Ke Ix M) as [_ FS].
  destruct (gone_step c (Outflow.on_link l w0) w0 e x p x' p' Ix M A1 A2 A3 Hm) as [G|(n & out & v & il & He & Hv & Hk & Hl & G)].
  - set (g := List.length (gone c (Outflow.on_link l w0) w0 x)) in *. set (g' := List.length (gone c (Outflow.on_link l w0) w0 x')) in *.
    assert (Qof_nat g' * dN c <= Qof_nat g * dN c)%Q. { apply Qmult_le_compat_r; auto. unfold Qof_nat. rewrite <- Zle_Qle. lia. }
    destruct FS as [E|(n & out & v & He & E1 & E2)].
    + rewrite E. split; [lra|]. destruct A5 as [[Z1 Z2]|Z]; [left; split; [lia|auto]|auto].
    + rewrite E2. split; [lra|right; lra].
  - apply on_link_spec in Hk. assert (il = l) by congruence. subst il e.
    set (g := List.length (gone c (Outflow.on_link l w0) w0 x)) in *. set (g' := List.length (gone c (Outflow.on_link l w0) w0 x')) in *.
    assert (Qof_nat g' * dN c <= Qof_nat g * dN c + dN c)%Q.
    { assert (H0 : (Qof_nat g' * dN c <= Qof_nat (S g) * dN c)%Q) by (apply Qmult_le_compat_r; auto; unfold Qof_nat; rewrite <- Zle_Qle; lia).
      rewrite Qof_S in H0. assert (((Qof_nat g + 1) * dN c == Qof_nat g * dN c + dN c)%Q) by ring. lra. }
    assert (Z : (dN c <= l_coutr (L x l))%Q /\ l_coutr (L x' l) = (l_coutr (L x l) - dN c)%Q).
    { apply (mstep_eff _ _ _ _ _ _ Ix) in M. cbn [eff] in M.
      destruct M as (-> & -> & cd & ca & rest & q & _ & _ & _ & _ & _ & _ & Hco & _ & Hci & _ & _ & _ & Hcd & Hca & Hr & _ & _ & _ & _ & HL & _).
      split; [auto|]. rewrite HL. cbv zeta. rewrite Nat.eqb_refl. destruct (Nat.eqb l out); reflexivity. }
    destruct Z as [Z1 Z2]. rewrite Z2. split; [lra|right; lra].
Qed.
Lemma drained_chain : forall c w0 r l b x x', b <> PhLinks -> (0 <= dN c)%Q -> cchain c b x x' -> drained c w0 r l x None -> drained c w0 r l x' None.
Proof.
  intros c w0 r l b x x' Hb Hn H D. induction H as [|y z H IH P|y z H IH P]; [exact D| |].
  - destruct IH as (Iy & A1 & A2 & A3 & A4 & A5). pose proof (proj1 (cpart_ceq _ _ _ _ P)) as F.
    destruct (cpart_L _ _ _ _ P) as [(K & _)|EL]; [contradiction|].
    assert (G : gone c (Outflow.on_link l w0) w0 z = gone c (Outflow.on_link l w0) w0 y).
    { unfold gone. apply filter_ext. intro v. destruct (vplace_eq _ _ (cpart_place _ _ _ _ P v)) as (_ & _ & E). rewrite E. reflexivity. }
    split; [eapply cpart_Inv2; eauto|]. split; [rewrite (fr_w_T F); exact A1|]. split; [rewrite (fr_w_nv F); exact A2|].
    split; [|rewrite G, EL; split; assumption].
    intros v k Hv Hk. destruct (vplace_eq _ _ (cpart_place _ _ _ _ P v)) as (E1 & E2 & E3). rewrite E1, E2, E3. apply A3; assumption.
  - refine (@run_inv c (drained c w0 r l) (k_cpp b) _ y z P IH). intros e a p a' p' Ke D' M. eapply drained_step; [exact Hn| |exact M|exact D'].
    destruct b; cbn in Ke; try discriminate; [apply andb_true_iff in Ke; tauto|]. destruct e; cbn in Ke |- *; congruence.
Qed.

Lemma caps_coutr : forall c k, (l_cout k < 10e9)%Q -> l_coutr (cpp_caps c k) = refill (l_cout k * dt c) (dN c * Qof_nat (l_lanes k)) (l_coutr k).
Proof.
  intros c k Hq. unfold cpp_caps, refill. cbv zeta. rewrite (proj2 (qlt_iff _ (10e9)) Hq).
  destruct (qlt (l_coutr k) _); cbn [l_cin l_cinr sl_coutr]; destruct (l_cin k) as [q|]; try reflexivity; (destruct (qlt q (10e9)%Q); [destruct (qlt (l_cinr k) _)|]); reflexivity.
Qed.
Lemma link_coutr : forall c l w w', cpp_link_update c l w = Ok w' -> (l_cout (L w l) < 10e9)%Q ->
  l_coutr (L w' l) = refill (l_cout (L w l) * dt c) (dN c * Qof_nat (l_lanes (L w l))) (l_coutr (L w l)).
Proof.
  intros c l w w' H Hq. unfold cpp_link_update in H. injection H as <-. rewrite L_modl, Nat.eqb_refl. cbn [l_coutr sl_cd sl_ca]. rewrite caps_coutr; [reflexivity|exact Hq].
Qed.
Lemma links_coutr : forall c ls w w', NoDup ls -> foldM (cpp_link_update c) ls w = Ok w' -> (forall v, V w' v = V w v) /\ forall l,
  (In l ls -> (l_cout (L w l) < 10e9)%Q -> l_coutr (L w' l) = refill (l_cout (L w l) * dt c) (dN c * Qof_nat (l_lanes (L w l))) (l_coutr (L w l))) /\
  (~ In l ls -> L w' l = L w l).
Proof.
  intros c ls. induction ls as [|k ls IH]; intros w w' Nd E; cbn [foldM] in E; [injection E as <-; split; [reflexivity|]; split; [intros []|reflexivity]|].
  apply bind_ok in E. destruct E as (w1 & E1 & E). inversion Nd as [|? ? Nk Nd']; subst. destruct (IH w1 w' Nd' E) as [V1 AB].
  pose proof (cpp_link_at _ _ _ _ E1) as (P & _).
  split; [intro v; rewrite V1; unfold cpp_link_update in E1; injection E1 as <-; reflexivity|]. intro l. destruct (AB l) as [A B]. split.
  - intros [->|Hl] Hc; [rewrite (B Nk); eapply link_coutr; eauto|]. assert (Ne : l <> k) by (intros ->; contradiction). rewrite (P l Ne) in A. auto.
  - intro Hl. rewrite B by (intro K; apply Hl; right; exact K). apply P. intros ->. apply Hl. left; reflexivity.
Qed.

Lemma cpp_outflow_tick : forall c w w' l, creach c w -> cpp_tick c w = Ok w' -> l < w_nl w -> (l_cout (L w l) < 10e9)%Q -> (0 < dt c)%Q -> (0 <= dN c)%Q ->
  let r := refill (l_cout (L w l) * dt c) (dN c * Qof_nat (l_lanes (L w l))) (l_coutr (L w l)) in
  let k := List.length (crossed c w w' l) in
  (l_coutr (L w' l) + Qof_nat k * dN c <= r)%Q /\
  (k = 0 /\ l_coutr (L w' l) = r \/ (0 <= l_coutr (L w' l))%Q) /\
  l_cout (L w' l) = l_cout (L w l) /\ l_lanes (L w' l) = l_lanes (L w l) /\ w_nl w' = w_nl w /\ w_T w' = S (w_T w).
Proof.
  intros c w w' l R H Hl Hb Hd Hn r k. apply cpp_tick_body in H. destruct H as (w2 & H & ->). pose proof (creach_Inv2 _ _ R) as I. pose proof (cpp_body_fr _ _ _ H) as F.
  apply cpp_body_chain in H; [|exact I]. destruct H as (wa & wb & wc & E1 & C1 & C2 & C3 & C4).
  destruct (links_coutr c _ _ _ (seq_NoDup _ _) E1) as [EV EL]. destruct (EL l) as [EL1 _]. clear EL. specialize (EL1 ltac:(apply in_seq; lia) Hb).
  pose proof (cchain_Inv2 _ _ _ _ I C1) as Ia. pose proof (cchain_fr _ _ _ _ C1) as Fa.
  assert (D : drained c w r l wa None).
  { split; [exact Ia|]. split; [exact (fr_w_T Fa)|]. split; [exact (fr_w_nv Fa)|]. split. { intros v kk Hv Hk. right; left. rewrite EV. auto. }
    assert (Hm : forall v, v < w_nv w -> Outflow.on_link l w v = true -> v_link (V w v) <> None) by (intros v _ K; apply on_link_spec in K; congruence).
    assert (G : gone c (Outflow.on_link l w) w wa = []).
    { rewrite <- (cgone_start c (Outflow.on_link l w) w R Hd Hm). unfold gone. apply filter_ext. intro v. rewrite EV. reflexivity. }
    rewrite G, EL1. fold r. generalize r. intro r0. cbn [List.length]. split; [unfold Qof_nat; cbn [Z.of_nat]; change (inject_Z 0) with 0%Q; lra|left; split; reflexivity]. }
  apply (drained_chain c w r l PhNodes wa wb ltac:(discriminate) Hn C2) in D. apply (drained_chain c w r l PhFollow wb wc ltac:(discriminate) Hn C3) in D.
  apply (drained_chain c w r l PhVehicles wc w2 ltac:(discriminate) Hn C4) in D. destruct D as (_ & _ & _ & _ & D1 & D2).
  unfold k. rewrite crossed_gone. change (L (sw_T (S (w_T w)) w2) l) with (L w2 l). pose proof (fr_l F l) as FL. unfold lstat in FL.
  split; [exact D1|]. split; [exact D2|]. split; [congruence|]. split; [congruence|]. split; [exact (fr_w_nl F)|reflexivity].
Qed.

(** ** C72 *)
Theorem cpp_outflow : forall c l w w' k, creach c w -> ctally c (keep_cout l) (fun a b => List.length (crossed c a b l)) w w' k ->
  l < w_nl w -> (0 <= l_cout (L w l))%Q -> (l_cout (L w l) < 10e9)%Q -> (0 < dt c)%Q -> (0 <= dN c)%Q ->
  k = 0 \/ (Qof_nat k * dN c <= l_cout (L w l) * dt c * Qof_nat (w_T w' - w_T w) + l_coutr (L w l))%Q.
Proof.
  intros c l w w' k R H Hl Hp Hb Hd Hn.
  enough (G : (l < w_nl w' /\ l_cout (L w' l) = l_cout (L w l) /\ w_T w <= w_T w') /\
    (l_coutr (L w' l) + Qof_nat k * dN c <= l_cout (L w l) * dt c * Qof_nat (w_T w' - w_T w) + l_coutr (L w l))%Q /\
    (k = 0 \/ (0 <= l_coutr (L w' l))%Q)).
  { destruct G as (_ & G1 & [G2|G2]); [auto|right; lra]. }
  assert (Hqd : (0 <= l_cout (L w l) * dt c)%Q) by (apply Qmult_le_0_compat; lra).
  induction H as [|w1 o w2 k H IH Hok Hk Hx E|w1 w2 k H IH Hf E].
  - split; [auto|]. rewrite Nat.sub_diag. unfold Qof_nat. cbn [Z.of_nat]. change (inject_Z 0) with 0%Q. split; [lra|auto].
  - destruct IH as ((A1 & A2 & A4) & B2 & B3). assert (R1 : creach c w1) by (eapply ctally_creach; eauto).
    pose proof (op_nl _ _ _ _ Hx E Hok) as (N1 & _). pose proof (cpp_op_clock _ _ _ _ R1 Hok Hx E) as T1.
    pose proof (keep_cout_op _ _ _ _ _ Hok Hk Hx E A1) as K1. pose proof (op_lflow _ _ _ _ _ Hok Hx E A1) as K2. apply lflow_eq in K2.
    destruct K2 as (_ & _ & _ & K3 & _). rewrite K1, K3, T1. split; [repeat split; auto; lia|]. auto.
  - destruct IH as ((A1 & A2 & A4) & B2 & B3). assert (R1 : creach c w1) by (eapply ctally_creach; eauto).
    destruct (cpp_outflow_tick c w1 w2 l R1 E A1 ltac:(rewrite A2; exact Hb) Hd Hn) as (C1 & C2 & C3 & C4 & C5 & C6). set (j := List.length (crossed c w1 w2 l)) in *.
    split; [repeat split; [lia|congruence|lia]|]. rewrite A2 in C1, C2.
    pose proof (refill_le _ (dN c * Qof_nat (l_lanes (L w1 l))) (l_coutr (L w1 l)) Hqd) as [RL1 RL2].
    split.
    + rewrite C6. replace (S (w_T w1) - w_T w) with (S (w_T w1 - w_T w)) by lia. rewrite Qof_S, Qof_add.
      set (a := (l_cout (L w l) * dt c)%Q) in *. set (z := Qof_nat (w_T w1 - w_T w)) in *.
      assert (((Qof_nat k + Qof_nat j) * dN c == Qof_nat k * dN c + Qof_nat j * dN c)%Q) by ring.
      assert ((a * (z + 1) == a * z + a)%Q) by ring. lra.
    + destruct C2 as [[Z1 Z2]|C2]; [|auto]. rewrite Z1, Nat.add_0_r. destruct B3 as [B3|B3]; [auto|right; rewrite Z2; lra].
Qed.

Lemma cpp_tick_cout : forall c w w' l, creach c w -> cpp_tick c w = Ok w' -> w_nl w' = w_nl w /\ l_cout (L w' l) = l_cout (L w l).
Proof.
  intros c w w' l R E. apply cpp_tick_body in E. destruct E as (w2 & E & ->). pose proof (cpp_body_fr _ _ _ E) as F. split; [exact (fr_w_nl F)|].
  change (L (sw_T (S (w_T w)) w2) l) with (L w2 l). pose proof (fr_l F l) as G. unfold lstat in G. congruence.
Qed.
Lemma cpp_outflow_burst : forall c l w, creachP c (keep_cout l) w -> l < w_nl w -> (0 <= l_cout (L w l))%Q -> (l_cout (L w l) < 10e9)%Q -> (0 < dt c)%Q -> (0 <= dN c)%Q ->
  (0 <= l_coutr (L w l))%Q /\ (l_coutr (L w l) <= dN c * Qof_nat (l_lanes (L w l)) + l_cout (L w l) * dt c)%Q.
Proof.
  intros c l w R Hl Hp Hb Hd Hn. revert Hl Hp Hb. induction R as [tm|w o w' R IH Hok Hk Hx E|w w' R IH Hf E]; intros Hl Hp Hb.
  - cbn in Hl. lia.
  - destruct (le_lt_dec (w_nl w) l) as [Hge|Hlt].
    + destruct (op_link c o w w' l Hok Hx E Hl) as [Hlt _ E1 _|a nm E1 El E2|q0 E1 E2|q0 E1 E2|q0 E1 E2|q0 E1 E2]; try (subst o; cbn in Hok; lia); [lia|].
      subst l. unfold new_link in E2. cbv zeta in E2. repeat (apply bind_ok in E2; destruct E2 as (? & _ & E2)). injection E2 as E2. rewrite <- E2 in *.
      cbn [l_cout l_coutr l_lanes] in *.
      assert (0 <= dN c * Qof_nat (la_lanes a))%Q by (apply Qmult_le_0_compat; auto; apply Qof_nn).
      set (q := match la_cout a with Some q => q | None => _ end) in *. assert (0 <= q * dt c)%Q by (apply Qmult_le_0_compat; lra). split; lra.
    + pose proof (keep_cout_op _ _ _ _ _ Hok Hk Hx E Hlt) as K1. pose proof (op_lflow _ _ _ _ _ Hok Hx E Hlt) as K2. apply lflow_eq in K2.
      destruct K2 as (_ & _ & _ & K3 & _ & K4 & _). rewrite K3, K4, K1. apply IH; auto; rewrite <- K1; auto.
  - pose proof (creachP_creach _ _ _ R) as R1. destruct (cpp_tick_cout c w w' l R1 E) as [F1 F2].
    assert (Hl0 : l < w_nl w) by lia. rewrite F2 in Hp, Hb.
    destruct (cpp_outflow_tick c w w' l R1 E Hl0 Hb Hd Hn) as (C1 & C2 & C3 & C4 & C5 & C6). rewrite C3 in *. rewrite C4. destruct (IH Hl0 Hp Hb) as [J1 J2].
    assert (Hqd : (0 <= l_cout (L w l) * dt c)%Q) by (apply Qmult_le_0_compat; lra).
    pose proof (refill_le _ (dN c * Qof_nat (l_lanes (L w l))) (l_coutr (L w l)) Hqd) as [RL1 RL2].
    pose proof (refill_lim _ (dN c * Qof_nat (l_lanes (L w l))) (l_coutr (L w l)) _ J2 (Qle_refl _)) as RL3.
    assert (0 <= Qof_nat (List.length (crossed c w w' l)) * dN c)%Q by (apply Qmult_le_0_compat; auto; apply Qof_nn).
    split; [|lra]. destruct C2 as [[_ C2]|C2]; [rewrite C2; lra|auto].
Qed.
Theorem cpp_outflow_bound : forall c l w w' k, creachP c (keep_cout l) w ->
  ctally c (keep_cout l) (fun a b => List.length (crossed c a b l)) w w' k ->
  l < w_nl w -> (0 <= l_cout (L w l))%Q -> (l_cout (L w l) < 10e9)%Q -> (0 < dt c)%Q -> (0 <= dN c)%Q ->
  (Qof_nat k * dN c <= l_cout (L w l) * dt c * Qof_nat (w_T w' - w_T w) + l_coutr (L w l))%Q /\
  (l_coutr (L w l) <= dN c * Qof_nat (l_lanes (L w l)) + l_cout (L w l) * dt c)%Q.
Proof.
  intros c l w w' k R H Hl Hp Hb Hd Hn. destruct (cpp_outflow_burst c l w R Hl Hp Hb Hd Hn) as [B1 B2]. split; [|auto].
  assert (0 <= l_cout (L w l) * dt c * Qof_nat (w_T w' - w_T w))%Q by (apply Qmult_le_0_compat; [apply Qmult_le_0_compat; lra|apply Qof_nn]).
  destruct (cpp_outflow c l w w' k (creachP_creach _ _ _ R) H Hl Hp Hb Hd Hn) as [E|E]; [|auto]. subst k.
  assert ((Qof_nat 0 * dN c == 0)%Q) by (unfold Qof_nat; cbn; ring). lra.
Qed.
