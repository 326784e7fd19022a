(** * CppNode: the capacity of nodes in the compiled engine (C72). *)
From Verif Require Import Base Types Sim Build Heap Lists Inv FrameBase Tac Frame Eff Eff2 Trace InvStep Reach Steps Effects Phases Attr Life Incoming Vev Ride TripLog Route Signal Green Choice Enforce Counts LinkQueries FD NodeCap Origin Bucket Outflow Trials Motion Spacing Spec Distance Totals.
From Verif Require Import State Cpp SpecCpp CppOK CppOK2 CppExt CppLog CppLoop CppInv CppSafe CppGreen CppFlow CppOut CppSignal.
Local Open Scope nat_scope.

(** number_of_lanes as the compiled engine counts it, traffi.cpp 228 *)
Definition node_lanes (nd : node) : nat := match n_lanes nd with Some (S m) => S m | _ => 1 end.

Lemma cpp_fcap_remain : forall c nd fc, n_fcap nd = Some fc -> n_fcapr (cpp_flow_capacity_update c nd) = refill (fc * dt c) (dN c * Qof_nat (node_lanes nd)) (n_fcapr nd).
Proof. intros c nd fc H. unfold cpp_flow_capacity_update, refill, node_lanes. rewrite H. cbv zeta. destruct (qlt _ _); reflexivity. Qed.
Lemma cpp_signal_fcap : forall c nd nd', cpp_signal_update c nd = Ok nd' -> n_fcap nd' = n_fcap nd /\ n_lanes nd' = n_lanes nd /\ n_fcapr nd' = n_fcapr nd.
Proof.
  intros c nd nd' H. unfold cpp_signal_update in H. apply bind_ok in H. destruct H as (n1 & H & E). injection E as <-. destruct (1 <? _).
  - apply bind_ok in H. destruct H as (g & _ & H). cbv zeta in H. injection H as <-. destruct (qlt _ _); auto.
  - injection H as <-. auto.
Qed.

(** ** Steps that move nobody *)
Lemma track_same : forall c mark w0 x y, track c mark w0 x None -> Inv2 y None -> fr x y -> (forall v, vplace (V y v) = vplace (V x v)) ->
  track c mark w0 y None /\ gone c mark w0 y = gone c mark w0 x.
Proof.
  intros c mark w0 x y [A1 A2 A3 A4] I F E. split.
  - constructor; [exact I|rewrite (fr_w_T F); exact A2|rewrite (fr_w_nv F); exact A3|]. intros v k Hv Hk. destruct (vplace_eq _ _ (E v)) as (E1 & E2 & E3). rewrite E1, E2, E3. apply A4; assumption.
  - unfold gone. apply filter_ext. intro v. destruct (vplace_eq _ _ (E v)) as (_ & _ & E3). rewrite E3. reflexivity.
Qed.
Lemma cpart_track : forall c b mark w0 x y, cpart c b x y -> track c mark w0 x None -> track c mark w0 y None /\ gone c mark w0 y = gone c mark w0 x.
Proof. intros c b mark w0 x y P T. apply track_same; [exact T|eapply cpart_Inv2; [exact (tr_inv _ _ _ _ _ T)|exact P]|apply (cpart_ceq _ _ _ _ P)|eapply cpart_place; exact P]. Qed.

(** ** The nodes *)
Lemma nodes_fcapr : forall c mark w0 n fc ns w w', NoDup ns -> Forall (fun m => m < w_nn w) ns ->
  (forall v, v < w_nv w0 -> mark v = true -> v_link (V w0 v) <> None) -> foldM (cpp_node_step c) ns w = Ok w' -> track c mark w0 w None ->
  track c mark w0 w' None /\ List.length (gone c mark w0 w') <= List.length (gone c mark w0 w) /\
  (n_fcap (N w n) = Some fc -> n_fcapr (N w' n) = if in_dec Nat.eq_dec n ns then refill (fc * dt c) (dN c * Qof_nat (node_lanes (N w n))) (n_fcapr (N w n)) else n_fcapr (N w n)).
Proof.
  intros c mark w0 n fc ns. induction ns as [|m ns IH]; intros w w' Nd Hns Hm E T; cbn [foldM] in E; [injection E as <-; auto|].
  apply bind_ok in E. destruct E as (w1 & E1 & E). inversion Hns as [|? ? Hl Hr]; subst. inversion Nd as [|? ? Nn Nd']; subst. pose proof (cpp_node_fr _ _ _ _ E1) as F1.
  unfold cpp_node_step in E1. apply bind_ok in E1. destruct E1 as (x & G & E1). apply bind_ok in E1. destruct E1 as (nd & S1 & E1). injection E1 as E1.
  pose proof (frs_fr (generate_frs _ _ _ G)) as Fx. unfold generate in G. assert (Rg : run c (k_ent m) w x) by (eapply gen_loop_ent; eauto).
  destruct (quiet_run c mark w0 n (k_ent m) w x ltac:(intros []; cbn; auto; discriminate) Hm Rg T) as (Tx & Cx & Gx).
  assert (P : cpart c PhNodes x w1) by (rewrite <- E1; apply cp_node; [rewrite (fr_w_nn Fx); exact Hl|exact S1]).
  destruct (cpart_track _ _ _ _ _ _ P Tx) as [T1 G1].
  destruct (IH w1 w' Nd') as (T2 & G2 & C2); auto. { eapply Forall_impl; [|exact Hr]. intros a Ha. cbn in Ha |- *. rewrite (fr_w_nn F1). exact Ha. }
  split; [exact T2|]. split; [rewrite G1 in G2; lia|]. intro Hf.
  assert (Hf1 : n_fcap (N w1 n) = Some fc) by (rewrite (fr_n_fcap F1); exact Hf). rewrite (C2 Hf1).
  assert (Hln : node_lanes (N w1 n) = node_lanes (N w n)) by (unfold node_lanes; rewrite (fr_n_lanes F1); reflexivity). rewrite Hln.
  destruct (cpp_signal_fcap _ _ _ S1) as (S2 & S3 & S4).
  assert (Hx : n_fcap (N x n) = Some fc) by (rewrite (fr_n_fcap Fx); exact Hf).
  destruct (Nat.eq_dec m n) as [->|Ne].
  - assert (V1 : n_fcapr (N w1 n) = refill (fc * dt c) (dN c * Qof_nat (node_lanes (N w n))) (n_fcapr (N w n))).
    { rewrite <- E1, N_at, Nat.eqb_refl, (cpp_fcap_remain c nd fc) by congruence. rewrite S4, Cx. unfold node_lanes. rewrite S3, (fr_n_lanes Fx). reflexivity. }
    rewrite V1. destruct (in_dec Nat.eq_dec n ns) as [K|K]; [contradiction|]. destruct (in_dec Nat.eq_dec n (n :: ns)) as [K'|K']; [reflexivity|elim K'; left; reflexivity].
  - assert (V1 : n_fcapr (N w1 n) = n_fcapr (N w n)) by (rewrite <- E1, N_at; destruct (Nat.eqb n m) eqn:Q; [apply Nat.eqb_eq in Q; congruence|exact Cx]).
    rewrite V1. destruct (in_dec Nat.eq_dec n ns) as [K|K], (in_dec Nat.eq_dec n (m :: ns)) as [K'|K']; try reflexivity; [elim K'; right; exact K|destruct K'; [congruence|contradiction]].
Qed.

(** ** The transfers *)
Definition flowing (c : cfg) (w0 : world) (r : Q) (n : nid) (x : world) (p : pend) : Prop :=
  let g := List.length (gone c (ends_at n w0) w0 x) in
  fr w0 x /\ IncA x p /\ track c (ends_at n w0) w0 x p /\ (n_fcapr (N x n) + Qof_nat g * dN c <= r)%Q /\ (g = 0 /\ n_fcapr (N x n) = r \/ (0 <= n_fcapr (N x n))%Q).
Lemma flowing_step : forall c w0 r n e x p x' p', (0 <= dN c)%Q -> n_fcap (N w0 n) <> None -> k_transfer e = true -> mstep c e x p x' p' -> flowing c w0 r n x p -> flowing c w0 r n x' p'.
Proof.
  intros c w0 r n e x p x' p' Hn Hfc Ke M (A0 & A1 & A2 & A3 & A4). pose proof (mstep_fr M) as Fx. pose proof A2 as A2'. destruct A2 as [B1 B2 B3 B4].
  assert (Hm : forall v, v < w_nv w0 -> ends_at n w0 v = true -> v_link (V w0 v) <> None).
  { intros v _ K E. unfold ends_at in K. rewrite E in K. discriminate. }
  assert (Kf : Phases.k_first e = true) by (destruct e; try discriminate Ke; reflexivity).
  split; [eapply fr_trans; eauto|]. split; [eapply IncA_step; eauto|]. split; [eapply track_step; eauto|].
  assert (He : e <> VNode n) by (intros ->; discriminate).
  pose proof (fcapr_step c e x p x' p' n B1 M He) as FS. set (g := fun y => List.length (gone c (ends_at n w0) w0 y)). fold (g x) in A3, A4. fold (g x').
  destruct (gone_step c (ends_at n w0) w0 e x p x' p' B1 M B2 B3 B4 Hm) as [E|(n' & out & v & il & E & Hv & Hk & Hl & G)].
  + fold (g x') in E. fold (g x) in E. assert (Qof_nat (g x') * dN c <= Qof_nat (g x) * dN c)%Q.
    { apply Qmult_le_compat_r; auto. unfold Qof_nat. rewrite <- Zle_Qle. lia. }
    destruct FS as [[E1 _]|(out & v & il & _ & E1 & E2)].
    * rewrite E1. split; [lra|]. destruct A4 as [[Z1 Z2]|Z]; [left; split; [lia|auto]|auto].
    * rewrite E2. split; [lra|right; lra].
  + fold (g x') in G. fold (g x) in G.
    assert (Qof_nat (g x') * dN c <= Qof_nat (g x) * dN c + dN c)%Q.
    { assert (H0 : (Qof_nat (g x') * dN c <= Qof_nat (S (g x)) * dN c)%Q) by (apply Qmult_le_compat_r; auto; unfold Qof_nat; rewrite <- Zle_Qle; lia).
      rewrite Qof_S in H0. assert (((Qof_nat (g x) + 1) * dN c == Qof_nat (g x) * dN c + dN c)%Q) by ring. lra. }
    subst e. assert (Hn' : n' = n).
    { apply (mstep_eff _ _ _ _ _ _ B1) in M. cbn [eff] in M.
      destruct M as (-> & _ & cd & ca & rest & q & _ & Hin & _ & _ & _ & _ & _ & _ & _ & _ & Hlk & Hst & _).
      destruct (ia_in _ _ A1 _ _ Hin) as (_ & [(k & (S1 & S2 & _) & S3 & _)|[(o & Z)|[Z|Z]]]); [|discriminate|congruence|congruence].
      assert (k = il) by congruence. subst k. unfold ends_at in Hk. rewrite Hl in Hk. apply Nat.eqb_eq in Hk.
      rewrite <- S3, <- Hk. apply (fr_l_end A0). }
    subst n'. destruct FS as [[_ E1]|(out' & v' & il' & _ & E1 & E2)].
    * exfalso. specialize (E1 _ _ _ eq_refl). rewrite (fr_n_fcap A0) in E1. contradiction.
    * rewrite E2. split; [lra|right; lra].
Qed.
Lemma transfers_flowing : forall c w0 r n ns w w', (0 <= dN c)%Q -> n_fcap (N w0 n) <> None -> Forall (fun m => m < w_nn w) ns -> foldM (cpp_transfer c) ns w = Ok w' ->
  flowing c w0 r n w None -> flowing c w0 r n w' None.
Proof.
  intros c w0 r n ns. induction ns as [|m ns IH]; intros w w' Hn Hfc Hns E FL; cbn [foldM] in E; [injection E as <-; auto|].
  apply bind_ok in E. destruct E as (w1 & E1 & E). inversion Hns as [|? ? Hl Hr]; subst. pose proof (cpp_transfer_fr _ _ _ _ E1) as F1. unfold cpp_transfer in E1.
  pose proof (cp_sort c m w Hl) as P. set (x := modn m (fun nd => sn_incoming (sort_ids (n_incoming nd)) nd) w) in *.
  assert (Cx : n_fcapr (N x n) = n_fcapr (N w n)) by (unfold x; rewrite N_at; destruct (Nat.eqb n m) eqn:Q; [apply Nat.eqb_eq in Q; subst; reflexivity|reflexivity]).
  clearbody x.
  assert (FX : flowing c w0 r n x None).
  { destruct FL as (A0 & A1 & A2 & A3 & A4). destruct (cpart_track _ _ _ _ _ _ P A2) as [T1 G1]. unfold flowing. cbv zeta. rewrite G1, Cx.
    split; [eapply fr_trans; [exact A0|apply (cpart_ceq _ _ _ _ P)]|]. split; [exact (inc_cpart _ _ _ _ (or_intror eq_refl) P A1)|]. auto. }
  assert (Hlx : m < w_nn x) by (rewrite (fr_w_nn (proj1 (cpart_ceq _ _ _ _ P))); exact Hl).
  pose proof (@transfer_run c m x w1 Hlx E1) as R1.
  apply (IH w1 w'); auto. { eapply Forall_impl; [|exact Hr]. intros a Ha. cbn in Ha |- *. rewrite (fr_w_nn F1). exact Ha. }
  eapply run_inv with (I := flowing c w0 r n); [|exact R1|exact FX]. intros e y p y' p' Ke FY M. eapply flowing_step; eauto. destruct e; try discriminate Ke; reflexivity.
Qed.

(** ** A timestep *)
Lemma cpp_node_tick : forall c w w' n fc, creach c w -> cpp_tick c w = Ok w' -> n < w_nn w -> n_fcap (N w n) = Some fc -> (0 < dt c)%Q -> (0 <= dN c)%Q ->
  let r := refill (fc * dt c) (dN c * Qof_nat (node_lanes (N w n))) (n_fcapr (N w n)) in
  let k := List.length (crossed_at c w w' n) in
  (n_fcapr (N w' n) + Qof_nat k * dN c <= r)%Q /\
  (k = 0 /\ n_fcapr (N w' n) = r \/ (0 <= n_fcapr (N w' n))%Q) /\
  n_fcap (N w' n) = Some fc /\ node_lanes (N w' n) = node_lanes (N w n) /\ w_nn w' = w_nn w /\ w_T w' = S (w_T w) /\ w_final w' = w_final w.
Proof.
  intros c w w' n fc R H Hn Hfc Hd HN r k. pose proof (creach_Inv2 _ _ R) as I. pose proof (ib_ok _ (creach_IncB _ _ R)) as J.
  apply cpp_tick_body in H. destruct H as (wz & H & ->). pose proof (cpp_body_fr _ _ _ H) as F. unfold cpp_body in H.
  apply bind_ok in H. destruct H as (w1 & H1 & H). apply bind_ok in H. destruct H as (w2 & H2 & H). apply bind_ok in H. destruct H as (w3 & H3 & H).
  apply bind_ok in H. destruct H as (w4 & H4 & H). apply bind_ok in H. destruct H as (w5 & H5 & H). apply bind_ok in H. destruct H as (w6 & H6 & H). injection H as Ew.
  assert (Hm : forall v, v < w_nv w -> ends_at n w v = true -> v_link (V w v) <> None).
  { intros v _ K E. unfold ends_at in K. rewrite E in K. discriminate. }
  assert (T0 : track c (ends_at n w) w w None). { constructor; auto. intros v kk Hv Hk. auto. }
  assert (G0 : gone c (ends_at n w) w w = []) by (apply cgone_start; auto).
  destruct (links_quiet c (seq 0 (w_nl w)) w w1) as (I1 & J1 & V1); auto. { apply Forall_forall; intros l Hl; apply in_seq in Hl; lia. } { apply IncOK_A; exact J. }
  destruct (clinks_N _ _ _ _ H1) as [N1 _].
  assert (C1 : cchain c PhLinks w w1) by (eapply links_chain; [|exact H1]; apply Forall_forall; intros l Hl; apply in_seq in Hl; lia). pose proof (cchain_fr _ _ _ _ C1) as F1.
  destruct (track_same c (ends_at n w) w w w1 T0 I1 F1) as [T1 G1]; [intro v; rewrite V1; reflexivity|].
  destruct (nodes_quiet c (seq 0 (w_nn w1)) w1 w2) as (I2 & J2 & _); auto. { apply Forall_forall; intros l Hl; apply in_seq in Hl; lia. }
  assert (C2 : cchain c PhNodes w1 w2) by (eapply nodes_chain; [| |exact H2]; [intros; eapply node_chain; eauto|apply Forall_forall; intros l Hl; apply in_seq in Hl; lia]). pose proof (cchain_fr _ _ _ _ C2) as F2.
  destruct (nodes_fcapr c (ends_at n w) w n fc (seq 0 (w_nn w1)) w1 w2 (seq_NoDup _ _)) as (T2 & G2 & C2'); auto. { apply Forall_forall; intros l Hl; apply in_seq in Hl; lia. }
  rewrite N1 in C2'. specialize (C2' Hfc). destruct (in_dec Nat.eq_dec n (seq 0 (w_nn w1))) as [_|K]; [|elim K; apply in_seq; rewrite (fr_w_nn F1); lia]. fold r in C2'.
  assert (G2' : gone c (ends_at n w) w w2 = []).
  { rewrite G1, G0 in G2. cbn in G2. destruct (gone c (ends_at n w) w w2) as [|? ?]; [reflexivity|cbn in G2; lia]. }
  assert (FL : flowing c w r n w2 None).
  { unfold flowing. cbv zeta. rewrite G2', C2'. cbn [List.length]. split; [exact (fr_trans F1 F2)|]. split; [exact J2|]. split; [exact T2|]. split; [|left; auto]. generalize r. intro r0.
    assert ((Qof_nat 0 * dN c == 0)%Q) by (unfold Qof_nat; cbn; ring). lra. }
  apply (transfers_flowing c w r n (seq 0 (w_nn w2)) w2 w3 HN ltac:(congruence)) in FL; [|apply Forall_forall; intros l Hl; apply in_seq in Hl; lia|exact H3].
  destruct FL as (_ & _ & T3 & D1 & D2).
  destruct (follow_quiet _ _ _ _ H4) as [N4 V4]. pose proof (follow_chain c _ _ _ H4) as Ch4. pose proof (cchain_Inv2 _ _ _ _ (tr_inv _ _ _ _ _ T3) Ch4) as I4.
  destruct (track_same c (ends_at n w) w w3 w4 T3 I4 (cchain_fr _ _ _ _ Ch4) V4) as [T4 G4].
  pose proof (vehicles_chain c _ _ I4 H5) as Ch5.
  assert (Ch6 : cchain c PhVehicles w4 wz).
  { rewrite <- Ew. eapply cc_run; [|eapply run_one with (e := VTime); [reflexivity|constructor]]. eapply cc_run; [exact Ch5|]. eapply run_weaken; [|eapply route_phase_run; exact H6]. intros [] K; try discriminate K; reflexivity. }
  assert (Z : track c (ends_at n w) w wz None /\ n_fcapr (N wz n) = n_fcapr (N w4 n) /\ List.length (gone c (ends_at n w) w wz) <= List.length (gone c (ends_at n w) w w4)).
  { clear - Ch6 T4 Hm. induction Ch6 as [|x y H IH P|x y H IH P]; [auto|inversion P|]. destruct IH as (Tx & Cx & Gx).
    destruct (quiet_run c (ends_at n w) w n (k_cpp PhVehicles) x y ltac:(intros []; cbn; auto; discriminate) Hm P Tx) as (Ty & Cy & Gy). split; [exact Ty|]. split; [congruence|lia]. }
  destruct Z as (_ & CZ & GZ). rewrite G4 in GZ. rewrite N4 in CZ.
  unfold k. rewrite crossed_at_gone. change (N (sw_T (S (w_T w)) wz) n) with (N wz n). rewrite CZ.
  split. { assert (Qof_nat (List.length (gone c (ends_at n w) w wz)) * dN c <= Qof_nat (List.length (gone c (ends_at n w) w w3)) * dN c)%Q; [|lra].
    apply Qmult_le_compat_r; auto. unfold Qof_nat. rewrite <- Zle_Qle. lia. }
  split. { destruct D2 as [[Z1 Z2]|Z]; [left; split; [lia|auto]|auto]. }
  split; [rewrite <- Hfc; exact (fr_n_fcap F n)|]. split; [unfold node_lanes; rewrite (fr_n_lanes F n); reflexivity|]. split; [exact (fr_w_nn F)|]. split; [reflexivity|exact (fr_w_final F)].
Qed.

(** ** The allowance of nodes *)
Definition cfcap_inv (c : cfg) (w : world) : Prop :=
  forall n fc, n < w_nn w -> n_fcap (N w n) = Some fc -> (0 <= fc)%Q -> (0 <= n_fcapr (N w n) <= dN c * Qof_nat (node_lanes (N w n)) + fc * dt c)%Q.
Lemma cfcap_ostep : forall c w w', (0 < dt c)%Q -> (0 <= dN c)%Q -> ostep c w w' -> cfcap_inv c w -> cfcap_inv c w'.
Proof.
  intros c w w' Hd Hn H A.
  assert (New : forall fc q m, q = (fc * dt c)%Q -> (0 <= fc)%Q -> (0 <= q <= dN c * Qof_nat m + fc * dt c)%Q).
  { intros fc q m -> Hf. assert (0 <= fc * dt c)%Q by (apply Qmult_le_0_compat; lra).
    assert (0 <= dN c * Qof_nat m)%Q by (apply Qmult_le_0_compat; auto; apply Qof_nn). split; lra. }
  destruct H.
  - intros n fc Hn'. unfold added_node in *. cbn [w_nn sw_nn sw_nodes] in Hn'. unfold N. cbn [w_nodes sw_nn sw_nodes]. unfold upd.
    destruct (Nat.eqb n (w_nn w)) eqn:E; intros Hfc Hf.
    + unfold new_node in H0. cbv zeta in H0. apply bind_ok in H0. destruct H0 as ([ph t0] & _ & H0). injection H0 as <-. cbn [n_fcap n_fcapr] in *.
      rewrite Hfc. apply (New fc _ _ eq_refl Hf).
    + apply Nat.eqb_neq in E. apply (A n fc); [lia|auto|auto].
  - intros n fc Hn' Hfc Hf. unfold added_link in *.
    assert (K : n_fcap (N (added_link (la_start a) (la_end a) k w) n) = n_fcap (N w n) /\ n_lanes (N (added_link (la_start a) (la_end a) k w) n) = n_lanes (N w n) /\
      n_fcapr (N (added_link (la_start a) (la_end a) k w) n) = n_fcapr (N w n)).
    { unfold added_link. rewrite !N_at. destruct (Nat.eqb n (la_end a)) eqn:E1, (Nat.eqb n (la_start a)) eqn:E2;
      rewrite ?Nat.eqb_eq, ?Nat.eqb_neq in *; subst; rewrite ?Nat.eqb_refl; try (destruct (Nat.eqb _ _) eqn:E3; [apply Nat.eqb_eq in E3|]); subst; auto. }
    unfold added_link in K. destruct K as (K1 & K2 & K3). rewrite K1 in Hfc. unfold node_lanes. rewrite K2, K3. apply (A n fc); auto.
  - exact A.
  - intros n fc Hn' Hfc Hf. pose proof (finalize_ok _ _ _ _ H0) as Z. pose proof (fz_cnt _ _ _ Z) as Z1. injection Z1; intros.
    assert (Hn0 : n < w_nn w) by lia. rewrite (finalize_node _ _ _ _ n H0 Hn0) in *. destruct (c_adjust c); [|apply A; auto].
    unfold adjust_node_capacity in *. cbv zeta in *. destruct (n_fcap (N w n)) as [fc0|] eqn:Ef; [apply A; auto; rewrite <- Hfc; auto|].
    destruct (map _ (n_in _)); [congruence|]. destruct (map _ (n_out _)); [congruence|]. rewrite N_at, Nat.eqb_refl in *.
    cbn [n_fcap n_fcapr sn_lanes sn_fcapr sn_fcap] in *. injection Hfc as Hfc.
    rewrite Hfc in *. apply (New fc _ _ eq_refl Hf).
  - intros n fc Hn' Hfc Hf. unfold wkeep in H2. injection H2; intros. unfold N in *. rewrite H1 in *. apply (A n fc); [lia|auto|auto].
  - intros n fc Hn' Hfc Hf. unfold wkeep in H2. injection H2; intros. pose proof (H1 n) as Z. unfold nkeep in Z.
    assert (n_fcap (N w' n) = n_fcap (N w n) /\ n_lanes (N w' n) = n_lanes (N w n) /\ n_fcapr (N w' n) = n_fcapr (N w n)) as (K1 & K2 & K3) by (repeat split; congruence).
    rewrite K1 in Hfc. unfold node_lanes. rewrite K2, K3. apply (A n fc); [lia|auto|auto].
Qed.
Theorem creach_fcap : forall c w, creach c w -> (0 < dt c)%Q -> (0 <= dN c)%Q -> cfcap_inv c w.
Proof.
  intros c w R Hd Hn. induction R as [tm|w o w' R IH Ho Hx H|w w' R IH Hf H].
  - intros n fc Hn'. cbn in Hn'. lia.
  - pose proof (apply_op_osteps _ _ _ _ Ho Hx H) as O. clear - O IH Hd Hn. induction O as [|a b d O1 O IHO]; auto. apply IHO. eapply cfcap_ostep; eauto.
  - intros n fc Hn' Hfc Hp. pose proof H as H'. apply cpp_tick_body in H'. destruct H' as (w1 & B & Ew). pose proof (cpp_body_fr _ _ _ B) as F.
    assert (Hn0 : n < w_nn w). { rewrite <- (fr_w_nn F). rewrite Ew in Hn'. exact Hn'. }
    assert (Hf0 : n_fcap (N w n) = Some fc). { rewrite <- Hfc, Ew. symmetry. exact (fr_n_fcap F n). }
    destruct (IH n fc Hn0 Hf0 Hp) as [J1 J2].
    destruct (cpp_node_tick c w w' n fc R H Hn0 Hf0 Hd Hn) as (C1 & C2 & C3 & C4 & C5 & C6 & C7). rewrite C4.
    assert (Hqd : (0 <= fc * dt c)%Q) by (apply Qmult_le_0_compat; lra).
    pose proof (refill_le _ (dN c * Qof_nat (node_lanes (N w n))) (n_fcapr (N w n)) Hqd) as [RL1 RL2].
    pose proof (refill_lim _ (dN c * Qof_nat (node_lanes (N w n))) (n_fcapr (N w n)) _ J2 (Qle_refl _)) as RL3.
    assert (0 <= Qof_nat (List.length (crossed_at c w w' n)) * dN c)%Q by (apply Qmult_le_0_compat; auto; apply Qof_nn).
    split; [destruct C2 as [[_ C2]|C2]; [rewrite C2; lra|auto]|lra].
Qed.

Theorem cpp_node : forall c P n fc w w' k, creach c w -> w_final w = true ->
  ctally c P (fun a b => List.length (crossed_at c a b n)) w w' k ->
  n < w_nn w -> n_fcap (N w n) = Some fc -> (0 <= fc)%Q -> (0 < dt c)%Q -> (0 <= dN c)%Q ->
  (Qof_nat k * dN c <= fc * dt c * Qof_nat (w_T w' - w_T w) + n_fcapr (N w n))%Q /\
  (n_fcapr (N w n) <= dN c * Qof_nat (node_lanes (N w n)) + fc * dt c)%Q.
Proof.
  intros c P n fc w w' k R Hfin H Hn Hf Hp Hd HN. destruct (creach_fcap c w R Hd HN n fc Hn Hf Hp) as [B1 B2]. split; [|auto].
  enough (G : (w_final w' = true /\ n < w_nn w' /\ n_fcap (N w' n) = Some fc /\ w_T w <= w_T w') /\
    (n_fcapr (N w' n) + Qof_nat k * dN c <= fc * dt c * Qof_nat (w_T w' - w_T w) + n_fcapr (N w n))%Q /\
    (0 <= n_fcapr (N w' n))%Q).
  { destruct G as (_ & G1 & G2). lra. }
  assert (Hqd : (0 <= fc * dt c)%Q) by (apply Qmult_le_0_compat; lra).
  induction H as [|w1 o w2 k H IH Hok Hk Hx E|w1 w2 k H IH Hf1 E].
  - split; [auto|]. rewrite Nat.sub_diag. unfold Qof_nat. cbn [Z.of_nat]. change (inject_Z 0) with 0%Q. split; [lra|auto].
  - destruct IH as ((A0 & A1 & A2 & A4) & C2 & C3). assert (R1 : creach c w1) by (eapply ctally_creach; eauto).
    pose proof (cpp_op_clock _ _ _ _ R1 Hok Hx E) as T1. destruct (op_node c o w1 w2 n Hok Hx E A0 A1) as (K1 & K2 & K3 & K4 & K5).
    rewrite K1, K3, T1. split; [repeat split; auto; lia|]. auto.
  - destruct IH as ((A0 & A1 & A2 & A4) & C2 & C3). assert (R1 : creach c w1) by (eapply ctally_creach; eauto).
    destruct (cpp_node_tick c w1 w2 n fc R1 E A1 A2 Hd HN) as (D1 & D2 & D3 & D4 & D5 & D6 & D7). set (j := List.length (crossed_at c w1 w2 n)) in *.
    split; [repeat split; [congruence|lia|auto|lia]|].
    pose proof (refill_le _ (dN c * Qof_nat (node_lanes (N w1 n))) (n_fcapr (N w1 n)) Hqd) as [RL1 RL2].
    split.
    + rewrite D6. replace (S (w_T w1) - w_T w) with (S (w_T w1 - w_T w)) by lia. rewrite Qof_S, Qof_add.
      set (a := (fc * dt c)%Q) in *. set (z := Qof_nat (w_T w1 - w_T w)) in *.
      assert (((Qof_nat k + Qof_nat j) * dN c == Qof_nat k * dN c + Qof_nat j * dN c)%Q) by ring.
      assert ((a * (z + 1) == a * z + a)%Q) by ring. lra.
    + destruct D2 as [[Z1 Z2]|D2]; [|auto]. rewrite Z2. lra.
Qed.
