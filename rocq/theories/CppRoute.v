(** * CppRoute: the route search in the states of the compiled engine. *)
From Verif Require Import Base Types Sim Build Heap Lists Inv FrameBase Tac Frame Eff Eff2 Trace InvStep Reach Steps Effects Phases Attr Life Incoming Vev Ride TripLog Route Green Choice Enforce Counts LinkQueries FD NodeCap Origin Bucket Outflow Trials Motion Spacing Spec Distance Totals SpecDuo Duo Search DuoInv Merge DuoSum CppPaths CppAdj CppTimed.
From Verif Require Import State Cpp SpecCpp CppOK CppOK2 CppExt CppLog CppLoop CppInv CppSafe CppGreen.
Local Open Scope nat_scope.

(** lengths and speeds of links are positive, tolls are not negative *)
Definition proper_links (o : op) (w : world) : Prop :=
  sound_costs o w /\
  match o with
  | OAddLink a => (0 < la_len a)%Q /\ (0 < la_ffs a)%Q
  | OChangeSpeed _ q => ~ (q == 0)%Q
  | _ => True
  end.
Definition PGeo (w : world) : Prop := forall l, l < w_nl w -> (0 < l_len (L w l))%Q /\ (0 < l_u (L w l))%Q.
Lemma PGeo_op : forall c o w w', op_ok o w -> proper_links o w -> (forall a, o <> OExec a) -> apply_op c o w = Ok w' -> PGeo w -> PGeo w'.
Proof.
  intros c o w w' Ho [_ P] Hx H G l Hl.
  destruct (op_link c o w w' l Ho Hx H Hl) as [K1 K2 _ _|a nm -> K1 K2|q -> K|q -> K|q -> K|q -> K].
  - unfold lpar in K2. assert (E1 : l_len (L w' l) = l_len (L w l)) by congruence.
    assert (E2 : l_u (L w' l) = l_u (L w l)) by congruence. rewrite E1, E2. apply G. exact K1.
  - apply new_link_par in K2. destruct K2 as (-> & -> & _). exact P.
  - assert (Hl0 : l < w_nl w) by (rewrite <- (op_nl_same _ _ _ _ Hx H Ho) by discriminate; exact Hl). cbn in P.
    apply change_speed_par in K. destruct K as [-> |(K1 & -> & -> & _)]; [apply G; exact Hl0|]. split; [apply G; exact Hl0|]. destruct (Qlt_le_dec 0 q); [assumption|exfalso; apply P; lra].
  - assert (Hl0 : l < w_nl w) by (rewrite <- (op_nl_same _ _ _ _ Hx H Ho) by discriminate; exact Hl).
    apply change_jam_par in K. destruct K as [-> |(_ & -> & -> & _)]; apply G; exact Hl0.
  - assert (Hl0 : l < w_nl w) by (rewrite <- (op_nl_same _ _ _ _ Hx H Ho) by discriminate; exact Hl). rewrite K. apply G. exact Hl0.
  - assert (Hl0 : l < w_nl w) by (rewrite <- (op_nl_same _ _ _ _ Hx H Ho) by discriminate; exact Hl). rewrite K. apply G. exact Hl0.
Qed.

(** ** Travel times of a timestep *)
Lemma travel_time_pos : forall c w k, (0 < l_len k)%Q -> (0 < l_u k)%Q -> (forall d, In d (l_tti k) -> (0 < d)%Q) -> (w_T w <> 0 -> l_tti k <> []) -> (0 < cpp_travel_time c w (last (l_tti k) 0%Q) k)%Q.
Proof.
  intros c w k Hl Hu Hd Hn. unfold cpp_travel_time. assert (U : (0 < l_u k / 100)%Q) by (apply Qlt_shift_div_l; lra). destruct (negb _) eqn:E.
  - destruct (Nat.eqb_spec (w_T w) 0) as [Z|Z]; [exfalso; rewrite Z in E; apply negb_true_iff in E; apply Nat.eqb_neq in E; apply E; destruct (tti_interval c); [reflexivity|apply Nat.mod_0_l; discriminate]|].
    apply Hd. specialize (Hn Z). destruct (l_tti k) as [|x xs]; [contradiction|]. clear. revert x. induction xs as [|y ys IH]; intro x; [left; reflexivity|]. right. exact (IH y).
  - destruct (l_vehs k) as [|v vs]; [apply Qlt_shift_div_l; [exact Hu|lra]|]. cbv zeta. destruct (qlt 0 _) eqn:A; [apply qlt_iff in A; apply Qlt_shift_div_l; [exact A|lra]|]. apply Qlt_shift_div_l; [exact U|lra].
Qed.
Lemma link_tti : forall c l w w', cpp_link_update c l w = Ok w' -> w_T w' = w_T w /\ l_tti (L w' l) = l_tti (L w l) ++ [cpp_travel_time c w (last (l_tti (L w l)) 0%Q) (L w l)].
Proof.
  intros c l w w' H. unfold cpp_link_update in H. injection H as <-. split; [reflexivity|]. rewrite L_modl, Nat.eqb_refl.
  pose proof (cpp_caps_hist c (sl_tti (l_tti (L w l) ++ [cpp_travel_time c w (last (l_tti (L w l)) 0%Q) (L w l)]) (L w l))) as H.
  match type of H with lhist ?x = _ => generalize dependent x end. intros x H. unfold lhist in H. cbn in H. injection H as E1 E2 E3 E4 _. cbn. exact E3 || exact E4 || exact E2 || exact E1.
Qed.
Definition kept (T : nat) (k : link) : Prop := (0 < l_len k)%Q /\ (0 < l_u k)%Q /\ (forall d, In d (l_tti k) -> (0 < d)%Q) /\ (T <> 0 -> l_tti k <> []).
Lemma links_tti : forall c T ls w w', NoDup ls -> foldM (cpp_link_update c) ls w = Ok w' -> w_T w = T -> (forall l, In l ls -> kept T (L w l)) ->
  forall l, (In l ls -> exists x, l_tti (L w' l) = l_tti (L w l) ++ [x] /\ (0 < x)%Q) /\ (~ In l ls -> L w' l = L w l).
Proof.
  intros c T ls. induction ls as [|k ls IH]; intros w w' Nd E ET G l; cbn [foldM] in E; [injection E as <-; split; [intros []|reflexivity]|].
  apply bind_ok in E. destruct E as (w1 & E1 & E). inversion Nd as [|? ? Nk Nd']; subst. destruct (link_tti _ _ _ _ E1) as [T1 T2]. apply cpp_link_at in E1. destruct E1 as (P & _).
  assert (G1 : forall x, In x ls -> kept (w_T w) (L w1 x)) by (intros x Hx; rewrite P by (intros ->; contradiction); apply G; right; exact Hx).
  destruct (IH w1 w' Nd' E T1 G1 l) as [A B]. split.
  - intros [->|Hl].
    + rewrite (B Nk), T2. eexists. split; [reflexivity|]. destruct (G l (or_introl eq_refl)) as (K1 & K2 & K3 & K4). apply travel_time_pos; assumption.
    + destruct (A Hl) as (x & X1 & X2). exists x. split; [|exact X2]. rewrite X1, P by (intros ->; contradiction). reflexivity.
  - intro Hl. rewrite B by (intro K; apply Hl; right; exact K). apply P. intros ->. apply Hl. left; reflexivity.
Qed.
Lemma cchain_tti : forall c b w w', b <> PhLinks -> Inv2 w None -> cchain c b w w' -> forall l, l_tti (L w' l) = l_tti (L w l).
Proof.
  intros c b w w' Hb I H l. enough (Inv2 w' None /\ l_tti (L w' l) = l_tti (L w l)) by tauto. induction H as [|x y H IH P|x y H IH P]; [auto| |]; destruct IH as [Ix Ex].
  - split; [eapply cpart_Inv2; eauto|]. destruct (cpart_L _ _ _ _ P) as [(K & _)|E]; [contradiction|]. rewrite E. exact Ex.
  - split; [eapply run_Inv2'; eauto|]. assert (R : run c not_link x y).
    { eapply run_weaken; [|exact P]. intros e He. destruct b; cbn in He; try discriminate; [apply andb_true_iff in He; tauto|]. destruct e; cbn in He |- *; congruence. }
    destruct (run_same_past _ _ _ Ix R l) as (S1 & _ & S2 & _ & S3). congruence.
Qed.
(** the state in which the routes are searched *)
Lemma body_before : forall c w w', Inv2 w None -> cpp_body c w = Ok w' -> TInv w -> PGeo w -> Timed w ->
  exists w5 w6, route_phase c w5 = Ok w6 /\ w' = sw_TIME (now c w6) w6 /\ fr w w5 /\ Inv2 w5 None /\ (forall l, l < w_nl w -> exists x, l_tti (L w5 l) = l_tti (L w l) ++ [x] /\ (0 < x)%Q) /\
    forall l, l_tti (L w' l) = l_tti (L w5 l).
Proof.
  intros c w w' I H TI G Tm. pose proof H as H0. unfold cpp_body in H.
  apply bind_ok in H. destruct H as (w1 & H1 & H). apply bind_ok in H. destruct H as (w2 & H2 & H). apply bind_ok in H. destruct H as (w3 & H3 & H).
  apply bind_ok in H. destruct H as (w4 & H4 & H). apply bind_ok in H. destruct H as (w5 & H5 & H). apply bind_ok in H. destruct H as (w6 & H6 & H). injection H as <-.
  assert (C1 : cchain c PhLinks w w1) by (eapply links_chain; [|exact H1]; apply Forall_forall; intros l Hl; apply in_seq in Hl; lia).
  assert (C2 : cchain c PhNodes w1 w2) by (eapply nodes_chain; [| |exact H2]; [intros; eapply node_chain; eauto|apply Forall_forall; intros l Hl; apply in_seq in Hl; lia]).
  assert (C3 : cchain c PhNodes w2 w3) by (eapply nodes_chain; [| |exact H3]; [intros; eapply transfer_chain; eauto|apply Forall_forall; intros l Hl; apply in_seq in Hl; lia]).
  assert (C4 : cchain c PhFollow w3 w4) by (eapply follow_chain; exact H4).
  pose proof (cchain_Inv2 _ _ _ _ I C1) as I1. pose proof (cchain_Inv2 _ _ _ _ I1 C2) as I2. pose proof (cchain_Inv2 _ _ _ _ I2 C3) as I3. pose proof (cchain_Inv2 _ _ _ _ I3 C4) as I4.
  assert (C5 : cchain c PhVehicles w4 w5) by (apply vehicles_chain in H5; [exact H5|exact I4]). pose proof (cchain_Inv2 _ _ _ _ I4 C5) as I5.
  assert (F5 : fr w w5) by (clear - H1 H2 H3 H4 H5; apply foldM_rel with (Rel := fr) in H1; [|apply fr_refl|apply fr_trans|intros; eapply cpp_link_fr; eauto];
    apply foldM_rel with (Rel := fr) in H2; [|apply fr_refl|apply fr_trans|intros; eapply cpp_node_fr; eauto];
    apply foldM_rel with (Rel := fr) in H3; [|apply fr_refl|apply fr_trans|intros; eapply cpp_transfer_fr; eauto];
    unfold cpp_phase_follow in H4; apply foldM_rel with (Rel := fr) in H4; [|apply fr_refl|apply fr_trans|intros; eapply cpp_follow_fr; eauto];
    apply vehicles_frs, frs_fr in H5; eapply fr_trans; [exact H1|]; eapply fr_trans; [exact H2|]; eapply fr_trans; [exact H3|]; eapply fr_trans; [exact H4|exact H5]).
  exists w5, w6. split; [exact H6|]. split; [reflexivity|]. split; [exact F5|]. split; [exact I5|]. split.
  - intros l Hl. rewrite (cchain_tti c PhVehicles w4 w5 ltac:(discriminate) I4 C5 l), (cchain_tti c PhFollow w3 w4 ltac:(discriminate) I3 C4 l), (cchain_tti c PhNodes w2 w3 ltac:(discriminate) I2 C3 l), (cchain_tti c PhNodes w1 w2 ltac:(discriminate) I1 C2 l).
    destruct (links_tti c (w_T w) _ _ _ (seq_NoDup _ _) H1 eq_refl) with (l := l) as [A _]; [|apply A; apply in_seq; lia]. intros k Hk. apply in_seq in Hk. destruct (G k) as [G1 G2]; [lia|]. split; [exact G1|]. split; [exact G2|]. split; [intros d Hd; exact (Tm k ltac:(lia) G1 d Hd)|].
    intro NT. destruct TI as [_ X]. destruct (X k) as (_ & _ & X3); [lia|]. intro K. rewrite K in X3. cbn in X3. lia.
  - intro l. change (L (sw_TIME (now c w6) w6) l) with (L w6 l). apply route_phase_run in H6. assert (R : run c not_link w5 w6) by (eapply run_weaken; [|exact H6]; intros [] K; try discriminate K; reflexivity).
    destruct (run_same_past _ _ _ I5 R l) as (S1 & _ & S2 & _ & S3). congruence.
Qed.

Theorem creach_proper : forall c (P : op -> world -> Prop), (forall o w, P o w -> proper_links o w) -> forall w, creachP c P w -> PGeo w /\ Costs w /\ Timed w.
Proof.
  intros c P HP w R. induction R as [tm|w o w' R IH Ho Hp Hx H|w w' R IH Hf H].
  - split; [|split]; intros l Hl; cbn in Hl; lia.
  - destruct IH as (G & C & T). pose proof (HP o w Hp) as Pr. split; [eapply PGeo_op; eauto|]. split; [eapply Costs_op; eauto; exact (proj1 Pr)|]. eapply Timed_op; eauto. exact (proj1 (proj1 Pr)).
  - destruct IH as (G & C & T). pose proof (creachP_creach _ _ _ R) as R0. pose proof (creach_Inv2 _ _ R0) as I. pose proof (creach_TInv _ _ R0) as TI. apply cpp_tick_body in H. destruct H as (w1 & B & ->). pose proof (cpp_body_fr _ _ _ B) as F.
    destruct (body_before _ _ _ I B TI G T) as (w5 & w6 & _ & _ & _ & _ & Ht & He).
    assert (Pos : forall l, l < w_nl w -> forall d, In d (l_tti (L w1 l)) -> (0 < d)%Q).
    { intros l Hl d Hd. rewrite (He l) in Hd. destruct (Ht l Hl) as (x & E & X). rewrite E in Hd. apply in_app_or in Hd. destruct Hd as [Hd|[<-|[]]]; [|exact X]. exact (T l Hl (proj1 (G l Hl)) d Hd). }
    split; [|split]; intros l Hl; change (L (sw_T (S (w_T w)) w1) l) with (L w1 l); change (w_nl (sw_T (S (w_T w)) w1)) with (w_nl w1) in Hl; rewrite (fr_w_nl F) in Hl.
    + rewrite (fr_l_len F), (fr_l_u F). apply G. exact Hl.
    + destruct (C l Hl) as (C1 & C2 & C3). split; [intros d Hd; pose proof (Pos l Hl d Hd); lra|]. split; [intro t; rewrite (toll_lstat _ _ t (fr_l F l)); apply C2|]. pose proof (fr_l F l) as K. unfold lstat in K. replace (l_penalty (L w1 l)) with (l_penalty (L w l)) by congruence. exact C3.
    + intros _. exact (Pos l Hl).
Qed.
Lemma phase_search : forall c w w', route_phase c w = Ok w' -> Nat.modulo (w_T w) (route_steps c) = 0 -> exists wb, route_search_all c w = Ok wb /\ w_rcdist w' = w_rcdist wb /\ w_rcnext w' = w_rcnext wb.
Proof.
  intros c w w' E Hm. unfold route_phase in E. rewrite Hm in E. cbn [Nat.eqb] in E. cbv zeta in E. destruct (c_gradual c).
  - apply bind_ok in E. destruct E as (wb & Eb & E). destruct (qeq _ _) in E; [discriminate|]. injection E as <-. exists wb. split; [exact Eb|]. split; reflexivity.
  - apply bind_ok in E. destruct E as (wb & Eb & E). exists wb. split; [exact Eb|].
    assert (K : rcw w' = rcw (homogeneous_DUO_update c wb)).
    { revert E. apply (foldM_inv (fun x => rcw x = rcw (homogeneous_DUO_update c wb))); auto. intros v a a' _ Ha F. apply rc_pref in F. congruence. }
    unfold rcw in K. cbn in K. split; congruence.
Qed.
(** a timestep of the compiled engine in which the routes are searched: the model takes the search of the Python engine; the compiled one finds the same *)
Theorem cpp_engine_search : forall c (P : op -> world -> Prop) series, (forall o w, P o w -> proper_links o w) -> correct_routine c -> good_noise c ->
  forall w w', creachP c P w -> cpp_tick c w = Ok w' -> Nat.modulo (w_T w) (route_steps c) = 0 -> series_ok c w series ->
  exists wa, w_T wa = w_T w /\ w_nn wa = w_nn w /\ w_nl wa = w_nl w /\ (forall l, l_tti (L wa l) = l_tti (L w' l) /\ l_toll (L wa l) = l_toll (L w l) /\ l_start (L wa l) = l_start (L w l) /\ l_end (L wa l) = l_end (L w l)) /\
    timed wa /\ same_search c wa series (w_rcdist w') (w_rcnext w').
Proof.
  intros c P series HP Cr Gn w w' R H Hm [S1 S2]. destruct (creach_proper c P HP w R) as (G & C & T). pose proof (creachP_creach _ _ _ R) as R0. pose proof (creach_Inv2 _ _ R0) as I. pose proof (creach_TInv _ _ R0) as TI.
  apply cpp_tick_body in H. destruct H as (w1 & B & ->). destruct (body_before _ _ _ I B TI G T) as (wa & w6 & Ph & E6 & F & Ia & Ht & He). destruct (phase_search c wa w6 Ph) as (wb & Hs & Ed & En); [rewrite (fr_w_T F); exact Hm|].
  assert (Pos : forall l, l < w_nl w -> forall d, In d (l_tti (L wa l)) -> (0 < d)%Q).
  { intros l Hl d Hd. destruct (Ht l Hl) as (x & E & X). rewrite E in Hd. apply in_app_or in Hd. destruct Hd as [Hd|[<-|[]]]; [|exact X]. exact (T l Hl (proj1 (G l Hl)) d Hd). }
  assert (Ta : timed wa).
  { intros l Hl. unfold exists_link in Hl. rewrite (fr_w_nl F) in Hl. destruct (Ht l Hl) as (x & E & X). unfold last_tt. rewrite E, last_opt_app. split; [intro K; apply app_eq_nil in K; destruct K; discriminate|exact X]. }
  assert (Sa : series_ok c wa series).
  { split; [rewrite (fr_w_T F), (fr_w_tsize F); exact S1|]. intros l Hl. unfold exists_link in Hl. rewrite (fr_w_nl F) in Hl. rewrite (S2 l Hl). unfold cpp_series. pose proof (fr_l F l) as K. unfold lstat in K. replace (l_toll (L wa l)) with (l_toll (L w l)) by congruence. rewrite (fr_w_tsize F). reflexivity. }
  assert (Ca : forall l, exists_link wa l -> (0 <= link_cost c wa l)%Q).
  { intros l Hl. unfold exists_link in Hl. rewrite (fr_w_nl F) in Hl. apply link_cost_nonneg; [exact Gn|]. destruct (C l Hl) as (C1 & C2 & C3). split; [intros d Hd; pose proof (Pos l Hl d Hd); lra|]. split; [intro t; rewrite (toll_lstat _ _ t (fr_l F l)); apply C2|].
    pose proof (fr_l F l) as K. unfold lstat in K. replace (l_penalty (L wa l)) with (l_penalty (L w l)) by congruence. exact C3. }
  exists wa. split; [exact (fr_w_T F)|]. split; [exact (fr_w_nn F)|]. split; [exact (fr_w_nl F)|]. split.
  { intro l. pose proof (fr_l F l) as K. unfold lstat in K. split; [symmetry; exact (He l)|]. repeat split; congruence. }
  split; [exact Ta|]. pose proof (cpp_search_same c wa wb series Cr Ta Sa Ca Hs) as X. unfold same_search.
  assert (E1 : w_rcdist w1 = w_rcdist wb /\ w_rcnext w1 = w_rcnext wb) by (rewrite E6; cbn [w_rcdist w_rcnext sw_TIME]; auto). destruct E1 as [E1 E2]. cbn [w_rcdist w_rcnext sw_T]. rewrite E1, E2. exact X.
Qed.
