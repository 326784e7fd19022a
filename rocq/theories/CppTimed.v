(** * CppTimed: the instantaneous travel times that the route search reads are positive. *)
From Verif Require Import Base Types Sim Build Heap Lists Inv FrameBase Tac Frame Eff Eff2 Trace InvStep Reach Steps Effects Phases Attr Life Incoming Vev Ride TripLog Route Green Choice Enforce Counts LinkQueries FD NodeCap Origin Bucket Outflow Trials Motion Spacing Spec Distance Totals SpecDuo Duo Search DuoInv Merge DuoSum CppPaths CppAdj.
Local Open Scope nat_scope.

Definition Timed (w : world) : Prop := forall l, l < w_nl w -> (0 < l_len (L w l))%Q -> forall d, In d (l_tti (L w l)) -> (0 < d)%Q.
Definition TimedK (k : link) : Prop := (0 < l_len k)%Q -> forall d, In d (l_tti k) -> (0 < d)%Q.
Lemma tti_pos : forall c w k d, set_traveltime_instant c w k = Ok (sl_tti (l_tti k ++ [d]) k) ->
  (0 < l_len k)%Q -> (0 <= l_u k)%Q -> (forall x, In x (l_tti k) -> (0 < x)%Q) -> (0 < d)%Q.
Proof.
  intros c w k d H Hl Hu Hx. 
  assert (E : forall e (y : link), Ok (sl_tti (l_tti k ++ [e]) k) = Ok (sl_tti (l_tti k ++ [d]) k) -> e = d).
  { intros e _ K. assert (K' : l_tti (sl_tti (l_tti k ++ [e]) k) = l_tti (sl_tti (l_tti k ++ [d]) k)) by (f_equal; congruence).
    cbn in K'. apply app_inj_tail in K'. tauto. }
  unfold set_traveltime_instant in H. destruct (Nat.eqb (tti_interval c) 0); [discriminate|].
  destruct (Nat.eqb _ _).
  - cbn zeta in H. destruct (qlt 0 (link_speed w k)) eqn:Es.
    + apply E in H; [|exact k]. subst d. apply qlt_iff in Es. apply Qlt_shift_div_l; [exact Es|]. lra.
    + unfold qdiv in H. destruct (qeq _ _) eqn:Eq; [discriminate|]. cbn in H. apply E in H; [|exact k]. subst d.
      apply qeq_false in Eq. assert (0 < l_u k / 100)%Q.
      { assert (Ed : (l_u k / 100 == l_u k * (1#100))%Q) by field. rewrite Ed in Eq |- *. destruct (Qlt_le_dec 0 (l_u k * (1#100))); auto. exfalso. apply Eq. lra. }
      apply Qlt_shift_div_l; [exact H|]. lra.
  - destruct (last_opt (l_tti k)) eqn:El; [|discriminate]. apply E in H; [|exact k]. subst q. apply Hx.
    clear - El. induction (l_tti k) as [|a t IH]; [discriminate|]. cbn in El. destruct t; [injection El as <-; left; auto|right; auto].
Qed.
Lemma body_Timed : forall c w w', Inv2 w None -> Geo w -> body c w = Ok w' -> Timed w -> Timed w'.
Proof.
  intros c w w' I G H C l Hl Hlen. pose proof (body_fr _ _ H) as F. rewrite (fr_w_nl F) in Hl. rewrite (fr_l_len F) in Hlen. specialize (C l Hl Hlen).
  destruct (body_tti _ _ _ I H l Hl) as (d & E & ->). destruct (iofc_tti c (L w l)) as (Et & _).
  intros x Hx. apply in_app_or in Hx. destruct Hx as [Hx | [<- | []]]; [auto|]. destruct (G l Hl) as [G1 G2].
  rewrite <- Et in E. pose proof (iofc_lstat c (L w l)) as K. unfold lstat in K. apply (tti_pos _ _ _ _ E).
  - replace (l_len (in_out_flow_constraint c (L w l))) with (l_len (L w l)) by congruence. exact Hlen.
  - replace (l_u (in_out_flow_constraint c (L w l))) with (l_u (L w l)) by congruence. exact G2.
  - rewrite Et. exact C.
Qed.
Definition ltimed (k : link) := (l_tti k, l_len k).
Lemma ltimed_ok : forall a b, ltimed a = ltimed b -> TimedK b -> TimedK a.
Proof. intros a b E C. unfold ltimed in E. unfold TimedK. replace (l_tti a) with (l_tti b) by congruence. replace (l_len a) with (l_len b) by congruence. exact C. Qed.

Lemma Timed_op : forall c o w w', op_ok o w -> sound_links o w -> (forall a, o <> OExec a) -> apply_op c o w = Ok w' -> Timed w -> Timed w'.
Proof.
  intros c o w w' Ho Hs Hx H C l Hl. change (TimedK (L w' l)).
  assert (Hl0 : (forall a, o <> OAddLink a) -> l < w_nl w).
  { intro K. rewrite <- (op_nl_same c o w w' Hx H Ho K). exact Hl. }
  assert (T : forall x : link, ltimed x = ltimed (L w l) -> l < w_nl w -> TimedK x) by (intros x E K; exact (ltimed_ok _ _ E (C l K))).
  destruct o; cbn [apply_op] in H; try (specialize (Hl0 ltac:(discriminate))).
  - unfold add_node in H. apply bind_ok in H. destruct H as (nd & _ & H). destruct (smem _ _); [discriminate|].
    injection H as <-. apply T; [reflexivity|exact Hl0].
  - unfold add_link in H. cbn zeta in H. destruct (negb _); [discriminate|].
    apply bind_ok in H. destruct H as (k & E & H). destruct (smem _ _); [discriminate|]. injection H as <-.
    destruct (Nat.eq_dec l (w_nl w)) as [-> |Hn].
    + unfold L; cbn. rewrite upd_same. unfold new_link in E. cbn zeta in E.
      assert (K : l_tti k = []) by (binv E; reflexivity). unfold TimedK. rewrite K. intros _ d [].
    + apply T; [|cbn in Hl; lia]. unfold L; cbn. rewrite upd_other by auto. reflexivity.
  - unfold add_vehicle in H. cbn zeta in H. destruct (negb _); [discriminate|]. destruct (smem _ _); [discriminate|].
    injection H as <-. apply T; [reflexivity|exact Hl0].
  - apply adddemand_L in H. apply T; [|exact Hl0]. unfold L. destruct H as (-> & _). reflexivity.
  - apply finalize_ok in H. destruct (fz_L _ _ _ H l) as (q & E). apply T; [rewrite E; reflexivity|exact Hl0].
  - exfalso; eapply Hx; reflexivity.
  - apply add_dest_L in H. apply T; [|exact Hl0]. unfold L. destruct H as (-> & _). reflexivity.
  - unfold enforce_route in H. destruct (negb _); [discriminate|]. injection H as <-. apply T; [reflexivity|exact Hl0].
  - injection H as <-. apply T; [reflexivity|exact Hl0].
  - injection H as <-. apply T; [reflexivity|exact Hl0].
  - destruct (override_L _ _ _ _ _ _ _ H l) as (g & E). apply T; [rewrite E; reflexivity|exact Hl0].
  - unfold change_free_flow_speed in H. cbn zeta in H. apply T; [|exact Hl0]. binv H; rewrite ?L_at; try (destruct (Nat.eqb _ _) eqn:El; [apply Nat.eqb_eq in El; subst|]); reflexivity.
  - unfold change_jam_density in H. cbn zeta in H. apply T; [|exact Hl0]. binv H; rewrite ?L_at; try (destruct (Nat.eqb _ _) eqn:El; [apply Nat.eqb_eq in El; subst|]); reflexivity.
  - injection H as <-. apply T; [|exact Hl0]. rewrite L_at. destruct (Nat.eqb _ _) eqn:El; [apply Nat.eqb_eq in El; subst|]; reflexivity.
  - injection H as <-. apply T; [|exact Hl0]. rewrite L_at. destruct (Nat.eqb _ _) eqn:El; [apply Nat.eqb_eq in El; subst|]; reflexivity.
  - injection H as <-. apply T; [|exact Hl0]. rewrite L_at. destruct (Nat.eqb _ _) eqn:El; [apply Nat.eqb_eq in El; subst|]; reflexivity.
  - unfold add_trip_request in H. destruct (negb _); [discriminate|]. injection H as <-. apply T; [reflexivity|exact Hl0].
  - unfold assign_taxi in H. destruct (negb _); [discriminate|]. apply bind_ok in H. destruct H as (w1 & E & H). injection H as <-.
    apply add_dest_L in E. apply T; [|exact Hl0]. unfold L. cbn. destruct E as (-> & _). reflexivity.
Qed.
Theorem reach_Timed : forall c (P : op -> world -> Prop), (forall o w, P o w -> sound_links o w) -> forall w, reachP c P w -> Timed w.
Proof.
  intros c P HP w H. apply (reachP_ind' c P Timed); [|..|exact H].
  - intros tm l Hl. cbn in Hl. lia.
  - intros a b R Ha S. destruct S as [a o b K1 K2 K3 K4|a b K1 K2|a].
    + eapply Timed_op; eauto.
    + apply tick_fr in K2. destruct K2 as (w1 & E & ->).
      exact (body_Timed _ _ _ (reach_Inv2 _ _ (reachP_reach _ _ _ R)) (reach_Geo c P HP _ R) E Ha).
    + exact Ha.
Qed.
(** after the first timestep, in scenarios with links of positive length *)
Theorem reach_timed : forall c (P : op -> world -> Prop), (forall o w, P o w -> sound_links o w) -> forall w, reachP c P w -> (forall l, exists_link w l -> (0 < l_len (L w l))%Q) -> 0 < w_T w -> timed w.
Proof.
  intros c P HP w R Hlen HT l Hl. pose proof (reach_Timed c P HP w R l Hl (Hlen l Hl)) as D. assert (Ne : l_tti (L w l) <> []).
  { destruct (reach_TInv c w (reachP_reach _ _ _ R)) as [_ X]. destruct (X l Hl) as (_ & _ & X3). intro K. rewrite K in X3. cbn in X3. lia. }
  split; [exact Ne|]. unfold last_tt. destruct (last_opt (l_tti (L w l))) as [q|] eqn:El; [|apply last_opt_nil in El; contradiction]. apply D. clear - El. induction (l_tti (L w l)) as [|a t IH]; [discriminate|]. cbn in El. destruct t; [injection El as <-; left; auto|right; auto].
Qed.
(** the conclusion of [cpp_search_same] for a state [wa] and the tables [rd], [rn] that the Python engine found in it *)
Definition same_search (c : cfg) (wa : world) (series : lid -> list Q) (rd : nid -> nid -> option Q) (rn : nid -> nid -> option nid) : Prop :=
  let m := cpp_costs c wa series in let d := cpp_dist (w_nn wa) m in let nx := no_self (cpp_next (w_nn wa) m) in
  cost_matrix c wa m /\ forall i k, i < w_nn wa -> k < w_nn wa ->
    match d i k, rd i k with Some x, Some y => (x == y)%Q | None, None => True | _, _ => False end /\
    (nx i k = None <-> rn i k = None) /\
    forall x, i <> k -> d i k = Some x ->
      exists j q y j' q' y', nx i k = Some j /\ m i j = Some q /\ d j k = Some y /\ (x == q + y)%Q /\ rn i k = Some j' /\ m i j' = Some q' /\ d j' k = Some y' /\ (x == q' + y')%Q.
(** a timestep in which the routes are searched: in the state at the end of the vehicle updates the compiled search would find what the Python engine leaves behind *)
Theorem cpp_tick_same : forall c (P : op -> world -> Prop) series, (forall o w, P o w -> sound_costs o w) -> correct_routine c -> good_noise c ->
  forall w w', reachP c P w -> tick c w = Ok w' -> Nat.modulo (w_T w) (route_steps c) = 0 -> series_ok c w series -> (forall l, exists_link w l -> (0 < l_len (L w l))%Q) ->
  exists wa, w_T wa = w_T w /\ w_nn wa = w_nn w /\ w_nl wa = w_nl w /\ (forall l, l_tti (L wa l) = l_tti (L w' l) /\ l_toll (L wa l) = l_toll (L w l) /\ l_start (L wa l) = l_start (L w l) /\ l_end (L wa l) = l_end (L w l)) /\
    timed wa /\ same_search c wa series (w_rcdist w') (w_rcnext w').
Proof.
  intros c P series HP Cr Gn w w' R H Hm [S1 S2] Hlen. apply tick_fr in H. destruct H as (w1 & B & ->). assert (HG : forall o x, P o x -> sound_links o x) by (intros o x Hp; exact (proj1 (HP o x Hp))).
  pose proof (reach_Inv2 _ _ (reachP_reach _ _ _ R)) as I. pose proof (reach_Geo c P HG w R) as G. pose proof (reach_Costs c P HP w R) as C. pose proof (reach_Timed c P HG w R) as T.
  destruct (body_duo _ _ _ I B) as [K1 K2 K3|wa wb F Fb Er Et Ia [(K1 & K2 & K3)|(Hs & _)] E']; [contradiction|contradiction|].
  pose proof (wa_costs _ _ _ _ I G B C F Et) as Ca. pose proof (body_fr _ _ B) as F1.
  assert (Ta : timed wa).
  { intros l Hl. unfold exists_link in Hl. rewrite (fr_w_nl F) in Hl. destruct (body_tti _ _ _ I B l Hl) as (d & _ & Ed). assert (Hl1 : l < w_nl w1) by (rewrite (fr_w_nl F1); exact Hl). assert (Len1 : (0 < l_len (L w1 l))%Q) by (rewrite (fr_l_len F1); apply Hlen; exact Hl).
    pose proof (body_Timed _ _ _ I G B T l Hl1 Len1) as Pos. unfold last_tt. rewrite (Et l), Ed in *. split; [intro K; apply app_eq_nil in K; destruct K; discriminate|]. rewrite last_opt_app. apply Pos. apply in_or_app. right. left. reflexivity. }
  assert (Sa : series_ok c wa series).
  { split; [rewrite (fr_w_T F), (fr_w_tsize F); exact S1|]. intros l Hl. unfold exists_link in Hl. rewrite (fr_w_nl F) in Hl. rewrite (S2 l Hl). unfold cpp_series. pose proof (fr_l F l) as K. unfold lstat in K. replace (l_toll (L wa l)) with (l_toll (L w l)) by congruence. rewrite (fr_w_tsize F). reflexivity. }
  exists wa. split; [exact (fr_w_T F)|]. split; [exact (fr_w_nn F)|]. split; [exact (fr_w_nl F)|]. split.
  { intro l. pose proof (fr_l F l) as K. unfold lstat in K. split; [exact (Et l)|]. repeat split; congruence. }
  split; [exact Ta|]. pose proof (cpp_search_same c wa wb series Cr Ta Sa (fun l Hl => link_cost_nonneg c wa l Gn (Ca l Hl)) Hs) as X. unfold same_search.
  assert (E1 : w_rcdist w1 = w_rcdist wb /\ w_rcnext w1 = w_rcnext wb) by (unfold rcw in E'; cbn in E'; split; congruence). destruct E1 as [E1 E2]. cbn [w_rcdist w_rcnext sw_T]. rewrite E1, E2. exact X.
Qed.
