(** * DuoSum: costs are not negative; a node from which the destination is always reached has
    preferences that sum to 1; the preferred links after the first update. *)
From Verif Require Import Base Types Sim Build Heap Lists Inv FrameBase Tac Frame Eff Eff2 Trace InvStep Reach Steps Effects Phases Attr Life Incoming Vev Ride TripLog Route Green Choice Enforce Counts LinkQueries FD NodeCap Origin Bucket Outflow Trials Motion Spacing Spec Distance Totals SpecDuo Duo Search DuoInv Merge.
Local Open Scope nat_scope.

(** ** Costs *)
Definition CostOK (k : link) : Prop := (forall d, In d (l_tti k) -> (0 <= d)%Q) /\ (forall t, (0 <= get_toll k t)%Q) /\ (0 <= l_penalty k)%Q.
Definition Costs (w : world) : Prop := forall l, l < w_nl w -> CostOK (L w l).

Lemma body_tti : forall c w w', Inv2 w None -> body c w = Ok w' -> forall l, l < w_nl w ->
  exists d, set_traveltime_instant c w (in_out_flow_constraint c (L w l)) =
       Ok (sl_tti (l_tti (L w l) ++ [d]) (in_out_flow_constraint c (L w l))) /\ l_tti (L w' l) = l_tti (L w l) ++ [d].
Proof.
  intros c w w' I H l Hl. destruct (body_split _ _ _ H) as (w1 & E & R).
  assert (I1 : Inv2 w1 None) by (eapply run_Inv2; [eapply phase_links_run; eauto|auto]).
  destruct (phase_links_eff _ _ _ E) as (_ & _ & _ & _ & P). destruct (P l Hl) as (d & E1 & Ed).
  destruct (run_same_past _ _ _ I1 R l) as (S1 & S2 & S3 & S4 & S5).
  exists d. split; [exact E1|]. rewrite Ed in *. unfold linked in *. rs. cbn in S1, S2, S3, S4, S5. congruence.
Qed.

Lemma tti_value : forall c w k d, set_traveltime_instant c w k = Ok (sl_tti (l_tti k ++ [d]) k) ->
  (0 <= l_len k)%Q -> (0 <= l_u k)%Q -> (forall x, In x (l_tti k) -> (0 <= x)%Q) -> (0 <= d)%Q.
Proof.
  intros c w k d H Hl Hu Hx. 
  assert (E : forall e (y : link), Ok (sl_tti (l_tti k ++ [e]) k) = Ok (sl_tti (l_tti k ++ [d]) k) -> e = d).
  { intros e _ K. assert (K' : l_tti (sl_tti (l_tti k ++ [e]) k) = l_tti (sl_tti (l_tti k ++ [d]) k)) by (f_equal; congruence).
    cbn in K'. apply app_inj_tail in K'. tauto. }
  unfold set_traveltime_instant in H. destruct (Nat.eqb (tti_interval c) 0); [discriminate|].
  destruct (Nat.eqb _ _).
  - cbn zeta in H. destruct (qlt 0 (link_speed w k)) eqn:Es.
    + apply E in H; [|exact k]. subst d. apply qlt_iff in Es. apply Qle_shift_div_l; [exact Es|]. lra.
    + unfold qdiv in H. destruct (qeq _ _) eqn:Eq; [discriminate|]. cbn in H. apply E in H; [|exact k]. subst d.
      apply qeq_false in Eq. assert (0 < l_u k / 100)%Q.
      { assert (Ed : (l_u k / 100 == l_u k * (1#100))%Q) by field. rewrite Ed in Eq |- *. destruct (Qlt_le_dec 0 (l_u k * (1#100))); auto. exfalso. apply Eq. lra. }
      apply Qle_shift_div_l; [exact H|]. lra.
  - destruct (last_opt (l_tti k)) eqn:El; [|discriminate]. apply E in H; [|exact k]. subst q. apply Hx.
    clear - El. induction (l_tti k) as [|a t IH]; [discriminate|]. cbn in El. destruct t; [injection El as <-; left; auto|right; auto].
Qed.

Lemma iofc_lstat : forall c k, lstat (in_out_flow_constraint c k) = lstat k.
Proof. intros c k. unfold in_out_flow_constraint. destruct (l_cin k); [|reflexivity]. destruct (qlt _ _); destruct (qlt _ _); reflexivity. Qed.

Lemma toll_lstat : forall a b t, lstat a = lstat b -> get_toll a t = get_toll b t.
Proof. intros a b t H. unfold lstat in H. unfold get_toll. replace (l_toll a) with (l_toll b) by congruence. replace (l_penalty a) with (l_penalty b) by congruence. reflexivity. Qed.

Lemma body_Costs : forall c w w', Inv2 w None -> Geo w -> body c w = Ok w' -> Costs w -> Costs w'.
Proof.
  intros c w w' I G H C l Hl. pose proof (body_fr _ _ H) as F. rewrite (fr_w_nl F) in Hl. destruct (C l Hl) as (C1 & C2 & C3). split; [|split].
  - destruct (body_tti _ _ _ I H l Hl) as (d & E & ->). destruct (iofc_tti c (L w l)) as (Et & _).
    intros x Hx. apply in_app_or in Hx. destruct Hx as [Hx | [<- | []]]; [auto|]. destruct (G l Hl) as [G1 G2].
    rewrite <- Et in E. pose proof (iofc_lstat c (L w l)) as K. unfold lstat in K. apply (tti_value _ _ _ _ E).
    + replace (l_len (in_out_flow_constraint c (L w l))) with (l_len (L w l)) by congruence. exact G1.
    + replace (l_u (in_out_flow_constraint c (L w l))) with (l_u (L w l)) by congruence. exact G2.
    + rewrite Et. exact C1.
  - intro t. rewrite (toll_lstat _ _ t (fr_l F l)). apply C2.
  - pose proof (fr_l F l) as K. unfold lstat in K. replace (l_penalty (L w' l)) with (l_penalty (L w l)) by congruence. exact C3.
Qed.

(** tolls and recorded travel times under the operations *)
Definition lcost (k : link) := (l_tti k, l_toll k, l_penalty k).
Lemma lcost_ok : forall a b, lcost a = lcost b -> CostOK b -> CostOK a.
Proof.
  intros a b E (C1 & C2 & C3). unfold lcost in E. split; [|split].
  - replace (l_tti a) with (l_tti b) by congruence. exact C1.
  - intro t. specialize (C2 t). unfold get_toll in *. replace (l_toll a) with (l_toll b) by congruence. replace (l_penalty a) with (l_penalty b) by congruence. exact C2.
  - replace (l_penalty a) with (l_penalty b) by congruence. exact C3.
Qed.

Lemma Costs_op : forall c o w w', op_ok o w -> sound_costs o w -> (forall a, o <> OExec a) -> apply_op c o w = Ok w' -> Costs w -> Costs w'.
Proof.
  intros c o w w' Ho [_ Hs] Hx H C l Hl.
  assert (Hl0 : (forall a, o <> OAddLink a) -> l < w_nl w).
  { intro K. rewrite <- (op_nl_same c o w w' Hx H Ho K). exact Hl. }
  assert (T : forall x : link, lcost x = lcost (L w l) -> l < w_nl w -> CostOK x) by (intros x E K; exact (lcost_ok _ _ E (C l K))).
  destruct o; cbn [apply_op] in H; try (specialize (Hl0 ltac:(discriminate))).
  - unfold add_node in H. apply bind_ok in H. destruct H as (nd & _ & H). destruct (smem _ _); [discriminate|].
    injection H as <-. apply T; [reflexivity|exact Hl0].
  - unfold add_link in H. cbn zeta in H. destruct (negb _); [discriminate|].
    apply bind_ok in H. destruct H as (k & E & H). destruct (smem _ _); [discriminate|]. injection H as <-.
    destruct (Nat.eq_dec l (w_nl w)) as [-> |Hn].
    + unfold L; cbn. rewrite upd_same. unfold new_link in E. cbn zeta in E.
      assert (K : l_tti k = [] /\ l_toll k = la_toll a /\ l_penalty k = 0%Q) by (binv E; repeat split; reflexivity).
      destruct K as (K1 & K2 & K3). split; [rewrite K1; intros d []|]. split; [|rewrite K3; lra]. intro t. unfold get_toll. rewrite K2, K3.
      cbn in Hs. destruct (la_toll a); [apply Hs|]. cbn. lra.
    + apply T; [|cbn in Hl; lia]. unfold L; cbn. rewrite upd_other by auto. reflexivity.
  - unfold add_vehicle in H. cbn zeta in H. destruct (negb _); [discriminate|]. destruct (smem _ _); [discriminate|].
    injection H as <-. apply T; [reflexivity|exact Hl0].
  - apply adddemand_L in H. apply T; [|exact Hl0]. unfold L. destruct H as (-> & _). reflexivity.
  - apply finalize_ok in H. destruct (fz_L _ _ _ H l) as (q & E). apply T; [rewrite E; reflexivity|exact Hl0].
  - exfalso; eapply Hx; reflexivity.
  - apply add_dest_L in H. apply T; [|exact Hl0]. unfold L. destruct H as (-> & _). reflexivity.
  - unfold enforce_route in H. destruct (negb _); [discriminate|]. injection H as <-. apply T; [reflexivity|exact Hl0].
  - injection H as <-. apply T; [reflexivity|exact Hl0].
  - injection H as <-. apply T; [reflexivity|exact Hl0].
  - destruct (override_L _ _ _ _ _ _ _ H l) as (g & E). apply T; [rewrite E; reflexivity|exact Hl0].
  - unfold change_free_flow_speed in H. cbn zeta in H. apply T; [|exact Hl0]. binv H; rewrite ?L_at; try (destruct (Nat.eqb _ _) eqn:El; [apply Nat.eqb_eq in El; subst|]); reflexivity.
  - unfold change_jam_density in H. cbn zeta in H. apply T; [|exact Hl0]. binv H; rewrite ?L_at; try (destruct (Nat.eqb _ _) eqn:El; [apply Nat.eqb_eq in El; subst|]); reflexivity.
  - injection H as <-. apply T; [|exact Hl0]. rewrite L_at. destruct (Nat.eqb _ _) eqn:El; [apply Nat.eqb_eq in El; subst|]; reflexivity.
  - injection H as <-. apply T; [|exact Hl0]. rewrite L_at. destruct (Nat.eqb _ _) eqn:El; [apply Nat.eqb_eq in El; subst|]; reflexivity.
  - injection H as <-. rewrite L_at. destruct (Nat.eqb l l0) eqn:El; [|apply (C l Hl0)]. apply Nat.eqb_eq in El. subst l0.
    destruct (C l Hl0) as (C1 & C2 & C3). split; [exact C1|]. split; [|exact C3]. intro t. unfold get_toll. cbn. cbn in Hs.
    destruct f; [apply Hs|]. destruct (qeq _ _); [lra|exact C3].
  - unfold add_trip_request in H. destruct (negb _); [discriminate|]. injection H as <-. apply T; [reflexivity|exact Hl0].
  - unfold assign_taxi in H. destruct (negb _); [discriminate|]. apply bind_ok in H. destruct H as (w1 & E & H). injection H as <-.
    apply add_dest_L in E. apply T; [|exact Hl0]. unfold L. cbn. destruct E as (-> & _). reflexivity.
Qed.

Theorem reach_Costs : forall c (P : op -> world -> Prop), (forall o w, P o w -> sound_costs o w) -> forall w, reachP c P w -> Costs w.
Proof.
  intros c P HP w H. apply (reachP_ind' c P Costs); [|..|exact H].
  - intros tm l Hl. cbn in Hl. lia.
  - intros a b R Ha S. destruct S as [a o b K1 K2 K3 K4|a b K1 K2|a].
    + eapply Costs_op; eauto.
    + apply tick_fr in K2. destruct K2 as (w1 & E & ->).
      assert (G : Geo a) by (apply (reach_Geo c P); auto; intros o x Hp; exact (proj1 (HP o x Hp))).
      exact (body_Costs _ _ _ (reach_Inv2 _ _ (reachP_reach _ _ _ R)) G E Ha).
    + exact Ha.
Qed.

Lemma link_cost_nonneg : forall c w l, good_noise c -> CostOK (L w l) -> (0 <= link_cost c w l)%Q.
Proof.
  intros c w l G (C1 & C2 & _). unfold link_cost, good_noise in *.
  assert (T : (0 <= last_tt (L w l))%Q).
  { unfold last_tt. destruct (last_opt (l_tti (L w l))) eqn:El; [|lra]. apply C1.
    clear - El. induction (l_tti (L w l)) as [|a t IH]; [discriminate|]. cbn in El. destruct t; [injection El as <-; left; auto|right; auto]. }
  specialize (C2 (now c w)). destruct (c_det c); [lra|].
  assert (M : (0 <= qmax 0 (qmin 1 (c_orcq c (w_draw w + l)%nat)))%Q).
  { generalize (qmin 1 (c_orcq c (w_draw w + l)%nat)). intro z. unfold qmax. destruct (qle 0 z) eqn:E; [apply qle_iff in E|]; lra. }
  assert (M2 := Qmult_le_0_compat _ _ G M).
  assert (M3 : (0 <= 1 + c_duo_noise c * qmax 0 (qmin 1 (c_orcq c (w_draw w + l)%nat)))%Q) by lra.
  assert (M4 := Qmult_le_0_compat _ _ T M3). lra.
Qed.

Lemma between_In : forall w i j l, In l (links_between w i j) <-> l < w_nl w /\ l_start (L w l) = i /\ l_end (L w l) = j.
Proof.
  intros w i j l. unfold links_between. rewrite filter_In, in_seq. unfold joins. rewrite andb_true_iff, !Nat.eqb_eq.
  split; intros; intuition lia.
Qed.

Lemma matrix_nonneg : forall c w m, cost_matrix c w m -> (forall l, l < w_nl w -> (0 <= link_cost c w l)%Q) ->
  forall i j q, m i j = Some q -> (0 <= q)%Q.
Proof.
  intros c w m M C i j q E. destruct (M i j) as (M1 & M2 & M3).
  destruct (links_between w i j) as [|a t] eqn:El.
  - rewrite (M1 eq_refl) in E. injection E as <-. lra.
  - rewrite <- El in *. destruct (existsb (fun l => closed (L w l)) (links_between w i j)) eqn:Ex.
    + apply existsb_exists in Ex. rewrite (M2 Ex) in E. discriminate.
    + destruct M3 as (q' & E' & Hq).
      * rewrite El. discriminate.
      * intros l Hl. destruct (closed (L w l)) eqn:Ec; auto.
        assert (X : existsb (fun l => closed (L w l)) (links_between w i j) = true) by (apply existsb_exists; exists l; auto). congruence.
      * rewrite E' in E. injection E as <-. rewrite Hq. apply Qle_shift_div_l.
        { rewrite El. cbn [List.length]. rewrite Qof_S. pose proof (Qof_nn (List.length t)). lra. }
        rewrite Qmult_0_l. apply qsum_nonneg. intros p Hp. apply in_map_iff in Hp. destruct Hp as (l & <- & Hl).
        apply C. apply between_In in Hl. tauto.
Qed.

Lemma search_good : forall c wa wb, correct_routine c -> good_noise c -> Costs wa -> route_search_all c wa = Ok wb ->
  exists m, cost_matrix c wa m /\ paths_ok (w_nn wa) m (w_rcdist wb) (w_rcnext wb) /\
    w_rcrec wb = w_rcrec wa ++ [(w_T wa, w_rcdist wb)] /\ w_rcpref wb = w_rcpref wa.
Proof.
  intros c wa wb D G C H. destruct (search_lemma _ _ _ H) as (m & M & E & Hr & Hp). exists m. split; [exact M|].
  split; [|auto]. apply (D _ _ _ _ (eq_sym E)). intros i j q _ _ Hq.
  refine (matrix_nonneg c wa m M _ i j q Hq). intros l Hl. apply link_cost_nonneg; auto.
Qed.

(** the next node on the way is the end of a link *)
Lemma next_link : forall c w m d nx i k p, Inv2 w p -> cost_matrix c w m -> paths_ok (w_nn w) m d nx -> i < w_nn w -> k < w_nn w -> i <> k ->
  d i k <> None -> exists l, In l (n_out (N w i)) /\ nx i k = Some (l_end (L w l)).
Proof.
  intros c w m d nx i k p I M PO Hi Hk Hik Hd. destruct (d i k) as [x|] eqn:E; [|congruence].
  destruct (po_next _ _ _ _ PO i k x Hi Hk Hik E) as (j & q & y & Hn & Hj & Hm & Hq & _).
  destruct (M i j) as (M1 & _). destruct (links_between w i j) as [|l t] eqn:El.
  - rewrite (M1 eq_refl) in Hm. injection Hm as <-. exfalso. apply Hq. reflexivity.
  - assert (Hl : In l (links_between w i j)) by (rewrite El; left; auto). apply between_In in Hl. destruct Hl as (L1 & L2 & L3).
    exists l. split; [|congruence]. destruct I as [[T _] _]. apply (t_out T i l). auto.
Qed.

Lemma wa_costs : forall c w w' wa, Inv2 w None -> Geo w -> body c w = Ok w' -> Costs w -> fr w wa -> (forall l, l_tti (L wa l) = l_tti (L w' l)) -> Costs wa.
Proof.
  intros c w w' wa I G H C F Et l Hl. rewrite (fr_w_nl F) in Hl. pose proof (body_fr _ _ H) as F'.
  destruct (body_Costs _ _ _ I G H C l) as (C1 & _); [rewrite (fr_w_nl F'); exact Hl|]. destruct (C l Hl) as (_ & C2 & C3).
  split; [rewrite Et; exact C1|]. split.
  - intro t. rewrite (toll_lstat _ _ t (fr_l F l)). apply C2.
  - pose proof (fr_l F l) as K. unfold lstat in K. replace (l_penalty (L wa l)) with (l_penalty (L w l)) by congruence. exact C3.
Qed.

(** ** Exactly 1 *)
Record DuoN (w : world) (n k : nid) : Prop := mkDuoN {
  dn_next : exists l, In l (n_out (N w n)) /\ w_rcnext w n k = Some (l_end (L w l));
  dn_sum : no_parallel w n -> (out_pref w k n == 1)%Q }.

Lemma body_DuoN : forall c w w' n k, correct_routine c -> good_noise c -> Inv2 w None -> Geo w -> Costs w -> DuoB w ->
  body c w = Ok w' -> n < w_nn w -> k < w_nn w -> n <> k ->
  (w_rcrec w <> [] -> always_reached w n k -> DuoN w n k) -> always_reached w' n k -> DuoN w' n k.
Proof.
  intros c w w' n k D G I Ge C B H Hn Hk Hnk IH A. pose proof (body_fr _ _ H) as F0.
  pose proof (body_duo _ _ _ I H) as DV. pose proof (view_rec _ _ _ B DV) as Hr.
  assert (Np0 : no_parallel w' n -> no_parallel w n).
  { unfold no_parallel. intro Np. rewrite <- (fr_n_out F0 n). erewrite map_ext; [exact Np|]. intro l. cbn beta. symmetry. apply (fr_l_end F0 l). }
  destruct DV as [E _ _|wa wb F F' Ea Et Ia Hs E]; unfold rcw in E.
  - assert (A0 : always_reached w n k) by (unfold always_reached in *; replace (w_rcrec w') with (w_rcrec w) in A by congruence; exact A).
    destruct (IH ltac:(congruence) A0) as [N1 N2]. constructor.
    + rewrite (fr_n_out F0 n). replace (w_rcnext w') with (w_rcnext w) by congruence. destruct N1 as (l & Hl & El). exists l. split; [exact Hl|]. rewrite (fr_l_end F0 l). exact El.
    + intro Np. unfold out_pref. rewrite (fr_n_out F0 n). replace (w_rcpref w') with (w_rcpref w) by congruence. apply N2. auto.
  - (* the next node and the preferences before the update *)
    assert (X : (exists l, In l (n_out (N w n)) /\ w_rcnext wb n k = Some (l_end (L w l))) /\ w_rcpref wb = w_rcpref w /\
                (w_rcrec w <> [] -> always_reached w n k) /\ w_nl wb = w_nl w).
    { unfold rcw in Ea. split; [|split; [|split; [|exact (fr_w_nl F')]]].
      - destruct Hs as [(-> & _) | (Hs & _)].
        + assert (A0 : always_reached w n k) by (unfold always_reached in *; cbn in E; replace (w_rcrec w') with (w_rcrec w) in A by congruence; exact A).
          destruct (IH ltac:(cbn in E; congruence) A0) as [N1 _]. replace (w_rcnext wa) with (w_rcnext w) by congruence. exact N1.
        + pose proof (wa_costs _ _ _ _ I Ge H C F Et) as Ca.
          destruct (search_good _ _ _ D G Ca Hs) as (m & M & PO & Er & _).
          destruct (next_link c wa m _ _ n k None Ia M PO) as (l & Hl & El); rewrite ?(fr_w_nn F); auto.
          { apply (A (w_T wa)). cbn in E. replace (w_rcrec w') with (w_rcrec wb) by congruence. rewrite Er. apply in_or_app. right. left. reflexivity. }
          exists l. rewrite (fr_n_out F n) in Hl. rewrite (fr_l_end F l) in El. auto.
      - destruct Hs as [(-> & _) | (Hs & _)]; [congruence|].
        destruct (search_lemma _ _ _ Hs) as (m & _ & _ & _ & Hp). rewrite Hp. congruence.
      - intros _ t d Hd. apply (A t d). cbn in E. replace (w_rcrec w') with (w_rcrec wb) by congruence.
        destruct Hs as [(-> & _) | (Hs & _)]; [replace (w_rcrec wa) with (w_rcrec w) by congruence; exact Hd|].
        destruct (search_lemma _ _ _ Hs) as (m & _ & _ & Er & _). rewrite Er. apply in_or_app. left. replace (w_rcrec wa) with (w_rcrec w) by congruence. exact Hd. }
    destruct X as ((l & Hl & El) & Ep & A0 & Enl). constructor.
    + rewrite (fr_n_out F0 n). exists l. split; [exact Hl|]. rewrite (fr_l_end F0 l). cbn in E. replace (w_rcnext w') with (w_rcnext wb) by congruence. exact El.
    + intro Np. unfold out_pref. rewrite (fr_n_out F0 n). cbn in E.
      replace (w_rcpref w') with (w_rcpref (homogeneous_DUO_update c wb)) by (cbn; congruence).
      destruct (duo_sum c wb k (n_out (N w n))) as (wt & Hw & Hz & ->). rewrite Ep in *.
      destruct (hits_le wb k n (n_out (N w n))) as (_ & _ & h1 & _).
      { intros l' Hl'. rewrite (fr_l_start F' l'). exact (proj1 (out_start _ _ _ _ I Hl' Hn)). }
      { specialize (Np0 Np). unfold no_parallel in Np0. erewrite map_ext; [exact Np0|]. intro l'. cbn beta. apply (fr_l_end F' l'). }
      rewrite h1 by (exists l; split; [exact Hl|rewrite (fr_l_end F' l); exact El]).
      destruct (w_rcrec w) as [|a t] eqn:Er.
      * destruct (db_zero _ B Er) as [_ Z]. assert (Zs := zero_sum (w_rcpref w k) (seq 0 (w_nl wb)) (Z k)). rewrite (Hz Zs). ring.
      * assert (N0 : DuoN w n k) by (apply IH; [discriminate|apply A0; discriminate]).
        assert (S0 := dn_sum _ _ _ N0 (Np0 Np)). unfold out_pref in S0. rewrite S0. ring.
Qed.

Theorem duo_exact_lemma : forall c w n k, correct_routine c -> good_noise c -> reachP c sound_costs w -> searched w ->
  exists_node w n -> exists_node w k -> n <> k -> always_reached w n k -> no_parallel w n -> (out_pref w k n == 1)%Q.
Proof.
  intros c w n k D G R Hs Hn Hk Hnk A Np.
  enough (X : w_rcrec w <> [] -> exists_node w n -> exists_node w k -> always_reached w n k -> DuoN w n k) by (apply (dn_sum _ _ _ (X Hs Hn Hk A) Np)).
  clear Hs Hn Hk A Np. 
  apply (reachP_ind' c sound_costs (fun w => w_rcrec w <> [] -> exists_node w n -> exists_node w k -> always_reached w n k -> DuoN w n k)); [|..|exact R].
  - intros tm K. exfalso. apply K. reflexivity.
  - clear w R. intros a b R IH S Hs Hn Hk A. pose proof (reachP_reach _ _ _ R) as R'. destruct S as [a o b K1 K2 K3 K4|a b K1 K2|a].
    + destruct (op_rc _ _ _ _ K1 K3 K4 (reach_clock _ _ R')) as (ET & [(E & Ef & En) | (Ef0 & Ef & Er & Ep)]); [|congruence].
      unfold rcw in E. destruct (w_final a) eqn:Efa.
      * destruct (En eq_refl) as (_ & Enn & Ee & Eo). unfold exists_node, always_reached in *. rewrite Enn in *.
        replace (w_rcrec b) with (w_rcrec a) in Hs, A by congruence.
        destruct (IH Hs Hn Hk A) as [N1 N2]. constructor.
        -- rewrite Eo. replace (w_rcnext b) with (w_rcnext a) by congruence. destruct N1 as (l & Hl & El). exists l. split; [exact Hl|]. rewrite (proj2 (Ee l)). exact El.
        -- intro Np. unfold out_pref. rewrite Eo. replace (w_rcpref b) with (w_rcpref a) by congruence. apply N2.
           unfold no_parallel in *. rewrite <- Eo. erewrite map_ext; [exact Np|]. intro l. cbn beta. symmetry. apply Ee.
      * exfalso. apply Hs. replace (w_rcrec b) with (w_rcrec a) by congruence. apply (db_new _ (reach_DuoB _ _ R')). exact Efa.
    + apply tick_fr in K2. destruct K2 as (w1 & Hb & ->). pose proof (body_fr _ _ Hb) as F0.
      unfold exists_node in *. cbn in Hn, Hk. rewrite (fr_w_nn F0) in Hn, Hk.
      assert (Ge : Geo a) by (apply (reach_Geo c sound_costs); auto; intros o x Hp; exact (proj1 Hp)).
      assert (X : DuoN w1 n k).
      { apply (body_DuoN c a w1 n k D G (reach_Inv2 _ _ R') Ge (reach_Costs c sound_costs (fun _ _ h => h) a R) (reach_DuoB _ _ R') Hb Hn Hk Hnk); [|exact A].
        intros h1 h2. exact (IH h1 Hn Hk h2). }
      destruct X as [N1 N2]. constructor; [exact N1|exact N2].
    + destruct (IH Hs Hn Hk A) as [N1 N2]. constructor; [exact N1|exact N2].
Qed.

(** ** The preferred links after the first update *)
Theorem first_update_lemma : forall c w w', correct_routine c -> good_noise c -> reachP c sound_costs w -> w_final w = true -> ~ searched w ->
  tick c w = Ok w' ->
  exists wa m, fr w wa /\ (forall l, l_tti (L wa l) = l_tti (L w' l)) /\ cost_matrix c wa m /\
  forall k l, exists_node w k -> exists_link w l ->
    let i := l_start (L w l) in let j := l_end (L w l) in
    ((w_rcpref w' k l == 1)%Q \/ (w_rcpref w' k l == 0)%Q) /\
    ((w_rcpref w' k l == 1)%Q -> exists q x y, m i j = Some q /\ least (w_nn w) m i k x /\ least (w_nn w) m j k y /\ (x == q + y)%Q) /\
    (forall y, i <> k -> path (w_nn w) m i k y -> exists l', exists_link w l' /\ l_start (L w l') = i /\ (w_rcpref w' k l' == 1)%Q).
Proof.
  intros c w w' D G R Hf Hs H. pose proof (reachP_reach _ _ _ R) as R'. pose proof (reach_Inv2 _ _ R') as I.
  apply tick_fr in H. destruct H as (w1 & Hb & ->). pose proof (body_fr _ _ Hb) as F0.
  assert (Hs0 : w_rcrec w = []) by (unfold searched in Hs; destruct (w_rcrec w); [reflexivity|exfalso; apply Hs; discriminate]).
  destruct (db_zero _ (reach_DuoB _ _ R') Hs0) as [T0 Z0].
  assert (M0 : Nat.modulo (w_T w) (route_steps c) = 0) by (rewrite T0; apply Nat.mod_0_l; unfold route_steps; destruct (Z.to_nat _); lia).
  destruct (body_duo _ _ _ I Hb) as [_ _ E|wa wb F F' Ea Et Ia Hx E]; [congruence|].
  destruct Hx as [(_ & _ & E2) | (Hsr & _)]; [congruence|].
  assert (Ge : Geo w) by (apply (reach_Geo c sound_costs); auto; intros o x Hp; exact (proj1 Hp)).
  pose proof (wa_costs _ _ _ _ I Ge Hb (reach_Costs c sound_costs (fun _ _ h => h) w R) F Et) as Ca.
  destruct (search_good _ _ _ D G Ca Hsr) as (m & M & PO & _ & Hp). rewrite (fr_w_nn F) in PO.
  exists wa, m. split; [exact F|]. split; [exact Et|]. split; [exact M|].
  unfold rcw in Ea, E. cbn in E.
  assert (Zb : forall k l, (w_rcpref wb k l == 0)%Q).
  { intros k l. rewrite Hp. replace (w_rcpref wa) with (w_rcpref w) by congruence. apply Z0. }
  assert (P : forall k l, l < w_nl w -> (w_rcpref w1 k l == (if opt_eqb (Some (l_end (L w l))) (w_rcnext wb (l_start (L w l)) k) then 1 else 0))%Q).
  { intros k l Hl. replace (w_rcpref w1) with (w_rcpref (homogeneous_DUO_update c wb)) by (cbn; congruence). rewrite duo_pref. cbn zeta.
    assert (Zs := zero_sum (w_rcpref wb k) (seq 0 (w_nl wb)) (Zb k)). apply qeq_iff in Zs. rewrite Zs.
    rewrite (fr_l_end F' l), (fr_l_start F' l), (Zb k l). destruct (opt_eqb _ _); ring. }
  intros k l Hk Hl. cbn zeta. change (w_rcpref (sw_T (S (w_T w)) w1)) with (w_rcpref w1).
  assert (Hi : l_start (L w l) < w_nn w) by (exact (proj1 (t_ends (proj1 (proj1 I)) Hl))).
  split; [|split].
  - pose proof (P k l Hl) as X. destruct (opt_eqb _ _); auto.
  - intro X. pose proof (P k l Hl) as Y. rewrite Y in X. destruct (opt_eqb _ _) eqn:Eo in X; [|discriminate X].
    apply opt_eqb_eq in Eo. symmetry in Eo.
    assert (Hik : l_start (L w l) <> k).
    { intro Heq. rewrite (po_stay _ _ _ _ PO _ k Hi Hk (or_introl Heq)) in Eo. discriminate. }
    destruct (w_rcdist wb (l_start (L w l)) k) as [x|] eqn:Ed; [|rewrite (po_stay _ _ _ _ PO _ k Hi Hk (or_intror Ed)) in Eo; discriminate].
    destruct (po_next _ _ _ _ PO _ k x Hi Hk Hik Ed) as (j & q & y & Hn & Hj & Hm & Hq & Hy & Hxy).
    rewrite Eo in Hn. injection Hn as <-. exists q, x, y. split; [exact Hm|]. split; [exact (po_least _ _ _ _ PO _ k x Hi Hk Ed)|].
    split; [exact (po_least _ _ _ _ PO _ k y Hj Hk Hy)|exact Hxy].
  - intros y Hik Py. assert (Hd : w_rcdist wb (l_start (L w l)) k <> None).
    { intro K. exact (po_none _ _ _ _ PO _ k y Hi Hk K Py). }
    destruct (next_link c wa m (w_rcdist wb) (w_rcnext wb) (l_start (L w l)) k None Ia M) as (l' & Hl' & El'); rewrite ?(fr_w_nn F); auto.
    rewrite (fr_n_out F) in Hl'. destruct (out_start _ _ _ _ I Hl' Hi) as [Es Hl2]. exists l'. split; [exact Hl2|]. split; [exact Es|].
    rewrite (P k l' Hl2), Es, El'. rewrite (fr_l_end F l'). cbn. rewrite Nat.eqb_refl. reflexivity.
Qed.
