(** * Assert: the lane assertions of generate() and transfer() never fail, whatever the scenario (C05). *)
From Verif Require Import Base Types Sim Build Heap Lists Inv FrameBase Tac Frame Eff Eff2 Trace InvStep Reach Steps Effects Phases Attr Life Incoming Vev Ride Errors.
Local Open Scope nat_scope.

Definition na {A} (r : result A) : Prop := r <> Err AssertionError.
Lemma na_ok : forall A (x : A), na (Ok x).
Proof. discriminate. Qed.
Lemma na_bind : forall A B (r : result A) (f : A -> result B), na r -> (forall x, r = Ok x -> na (f x)) -> na (bind r f).
Proof. intros A B [x|e] f H K; cbn [bind]; [apply K; reflexivity|]. intro E. apply H. congruence. Qed.
Lemma na_opt : forall A e (o : option A), e <> AssertionError -> na (of_opt e o).
Proof. intros A e [x|] H; cbn; [discriminate|]. intro K. congruence. Qed.
Lemma na_let : forall A B (a : A) (f : A -> result B), (forall x, na (f x)) -> na (let x := a in f x).
Proof. intros A B a f H. apply H. Qed.
Lemma na_mapM : forall A B (f : A -> result B) l, (forall x, na (f x)) -> na (mapM f l).
Proof.
  intros A B f l H; induction l as [|x l IH]; cbn [mapM]; [apply na_ok|].
  apply na_bind; [apply H|]. intros y _. apply na_bind; [exact IH|]. intros; apply na_ok.
Qed.
Lemma na_filterM : forall A (f : A -> result bool) l, (forall x, na (f x)) -> na (filterM f l).
Proof.
  intros A f l H; induction l as [|x l IH]; cbn [filterM]; [apply na_ok|].
  apply na_bind; [apply H|]. intros y _. apply na_bind; [exact IH|]. intros; apply na_ok.
Qed.
Lemma na_foldM : forall A S (P : list A -> S -> Prop) (f : A -> S -> result S),
  (forall x xs w, P (x :: xs) w -> na (f x w)) -> (forall x xs w w', P (x :: xs) w -> f x w = Ok w' -> P xs w') ->
  forall xs w, P xs w -> na (foldM f xs w).
Proof.
  intros A S P f H1 H2 xs; induction xs as [|x xs IH]; intros w H; cbn [foldM]; [apply na_ok|].
  apply na_bind; [eapply H1; eauto|]. intros w' E. apply IH. eapply H2; eauto.
Qed.
Lemma na_foldM' : forall A S (f : A -> S -> result S), (forall x w, na (f x w)) -> forall xs w, na (foldM f xs w).
Proof. intros A S f H xs w. apply (na_foldM A S (fun _ _ => True)); auto. Qed.

Ltac na := repeat (
  match goal with
  | |- na (Ok _) => apply na_ok
  | |- na (Err _) => discriminate
  | |- na (of_opt _ _) => apply na_opt; discriminate
  | |- na (bind _ _) => apply na_bind; [|intros ? _]
  | |- na (let x := ?a in @?f x) => apply (na_let _ _ a f); intro; cbv beta
  | |- na (mapM _ _) => apply na_mapM; intro
  | |- na (filterM _ _) => apply na_filterM; intro
  | |- na (match ?x with _ => _ end) => destruct x
  | |- na _ => assumption
  end).

Lemma choose_pref_na : forall c ps xs w, na (choose_pref c ps xs w).
Proof. intros. unfold choose_pref, choice_max, choice_p, choice_uniform, draw. na. Qed.
Lemma merge_choice_na : forall c w vs, na (merge_choice c w vs).
Proof. intros. unfold merge_choice, choice_max, choice_p, choice_uniform, draw. na. Qed.
Lemma pref_of_na : forall w a l, na (pref_of w a l).
Proof. intros. unfold pref_of. na. Qed.
Lemma pref_update_na : forall c v q w, na (route_pref_update c v q w).
Proof. intros. unfold route_pref_update. na. Qed.
Lemma end_trip_na : forall c v w, na (end_trip c v w).
Proof. intros. unfold end_trip. na. Qed.
Lemma end_front_na : forall c l w, na (end_front c l w).
Proof. intros. unfold end_front. na. apply end_trip_na. Qed.
Lemma end_fronts_na : forall c l k w, na (end_fronts c l k w).
Proof. intros c l k; induction k as [|k IH]; intro w; cbn [end_fronts]; na; [apply end_front_na|apply IH]. Qed.
Lemma link_na : forall c l w, na (link_update c l w).
Proof. intros. unfold link_update, set_traveltime_instant, qdiv. na. Qed.
Lemma node_na : forall c n w, na (node_update c n w).
Proof. intros. unfold node_update, signal_control, flow_capacity_update, qdiv. na. Qed.
Lemma carfollow_na : forall c v w, na (carfollow c v w).
Proof. intros. unfold carfollow. na. Qed.
Lemma choice_na : forall c v w, na (route_next_link_choice c v w).
Proof. intros. unfold route_next_link_choice, traveled_nodes. na; auto using choose_pref_na, pref_of_na. Qed.
Lemma add_dest_na : forall c v d o w, na (add_dest c v d o w).
Proof. intros. unfold add_dest. na. apply pref_update_na. Qed.
Lemma event_na : forall c e w, na (run_event c e w).
Proof. intros. unfold run_event. na. apply add_dest_na. Qed.
Lemma veh_na : forall c v w, na (veh_update c v w).
Proof.
  intros. unfold veh_update, drive, at_link_end, maybe_pref_update, request_transfer, prepare_end.
  na; auto using pref_update_na, end_trip_na, choice_na, event_na.
Qed.
Lemma route_na : forall c w, na (route_phase c w).
Proof.
  intros. unfold route_phase, route_search_all. na; try (apply na_foldM'; intros; try apply pref_update_na; unfold adj_step; na).
Qed.

(** ** Entering a link *)
Lemma gen_enter_na : forall c n v q out w, Inv2 w None -> n_queue (N w n) = v :: q -> out < w_nl w -> na (gen_enter c n v out w).
Proof.
  intros c n v q out w [[T I] _] Eq Ho.
  assert (Hw : v_state (V w v) = Wait) by (assert (X : In v (n_queue (N w n))) by (rewrite Eq; left; auto); apply (s_queue I) in X; tauto).
  unfold gen_enter. cbn zeta. apply na_bind; [|intros; na].
  match goal with |- na (attach v out ?W) => set (w1 := W) end.
  assert (El : L w1 out = L w out) by reflexivity.
  assert (Ev : forall u, v_lane (V w1 u) = v_lane (V w u)).
  { intro u. unfold w1. change (V (sw_running ?x ?y) u) with (V y u). rewrite V_at. destruct (Nat.eqb u v) eqn:E; [|reflexivity].
    apply Nat.eqb_eq in E. subst u. reflexivity. }
  destruct (attach_total v out w1) as (w2 & E2).
  - rewrite El. apply (t_lanes T). exact Ho.
  - rewrite El. intros i u Hi. rewrite !Ev. rewrite <- (Dq_none w out) in Hi. destruct (s_lane I out i Hi) as [A B]. split; [exact A|].
    intros x Hx. rewrite Ev. apply B. rewrite Dq_none. exact Hx.
  - rewrite El. intro K. rewrite <- (Dq_none w out) in K. apply (s_D I) in K. destruct K as (_ & K & _). congruence.
  - rewrite E2. apply na_ok.
Qed.

Lemma gen_loop_na : forall c n k w, n < w_nn w -> Inv2 w None -> na (gen_loop c n k w).
Proof.
  intros c n k; induction k as [|k IH]; intros w Hn I; cbn [gen_loop]; [apply na_ok|].
  destruct (n_queue (N w n)) as [|v q] eqn:Eq; [apply na_ok|].
  apply na_bind; [unfold gen_outlinks; na|]. intros outs Eo.
  apply na_bind; [apply na_mapM; intro; apply pref_of_na|]. intros ps _.
  apply na_bind; [apply choose_pref_na|]. intros [out w1] Ec. apply choose_pref_w in Ec. destruct Ec as [Ew Hi].
  destruct (has_space c w1 (L w1 out) && qle (dN c) (l_cinr (L w1 out))) eqn:Es; [|apply na_ok].
  assert (I1 : Inv2 w1 None).
  { assert (R : run c k_nodes w w1) by (eapply draw_run; [exact Ew|reflexivity]). eapply run_Inv2'; eauto. }
  assert (X : n < w_nn w1 /\ n_queue (N w1 n) = v :: q /\ gen_outlinks w1 (V w1 v) (n_out (N w1 n)) = Ok outs) by (destruct Ew as [-> | ->]; auto).
  destruct X as (X1 & X2 & X3).
  assert (Ho : out < w_nl w1).
  { apply (t_out (proj1 (proj1 I1)) n out). eapply gen_outlinks_sub; eauto. }
  apply na_bind; [eapply gen_enter_na; eauto|]. intros w2 E2. apply andb_true_iff in Es. destruct Es as [Es1 Es2].
  assert (M : mstep c (VEnter n v out) w1 None w2 None) by (econstructor; eauto).
  apply IH; [rewrite (fr_w_nn (mstep_fr M)); exact X1|eapply mstep_Inv2; eauto].
Qed.

(** ** Changing links *)
Lemma shift_na : forall c n out v w, Inv2 w None -> candidate c n out w v = Ok true -> na (transfer_shift c n out v w).
Proof.
  intros c n out v w [[T I] NI] Hc. unfold candidate in Hc. cbn zeta in Hc. unfold transfer_shift.
  destruct (v_link (V w v)) as [il|] eqn:E1; [|discriminate]. cbn [of_opt bind] in *.
  destruct (l_vehs (L w il)) as [|u rest] eqn:Ev; [discriminate|].
  destruct (Nat.eqb u v) eqn:Eu; [|discriminate]. apply Nat.eqb_eq in Eu. subst u.
  assert (Ho : out < w_nl w).
  { destruct (v_next (V w v)) as [nx|] eqn:En; [|discriminate]. cbn [of_opt bind] in Hc. injection Hc as Hc.
    apply andb_true_iff in Hc. destruct Hc as [Hc _]. apply andb_true_iff in Hc. destruct Hc as [Hc _]. apply opt_eqb_eq in Hc. subst nx.
    eapply NI. exact En. }
  clear Hc.
  assert (E2 : il < w_nl w).
  { assert (X : In v (Dq w None il)) by (rewrite Dq_none, Ev; left; reflexivity). apply (s_D I) in X. destruct X as (X1 & X2 & X3 & _).
    destruct (s_link I X1) as [K _]; [discriminate|]. destruct (K X2) as (l' & K1 & K2). congruence. }
  apply na_bind; [na|]. intros cd _. cbn zeta. apply na_bind; [na|]. intros ca _.
  match goal with |- context [match n_fcap (N ?W n) with _ => _ end] => set (w1 := W) end.
  match goal with |- context [match l_vehs (L ?W il) with _ => _ end] => set (w2 := W) end.
  assert (A1 : forall l, lcore (L w2 l) = lcore (L w l)).
  { intro l. unfold w2. rewrite fcap_L. unfold w1. rewrite !lcore_modl by reflexivity. rewrite L_modv. rewrite !lcore_modl by reflexivity. reflexivity. }
  assert (A2 : forall u, v_lane (V w2 u) = v_lane (V w u)).
  { intro u. unfold w2. rewrite fcap_V. unfold w1. rewrite !V_modl. rewrite lane_modv by reflexivity. rewrite !V_modl. reflexivity. }
  generalize dependent w2. clear w1. intros w2 A1 A2.
  assert (B1 : l_vehs (L w2 il) = v :: rest) by (specialize (A1 il); unfold lcore in A1; congruence). rewrite B1.
  match goal with |- context [match v_follower (V ?W v) with _ => _ end] => set (w3 := W) end.
  match goal with |- context [attach v out ?W] => set (w4 := W) end.
  assert (A3 : forall l, l_vehs (L w4 l) = (if Nat.eqb l il then rest else l_vehs (L w l)) /\ l_lanes (L w4 l) = l_lanes (L w l)).
  { intro l. assert (Q : lcore (L w4 l) = lcore (L (modl il (sl_vehs rest) w2) l)).
    { unfold w4. rewrite fol_L. unfold w3. rewrite L_modv. apply lcore_modl. reflexivity. }
    specialize (A1 l). unfold lcore in A1, Q. injection A1 as X1 X2 X3.
    set (w5 := modl il (sl_vehs rest) w2) in Q.
    assert (Y1 : l_vehs (L w4 l) = l_vehs (L w5 l)) by congruence.
    assert (Y2 : l_lanes (L w4 l) = l_lanes (L w5 l)) by congruence.
    rewrite Y1, Y2. unfold w5. rewrite L_at.
    destruct (Nat.eqb l il) eqn:Ei; [|auto]. apply Nat.eqb_eq in Ei. subst l. split; [reflexivity|]. exact X2. }
  assert (A4 : forall u, v_lane (V w4 u) = v_lane (V w u)).
  { intro u. unfold w4. rewrite fol_lane. unfold w3. rewrite lane_modv by reflexivity. rewrite !V_modl. apply A2. }
  generalize dependent w4. clear w3. intros w4 A3 A4.
  assert (Ln : forall l, l < w_nl w -> laned w (l_lanes (L w l)) (l_vehs (L w l))).
  { intros l Hl i u Hi. rewrite <- (Dq_none w l) in Hi. destruct (s_lane I l i Hi) as [A B]. split; [exact A|].
    intros x Hx. apply B. rewrite Dq_none. exact Hx. }
  destruct (A3 out) as (C1 & C2).
  destruct (attach_total v out w4) as (w5 & E5).
  - rewrite C2. apply (t_lanes T). exact Ho.
  - rewrite C1, C2. intros i u Hi. destruct (Nat.eqb out il) eqn:E.
    + apply Nat.eqb_eq in E. subst il. destruct (Ln out Ho (S i) u) as [X Y]; [rewrite Ev; exact Hi|]. rewrite A4. split; [exact X|].
      intros x Hx. rewrite A4. apply Y. rewrite Ev. exact Hx.
    + destruct (Ln out Ho i u Hi) as [X Y]. rewrite A4. split; [exact X|]. intros x Hx. rewrite A4. apply Y. exact Hx.
  - rewrite C1. pose proof (s_D_nd I il) as Nd. rewrite Dq_none, Ev in Nd. inversion Nd as [|? ? Nv _]; subst.
    destruct (Nat.eqb out il) eqn:E; [exact Nv|]. apply Nat.eqb_neq in E. intro K. rewrite <- (Dq_none w out) in K.
    apply (s_D I) in K. destruct K as (_ & _ & K & _). congruence.
  - rewrite E5. cbn [bind]. unfold qdiv. na.
Qed.

Lemma trial_na : forall c n out w, Inv2 w None -> na (transfer_trial c n out w).
Proof.
  intros c n out w I. unfold transfer_trial. destruct (_ && _ && _); [|apply na_ok].
  apply na_bind; [apply na_filterM; intro; unfold candidate; na|]. intros vs Ev. destruct vs as [|v0 vs]; [apply na_ok|].
  apply na_bind; [apply merge_choice_na|]. intros [v w1] Em. apply merge_choice_w in Em. destruct Em as [Ew Hv].
  destruct (filterM_In _ _ _ Ev Hv) as [Hi Hc].
  assert (I1 : Inv2 w1 None).
  { assert (R : run c (k_tr n) w w1) by (eapply draw_run; [exact Ew|reflexivity]). eapply run_Inv2'; eauto. }
  unfold transfer_move. apply na_bind; [apply shift_na; [exact I1|destruct Ew as [-> | ->]; exact Hc]|].
  intros [il w2] _. apply na_bind; [apply end_front_na|]. intros [b w3] _. na.
Qed.
Lemma transfer_na : forall c n w, n < w_nn w -> Inv2 w None -> na (transfer c n w).
Proof.
  intros c n w Hn I. unfold transfer. apply na_bind; [unfold out_candidates; na|]. intros cands _. cbn zeta.
  destruct (if c_det c then _ else _) as [outs w1] eqn:Ew.
  assert (X : n < w_nn w1 /\ Inv2 w1 None).
  { assert (R : run c (k_tr n) w w1).
    { destruct (c_det c); injection Ew as <- <-; [apply run_refl|]. eapply draw_run; [right; reflexivity|reflexivity]. }
    split; [rewrite (fr_w_nn (run_fr _ _ _ _ R)); exact Hn|eapply run_Inv2'; eauto]. }
  apply na_bind.
  - apply (na_foldM _ _ (fun _ x => n < w_nn x /\ Inv2 x None)); [intros o os x [_ Ix]; apply trial_na; exact Ix| |exact X].
    intros o os x x' [Nx Ix] E. apply transfer_trial_run in E; [|exact Nx].
    split; [rewrite (fr_w_nn (run_fr _ _ _ _ E)); exact Nx|eapply run_Inv2'; eauto].
  - intros w2 _. apply na_bind; [apply na_foldM'; intros; apply end_fronts_na|]. intros; apply na_ok.
Qed.

Theorem tick_na : forall c w, reach c w -> na (tick c w).
Proof.
  intros c w R. pose proof (reach_Inv2 _ _ R) as I. unfold tick. apply na_bind; [|intros; apply na_ok]. unfold body.
  apply na_bind; [apply na_foldM'; intros; apply link_na|]. intros w1 E1.
  apply phase_links_run in E1. pose proof (run_Inv2' _ _ _ _ I E1) as I1. clear E1 I R w.
  apply na_bind.
  - unfold phase_nodes. apply (na_foldM _ _ (fun xs x => (forall n, In n xs -> n < w_nn x) /\ Inv2 x None)).
    + intros n xs x [Nx Ix]. apply na_bind; [apply gen_loop_na; [apply Nx; left; reflexivity|exact Ix]|]. intros; apply node_na.
    + intros n xs x x' [Nx Ix] E. assert (Hn : n < w_nn x) by (apply Nx; left; reflexivity).
      apply bind_ok in E. destruct E as (y & Ea & Eb). apply gen_loop_run in Ea; [|exact Hn].
      pose proof (run_Inv2' _ _ _ _ Ix Ea) as Iy. assert (Hny : n < w_nn y) by (rewrite (fr_w_nn (run_fr _ _ _ _ Ea)); exact Hn).
      assert (M : mstep c (VNode n) y None x' None) by (constructor; auto).
      split; [|eapply mstep_Inv2; eauto]. intros k Hk. rewrite (fr_w_nn (mstep_fr M)), (fr_w_nn (run_fr _ _ _ _ Ea)). apply Nx. right. exact Hk.
    + split; [|exact I1]. intros n Hn. apply in_seq in Hn. lia.
  - intros w2 E2. apply phase_nodes_run in E2. pose proof (run_Inv2' _ _ _ _ I1 E2) as I2. clear E2 I1 w1.
    apply na_bind.
    + unfold phase_transfer. apply (na_foldM _ _ (fun xs x => (forall n, In n xs -> n < w_nn x) /\ Inv2 x None)).
      * intros n xs x [Nx Ix]. apply transfer_na; [apply Nx; left; reflexivity|exact Ix].
      * intros n xs x x' [Nx Ix] E. apply transfer_run in E; [|apply Nx; left; reflexivity].
        split; [|eapply run_Inv2'; eauto]. intros k Hk. rewrite (fr_w_nn (run_fr _ _ _ _ E)). apply Nx. right. exact Hk.
      * split; [|exact I2]. intros n Hn. apply in_seq in Hn. lia.
    + intros w3 _. apply na_bind; [apply na_foldM'; intros; apply carfollow_na|]. intros w4 _.
      apply na_bind; [apply na_foldM'; intros; unfold update_living; na; apply veh_na|]. intros w5 _.
      apply na_bind; [apply route_na|]. intros; apply na_ok.
Qed.

Theorem assertion_lemma : forall c w, reach c w -> tick c w <> Err AssertionError.
Proof. exact tick_na. Qed.
