(** * Enforce: enforced routes (C16). *)
From Verif Require Import Base Types Sim Build Heap Lists Inv FrameBase Tac Frame Eff Eff2 Trace InvStep Reach Steps Effects Phases Life Incoming Vev Ride TripLog Route Green Choice Spec.
Local Open Scope nat_scope.

(** ** Histories of one vehicle *)
Theorem later_ride : forall c (P : op -> world -> Prop) (J : world -> Prop) v,
  (forall w w3 w4 w', reach c w -> w_final w = true -> v < w_nv w -> Inv2 w None -> IncB w -> Ends w None ->
     body c w = Ok w' -> J w -> body_view c v w w' w3 w4 -> J (sw_T (S (w_T w)) w')) ->
  (forall w, J w -> J (sw_TIME (now c w) w)) ->
  (forall w o w', reach c w -> op_ok o w -> P o w -> (forall a, o <> OExec a) -> apply_op c o w = Ok w' -> v < w_nv w -> J w -> J w') ->
  forall w w', reach c w -> later c P w w' -> v < w_nv w -> J w -> J w' /\ v < w_nv w'.
Proof.
  intros c P J v Hb Ht Ho w w' R K Hv Jw. induction K as [|w1 w2 K IH S]; [auto|]. destruct IH as [J1 H1].
  assert (R1 : reach c w1) by (eapply later_reach; eauto). destruct S as [w1 o w2 Hok Hp Hx E|w1 w2 Hf E|w1].
  - split; [eapply Ho; eauto|]. pose proof (apply_op_osteps _ _ _ _ Hok Hx E) as O. clear - O H1.
    induction O as [w|a b d O1 O IH]; auto. apply IH. destruct O1; unfold wkeep in *; try (cbn; lia); try congruence.
    pose proof (fz_cnt _ _ _ (finalize_ok _ _ _ _ H0)) as Z. replace (w_nv w') with (w_nv w) by congruence. exact H1.
  - apply tick_fr in E. destruct E as (w1' & E & ->). pose proof (body_fr _ _ E) as F. split; [|cbn; rewrite (fr_w_nv F); exact H1].
    pose proof (reach_Inv2 _ _ R1) as I. pose proof (reach_IncB _ _ R1) as B. pose proof (reach_Ends _ _ R1) as En.
    destruct (body_viewed c v w1 w1' H1 I B En E) as (w3 & w4 & BV). eapply Hb; eauto.
  - split; [apply Ht; exact J1|exact H1].
Qed.

(** the operations that do not give vehicle [v] another route *)
Definition keeps_route (v : vid) (o : op) (w : world) : Prop := forall r b, o <> OEnforceRoute v r b.

Lemma adddemand_spec : forall c o d t0 t1 fl vol w w' v, adddemand c o d t0 t1 fl vol w = Ok w' -> v < w_nv w ->
  V w' v = V w v.
Proof.
  intros c o d t0 t1 fl vol w w' v H Hv.
  assert (Q : V w' v = V w v /\ w_nv w <= w_nv w'); [|tauto].
  eapply (adddemand_inv (fun x => V x v = V w v /\ w_nv w <= w_nv x)); [|auto|exact H].
  intros t a b [K1 K2] E. unfold add_vehicle in E. cbn zeta in E. destruct (negb _); [discriminate|]. destruct (smem _ _); [discriminate|].
  injection E as <-. split; [|cbn; lia]. rewrite <- K1. unfold V; cbn. rewrite upd_other by lia. reflexivity.
Qed.
Lemma pref_update_spec : forall c v q w w' u, route_pref_update c v q w = Ok w' -> v_spec (V w' u) = v_spec (V w u).
Proof.
  intros c v q w w' u H. unfold route_pref_update in H. cbn zeta in H.
  binv H; rewrite ?V_at; try destruct (Nat.eqb u v) eqn:E; try (apply Nat.eqb_eq in E; subst); reflexivity.
Qed.
Lemma add_dest_spec : forall c v d o w w' u, add_dest c v d o w = Ok w' -> v_spec (V w' u) = v_spec (V w u).
Proof.
  intros c v d o w w' u H. unfold add_dest in H. destruct (v_mode (V w v)); [discriminate|].
  destruct (v_dest (V w v)).
  - injection H as <-. rewrite V_at. destruct (Nat.eqb u v) eqn:E; [apply Nat.eqb_eq in E; subst|]; reflexivity.
  - rewrite (pref_update_spec _ _ _ _ _ _ H). rewrite V_at. destruct (Nat.eqb u v) eqn:E; [apply Nat.eqb_eq in E; subst|]; reflexivity.
Qed.
Lemma override_V : forall n sig gs off rs w w', override_signal n sig gs off rs w = Ok w' -> w_vehs w' = w_vehs w.
Proof.
  intros n sig gs off rs w w' H. unfold override_signal in H. cbv zeta in H.
  assert (F : forall ls x gs, w_vehs (fold_left (fun w l => if existsb (mem l) gs
                                     then modl l (sl_group (groups_of l gs)) w else w) ls x) = w_vehs x).
  { intros ls; induction ls as [|l ls IH]; intros x gs'; cbn [fold_left]; auto. rewrite IH. destruct (existsb _ _); auto. }
  destruct gs as [gs|].
  - destruct (negb _); [discriminate|]. destruct (negb _); [discriminate|]. injection H as <-. rewrite F. reflexivity.
  - injection H as <-. reflexivity.
Qed.

Lemma op_spec : forall c o w w' v, op_ok o w -> keeps_route v o w -> (forall a, o <> OExec a) -> apply_op c o w = Ok w' -> v < w_nv w ->
  v_spec (V w' v) = v_spec (V w v).
Proof.
  intros c o w w' v Ho Hk Hx H Hv. destruct o; cbn [apply_op] in H.
  - unfold add_node in H. apply bind_ok in H. destruct H as (nd & _ & H). destruct (smem _ _); [discriminate|].
    injection H as <-. reflexivity.
  - unfold add_link in H. cbn zeta in H. destruct (negb _); [discriminate|].
    apply bind_ok in H. destruct H as (k & _ & H). destruct (smem _ _); [discriminate|]. injection H as <-. reflexivity.
  - unfold add_vehicle in H. cbn zeta in H. destruct (negb _); [discriminate|]. destruct (smem _ _); [discriminate|].
    injection H as <-. unfold V; cbn. rewrite upd_other by lia. reflexivity.
  - rewrite (adddemand_spec _ _ _ _ _ _ _ _ _ _ H Hv). reflexivity.
  - apply finalize_ok in H. unfold V. rewrite (fz_V _ _ _ H). reflexivity.
  - elim (Hx a); auto.
  - apply (add_dest_spec _ _ _ _ _ _ _ H).
  - unfold enforce_route in H. destruct (negb _); [discriminate|]. injection H as <-. rewrite V_at.
    destruct (Nat.eqb v v0) eqn:E; [|reflexivity]. apply Nat.eqb_eq in E. subst. elim (Hk route set_avoid); reflexivity.
  - injection H as <-. rewrite V_at. destruct (Nat.eqb v v0) eqn:E; [apply Nat.eqb_eq in E; subst|]; reflexivity.
  - injection H as <-. rewrite V_at. destruct (Nat.eqb v v0) eqn:E; [apply Nat.eqb_eq in E; subst|]; reflexivity.
  - apply override_V in H. unfold V. rewrite H. reflexivity.
  - unfold change_free_flow_speed in H. cbn zeta in H. binv H; reflexivity.
  - unfold change_jam_density in H. cbn zeta in H. binv H; reflexivity.
  - injection H as <-. reflexivity.
  - injection H as <-. reflexivity.
  - injection H as <-. reflexivity.
  - unfold add_trip_request in H. destruct (negb _); [discriminate|]. injection H as <-. reflexivity.
  - unfold assign_taxi in H. destruct (negb _); [discriminate|]. apply bind_ok in H. destruct H as (w1 & E & H).
    injection H as <-. apply (add_dest_spec _ _ _ _ _ _ v) in E. rewrite <- E.
    change (v_spec (V (modv v0 (fun a => sv_events (dset (r_orig (R w1 r)) (GetOn r) (v_events a)) a) w1) v) = v_spec (V w1 v)).
    rewrite V_at. destruct (Nat.eqb v v0) eqn:Ev; [apply Nat.eqb_eq in Ev; subst|]; reflexivity.
Qed.

(** what an operation keeps *)
Lemma osteps_keep : forall c w w' v, osteps c w w' -> v < w_nv w ->
  vkeep (V w' v) = vkeep (V w v) /\ w_nv w <= w_nv w' /\
  (w_final w = true -> w_final w' = true /\ (forall l, lkeep (L w' l) = lkeep (L w l)) /\ (forall n, nkeep (N w' n) = nkeep (N w n)) /\
     w_nl w' = w_nl w /\ w_nn w' = w_nn w).
Proof.
  intros c w w' v O. induction O as [w|a b d O1 O IH]; intro Hv; [auto 10|].
  assert (K : vkeep (V b v) = vkeep (V a v) /\ w_nv a <= w_nv b /\
    (w_final a = true -> w_final b = true /\ (forall l, lkeep (L b l) = lkeep (L a l)) /\ (forall n, nkeep (N b n) = nkeep (N a n)) /\
     w_nl b = w_nl a /\ w_nn b = w_nn a)).
  { clear IH O. destruct O1; unfold wkeep in *.
    - split; [reflexivity|]. split; [auto|]. congruence.
    - split; [reflexivity|]. split; [auto|]. congruence.
    - split; [unfold V; cbn; rewrite upd_other by lia; reflexivity|]. split; [cbn; lia|]. intro F. cbn. auto 10.
    - apply finalize_ok in H0. split; [unfold V; rewrite (fz_V _ _ _ H0); reflexivity|]. pose proof (fz_cnt _ _ _ H0) as Z.
      split; [assert (w_nv w' = w_nv w) by congruence; lia|]. congruence.
    - split; [apply H|]. assert (w_nv w' = w_nv w) by congruence. split; [lia|]. intro F. split; [congruence|].
      unfold L, N. rewrite H0, H1. repeat split; congruence.
    - split; [unfold V; rewrite H; reflexivity|]. assert (w_nv w' = w_nv w) by congruence. split; [lia|]. intro F. split; [congruence|].
      repeat split; auto; congruence. }
  destruct K as (K1 & K2 & K3). destruct (IH ltac:(lia)) as (I1 & I2 & I3).
  split; [congruence|]. split; [lia|]. intro F. destruct (K3 F) as (F' & A1 & A2 & A3 & A4). destruct (I3 F') as (F'' & B1 & B2 & B3 & B4).
  split; [exact F''|]. split; [intro; rewrite B1; auto|]. split; [intro; rewrite B2; auto|]. split; congruence.
Qed.
Lemma op_keep : forall c o w w' v, op_ok o w -> (forall a, o <> OExec a) -> apply_op c o w = Ok w' -> v < w_nv w ->
  vkeep (V w' v) = vkeep (V w v) /\ w_nv w <= w_nv w' /\
  (w_final w = true -> w_final w' = true /\ (forall l, lkeep (L w' l) = lkeep (L w l)) /\ (forall n, nkeep (N w' n) = nkeep (N w n)) /\
     w_nl w' = w_nl w /\ w_nn w' = w_nn w).
Proof. intros c o w w' v Ho Hx H Hv. eapply osteps_keep; [eapply apply_op_osteps; eauto|exact Hv]. Qed.

(** ** The enforced choice *)
Lemma choose_spec : forall c v w w' sp l, route_next_link_choice c v w = Ok w' -> v_spec (V w v) = Some sp -> v_link (V w v) = Some l ->
  n_out (N w (l_end (L w l))) = [] /\ V w' v = sv_next (Some None) (V w v) \/
  exists out, V w' v = sv_next (Some (Some out)) (V w v) /\ nth_error sp (List.length (v_tlog (V w v)) - 1) = Some out /\
    In out (n_out (N w (l_end (L w l)))).
Proof.
  intros c v w w' sp l H Hs Hl. unfold route_next_link_choice in H. cbn zeta in H. rewrite Hl, Hs in H. cbn [of_opt bind] in H.
  destruct (n_out (N w (l_end (L w l)))) as [|o os] eqn:Eo.
  - left. injection H as <-. rewrite V_modv_same. auto.
  - right. destruct (nth_error sp (List.length (v_tlog (V w v)) - 1)) as [nl|] eqn:En; [|discriminate].
    destruct (mem nl (o :: os)) eqn:Em; [|discriminate]. injection H as <-. exists nl. rewrite V_modv_same. apply mem_iff in Em. auto.
Qed.

Lemma updated_spec : forall c v wa b l sp, updated c v wa b -> v_state b = Run -> v_link b = Some l -> v_spec b = Some sp ->
  (v_next b = v_next (V wa v) /\ (~ (v_x b == l_len (L wa l))%Q \/ v_flag b = true)) \/
  v_next b = Some None \/
  exists out, v_next b = Some (Some out) /\ nth_error sp (List.length (v_tlog b) - 1) = Some out /\ In out (n_out (N wa (l_end (L wa l)))).
Proof.
  intros c v wa b l sp U Hr Hl Hs. destruct (logged_ch c wa v) as [L1 L2].
  destruct U as [U1 U2 U3|U1 U2 U3|U1 U2|k U1 U2 U3 U4|k m d U1 U2 U3 Fm Sm -> U4];
    remember (logged c wa v false) as lg eqn:Elg.
  - exfalso. apply vride_ch in U3. destruct U3. unfold vch in *. congruence.
  - exfalso. apply vride_state in U3. rewrite U3 in Hr. discriminate Hr.
  - exfalso. apply vride_ch in U2. destruct U2. unfold vch in *. congruence.
  - left. destruct (driven_ch c lg) as [D1 D2]. apply vride_ch in U4. destruct U4 as [U4 U5]. unfold vch in *.
    assert (k = l) by congruence. subst k. split; [congruence|]. left. rewrite U5, D2, L2. exact U3.
  - destruct (driven_ch c lg) as [D1 D2]. remember (driven c lg) as d eqn:Ed. clear Ed Elg.
    destruct U4 as [x x' G1 G2 G3 G4 G5 G6 G7 G8|d' b' G1 -> G3].
    + right. assert (Hb : vchoice b = vchoice (V x' v)) by (apply vride_choice; exact G8).
      pose proof (choose_next _ _ _ _ G7) as (_ & j & Hj & Cn).
      assert (Ej : v_link (V x' v) = v_link (V x v) /\ v_spec (V x' v) = v_spec (V x v) /\ v_tlog (V x' v) = v_tlog (V x v)).
      { destruct Cn as [(-> & _)|[(-> & _)|(out & _ & ->)]]; repeat split; reflexivity. }
      destruct Ej as (Ej1 & Ej2 & Ej3). unfold vchoice in Hb.
      assert (j = l) by congruence. subst j.
      destruct (choose_spec c v x x' sp l G7 ltac:(congruence) Hj) as [(C2 & C3)|(out & C2 & C3 & C4)].
      * left. rewrite C3 in Hb. change (v_next (sv_next (Some None) (V x v))) with (Some (@None nat)) in Hb. congruence.
      * right. exists out. rewrite C2 in Hb. change (v_next (sv_next (Some (Some out)) (V x v))) with (Some (Some out)) in Hb.
        change (v_tlog (sv_next (Some (Some out)) (V x v))) with (v_tlog (V x v)) in Hb.
        split; [congruence|]. replace (v_tlog b) with (v_tlog (V x v)) by congruence. split; [exact C3|].
        rewrite (fr_l_end G1), (fr_l_end Fm), (fr_n_out G1), (fr_n_out Fm) in C4. exact C4.
    + destruct G3 as [G3|G3].
      * destruct G1 as [(-> & G1 & G2)|(-> & G1 & G2)].
        -- left. assert (Fl : v_flag b = true) by (apply vride_eq in G3; intuition congruence).
           apply vride_ch in G3. destruct G3 as [G3 _]. destruct (flag_ch d) as [F1 _]. split; [unfold vch in *; congruence|auto].
        -- right; left. apply vride_ch in G3. destruct G3 as [G3 _]. destruct (flag_ch (aborting d)) as [F1 _]. unfold vch in *.
           assert (v_next (aborting d) = Some None) by reflexivity. congruence.
      * exfalso. apply vride_state in G3. destruct (finished_state c m (sv_flag true d')); congruence.
Qed.

(** ** The recorded links follow the route *)
Definition prefix (a b : list lid) : Prop := exists t, b = a ++ t.
Record Follows (sp : list lid) (w : world) (v : vid) : Prop := mkFollows {
  fo_spec : v_spec (V w v) = Some sp;
  fo_links : prefix (links_of (v_tlog (V w v))) sp;
  fo_next : v_state (V w v) = Run -> forall l out, v_link (V w v) = Some l -> v_next (V w v) = Some (Some out) ->
    (v_x (V w v) == l_len (L w l))%Q -> v_flag (V w v) = false ->
    nth_error sp (List.length (links_of (v_tlog (V w v)))) = Some out }.

Lemma prefix_snoc : forall a b x, prefix a b -> nth_error b (List.length a) = Some x -> prefix (a ++ [x]) b.
Proof.
  intros a b x (t & ->) H. rewrite nth_error_app2, Nat.sub_diag in H by lia. destruct t as [|y t]; [discriminate|].
  injection H as ->. exists t. rewrite <- app_assoc. reflexivity.
Qed.
Lemma log_length : forall c w v, reach c w -> v < w_nv w -> v_state (V w v) = Run ->
  List.length (v_tlog (V w v)) - 1 = List.length (links_of (v_tlog (V w v))).
Proof.
  intros c w v R Hv Hr. destruct (reach_trip c w R v Hv) as (es & A). destruct (tp_log _ _ _ _ _ _ _ A) as (t0 & E).
  rewrite E. change ((t0, PHome) :: rows c es ++ end_row c (V w v)) with ([(t0, PHome)] ++ rows c es ++ end_row c (V w v)).
  rewrite !links_of_app, links_of_rows, links_of_end, app_nil_r. unfold end_row. rewrite Hr, app_nil_r.
  unfold rows. cbn [app List.length links_of flat_map snd]. rewrite !map_length. lia.
Qed.

Lemma logged_idle : forall c w v, v_state (V w v) = Home \/ v_state (V w v) = Wait ->
  links_of (v_tlog (logged c w v false)) = links_of (v_tlog (V w v)).
Proof.
  intros c w v H. unfold logged, tlog_rows. rs. rewrite links_of_app.
  destruct (opt_eqb _ _); [apply app_nil_r|]. destruct H as [-> | ->]; apply app_nil_r.
Qed.
Lemma updated_idle : forall c v wa b, updated c v wa b -> v_state (V wa v) <> Run -> links_of (v_tlog b) = links_of (v_tlog (V wa v)).
Proof.
  intros c v wa b U Hr. destruct U as [U1 U2 U3|U1 U2 U3|U1 U2|k U1 U2 U3 U4|k m d U1 U2 U3 Fm Sm -> U4]; try congruence;
   rewrite <- (logged_idle c wa v) by auto.
  - apply vride_links in U3. unfold vlinks in *. congruence.
  - apply vride_links in U3. unfold vlinks in *. rs in U3. congruence.
  - apply vride_links in U2. unfold vlinks in *. congruence.
Qed.
Lemma follows_body : forall c v sp w w3 w4 w', reach c w -> w_final w = true -> v < w_nv w -> Inv2 w None -> IncB w -> Ends w None ->
  body c w = Ok w' -> Follows sp w v -> body_view c v w w' w3 w4 -> Follows sp (sw_T (S (w_T w)) w') v.
Proof.
  intros c v sp w w3 w4 w' R Hf Hv I J En Hb [A1 A2 A3] BV.
  assert (R' : reach c (sw_T (S (w_T w)) w')).
  { eapply rc_tick; eauto. unfold tick. rewrite Hb. cbn [bind]. rewrite (fr_w_T (body_fr _ _ Hb)). reflexivity. }
  pose proof (log_length c _ v R' ltac:(cbn; rewrite (fr_w_nv (body_fr _ _ Hb)); exact Hv)) as LL.
  change (V (sw_T (S (w_T w)) w') v) with (V w' v) in LL.
  pose proof (body_fr _ _ Hb) as F. constructor; change (V (sw_T (S (w_T w)) w') v) with (V w' v).
  - rewrite (fr_v_spec F). exact A1.
  - pose proof (first_cases c v w w3 Hv (bv_first _ _ _ _ _ _ BV)) as FC.
    assert (Nr : v_state (V w3 v) <> Run -> links_of (v_tlog (V w3 v)) = links_of (v_tlog (V w v)) ->
      prefix (links_of (v_tlog (V w' v))) sp).
    { intros Hn Hk. replace (links_of (v_tlog (V w' v))) with (links_of (v_tlog (V w v))); [exact A2|]. rewrite <- Hk.
      destruct (alive_dec (v_state (V w3 v))) as [Ha|Ha].
      - destruct (later_view c v w w' w3 w4 BV Ha) as (wa & b & _ & _ & _ & B4 & B5 & B6 & B7 & B8).
        apply vride_links in B5. unfold vlinks in B5. unfold vrt in B6.
        assert (E : links_of (v_tlog b) = links_of (v_tlog (V wa v))) by (apply (updated_idle c v wa b B4); congruence). congruence.
      - apply vride_links in Ha || pose proof (bv_gone _ _ _ _ _ _ BV Ha) as B. apply vride_links in B. unfold vlinks in B. congruence. }
    destruct FC as [E|out outs E1 E2 E3 E4 E5 E6|il out E1 E2 E3 E4 E5 E6 E7 E8|E1 E2 E3].
    + apply vride_rt in E. destruct E as (E1 & E2 & E3). unfold vrt in E1.
      destruct (vstate_dec (v_state (V w3 v)) Run) as [Hr|Hr]; [|apply Nr; [exact Hr|congruence]].
      destruct (bv_follow _ _ _ _ _ _ BV Hr) as (k & Hk & _).
      destruct (rest_view c v w w' w3 w4 k BV Hr Hk) as (Q & _). destruct (run_recorded c w v k R Hv) as (Q1 & _); [split; congruence|].
      replace (v_linkold (V w3 v)) with (Some k) in Q by congruence. cbn [opt_eqb] in Q. rewrite Nat.eqb_refl, app_nil_r in Q.
      rewrite Q. replace (v_tlog (V w3 v)) with (v_tlog (V w v)) by congruence. exact A2.
    + destruct (rest_view c v w w' w3 w4 out BV E4 E5) as (Q & _). unfold vrt in E6.
      destruct (reach_trip c w R v Hv) as (es & A). destruct (tp_home _ _ _ _ _ _ _ A (or_intror E1)) as (-> & Q1 & _).
      destruct (tp_log _ _ _ _ _ _ _ A) as (t0 & Q2).
      assert (Q3 : links_of (v_tlog (V w v)) = []) by (rewrite Q2; unfold end_row; rewrite E1; reflexivity).
      replace (v_linkold (V w3 v)) with (@None lid) in Q by congruence. replace (v_tlog (V w3 v)) with (v_tlog (V w v)) in Q by congruence.
      rewrite Q3 in Q. cbn in Q. rewrite Q. unfold gen_outlinks in E2. rewrite A1 in E2. destruct sp as [|x sp]; [discriminate|].
      cbn [nth_error of_opt bind] in E2. destruct (mem x _); [|discriminate]. injection E2 as <-. destruct E3 as [<-|[]]. exists sp. reflexivity.
    + destruct (rest_view c v w w' w3 w4 out BV E6 E7) as (Q & _). unfold vrt in E8.
      replace (v_tlog (V w3 v)) with (v_tlog (V w v)) in Q by congruence. rewrite Q.
      destruct (opt_eqb _ _); [rewrite app_nil_r; exact A2|]. apply prefix_snoc; [exact A2|]. eapply A3; eauto.
    + apply Nr; [intuition congruence|exact E3].
  - intros Hr l out Hl Hn Hx Hfl. change (L (sw_T (S (w_T w)) w') l) with (L w' l) in Hx. rewrite <- (LL Hr).
    assert (Ha : alive (v_state (V w3 v))).
    { destruct (alive_dec (v_state (V w3 v))) as [Ha|Ha]; [exact Ha|]. exfalso.
      pose proof (bv_gone _ _ _ _ _ _ BV Ha) as B. apply vride_state in B. rewrite Hr in B. apply Ha. apply alive_run. auto. }
    destruct (later_view c v w w' w3 w4 BV Ha) as (wa & b & B1 & B2 & B3 & B4 & B5 & B6 & B7 & B8).
    pose proof (vride_eq _ _ B5) as Q.
    assert (Q' : v_state (V w' v) = v_state b /\ v_link (V w' v) = v_link b /\ v_next (V w' v) = v_next b /\ v_x (V w' v) = v_x b /\
      v_flag (V w' v) = v_flag b /\ v_spec (V w' v) = v_spec b /\ v_tlog (V w' v) = v_tlog b) by intuition congruence.
    clear Q. destruct Q' as (Q1 & Q2 & Q3 & Q4 & Q5 & Q6 & Q7).
    destruct (updated_spec c v wa b l sp B4) as [(_ & [C|C])|[C|(o & C1 & C2 & C3)]]; try congruence.
    + rewrite <- Q6, (fr_v_spec F). exact A1.
    + exfalso. apply C. rewrite <- Q4, (fr_l_len B1), <- (fr_l_len F). exact Hx.
Qed.

Lemma follows_op : forall c v sp w o w', reach c w -> op_ok o w -> keeps_route v o w -> (forall a, o <> OExec a) ->
  apply_op c o w = Ok w' -> v < w_nv w -> Follows sp w v -> Follows sp w' v.
Proof.
  intros c v sp w o w' R Ho Hk Hx H Hv [A1 A2 A3].
  pose proof (op_spec c o w w' v Ho Hk Hx H Hv) as S. destruct (op_keep c o w w' v Ho Hx H Hv) as (K1 & _ & K3). unfold vkeep in K1.
  constructor; [congruence|replace (v_tlog (V w' v)) with (v_tlog (V w v)) by congruence; exact A2|].
  intros Hr l out Hl Hn Hq Hf. destruct (w_final w) eqn:Ef.
  - destruct (K3 eq_refl) as (_ & K & _). specialize (K l). unfold lkeep in K.
    replace (v_tlog (V w' v)) with (v_tlog (V w v)) by congruence.
    apply (A3 ltac:(congruence) l out); congruence.
  - exfalso. pose proof (reach_home c w R Ef v Hv) as Z. congruence.
Qed.

Theorem follows_later : forall c w w' v sp, reach c w -> later c (keeps_route v) w w' -> v < w_nv w -> Follows sp w v ->
  Follows sp w' v /\ v < w_nv w'.
Proof.
  intros c w w' v sp R K Hv A.
  refine (later_ride c (keeps_route v) (fun x => Follows sp x v) v _ _ _ w w' R K Hv A).
  - intros. eapply follows_body; eauto.
  - intros x [B1 B2 B3]. constructor; assumption.
  - intros. eapply follows_op; eauto.
Qed.

(** a vehicle that has not departed yet and has been given a route *)
Lemma follows_start : forall c w v sp, reach c w -> v < w_nv w -> v_state (V w v) = Home \/ v_state (V w v) = Wait ->
  v_spec (V w v) = Some sp -> Follows sp w v.
Proof.
  intros c w v sp R Hv Hs Hp. destruct (reach_trip c w R v Hv) as (es & A). destruct (tp_home _ _ _ _ _ _ _ A Hs) as (-> & _ & _).
  destruct (tp_log _ _ _ _ _ _ _ A) as (t0 & Q2). constructor; [exact Hp| |intro K; destruct Hs; congruence].
  exists sp. rewrite Q2. unfold end_row. destruct Hs as [-> | ->]; reflexivity.
Qed.

Theorem enforced_lemma : forall c w w' v sp, reach c w -> exists_veh w v -> v_state (V w v) = Home \/ v_state (V w v) = Wait ->
  v_spec (V w v) = Some sp -> later c (keeps_route v) w w' ->
  (exists rest, sp = links_of (v_tlog (V w' v)) ++ rest) /\
  (forall l, on_link w' v l -> exists done rest, links_of (v_tlog (V w' v)) = done ++ [l] /\ sp = done ++ l :: rest).
Proof.
  intros c w w' v sp R Hv Hs Hp K. destruct (follows_later c w w' v sp R K Hv (follows_start c w v sp R Hv Hs Hp)) as [[B1 B2 B3] Hv'].
  split; [exact B2|]. intros l Hl. destruct (run_recorded c w' v l (later_reach _ _ _ _ R K) Hv' Hl) as (_ & ls & E).
  destruct B2 as (r & B2). exists ls, r. split; [exact E|]. rewrite B2, E, <- app_assoc. reflexivity.
Qed.

(** the step from one link of the route to the next *)
Theorem enforced_step_lemma : forall c w w1 w2 v sp l, reach c w -> exists_veh w v -> v_state (V w v) = Home \/ v_state (V w v) = Wait ->
  v_spec (V w v) = Some sp -> later c (keeps_route v) w w1 -> w_final w1 = true -> tick c w1 = Ok w2 ->
  on_link w1 v l ->
  (links_of (v_tlog (V w2 v)) = links_of (v_tlog (V w1 v)) /\ (v_state (V w2 v) = Run -> v_link (V w2 v) = Some l)) \/
  exists out, nth_error sp (List.length (links_of (v_tlog (V w1 v)))) = Some out /\
    links_of (v_tlog (V w2 v)) = links_of (v_tlog (V w1 v)) ++ [out] /\ (v_state (V w2 v) = Run -> v_link (V w2 v) = Some out).
Proof.
  intros c w w1 w2 v sp l R Hv Hs Hp K Hf H Hl.
  pose proof (later_reach _ _ _ _ R K) as R1.
  destruct (follows_later c w w1 v sp R K Hv (follows_start c w v sp R Hv Hs Hp)) as [F1 Hv1].
  destruct (enter_chosen_lemma c w1 w2 v l R1 Hf H Hv1 Hl) as [A|(out & A1 & A2 & A3 & A4)]; [left; exact A|].
  right. exists out. split; [|auto].
  assert (K2 : later c (keeps_route v) w w2) by (eapply lt_step; [exact K|apply st_tick; auto]).
  destruct (follows_later c w w2 v sp R K2 Hv (follows_start c w v sp R Hv Hs Hp)) as [[_ (r & B2) _] _].
  rewrite A3, <- app_assoc in B2. rewrite B2, nth_error_app2, Nat.sub_diag by lia. reflexivity.
Qed.

(** the vehicle is at the end of a link that is not its destination: the next link of the route exists and starts there, or
    the timestep raised an error *)
Theorem enforced_fits_lemma : forall c w w' v l sp, reach c w -> w_final w = true -> tick c w = Ok w' -> exists_veh w v ->
  on_link w' v l -> v_spec (V w' v) = Some sp -> (v_x (V w' v) == l_len (L w' l))%Q -> v_flag (V w' v) = false ->
  v_next (V w' v) <> Some None ->
  exists out, v_next (V w' v) = Some (Some out) /\ nth_error sp (List.length (links_of (v_tlog (V w' v)))) = Some out /\
    In out (n_out (N w' (l_end (L w' l)))).
Proof.
  intros c w w' v l sp R Hf H Hv [Hr Hl] Hs Hx Hfl Hn.
  assert (R' : reach c w') by (eapply rc_tick; eauto).
  pose proof (tick_fr _ _ _ H) as (w1 & Hb & E). pose proof (body_fr _ _ Hb) as F.
  rewrite <- (log_length c w' v R' ltac:(rewrite E; cbn; rewrite (fr_w_nv F); exact Hv) Hr).
  subst w'. change (V (sw_T (S (w_T w)) w1) v) with (V w1 v) in *. change (L (sw_T (S (w_T w)) w1)) with (L w1) in *.
  change (N (sw_T (S (w_T w)) w1)) with (N w1).
  destruct (body_viewed c v w w1 Hv (reach_Inv2 _ _ R) (reach_IncB _ _ R) (reach_Ends _ _ R) Hb) as (w3 & w4 & BV).
  assert (Ha : alive (v_state (V w3 v))).
  { destruct (alive_dec (v_state (V w3 v))) as [Ha|Ha]; [exact Ha|]. exfalso.
    pose proof (bv_gone _ _ _ _ _ _ BV Ha) as B. apply vride_state in B. rewrite Hr in B. apply Ha. apply alive_run. auto. }
  destruct (later_view c v w w1 w3 w4 BV Ha) as (wa & b & B1 & B2 & B3 & B4 & B5 & B6 & B7 & B8).
  pose proof (vride_eq _ _ B5) as Q.
  assert (Q' : v_state (V w1 v) = v_state b /\ v_link (V w1 v) = v_link b /\ v_next (V w1 v) = v_next b /\ v_x (V w1 v) = v_x b /\
      v_flag (V w1 v) = v_flag b /\ v_spec (V w1 v) = v_spec b /\ v_tlog (V w1 v) = v_tlog b) by intuition congruence.
  clear Q. destruct Q' as (Q1 & Q2 & Q3 & Q4 & Q5 & Q6 & Q7).
  destruct (updated_spec c v wa b l sp B4) as [(_ & [C|C])|[C|(o & C1 & C2 & C3)]]; try congruence.
  - exfalso. apply C. rewrite <- Q4, (fr_l_len B1), <- (fr_l_len F). exact Hx.
  - exists o. rewrite (fr_l_end F), (fr_n_out F). rewrite (fr_l_end B1), (fr_n_out B1) in C3. split; [congruence|]. split; [congruence|exact C3].
Qed.

(** errors of the two places where the route is read *)
Theorem enforced_error_lemma : forall c v w l sp, v_link (V w v) = Some l -> v_spec (V w v) = Some sp -> n_out (N w (l_end (L w l))) <> [] ->
  (nth_error sp (List.length (v_tlog (V w v)) - 1) = None -> route_next_link_choice c v w = Err IndexError) /\
  (forall k, nth_error sp (List.length (v_tlog (V w v)) - 1) = Some k -> ~ In k (n_out (N w (l_end (L w l)))) ->
    route_next_link_choice c v w = Err ValueError).
Proof.
  intros c v w l sp Hl Hs Ho. unfold route_next_link_choice. rewrite Hl. cbn [of_opt bind]. rewrite Hs.
  destruct (n_out (N w (l_end (L w l)))) as [|o os]; [congruence|]. split.
  - intros ->. reflexivity.
  - intros k Hk Hi. rewrite Hk. cbn [of_opt bind]. destruct (mem k (o :: os)) eqn:Em; [apply mem_iff in Em; contradiction|reflexivity].
Qed.
Theorem enforced_start_error_lemma : forall c n w v q sp, n_queue (N w n) = v :: q -> v_spec (V w v) = Some sp ->
  0 < nsum (map (fun l => l_lanes (L w l)) (n_out (N w n))) ->
  (sp = [] -> generate c n w = Err IndexError) /\
  (forall k r, sp = k :: r -> ~ In k (n_out (N w n)) -> generate c n w = Err ValueError).
Proof.
  intros c n w v q sp Hq Hs Hn. unfold generate. destruct (nsum _) as [|k] eqn:E; [lia|]. cbn [gen_loop]. rewrite Hq.
  unfold gen_outlinks. rewrite Hs. split.
  - intros ->. reflexivity.
  - intros a r -> Hi. cbn [nth_error of_opt bind]. destruct (mem a _) eqn:Em; [apply mem_iff in Em; contradiction|reflexivity].
Qed.

(** a vehicle about to leave its link takes the next link of the route *)
Theorem enforced_next_lemma : forall c w w' v sp l out, reach c w -> exists_veh w v -> v_state (V w v) = Home \/ v_state (V w v) = Wait ->
  v_spec (V w v) = Some sp -> later c (keeps_route v) w w' -> on_link w' v l ->
  (v_x (V w' v) == l_len (L w' l))%Q -> v_flag (V w' v) = false -> v_next (V w' v) = Some (Some out) ->
  nth_error sp (List.length (links_of (v_tlog (V w' v)))) = Some out.
Proof.
  intros c w w' v sp l out R Hv Hs Hp K [Hr Hl] Hx Hf Hn.
  destruct (follows_later c w w' v sp R K Hv (follows_start c w v sp R Hv Hs Hp)) as [[_ _ B3] _]. eauto.
Qed.
(** the call of enforce_route: fails for links of another World, else sets the route *)
Theorem enforce_route_lemma : forall v r b w, 
  (forall w', enforce_route v r b w = Ok w' -> v_spec (V w' v) = Some r /\ v_prefer (V w' v) = r /\ Forall (exists_link w) r) /\
  (forall e, enforce_route v r b w = Err e -> exists l, In l r /\ ~ exists_link w l).
Proof.
  intros v r b w. unfold enforce_route. destruct (forallb _ r) eqn:E; cbn [negb]; split.
  - intros w' H. injection H as <-. rewrite V_modv_same. rewrite forallb_forall in E.
    destruct b; (split; [reflexivity|split; [reflexivity|]]); apply Forall_forall; intros x Hx; apply E in Hx; apply Nat.ltb_lt; exact Hx.
  - discriminate.
  - discriminate.
  - intros e _. induction r as [|x r IH]; [discriminate|]. cbn [forallb] in E. apply andb_false_iff in E. destruct E as [E|E].
    + exists x. split; [left; auto|]. apply Nat.ltb_ge in E. unfold exists_link. lia.
    + destruct (IH E) as (l & H1 & H2). exists l. split; [right; auto|auto].
Qed.
