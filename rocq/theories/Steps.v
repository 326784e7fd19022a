(** * Steps: runs as sequences of public operations and timesteps. *)
From Verif Require Import Base Types Sim Build Heap FrameBase Tac Frame Lists Inv Eff Eff2 Trace InvStep Reach.

(** ** Histories *)

(** One public operation other than [exec_simulation], one timestep of the main loop, or
    the assignment of W.TIME at the end of [exec_simulation]. [P] restricts the operations. *)
Inductive step (c : cfg) (P : op -> world -> Prop) : world -> world -> Prop :=
| st_op : forall w o w', op_ok o w -> P o w -> (forall a, o <> OExec a) -> apply_op c o w = Ok w' ->
    step c P w w'
| st_tick : forall w w', w_final w = true -> tick c w = Ok w' -> step c P w w'
| st_time : forall w, step c P w (sw_TIME (now c w) w).

(** [later c P w w']: [w'] is reached from [w]. *)
Inductive later (c : cfg) (P : op -> world -> Prop) (w : world) : world -> Prop :=
| lt_refl : later c P w w
| lt_step : forall w1 w2, later c P w w1 -> step c P w1 w2 -> later c P w w2.

Definition any_op (o : op) (w : world) : Prop := True.

Lemma later_trans : forall c P a b d, later c P a b -> later c P b d -> later c P a d.
Proof. intros c P a b d H K; induction K; auto. econstructor; eauto. Qed.

Lemma later_weaken : forall c (P Q : op -> world -> Prop) a b,
  (forall o w, P o w -> Q o w) -> later c P a b -> later c Q a b.
Proof.
  intros c P Q a b H K; induction K; [constructor|]. econstructor; eauto.
  destruct H0; [eapply st_op|eapply st_tick|eapply st_time]; eauto.
Qed.

Lemma reach_later : forall c w, reach c w <-> exists tm, later c any_op (empty_world tm) w.
Proof.
  intros c w. split.
  - intro H; induction H as [tm|w o w' H IH Ho Hx E|w w' H IH F E|w H IH].
    + exists tm. constructor.
    + destruct IH as (tm & K). exists tm. econstructor; eauto. eapply st_op; eauto. exact I.
    + destruct IH as (tm & K). exists tm. econstructor; eauto. eapply st_tick; eauto.
    + destruct IH as (tm & K). exists tm. econstructor; eauto. eapply st_time; eauto.
  - intros (tm & H). induction H; [constructor|]. destruct H0; [eapply rc_op|eapply rc_tick|eapply rc_time]; eauto.
Qed.

Lemma step_reach : forall c P a b, reach c a -> step c P a b -> reach c b.
Proof. intros c P a b R K. destruct K; [eapply rc_op|eapply rc_tick|eapply rc_time]; eauto. Qed.
Lemma later_reach : forall c P a b, reach c a -> later c P a b -> reach c b.
Proof. intros c P a b R K; induction K; auto. eapply step_reach; eauto. Qed.

(** states reached by operations satisfying [P] *)
Definition reachP (c : cfg) (P : op -> world -> Prop) (w : world) : Prop :=
  exists tm, later c P (empty_world tm) w.
Lemma reachP_reach : forall c P w, reachP c P w -> reach c w.
Proof.
  intros c P w (tm & H). apply reach_later. exists tm. eapply later_weaken; [|exact H]. intros; exact I.
Qed.
Lemma reachP_step : forall c P a b, reachP c P a -> step c P a b -> reachP c P b.
Proof. intros c P a b (tm & H) K. exists tm. econstructor; eauto. Qed.
Lemma reachP_later : forall c P a b, reachP c P a -> later c P a b -> reachP c P b.
Proof. intros c P a b (tm & H) K. exists tm. eapply later_trans; eauto. Qed.

Lemma reachP_ind' : forall c P (J : world -> Prop),
  (forall tm, J (empty_world tm)) ->
  (forall w w', reachP c P w -> J w -> step c P w w' -> J w') ->
  forall w, reachP c P w -> J w.
Proof.
  intros c P J H0 Hs w (tm & H). induction H; auto. eapply Hs; eauto. exists tm; auto.
Qed.

(** sequences of public calls, as users write them *)
Fixpoint calls (c : cfg) (os : list op) (w : world) : result world :=
  match os with
  | [] => Ok w
  | o :: tl => w1 <- apply_op c o w ;; calls c tl w1
  end.

(** ** Shapes of the operations *)

(** fields of a vehicle that no operation changes *)
Definition vkeep (a : vehicle) :=
  (v_name a, v_orig a, v_dep a, v_depsec a, v_arr a, v_larr a, v_tt a, v_state a, v_link a,
   (v_x a, v_xnext a, v_xold a, v_v a, v_lane a, v_leader a, v_follower a, v_flag a, v_remain a),
   (v_princ a, v_mode a, v_abortopt a, v_aborted a, v_log a,
    v_tlog a, v_linkold a, v_dist a, v_next a)).
(** fields of a link that attribute changes keep *)
Definition lkeep (k : link) :=
  (l_name k, l_start k, l_end k, l_len k, l_lanes k, l_ca k, l_cd k, l_tti k, l_tta k, l_prio k,
   (l_vehs k, l_enter k, l_cinr k, l_coutr k)).
Definition nkeep (a : node) :=
  (n_name a, n_x a, n_y a, n_siglog a, n_in a, n_out a, n_queue a, n_incoming a, (n_fcap a, n_fcapr a, n_lanes a)).
Definition wkeep (w : world) :=
  (w_nn w, w_nl w, w_nv w, w_living w, w_running w, w_T w, w_TIME w, w_tmax w, w_tsize w, w_final w,
   (w_prefveh w, w_rcdist w, w_rcnext w, w_rcpref w, w_rcrec w, w_avgspd w, w_avgcnt w, w_draw w)).

Definition added_node (nd : node) (w : world) : world :=
  sw_nn (S (w_nn w)) (sw_nodes (upd (w_nodes w) (w_nn w) nd) w).
Definition added_link (s e : nid) (k : link) (w : world) : world :=
  modn e (fun nd => sn_in (n_in nd ++ [w_nl w]) nd)
    (modn s (fun nd => sn_out (n_out nd ++ [w_nl w]) nd)
      (sw_nl (S (w_nl w)) (sw_links (upd (w_links w) (w_nl w) k) w))).
Definition added_veh (a : vehicle) (pv : option nat) (w : world) : world :=
  sw_living (w_living w ++ [w_nv w]) (sw_prefveh pv
    (sw_nv (S (w_nv w)) (sw_vehs (upd (w_vehs w) (w_nv w) a) w))).

Inductive ostep (c : cfg) : world -> world -> Prop :=
| os_node : forall a nd w, w_final w = false -> new_node c a = Ok nd ->
    ~ In (na_name a) (node_names w) -> ostep c w (added_node nd w)
| os_link : forall a k w, w_final w = false -> la_start a < w_nn w -> la_end a < w_nn w ->
    new_link c a (link_name_of w a) = Ok k -> ~ In (link_name_of w a) (link_names w) ->
    ostep c w (added_link (la_start a) (la_end a) k w)
| os_veh : forall a nl nm pv w, va_orig a < w_nn w ->
    node_ok w (va_dest a) = true -> (forall l, In l (va_prefer a ++ va_avoid a) -> l < w_nl w) ->
    nl = match w_prefveh w with Some n => n | None => w_nl w end ->
    nm = match va_name a with Some s => s | None => dec (w_nv w) end ->
    ~ In nm (veh_names w) -> (pv = w_prefveh w \/ pv = Some nl) ->
    ostep c w (added_veh (new_vehicle c a nl nm) pv w)
| os_final : forall tm w w', w_final w = false -> finalize c tm w = Ok w' -> ostep c w w'
| os_route : forall w w', (forall v, vkeep (V w' v) = vkeep (V w v)) -> w_links w' = w_links w ->
    w_nodes w' = w_nodes w -> wkeep w' = wkeep w ->
    (forall v, v_mode (V w v) = SingleTrip -> v_dest (V w' v) = v_dest (V w v)) -> ostep c w w'
| os_attr : forall w w', w_vehs w' = w_vehs w -> (forall l, lkeep (L w' l) = lkeep (L w l)) ->
    (forall n, nkeep (N w' n) = nkeep (N w n)) -> wkeep w' = wkeep w -> ostep c w w'.

Inductive osteps (c : cfg) : world -> world -> Prop :=
| oss_nil : forall w, osteps c w w
| oss_cons : forall a b d, ostep c a b -> osteps c b d -> osteps c a d.
Lemma osteps_one : forall c a b, ostep c a b -> osteps c a b.
Proof. intros; econstructor; eauto; constructor. Qed.
Lemma osteps_trans : forall c a b d, osteps c a b -> osteps c b d -> osteps c a d.
Proof. intros c a b d H; induction H; auto. intro; econstructor; eauto. Qed.

Lemma smem_iff : forall s l, smem s l = true <-> In s l.
Proof.
  intros s l. unfold smem. rewrite existsb_exists. split.
  - intros (x & H & E). apply String.eqb_eq in E. subst; auto.
  - intro H. exists s. split; auto. apply String.eqb_refl.
Qed.
Lemma smem_false : forall s l, smem s l = false <-> ~ In s l.
Proof. intros s l. rewrite <- smem_iff. destruct (smem s l); split; intros; congruence. Qed.

Lemma add_vehicle_ostep : forall c a w w', add_vehicle c a w = Ok w' -> ostep c w w'.
Proof.
  intros c a w w' H. unfold add_vehicle in H. cbn zeta in H.
  destruct (_ && _) eqn:Eb in H; [|discriminate]. cbn [negb] in H.
  apply andb_true_iff in Eb. destruct Eb as [Eb E3]. apply andb_true_iff in Eb. destruct Eb as [E1 E2].
  apply Nat.ltb_lt in E1. rewrite forallb_forall in E3.
  destruct (smem _ _) eqn:Em in H; [discriminate|]. injection H as <-. apply smem_false in Em.
  eapply os_veh; eauto.
  - intros l Hl. apply E3 in Hl. apply Nat.ltb_lt; auto.
  - destruct (va_pref a); auto.
Qed.

Ltac keep_v := intros; rewrite ?V_at; repeat match goal with |- context [Nat.eqb ?a ?b] => destruct (Nat.eqb a b) end; try reflexivity.

Lemma modv_route : forall c w v f, vkeep (f (V w v)) = vkeep (V w v) ->
  (v_mode (V w v) = SingleTrip -> v_dest (f (V w v)) = v_dest (V w v)) -> ostep c w (modv v f w).
Proof.
  intros c w v f H K. apply os_route; try reflexivity; intro u; rewrite V_at;
  destruct (Nat.eqb u v) eqn:E; auto; apply Nat.eqb_eq in E; subst; auto.
Qed.
Lemma modl_attr : forall c w v f, lkeep (f (L w v)) = lkeep (L w v) -> ostep c w (modl v f w).
Proof.
  intros c w v f H. apply os_attr; try reflexivity. intro u. rewrite L_at.
  destruct (Nat.eqb u v) eqn:E; auto. apply Nat.eqb_eq in E; subst; auto.
Qed.
Lemma modn_attr : forall c w v f, nkeep (f (N w v)) = nkeep (N w v) -> ostep c w (modn v f w).
Proof.
  intros c w v f H. apply os_attr; try reflexivity. intro u. rewrite N_at.
  destruct (Nat.eqb u v) eqn:E; auto. apply Nat.eqb_eq in E; subst; auto.
Qed.
Lemma fold_osteps : forall A c (f : world -> A -> world) xs w,
  (forall x a, osteps c a (f a x)) -> osteps c w (fold_left f xs w).
Proof.
  intros A c f xs; induction xs as [|x xs IH]; intros w Hf; cbn; [constructor|].
  eapply osteps_trans; [apply Hf|apply IH; auto].
Qed.

Lemma route_pref_update_osteps : forall c v q w w', route_pref_update c v q w = Ok w' -> osteps c w w'.
Proof.
  intros c v q w w' H. unfold route_pref_update in H. cbn zeta in H.
  binv H; apply osteps_one; apply modv_route; auto.
Qed.
Lemma add_dest_osteps : forall c v d o w w', add_dest c v d o w = Ok w' -> osteps c w w'.
Proof.
  intros c v d o w w' H. unfold add_dest in H. destruct (v_mode (V w v)) eqn:Em; [discriminate|].
  destruct (v_dest (V w v)).
  - injection H as <-. apply osteps_one, modv_route; auto.
  - apply route_pref_update_osteps in H. eapply oss_cons; [|exact H]. apply modv_route; [auto|congruence].
Qed.

Lemma apply_op_osteps : forall c o w w', op_ok o w -> (forall a, o <> OExec a) ->
  apply_op c o w = Ok w' -> osteps c w w'.
Proof.
  intros c o w w' Ho Hx H. destruct o; cbn [apply_op] in H; cbn [op_ok] in Ho.
  - unfold add_node in H. apply bind_ok in H. destruct H as (nd & E & H).
    destruct (smem _ _) eqn:Em in H; [discriminate|]. injection H as <-. apply smem_false in Em.
    apply osteps_one. eapply os_node; eauto.
  - unfold add_link in H. cbn zeta in H.
    destruct ((la_start a <? w_nn w) && (la_end a <? w_nn w)) eqn:Eb; [|discriminate]. cbn [negb] in H.
    apply andb_true_iff in Eb. destruct Eb as [Es Ee]. apply Nat.ltb_lt in Es, Ee.
    apply bind_ok in H. destruct H as (k & E & H).
    destruct (smem _ _) eqn:Em in H; [discriminate|]. injection H as <-. apply smem_false in Em.
    apply osteps_one. eapply os_link; eauto.
  - apply osteps_one. eapply add_vehicle_ostep; eauto.
  - eapply (adddemand_inv (fun x => osteps c w x)); [|apply oss_nil|exact H].
    intros t a b K E. eapply osteps_trans; [exact K|]. apply osteps_one. eapply add_vehicle_ostep; eauto.
  - apply osteps_one. eapply os_final; eauto.
  - elim (Hx a); auto.
  - eapply add_dest_osteps; eauto.
  - unfold enforce_route in H. destruct (negb _); [discriminate|]. injection H as <-.
    apply osteps_one, modv_route; destruct set_avoid; auto.
  - injection H as <-. apply osteps_one, modv_route; auto.
  - injection H as <-. apply osteps_one, modv_route; auto.
  - unfold override_signal in H. cbn zeta in H.
    match type of H with context [modn n ?f w] => assert (S1 : osteps c w (modn n f w)) by (apply osteps_one, modn_attr; destruct reset; reflexivity) end.
    destruct groups as [gs|]; [|injection H as <-; auto].
    destruct (negb _); [discriminate|]. destruct (negb _); [discriminate|]. injection H as <-.
    eapply osteps_trans; [exact S1|]. apply fold_osteps. intros l b. destruct (existsb _ _);
    [apply osteps_one, modl_attr; reflexivity|constructor].
  - unfold change_free_flow_speed in H. cbn zeta in H.
    destruct (qlt _ _); [injection H as <-; constructor|].
    repeat (apply bind_ok in H; let x := fresh "x" in destruct H as (x & _ & H)). injection H as <-.
    apply osteps_one, modl_attr; reflexivity.
  - unfold change_jam_density in H. cbn zeta in H.
    destruct (qlt _ _); [injection H as <-; constructor|].
    repeat (apply bind_ok in H; let x := fresh "x" in destruct H as (x & _ & H)). injection H as <-.
    apply osteps_one, modl_attr; reflexivity.
  - injection H as <-. apply osteps_one, modl_attr; reflexivity.
  - injection H as <-. apply osteps_one, modl_attr; reflexivity.
  - injection H as <-. apply osteps_one, modl_attr; reflexivity.
  - unfold add_trip_request in H. destruct (negb _); [discriminate|]. injection H as <-.
    apply osteps_one, os_route; auto.
  - unfold assign_taxi in H. destruct (negb _); [discriminate|]. apply bind_ok in H. destruct H as (w1 & E & H).
    cbn zeta in H. injection H as <-. apply add_dest_osteps in E.
    eapply osteps_trans; [exact E|].
    eapply oss_cons; [apply modv_route with (v := v) (f := fun a => sv_events (dset (r_orig (R w1 r)) (GetOn r) (v_events a)) a); auto|].
    apply osteps_one, os_route; auto.
Qed.

Lemma ostep_Inv2 : forall c w w', Inv2 w None -> ostep c w w' -> Inv2 w' None.
Proof.
  intros c w w' I H. destruct H.
  - eapply add_node_Inv2; [exact I|]. unfold add_node. rewrite H0. cbn [bind].
    apply smem_false in H1. rewrite H1. reflexivity.
  - eapply add_link_Inv2; [exact I|]. unfold add_link. apply Nat.ltb_lt in H0, H1. rewrite H0, H1. cbn [andb negb].
    cbv zeta. rewrite H2. cbn [bind]. apply smem_false in H3. rewrite H3. reflexivity.
  - apply (Inv2_same (added_veh (new_vehicle c a nl nm)
             (match va_pref a with Some _ => w_prefveh w | None => Some nl end) w)); try reflexivity.
    eapply add_vehicle_Inv2 with (c := c) (a := a); [exact I|]. unfold add_vehicle.
    apply Nat.ltb_lt in H. rewrite H, H0. cbn [andb negb].
    assert (Ef : forallb (fun l => l <? w_nl w) (va_prefer a ++ va_avoid a) = true).
    { apply forallb_forall. intros l Hl. apply Nat.ltb_lt. auto. }
    rewrite Ef. cbv zeta. cbn [negb]. apply smem_false in H4. rewrite <- H3, H4, <- H2. reflexivity.
  - eapply same_struct_Inv2; [eapply finalize_ss; eauto|auto].
  - destruct I as [[T I] NI].
    assert (EL : forall l, L w' l = L w l) by (intro; unfold L; rewrite H0; auto).
    assert (EN : forall l, N w' l = N w l) by (intro; unfold N; rewrite H1; auto).
    assert (Hn : forall v, v_next (V w' v) = v_next (V w v)) by (intro v; specialize (H v); unfold vkeep in H; congruence).
    unfold wkeep in H2.
    split; [split|].
    + destruct T as [T1 T2 T3 T4 T5 T6]. constructor; intros; rewrite ?EL, ?EN in *;
      replace (w_nl w') with (w_nl w) in * by congruence; replace (w_nn w') with (w_nn w) in * by congruence; auto.
    + eapply SInv_ext; [|eapply SInv_ceq; [|exact I]].
      * intro l. rewrite !Dq_none, EL. reflexivity.
      * constructor; intros; rewrite ?EL, ?EN; auto.
        -- unfold wcore. congruence.
        -- specialize (H v). unfold vkeep in H. unfold vcore. congruence.
    + intros v out K. rewrite Hn in K. replace (w_nl w') with (w_nl w) by congruence. eauto.
  - eapply same_struct_Inv2; [|exact I]. unfold wkeep in H2. constructor; auto; try congruence.
    + intro l. specialize (H0 l). unfold lkeep in H0. congruence.
    + intro n. specialize (H1 n). unfold nkeep in H1. congruence.
Qed.

(** ** Proof schemes *)

(** An invariant of the events and of the primitive operations holds in every state. *)
Theorem reach_inv : forall c (J : world -> pend -> Prop),
  (forall tm, J (empty_world tm) None) ->
  (forall e w p w' p', Inv2 w p -> J w p -> mstep c e w p w' p' -> J w' p') ->
  (forall w, J w None -> J (sw_T (S (w_T w)) w) None) ->
  (forall w w', Inv2 w None -> J w None -> ostep c w w' -> J w' None) ->
  forall w, reach c w -> J w None.
Proof.
  intros c J H0 Hm HT Ho w H.
  enough (Inv2 w None /\ J w None) by tauto.
  assert (Htick : forall a b, Inv2 a None -> J a None -> run c k_all a b -> J b None).
  { intros a b Ia Ja R. enough (Inv2 b None /\ J b None) by tauto.
    eapply run_inv with (I := fun w p => Inv2 w p /\ J w p); [|exact R|auto].
    intros e x p x' p' _ [I2 J2] M. split; [eapply mstep_Inv2; eauto|eauto]. }
  induction H as [tm|w o w' H IH Hok Hx E|w w' H IH F E|w H IH].
  - split; auto. apply empty_Inv2.
  - destruct IH as [IH1 IH2]. split; [eapply op_Inv2; eauto|].
    apply apply_op_osteps in E; auto. clear H Hok. induction E; auto.
    apply IHE; [eapply ostep_Inv2; eauto|eauto].
  - destruct IH as [IH1 IH2]. split; [eapply tick_Inv2; eauto|].
    apply tick_fr in E. destruct E as (w1 & E & ->).
    replace (w_T w) with (w_T w1) by exact (fr_w_T (body_fr _ _ E)). apply HT.
    apply body_run in E. eapply Htick; eauto.
  - destruct IH as [IH1 IH2].
    split; [eapply Inv2_same; try exact IH1; reflexivity|].
    eapply (Hm VTime w None); eauto. constructor.
Qed.

(** A preorder respected by the events and the primitive operations relates every state to
    every later one. *)
Theorem later_relp : forall c (Rel : world -> pend -> world -> pend -> Prop),
  (forall w p, Rel w p w p) ->
  (forall a p b q d r, Rel a p b q -> Rel b q d r -> Rel a p d r) ->
  (forall e w p w' p', Inv2 w p -> mstep c e w p w' p' -> Rel w p w' p') ->
  (forall w, Rel w None (sw_T (S (w_T w)) w) None) ->
  (forall w w', Inv2 w None -> ostep c w w' -> Rel w None w' None) ->
  forall P w w', reach c w -> later c P w w' -> Rel w None w' None.
Proof.
  intros c Rel Hr Ht Hm HT Ho P w w' R H.
  induction H as [|w1 w2 H IH K]; auto.
  assert (R1 : reach c w1) by (eapply later_reach; eauto).
  eapply Ht; [exact IH|]. pose proof (reach_Inv2 _ _ R1) as I1.
  destruct K as [w1 o w2 Hok Hp Hx E|w1 w2 F E|w1].
  - apply apply_op_osteps in E; auto. clear - E I1 Hr Ht Ho. induction E; auto.
    eapply Ht; [eapply Ho; eauto|apply IHE; eapply ostep_Inv2; eauto].
  - apply tick_fr in E. destruct E as (w3 & E & ->).
    replace (w_T w1) with (w_T w3) by exact (fr_w_T (body_fr _ _ E)).
    eapply Ht; [|apply HT]. apply body_run in E.
    enough (Inv2 w3 None /\ Rel w1 None w3 None) by tauto.
    eapply run_inv with (I := fun x p => Inv2 x p /\ Rel w1 None x p); [|exact E|auto].
    intros e x p x' p' _ [I2 J2] M. split; [eapply mstep_Inv2; eauto|eauto].
  - eapply (Hm VTime w1 None); eauto. constructor.
Qed.

Theorem later_rel : forall c (Rel : world -> world -> Prop),
  (forall w, Rel w w) -> (forall a b d, Rel a b -> Rel b d -> Rel a d) ->
  (forall e w p w' p', Inv2 w p -> mstep c e w p w' p' -> Rel w w') ->
  (forall w, Rel w (sw_T (S (w_T w)) w)) ->
  (forall w w', Inv2 w None -> ostep c w w' -> Rel w w') ->
  forall P w w', reach c w -> later c P w w' -> Rel w w'.
Proof.
  intros c Rel Hr Ht Hm HT Ho P w w' R H.
  apply (later_relp c (fun a _ b _ => Rel a b)) with (P := P); eauto.
Qed.
