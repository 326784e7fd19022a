(** * Frame: what a timestep does not touch.

    No method called in a timestep changes the network, the parameters of links and
    nodes, or the identity data of vehicles; the signal state of a node is changed only
    by [Node.signal_control]. *)
From Verif Require Import Base Types Sim Heap FrameBase Tac.
Set Implicit Arguments.

Lemma frs_modv : forall w v f,
  vstat (f (V w v)) = vstat (V w v) -> frs w (modv v f w).
Proof.
  intros w v f H. constructor; [constructor|]; intros; try reflexivity.
  rewrite V_modv. destruct (Nat.eqb v0 v) eqn:E; auto. apply Nat.eqb_eq in E. now subst.
Qed.

Lemma frs_modl : forall w l f,
  lstat (f (L w l)) = lstat (L w l) -> frs w (modl l f w).
Proof.
  intros w v f H. constructor; [constructor|]; intros; try reflexivity.
  rewrite L_modl. destruct (Nat.eqb l v) eqn:E; auto. apply Nat.eqb_eq in E. now subst.
Qed.

Lemma frs_modn : forall w n f,
  nstat (f (N w n)) = nstat (N w n) -> nsig (f (N w n)) = nsig (N w n) -> frs w (modn n f w).
Proof.
  intros w v f H K. constructor; [constructor|]; intros; try reflexivity;
  rewrite N_modn; destruct (Nat.eqb n v) eqn:E; auto; apply Nat.eqb_eq in E; now subst.
Qed.

Lemma fr_modn : forall w n f,
  nstat (f (N w n)) = nstat (N w n) -> fr w (modn n f w).
Proof.
  intros w v f H. constructor; intros; try reflexivity.
  rewrite N_modn; destruct (Nat.eqb n v) eqn:E; auto; apply Nat.eqb_eq in E; now subst.
Qed.

Lemma frs_modr : forall w r f,
  rstat (f (R w r)) = rstat (R w r) -> frs w (modr r f w).
Proof.
  intros w v f H. constructor; [constructor|]; intros; try reflexivity.
  rewrite R_modr. destruct (Nat.eqb r v) eqn:E; auto. apply Nat.eqb_eq in E. now subst.
Qed.

Lemma frs_sw_running : forall w a, frs w (sw_running a w).
Proof. intros; constructor; [constructor|]; intros; reflexivity. Qed.
Lemma frs_sw_living : forall w a, frs w (sw_living a w).
Proof. intros; constructor; [constructor|]; intros; reflexivity. Qed.
Lemma frs_sw_draw : forall w a, frs w (sw_draw a w).
Proof. intros; constructor; [constructor|]; intros; reflexivity. Qed.
Lemma frs_sw_avgspd : forall w a, frs w (sw_avgspd a w).
Proof. intros; constructor; [constructor|]; intros; reflexivity. Qed.
Lemma frs_sw_avgcnt : forall w a, frs w (sw_avgcnt a w).
Proof. intros; constructor; [constructor|]; intros; reflexivity. Qed.
Lemma frs_sw_rcdist : forall w a, frs w (sw_rcdist a w).
Proof. intros; constructor; [constructor|]; intros; reflexivity. Qed.
Lemma frs_sw_rcnext : forall w a, frs w (sw_rcnext a w).
Proof. intros; constructor; [constructor|]; intros; reflexivity. Qed.
Lemma frs_sw_rcpref : forall w a, frs w (sw_rcpref a w).
Proof. intros; constructor; [constructor|]; intros; reflexivity. Qed.
Lemma frs_sw_rcrec : forall w a, frs w (sw_rcrec a w).
Proof. intros; constructor; [constructor|]; intros; reflexivity. Qed.
Lemma frs_sw_TIME : forall w a, frs w (sw_TIME a w).
Proof. intros; constructor; [constructor|]; intros; reflexivity. Qed.

(** decompose a chain of writes *)
Ltac frs_step :=
  match goal with
  | |- frs ?w ?w => apply frs_refl
  | H : frs ?w ?w' |- frs ?w ?w' => exact H
  | |- frs _ (modv _ _ _) => eapply frs_trans; [|apply frs_modv; solve [reflexivity | auto]]
  | |- frs _ (modl _ _ _) => eapply frs_trans; [|apply frs_modl; solve [reflexivity | auto]]
  | |- frs _ (modn _ _ _) => eapply frs_trans; [|apply frs_modn; solve [reflexivity | auto]]
  | |- frs _ (modr _ _ _) => eapply frs_trans; [|apply frs_modr; solve [reflexivity | auto]]
  | |- frs _ (sw_running _ _) => eapply frs_trans; [|apply frs_sw_running]
  | |- frs _ (sw_living _ _) => eapply frs_trans; [|apply frs_sw_living]
  | |- frs _ (sw_draw _ _) => eapply frs_trans; [|apply frs_sw_draw]
  | |- frs _ (sw_avgspd _ _) => eapply frs_trans; [|apply frs_sw_avgspd]
  | |- frs _ (sw_avgcnt _ _) => eapply frs_trans; [|apply frs_sw_avgcnt]
  | |- frs _ (sw_rcdist _ _) => eapply frs_trans; [|apply frs_sw_rcdist]
  | |- frs _ (sw_rcnext _ _) => eapply frs_trans; [|apply frs_sw_rcnext]
  | |- frs _ (sw_rcpref _ _) => eapply frs_trans; [|apply frs_sw_rcpref]
  | |- frs _ (sw_rcrec _ _) => eapply frs_trans; [|apply frs_sw_rcrec]
  | |- frs _ (sw_TIME _ _) => eapply frs_trans; [|apply frs_sw_TIME]
  | |- frs _ (if ?b then _ else _) => destruct b
  | |- frs _ (match ?x with _ => _ end) => destruct x eqn:?
  end.
Ltac frs_tac := repeat frs_step.

Lemma in_out_flow_constraint_stat : forall c k,
  lstat (in_out_flow_constraint c k) = lstat k.
Proof.
  intros c k. unfold in_out_flow_constraint. destruct (l_cin k) eqn:E.
  - destruct (qlt _ _); destruct (qlt _ _); reflexivity.
  - reflexivity.
Qed.

Lemma set_tti_stat : forall c w k k',
  set_traveltime_instant c w k = Ok k' -> lstat k' = lstat k.
Proof.
  intros c w k k' H. unfold set_traveltime_instant in H. binv H; reflexivity.
Qed.

Lemma link_update_frs : forall c l w w', link_update c l w = Ok w' -> frs w w'.
Proof.
  intros c l w w' H. unfold link_update in H. binv H.
  apply frs_modl. apply set_tti_stat in E.
  transitivity (lstat a); [reflexivity|]. rewrite E. apply in_out_flow_constraint_stat.
Qed.

Lemma choice_uniform_w : forall c xs w x w',
  choice_uniform c xs w = Ok (x, w') -> w' = sw_draw (S (w_draw w)) w /\ In x xs.
Proof.
  intros c xs w x w' H. unfold choice_uniform, draw in H. binv H.
  split; auto. eapply nth_error_In; eauto.
Qed.

Lemma choice_p_w : forall c ps xs w x w',
  choice_p c ps xs w = Ok (x, w') -> w' = sw_draw (S (w_draw w)) w /\ In x xs.
Proof.
  intros c ps xs w x w' H. unfold choice_p in H. binv H.
  apply choice_uniform_w in H. destruct H as [-> H]. split; auto.
  apply in_map_iff in H. destruct H as ((p & y) & E & H). cbn in E; subst.
  apply filter_In in H. destruct H as [H _]. eapply in_combine_r; eauto.
Qed.

Lemma max_first_In : forall A (l : list (Q * A)) b,
  max_first b l = snd b \/ In (max_first b l) (map snd l).
Proof.
  intros A l; induction l as [|[p x] l IH]; intros b; cbn; auto.
  destruct (qlt (fst b) p).
  - destruct (IH (p, x)) as [E|E]; rewrite ?E; auto.
  - destruct (IH b) as [E|E]; auto.
Qed.

Lemma choice_max_In : forall ps xs x, choice_max ps xs = Ok x -> In x xs.
Proof.
  intros ps xs x H. unfold choice_max in H. binv H.
  destruct (max_first_In l p) as [E|E].
  - destruct p as [q y]. rewrite E. cbn.
    eapply in_combine_r with (l := ps) (x := q). rewrite Heql. left; auto.
  - apply in_map_iff in E. destruct E as ((q & y) & E & Hin). rewrite <- E. cbn.
    eapply in_combine_r with (l := ps) (x := q). rewrite Heql. right; auto.
Qed.

Lemma choose_pref_w : forall c ps xs w x w',
  choose_pref c ps xs w = Ok (x, w') ->
  (w' = w \/ w' = sw_draw (S (w_draw w)) w) /\ In x xs.
Proof.
  intros c ps xs w x w' H. unfold choose_pref in H. destruct (c_det c).
  - binv H. split; auto. eapply choice_max_In; eauto.
  - destruct (qlt 0 (qsum ps)).
    + apply choice_p_w in H. tauto.
    + apply choice_uniform_w in H. tauto.
Qed.

Lemma record_log_frs : forall c v b w, frs w (record_log c v b w).
Proof.
  intros c v b w. unfold record_log. frs_tac; try apply frs_refl;
  (eapply frs_trans; [|apply frs_modv;
     destruct (v_state _); try destruct (v_link _); reflexivity]); frs_tac.
Qed.

Ltac frs_tac2 := repeat first
  [ frs_step
  | match goal with |- frs _ (record_log _ _ _ _) => eapply frs_trans; [|apply record_log_frs] end ].

Lemma end_trip_frs : forall c v w w', end_trip c v w = Ok w' -> frs w w'.
Proof.
  intros c v w w' H. unfold end_trip in H. cbn zeta in H. binv H; frs_tac2.
Qed.

Lemma carfollow_frs : forall c v w w', carfollow c v w = Ok w' -> frs w w'.
Proof.
  intros c v w w' H. unfold carfollow in H. cbn zeta in H. binv H.
  apply frs_modv. destruct (qlt _ _); reflexivity.
Qed.

Lemma route_pref_update_frs : forall c v q w w', route_pref_update c v q w = Ok w' -> frs w w'.
Proof.
  intros c v q w w' H. unfold route_pref_update in H. cbn zeta in H. binv H; frs_tac2.
Qed.

Lemma choose_pref_frs : forall c ps xs w x w', choose_pref c ps xs w = Ok (x, w') -> frs w w'.
Proof.
  intros c ps xs w x w' H. apply choose_pref_w in H. destruct H as [[-> | ->] _]; frs_tac2.
Qed.

Lemma route_next_link_choice_frs : forall c v w w',
  route_next_link_choice c v w = Ok w' -> frs w w'.
Proof.
  intros c v w w' H. unfold route_next_link_choice in H. cbn zeta in H.
  apply bind_ok in H. destruct H as (l & _ & H).
  destruct (v_spec (V w v)).
  - binv H; frs_tac2.
  - destruct (opt_eqb _ _); [binv H; frs_tac2|].
    destruct (n_out _); [binv H; frs_tac2|].
    apply bind_ok in H. destruct H as (o2 & _ & H).
    apply bind_ok in H. destruct H as (ps & _ & H).
    apply bind_ok in H. destruct H as ([x w1] & E & H).
    apply choose_pref_frs in E. binv H. frs_tac2.
Qed.

Lemma attach_frs : forall v l w w', attach v l w = Ok w' -> frs w w'.
Proof.
  intros v l w w' H. unfold attach in H. cbn zeta in H. binv H; frs_tac2.
Qed.

Lemma gen_enter_frs : forall c n v l w w', gen_enter c n v l w = Ok w' -> frs w w'.
Proof.
  intros c n v l w w' H. unfold gen_enter in H. cbn zeta in H. binv H.
  apply attach_frs in E. frs_tac2. eapply frs_trans; [|exact E]. frs_tac2.
Qed.

Lemma gen_loop_frs : forall c n k w w', gen_loop c n k w = Ok w' -> frs w w'.
Proof.
  intros c n k; induction k; intros w w' H; cbn in H.
  - binv H. apply frs_refl.
  - destruct (n_queue (N w n)) eqn:Eq; [binv H; apply frs_refl|].
    apply bind_ok in H. destruct H as (outs & _ & H).
    apply bind_ok in H. destruct H as (ps & _ & H).
    apply bind_ok in H. destruct H as ([x w1] & E & H).
    apply choose_pref_frs in E.
    destruct (_ && _).
    + apply bind_ok in H. destruct H as (w2 & E2 & H). apply gen_enter_frs in E2.
      eapply frs_trans; [exact E|]. eapply frs_trans; [exact E2|]. eauto.
    + binv H. auto.
Qed.

Lemma generate_frs : forall c n w w', generate c n w = Ok w' -> frs w w'.
Proof. intros c n w w' H; eapply gen_loop_frs; exact H. Qed.

Lemma end_front_frs : forall c l w b w', end_front c l w = Ok (b, w') -> frs w w'.
Proof.
  intros c l w b w' H. unfold end_front in H. binv H; try apply frs_refl.
  eapply end_trip_frs; eauto.
Qed.

Lemma merge_choice_w : forall c w vs v w',
  merge_choice c w vs = Ok (v, w') ->
  (w' = w \/ w' = sw_draw (S (w_draw w)) w) /\ In v vs.
Proof.
  intros c w vs v w' H. unfold merge_choice in H.
  apply bind_ok in H. destruct H as (ps & _ & H). cbn zeta in H.
  destruct (c_det c).
  - binv H. split; auto. eapply choice_max_In; eauto.
  - apply choice_p_w in H. tauto.
Qed.

Lemma transfer_shift_frs : forall c n out v w l w', transfer_shift c n out v w = Ok (l, w') -> frs w w'.
Proof.
  intros c n out v w l w' H. unfold transfer_shift in H. cbn zeta in H.
  apply bind_ok in H. destruct H as (inl & _ & H).
  apply bind_ok in H. destruct H as (cd & _ & H).
  apply bind_ok in H. destruct H as (ca & _ & H).
  destruct (l_vehs _); [discriminate|].
  apply bind_ok in H. destruct H as (w1 & E1 & H).
  apply bind_ok in H. destruct H as (q & _ & H).
  injection H as <- <-. apply attach_frs in E1.
  frs_tac2. eapply frs_trans; [|exact E1]. frs_tac2.
Qed.

Lemma transfer_move_frs : forall c n out v w w', transfer_move c n out v w = Ok w' -> frs w w'.
Proof.
  intros c n out v w w' H. unfold transfer_move in H. cbn zeta in H.
  apply bind_ok in H. destruct H as ([from w1] & E1 & H).
  apply bind_ok in H. destruct H as ([b w2] & E2 & H).
  injection H as <-. apply transfer_shift_frs in E1. apply end_front_frs in E2.
  frs_tac2. eapply frs_trans; eassumption.
Qed.

Lemma transfer_trial_frs : forall c n out w w', transfer_trial c n out w = Ok w' -> frs w w'.
Proof.
  intros c n out w w' H. unfold transfer_trial in H.
  destruct (_ && _); [|binv H; apply frs_refl].
  apply bind_ok in H. destruct H as (vs & _ & H).
  destruct vs as [|v0 vs]; [binv H; apply frs_refl|].
  apply bind_ok in H. destruct H as ([v w1] & E & H).
  apply merge_choice_w in E. apply transfer_move_frs in H.
  eapply frs_trans; [|exact H]. destruct E as [[-> | ->] _]; frs_tac2.
Qed.

Lemma end_fronts_frs : forall c l k w w', end_fronts c l k w = Ok w' -> frs w w'.
Proof.
  intros c l k; induction k; intros w w' H; cbn in H.
  - binv H. apply frs_refl.
  - apply bind_ok in H. destruct H as ([b w1] & E & H). apply end_front_frs in E.
    destruct b; [eapply frs_trans; eauto | binv H; auto].
Qed.

Lemma transfer_frs : forall c n w w', transfer c n w = Ok w' -> frs w w'.
Proof.
  intros c n w w' H. unfold transfer in H.
  apply bind_ok in H. destruct H as (cands & _ & H). cbn zeta in H.
  destruct (if c_det c then _ else _) as [outs w1] eqn:Ew.
  apply bind_ok in H. destruct H as (w2 & E2 & H).
  apply bind_ok in H. destruct H as (w3 & E3 & H). binv H.
  assert (frs w w1) as F1 by (destruct (c_det c); inversion Ew; subst; frs_tac2).
  apply foldM_rel with (Rel := frs) in E2;
    [| apply frs_refl | apply frs_trans | intros; eapply transfer_trial_frs; eauto].
  apply foldM_rel with (Rel := frs) in E3;
    [| apply frs_refl | apply frs_trans | intros; eapply end_fronts_frs; eauto].
  frs_tac2. eapply frs_trans; [|exact E3]. eapply frs_trans; [exact F1|exact E2].
Qed.

Lemma add_dest_frs : forall c v d o w w', add_dest c v d o w = Ok w' -> frs w w'.
Proof.
  intros c v d o w w' H. unfold add_dest in H. binv H; frs_tac2.
  apply route_pref_update_frs in H. eapply frs_trans; [|exact H]. frs_tac2.
Qed.

Lemma run_event_frs : forall c e w w', run_event c e w = Ok w' -> frs w w'.
Proof.
  intros c [r|r] w w' H; unfold run_event in H; cbn zeta in H; binv H; frs_tac2.
  apply add_dest_frs in E0. exact E0.
Qed.

Lemma request_transfer_frs : forall c v n w w', request_transfer c v n w = Ok w' -> frs w w'.
Proof.
  intros c v n w w' H. unfold request_transfer in H. binv H.
  apply route_next_link_choice_frs in E. frs_tac2.
Qed.

Lemma prepare_end_frs : forall c v l w w', prepare_end c v l w = Ok w' -> frs w w'.
Proof.
  intros c v l w w' H. unfold prepare_end in H. cbn zeta in H. binv H; frs_tac2.
  apply end_trip_frs in H. eapply frs_trans; [|exact H]. frs_tac2.
Qed.

Lemma maybe_pref_update_frs : forall c v w w', maybe_pref_update c v w = Ok w' -> frs w w'.
Proof.
  intros c v w w' H. unfold maybe_pref_update in H. binv H; [|apply frs_refl].
  eapply route_pref_update_frs; eauto.
Qed.

Lemma at_link_end_frs : forall c v l w w', at_link_end c v l w = Ok w' -> frs w w'.
Proof.
  intros c v l w w' H. unfold at_link_end in H. cbn zeta in H.
  apply bind_ok in H. destruct H as (w1 & E1 & H).
  apply bind_ok in H. destruct H as (w2 & E2 & H).
  assert (frs w w1) by (destruct (dget _ _); [eapply run_event_frs; eauto | binv E1; apply frs_refl]).
  apply maybe_pref_update_frs in E2.
  assert (frs w w2) by (eapply frs_trans; eauto).
  destruct (opt_eqb _ _).
  - destruct (v_mode _).
    + apply prepare_end_frs in H. eapply frs_trans; eauto.
    + apply bind_ok in H. destruct H as (w3 & E3 & H).
      apply route_pref_update_frs in E3. apply request_transfer_frs in H.
      eapply frs_trans; [|exact H]. eapply frs_trans; [|exact E3].
      eapply frs_trans; [eassumption|]. apply frs_modv. destruct (v_dests _); reflexivity.
  - destruct (_ && _).
    + apply prepare_end_frs in H. eapply frs_trans; [|exact H]. frs_tac2.
    + apply request_transfer_frs in H. eapply frs_trans; [|exact H]. frs_tac2.
Qed.

Lemma drive_frs : forall c v w w', drive c v w = Ok w' -> frs w w'.
Proof.
  intros c v w w' H. unfold drive in H. cbn zeta in H. binv H; frs_tac2.
  apply at_link_end_frs in H. eapply frs_trans; [|exact H]. frs_tac2.
Qed.

Lemma veh_update_frs : forall c v w w', veh_update c v w = Ok w' -> frs w w'.
Proof.
  intros c v w w' H. unfold veh_update in H. cbn zeta in H.
  set (w0 := record_log c v false w) in *.
  assert (frs w w0) by apply record_log_frs.
  match type of H with match v_state (V ?W v) with _ => _ end = _ => set (w1 := W) in * end.
  assert (frs w w1).
  { eapply frs_trans; [eassumption|]. unfold w1. frs_tac2. }
  destruct (v_state (V w1 v)); try (binv H; auto; fail).
  - apply maybe_pref_update_frs in H. eapply frs_trans; eauto.
  - apply drive_frs in H. eapply frs_trans; eauto.
Qed.

Lemma route_search_all_frs : forall c w w', route_search_all c w = Ok w' -> frs w w'.
Proof.
  intros c w w' H. unfold route_search_all in H.
  apply bind_ok in H. destruct H as ([[m cnt] dr] & _ & H).
  destruct (c_dijkstra _ _ _). binv H. frs_tac2.
Qed.

Lemma route_phase_frs : forall c w w', route_phase c w = Ok w' -> frs w w'.
Proof.
  intros c w w' H. unfold route_phase in H. cbn zeta in H.
  destruct (c_gradual c).
  - apply bind_ok in H. destruct H as (w1 & E & H). binv H.
    unfold homogeneous_DUO_update. frs_tac2.
    destruct (Nat.eqb _ _); [apply route_search_all_frs in E; auto | binv E; frs_tac2].
  - destruct (Nat.eqb _ _); [|binv H; apply frs_refl].
    apply bind_ok in H. destruct H as (w1 & E & H).
    apply route_search_all_frs in E.
    apply foldM_rel with (Rel := frs) in H;
      [| apply frs_refl | apply frs_trans | intros; eapply route_pref_update_frs; eauto].
    eapply frs_trans; [|exact H]. unfold homogeneous_DUO_update. frs_tac2.
Qed.

Lemma signal_control_stat : forall c nd nd', signal_control c nd = Ok nd' -> nstat nd' = nstat nd.
Proof.
  intros c nd nd' H. unfold signal_control in H. apply bind_ok in H. destruct H as (g & _ & H).
  cbn zeta in H. destruct (qlt g (n_sigt nd)); injection H as H; subst; reflexivity.
Qed.

Lemma flow_capacity_update_stat : forall c nd nd', flow_capacity_update c nd = Ok nd' ->
  nstat nd' = nstat nd /\ nsig nd' = nsig nd.
Proof.
  intros c nd nd' H. unfold flow_capacity_update in H. binv H; split; try reflexivity;
  destruct (qlt _ _); reflexivity.
Qed.

Lemma node_update_fr : forall c n w w', node_update c n w = Ok w' -> fr w w'.
Proof.
  intros c n w w' H. unfold node_update in H.
  apply bind_ok in H. destruct H as (n1 & E1 & H).
  apply bind_ok in H. destruct H as (n2 & E2 & H). binv H.
  apply signal_control_stat in E1. apply flow_capacity_update_stat in E2. destruct E2 as [E2 _].
  apply fr_modn; congruence.
Qed.

Lemma phase_links_frs : forall c w w', phase_links c w = Ok w' -> frs w w'.
Proof.
  intros c w w' H. unfold phase_links in H. revert H.
  apply foldM_rel; [apply frs_refl | apply frs_trans | intros; eapply link_update_frs; eauto].
Qed.

Lemma phase_nodes_fr : forall c w w', phase_nodes c w = Ok w' -> fr w w'.
Proof.
  intros c w w' H. unfold phase_nodes in H. revert H.
  apply foldM_rel; [apply fr_refl | apply fr_trans |].
  intros x s s' _ H. apply bind_ok in H. destruct H as (w1 & E & H).
  apply generate_frs in E. apply node_update_fr in H. eapply fr_trans; [apply frs_fr; eauto|auto].
Qed.

Lemma phase_transfer_frs : forall c w w', phase_transfer c w = Ok w' -> frs w w'.
Proof.
  intros c w w' H. unfold phase_transfer in H. revert H.
  apply foldM_rel; [apply frs_refl | apply frs_trans | intros; eapply transfer_frs; eauto].
Qed.

Lemma phase_follow_frs : forall c w w', phase_follow c w = Ok w' -> frs w w'.
Proof.
  intros c w w' H. unfold phase_follow in H. revert H.
  apply foldM_rel; [apply frs_refl | apply frs_trans | intros; eapply carfollow_frs; eauto].
Qed.

Lemma phase_vehicles_frs : forall c w w', phase_vehicles c w = Ok w' -> frs w w'.
Proof.
  intros c w w' H. unfold phase_vehicles in H. revert H.
  apply foldM_rel; [apply frs_refl | apply frs_trans |].
  intros x s s' _ H. unfold update_living in H. binv H. eapply veh_update_frs; eauto.
Qed.

Lemma body_fr : forall c w w', body c w = Ok w' -> fr w w'.
Proof.
  intros c w w' H. unfold body in H. binv H.
  apply phase_links_frs in E. apply phase_nodes_fr in E0. apply phase_transfer_frs in E1.
  apply phase_follow_frs in E2. apply phase_vehicles_frs in E3. apply route_phase_frs in E4.
  eapply fr_trans; [apply frs_fr; eassumption|]. eapply fr_trans; [eassumption|].
  eapply fr_trans; [apply frs_fr; eassumption|]. eapply fr_trans; [apply frs_fr; eassumption|].
  eapply fr_trans; [apply frs_fr; eassumption|]. eapply fr_trans; [apply frs_fr; eassumption|].
  apply frs_fr, frs_sw_TIME.
Qed.
