(** * InvStep: every event preserves the structural invariant. *)
From Verif Require Import Base Types Sim Heap FrameBase Tac Frame Lists Inv Eff Eff2 Trace.
Set Implicit Arguments.

(** the sequence of vehicles of a link, counting the one about to be appended *)
Definition Dq (w : world) (p : pend) (l : lid) : list vid :=
  l_vehs (L w l) ++ match p with Some (v, out) => if Nat.eqb l out then [v] else [] | None => [] end.

Definition Inv1 (w : world) (p : pend) : Prop := topo w /\ SInv (Dq w p) None w.

Lemma Dq_none : forall w l, Dq w None l = l_vehs (L w l).
Proof. intros; unfold Dq. apply app_nil_r. Qed.

(** ** Every event leaves the static data alone *)
Lemma mstep_fr : forall c e w p w' p', mstep c e w p w' p' -> fr w w'.
Proof.
  intros c e w p w' p' H; destruct H.
  all: try (apply frs_fr; solve
   [ frs_tac | eapply link_update_frs; eauto | eapply gen_enter_frs; eauto
   | eapply transfer_shift_frs; eauto | eapply end_trip_frs; eauto | eapply carfollow_frs; eauto
   | apply record_log_frs | eapply run_event_frs; eauto | eapply route_pref_update_frs; eauto
   | eapply route_next_link_choice_frs; eauto | eapply route_search_all_frs; eauto
   | unfold homogeneous_DUO_update; frs_tac ]).
  - eapply node_update_fr; eauto.
  - apply frs_fr, frs_modv. unfold next_dest. destruct (v_dests _); reflexivity.
Qed.

Lemma trace_fr : forall c es w p w' p', trace c es w p w' p' -> fr w w'.
Proof.
  intros c es w p w' p' H; induction H; [apply fr_refl|].
  eapply fr_trans; [eapply mstep_fr; eauto|auto].
Qed.
Lemma run_fr : forall c K w w', run c K w w' -> fr w w'.
Proof. intros c K w w' (es & _ & T). eapply trace_fr; eauto. Qed.

(** ** Events that leave the core alone *)
Lemma Inv1_ceq : forall w w' p, fr w w' -> ceq w w' -> Inv1 w p -> Inv1 w' p.
Proof.
  intros w w' p F C [T I]. split; [eapply topo_fr; eauto|].
  eapply SInv_ext; [|eapply SInv_ceq; eauto].
  intro l. unfold Dq. rewrite (ce_vehs C). reflexivity.
Qed.

Lemma ceq_modv : forall w v f, vcore (f (V w v)) = vcore (V w v) -> ceq w (modv v f w).
Proof.
  intros w v f H. constructor; intros; try reflexivity.
  rewrite V_modv. destruct (Nat.eqb v0 v) eqn:E; auto. apply Nat.eqb_eq in E; subst; auto.
Qed.
Lemma ceq_modn : forall w n f, n_queue (f (N w n)) = n_queue (N w n) -> ceq w (modn n f w).
Proof.
  intros w v f H. constructor; intros; try reflexivity.
  rewrite N_modn. destruct (Nat.eqb n v) eqn:E; auto. apply Nat.eqb_eq in E; subst; auto.
Qed.
Lemma ceq_modl : forall w l f, l_vehs (f (L w l)) = l_vehs (L w l) ->
  l_lanes (f (L w l)) = l_lanes (L w l) -> ceq w (modl l f w).
Proof.
  intros w v f H K. constructor; intros; try reflexivity;
  rewrite L_modl; destruct (Nat.eqb l v) eqn:E; auto; apply Nat.eqb_eq in E; subst; auto.
Qed.

Lemma soft_ceq : forall w w', soft w w' -> ceq w w'.
Proof.
  intros w w' S. constructor; intros.
  - unfold wcore. pose proof (frs_fr (so_frs S)) as F.
    rewrite (fr_w_nv F), (fr_w_nl F), (fr_w_nn F), (so_living S), (so_running S). reflexivity.
  - pose proof (so_v S v) as E. unfold vhard in E. unfold vcore. congruence.
  - rewrite (so_l S); auto.
  - rewrite (so_l S); auto.
  - rewrite (so_n S); auto.
Qed.

Lemma iofc_vehs : forall c k, l_vehs (in_out_flow_constraint c k) = l_vehs k.
Proof.
  intros c k. unfold in_out_flow_constraint. destruct (l_cin k); [|reflexivity].
  destruct (qlt _ _); destruct (qlt _ _); reflexivity.
Qed.
Lemma set_tti_vehs : forall c w k k', set_traveltime_instant c w k = Ok k' -> l_vehs k' = l_vehs k.
Proof. intros c w k k' H. unfold set_traveltime_instant in H. binv H; reflexivity. Qed.

Lemma link_update_ceq : forall c l w w', link_update c l w = Ok w' -> ceq w w'.
Proof.
  intros c l w w' H. pose proof (frs_fr (link_update_frs _ _ _ H)) as F.
  unfold link_update in H. apply bind_ok in H. destruct H as (k2 & E & H). injection H as <-.
  apply ceq_modl.
  - rs. rewrite (set_tti_vehs _ _ _ E). apply iofc_vehs.
  - rs. apply set_tti_stat in E. pose proof (in_out_flow_constraint_stat c (L w l)) as E2.
    unfold lstat in *. congruence.
Qed.

Lemma signal_control_queue : forall c nd nd', signal_control c nd = Ok nd' ->
  n_queue nd' = n_queue nd /\ n_incoming nd' = n_incoming nd.
Proof.
  intros c nd nd' H. unfold signal_control in H. apply bind_ok in H. destruct H as (g & _ & H).
  cbn zeta in H. destruct (qlt g (n_sigt nd)); injection H as H; subst; split; reflexivity.
Qed.
Lemma flow_capacity_queue : forall c nd nd', flow_capacity_update c nd = Ok nd' ->
  n_queue nd' = n_queue nd /\ n_incoming nd' = n_incoming nd.
Proof.
  intros c nd nd' H. unfold flow_capacity_update in H. binv H; split; try reflexivity;
  destruct (qlt _ _); reflexivity.
Qed.
Lemma node_update_ceq : forall c n w w', node_update c n w = Ok w' -> ceq w w'.
Proof.
  intros c n w w' H. unfold node_update in H.
  apply bind_ok in H. destruct H as (n1 & E1 & H).
  apply bind_ok in H. destruct H as (n2 & E2 & H). injection H as <-.
  apply ceq_modn. apply signal_control_queue in E1. apply flow_capacity_queue in E2.
  destruct E1, E2; congruence.
Qed.

Lemma carfollow_ceq : forall c v w w', carfollow c v w = Ok w' -> ceq w w'.
Proof.
  intros c v w w' H. unfold carfollow in H. cbn zeta in H.
  apply bind_ok in H. destruct H as (l & _ & H). injection H as <-.
  apply ceq_modv. destruct (qlt _ _); reflexivity.
Qed.

Lemma record_log_ceq : forall c v b w, ceq w (record_log c v b w).
Proof.
  intros c v b w. pose proof (frs_fr (record_log_frs c v b w)) as F.
  constructor; intros; rewrite ?record_log_L, ?record_log_N; auto.
  - unfold wcore. rewrite (fr_w_nv F), (fr_w_nl F), (fr_w_nn F), record_log_living, record_log_running. reflexivity.
  - rewrite record_log_V. destruct (Nat.eqb v0 v) eqn:E; auto. apply Nat.eqb_eq in E; subst.
    unfold logged. reflexivity.
Qed.

Lemma search_ceq : forall c w w', route_search_all c w = Ok w' -> ceq w w'.
Proof.
  intros c w w' H. unfold route_search_all in H.
  apply bind_ok in H. destruct H as ([[m cnt] dr] & _ & H).
  destruct (c_dijkstra _ _ _). injection H as <-. constructor; reflexivity.
Qed.

(** ** Boarding: the first of a queue becomes a vehicle in flight *)
Lemma SInv_board : forall D w n v q f w',
  SInv D None w -> n_queue (N w n) = v :: q ->
  (forall a, v_state (f a) = Run /\ v_orig (f a) = v_orig a /\ v_lane (f a) = v_lane a /\
             v_leader (f a) = v_leader a /\ v_follower (f a) = v_follower a) ->
  w' = sw_running (w_running w ++ [v]) (modv v f (modn n (fun nd => sn_queue (tl (n_queue nd)) nd) w)) ->
  SInv D (Some v) w'.
Proof.
  intros D w n v q f w' I Eq Hf ->.
  assert (Hq : In v (n_queue (N w n))) by (rewrite Eq; left; auto).
  pose proof (proj1 (s_queue I n v) Hq) as (Hv & Hs & Ho).
  pose proof (s_queue_nd I n) as Nd. rewrite Eq in Nd. inversion Nd as [|? ? Nv Nr]; subst.
  set (w' := sw_running _ _).
  assert (Vv : V w' v = f (V w v)) by (unfold w'; hs; reflexivity).
  assert (Vu : forall u, u <> v -> V w' u = V w u)
    by (intros u Hu; unfold w'; hs; rewrite V_modv_other by auto; reflexivity).
  destruct (Hf (V w v)) as (F1 & F2 & F3 & F4 & F5).
  assert (Hnd : forall k, ~ In v (D k)).
  { intros k K. apply (s_D I) in K. destruct K as (_ & K & _). congruence. }
  assert (Nq : forall k, n_queue (N w' k) = if Nat.eqb k (v_orig (V w v)) then q else n_queue (N w k)).
  { intro k. unfold w'. hs. rewrite N_modn. destruct (Nat.eqb k _); rs; rewrite ?Eq; reflexivity. }
  assert (Ll : forall k, L w' k = L w k) by reflexivity.
  assert (En : w_nv w' = w_nv w /\ w_nl w' = w_nl w /\ w_nn w' = w_nn w /\ w_living w' = w_living w
     /\ w_running w' = w_running w ++ [v]) by (repeat split).
  destruct En as (E1 & E2 & E3 & E4 & E5). clearbody w'.
  constructor; intros; rewrite ?E1, ?E2, ?E3, ?E4, ?E5, ?Ll in *.
  - rewrite (s_living I). destruct (Nat.eq_dec v0 v) as [->|Hu]; [|rewrite Vu by auto; tauto].
    rewrite Vv, F1, Hs. unfold alive. tauto.
  - apply (s_living_nd I).
  - rewrite in_app_iff, (s_running I). cbn. destruct (Nat.eq_dec v0 v) as [->|Hu].
    + rewrite Vv, F1. tauto.
    + rewrite Vu by auto. intuition congruence.
  - apply NoDup_app_last; [apply (s_running_nd I)|]. rewrite (s_running I). intros [_ K]. congruence.
  - split.
    + intro K. assert (v0 <> v) by (intro; subst; eapply Hnd; eauto).
      rewrite Vu by auto. apply (s_D I) in K. intuition congruence.
    + intros (A & B & C & E). assert (v0 <> v) by congruence. rewrite Vu in * by auto.
      apply (s_D I). intuition discriminate.
  - apply (s_D_nd I).
  - assert (v0 <> v) by congruence. rewrite Vu by auto. apply (s_link I); auto. discriminate.
  - rewrite Nq. destruct (Nat.eqb n (v_orig (V w v))) eqn:En.
    + apply Nat.eqb_eq in En. subst n. destruct (Nat.eq_dec v0 v) as [->|Hu].
      * rewrite Vv, F1. split; [tauto|]. intros (_ & K & _). discriminate.
      * rewrite Vu by auto. rewrite <- (s_queue I), Eq. cbn. intuition congruence.
    + apply Nat.eqb_neq in En. rewrite (s_queue I). destruct (Nat.eq_dec v0 v) as [->|Hu].
      * rewrite Vv, F1, F2. intuition congruence.
      * rewrite Vu by auto. tauto.
  - rewrite Nq. destruct (Nat.eqb n _); auto. apply (s_queue_nd I).
  - destruct (Nat.eq_dec v0 v) as [->|Hu]; [rewrite Vv, F2|rewrite Vu by auto]; apply (s_orig I); auto.
  - destruct (Nat.eq_dec v0 v) as [->|Hu].
    + rewrite Vv, F1 in *. destruct H0; discriminate.
    + rewrite Vu in * by auto. apply (s_fresh I); auto.
  - assert (v0 <> v) by (intro; subst; eapply Hnd; eapply nth_error_In; eauto).
    rewrite Vu by auto. destruct (s_lane I _ _ H) as [A B]. split; auto.
    intros u Hu. rewrite Vu; auto. intro; subst; eapply Hnd; eapply nth_error_In; eauto.
  - assert (v0 <> v) by (intro; subst; eapply Hnd; eapply nth_error_In; eauto).
    rewrite Vu by auto. apply (s_leader I); auto.
  - assert (v0 <> v) by (intro; subst; eapply Hnd; eapply nth_error_In; eauto).
    rewrite Vu by auto. apply (s_follower I); auto.
  - injection H as <-. rewrite Vv. auto.
Qed.

Lemma gen_outlinks_sub : forall w a outs ls l, gen_outlinks w a outs = Ok ls -> In l ls -> In l outs.
Proof.
  intros w a outs ls l H Hl. unfold gen_outlinks in H. destruct (v_spec a).
  - apply bind_ok in H. destruct H as (x & _ & H). destruct (mem x outs) eqn:E; [|discriminate].
    injection H as <-. destruct Hl as [->|[]]. apply mem_iff; auto.
  - injection H as <-. unfold filter_links, by_name in Hl.
    assert (S : forall ls, In l (sort (fun a0 b => string_ltb (l_name (L w a0)) (l_name (L w b))) ls) -> In l ls).
    { intros ls K. eapply Permutation.Permutation_in; [|exact K].
      apply Permutation.Permutation_sym, sort_perm. }
    assert (S1 : forall ls, In l (inter ls (v_prefer a)) -> In l ls).
    { intros ls K. apply filter_In in K. tauto. }
    assert (S2 : forall ls, In l (diff ls (v_avoid a)) -> In l ls).
    { intros ls K. apply filter_In in K. tauto. }
    destruct (is_nil (inter outs (v_prefer a))); cbn zeta in Hl;
    match type of Hl with In l (if ?b then _ else _) => destruct b end; auto.
Qed.

(** ** A trip ends *)
Lemma SInv_end : forall D w v w',
  SInv D (Some v) w ->
  w_nv w' = w_nv w -> w_nl w' = w_nl w -> w_nn w' = w_nn w ->
  w_running w' = remove_first v (w_running w) -> w_living w' = remove_first v (w_living w) ->
  (forall u, u <> v -> vcore (V w' u) = vcore (V w u)) ->
  (v_state (V w' v) = End_ \/ v_state (V w' v) = Abort) ->
  v_link (V w' v) = None -> v_orig (V w' v) = v_orig (V w v) ->
  (forall l, l_lanes (L w' l) = l_lanes (L w l)) ->
  (forall n, n_queue (N w' n) = n_queue (N w n)) ->
  SInv D None w'.
Proof.
  intros D w v w' I E1 E2 E3 Er El CV Hst Hlk Hor CL CN.
  destruct (s_lim I eq_refl) as [Hv Hrun].
  assert (Hnr : v_state (V w' v) <> Run) by (destruct Hst as [-> | ->]; discriminate).
  assert (Hna : ~ alive (v_state (V w' v)))
    by (unfold alive; destruct Hst as [-> | ->]; intuition discriminate).
  assert (Hnd : forall k, ~ In v (D k)).
  { intros k K. apply (s_D I) in K. intuition congruence. }
  assert (C : forall u, u <> v -> v_state (V w' u) = v_state (V w u) /\ v_link (V w' u) = v_link (V w u)
    /\ v_lane (V w' u) = v_lane (V w u) /\ v_leader (V w' u) = v_leader (V w u)
    /\ v_follower (V w' u) = v_follower (V w u) /\ v_orig (V w' u) = v_orig (V w u)).
  { intros u Hu. specialize (CV u Hu). unfold vcore in CV. repeat split; congruence. }
  assert (Hne : forall k i u, nth_error (D k) i = Some u -> u <> v)
    by (intros k i u K Hu; subst; eapply Hnd; eapply nth_error_In; eauto).
  destruct (remove_first_NoDup v (s_running_nd I)) as [Nr1 Nr2].
  destruct (remove_first_NoDup v (s_living_nd I)) as [Nl1 Nl2].
  constructor; intros; rewrite ?E1, ?E2, ?E3, ?Er, ?El, ?CL, ?CN in *; auto.
  - destruct (Nat.eq_dec v0 v) as [->|Hu].
    + intuition.
    + rewrite remove_first_In by auto. destruct (C _ Hu) as (-> & _). apply (s_living I).
  - destruct (Nat.eq_dec v0 v) as [->|Hu].
    + intuition.
    + rewrite remove_first_In by auto. destruct (C _ Hu) as (-> & _). apply (s_running I).
  - destruct (Nat.eq_dec v0 v) as [->|Hu].
    + split; [intro K; exfalso; eapply Hnd; eauto|]. intros (_ & K & _). congruence.
    + destruct (C _ Hu) as (-> & -> & _). rewrite (s_D I). intuition congruence.
  - apply (s_D_nd I).
  - destruct (Nat.eq_dec v0 v) as [->|Hu].
    + split; [congruence|auto].
    + destruct (C _ Hu) as (-> & -> & _). apply (s_link I); auto. congruence.
  - destruct (Nat.eq_dec v0 v) as [->|Hu].
    + rewrite (s_queue I), Hrun. split; [intros (_ & K & _); discriminate|].
      intros (_ & K & _). destruct Hst; congruence.
    + destruct (C _ Hu) as (-> & _ & _ & _ & _ & ->). apply (s_queue I).
  - apply (s_queue_nd I).
  - destruct (Nat.eq_dec v0 v) as [->|Hu]; [rewrite Hor|destruct (C _ Hu) as (_ & _ & _ & _ & _ & ->)];
    apply (s_orig I); auto.
  - destruct (Nat.eq_dec v0 v) as [->|Hu].
    + destruct H0, Hst; congruence.
    + destruct (C _ Hu) as (S1 & _ & _ & _ & S2 & _). rewrite S1 in H0. rewrite S2. apply (s_fresh I); auto.
  - destruct (C _ (Hne _ _ _ H)) as (_ & _ & -> & _).
    destruct (s_lane I _ _ H) as [A B]. split; auto.
    intros u Hu. destruct (C _ (Hne _ _ _ Hu)) as (_ & _ & -> & _). auto.
  - destruct (C _ (Hne _ _ _ H)) as (_ & _ & _ & -> & _). apply (s_leader I); auto.
  - destruct (C _ (Hne _ _ _ H)) as (_ & _ & _ & _ & -> & _). apply (s_follower I); auto.
  - discriminate.
Qed.

(** a vehicle of a link does not follow itself *)
Lemma SInv_no_self : forall D lim w l v, SInv D lim w -> 1 <= l_lanes (L w l) -> In v (D l) ->
  v_follower (V w v) <> Some v.
Proof.
  intros D lim w l v I Hl Hv K. apply In_nth_error in Hv. destruct Hv as (i & Hi).
  rewrite (s_follower I _ _ Hi) in K.
  pose proof (NoDup_nth_inj _ _ (s_D_nd I l) Hi K). lia.
Qed.

Lemma In_D_lt : forall D lim w l v, SInv D lim w -> In v (D l) -> l < w_nl w.
Proof.
  intros D lim w l v I Hv. apply (s_D I) in Hv. destruct Hv as (A & B & C & E).
  destruct (s_link I A E) as [K _]. destruct (K B) as (l' & E1 & E2). congruence.
Qed.

(** the follower [f] of a leaving vehicle loses its leader *)
Lemma unlead : forall w (f : option vid), exists w1,
  (forall u, V w1 u = if opt_eqb f (Some u) then sv_leader None (V w u) else V w u) /\
  (forall k, L w1 k = L w k) /\ (forall k, N w1 k = N w k) /\ wcore w1 = wcore w.
Proof.
  intros w [f|].
  - exists (modv f (sv_leader None) w). repeat split; intros; try reflexivity.
    cbn [opt_eqb]. rewrite V_at, (Nat.eqb_sym f u). reflexivity.
  - exists w. auto.
Qed.

(** the world between leaving [il] and joining [out] *)
Lemma in_flight : forall w v il out rest, v_follower (V w v) <> Some v -> exists w1,
  V w1 v = sv_follower None (sv_link (Some out) (V w v)) /\
  (forall z, z <> v -> V w1 z = if opt_eqb (v_follower (V w v)) (Some z) then sv_leader None (V w z) else V w z) /\
  (forall k, L w1 k = if Nat.eqb k il then sl_vehs rest (L w k) else L w k) /\
  (forall k, N w1 k = N w k) /\ wcore w1 = wcore w.
Proof.
  intros w v il out rest Hf. destruct (unlead w (v_follower (V w v))) as (w0 & V0 & L0 & N0 & W0).
  exists (modl il (sl_vehs rest) (modv v (fun a => sv_follower None (sv_link (Some out) a)) w0)).
  assert (V0v : V w0 v = V w v).
  { rewrite V0. destruct (opt_eqb (v_follower (V w v)) (Some v)) eqn:E; auto. apply opt_eqb_eq in E. elim (Hf E). }
  repeat split; auto.
  - hs. rewrite V0v. reflexivity.
  - intros z Hz. hs. rewrite V_modv_other by auto. apply V0.
  - intro k. rewrite L_at. hs. rewrite L0. reflexivity.
Qed.

(** the state and link of a vehicle whose trip has ended *)
Lemma ended_state : forall c w a, v_state (ended c w a) = if v_aborted a then Abort else End_.
Proof. intros c w a. unfold ended. destruct a. cbn. destruct v_aborted; reflexivity. Qed.
Lemma ended_link : forall c w a, v_link (ended c w a) = None.
Proof. intros c w a. unfold ended. destruct a. cbn. destruct v_aborted; reflexivity. Qed.
Lemma closed_state : forall (b : bool) tl lg a,
  v_state (let a := sv_linkold None (sv_tlog tl (sv_log lg a)) in if b then sv_pref PrefNone a else a) = v_state a.
Proof. intros b tl lg a. destruct b, a; reflexivity. Qed.
Lemma closed_link : forall (b : bool) tl lg a,
  v_link (let a := sv_linkold None (sv_tlog tl (sv_log lg a)) in if b then sv_pref PrefNone a else a) = v_link a.
Proof. intros b tl lg a. destruct b, a; reflexivity. Qed.

Lemma end_trip_Inv1 : forall c v l rest p w w', Inv1 w p -> l_vehs (L w l) = v :: rest ->
  end_trip c v w = Ok w' -> Inv1 w' p.
Proof.
  intros c v l rest p w w' [T I] El H.
  assert (Hv : In v (Dq w p l)) by (unfold Dq; rewrite El; left; auto).
  assert (Hll : l < w_nl w) by (eapply In_D_lt; eauto).
  assert (Hl : 1 <= l_lanes (L w l)) by (apply (t_lanes T); auto).
  assert (Hf : v_follower (V w v) <> Some v) by (eapply SInv_no_self; eauto).
  pose proof (frs_fr (end_trip_frs _ _ _ H)) as F.
  destruct (end_trip_eff _ _ H Hf) as (l' & cd & u & rest' & lg & tlg & A1 & A2 & A3 & A4 & A5 & A6 & A7 & A8 & A9 & A10 & A11 & A12 & A13 & A14 & A15).
  assert (l' = l). { apply (s_D I) in Hv. destruct Hv as (_ & _ & K & _). congruence. }
  subst l'. rewrite El in A3. injection A3 as <- <-.
  split; [eapply topo_fr; eauto|].
  destruct (unlead w (v_follower (V w v))) as (w1 & V1 & L1 & N1 & W1).
  set (tail := match p with Some (v, out) => if Nat.eqb l out then [v] else [] | None => [] end).
  assert (V1v : V w1 v = V w v).
  { rewrite V1. destruct (opt_eqb (v_follower (V w v)) (Some v)) eqn:E; auto. apply opt_eqb_eq in E. elim (Hf E). }
  assert (I1 : SInv (upd (Dq w p) l (rest ++ tail)) (Some v) w1).
  { eapply SInv_detach with (w := w) (l := l); eauto.
    - unfold Dq. rewrite El. reflexivity.
    - intros; rewrite L1; auto.
    - intros; rewrite N1; auto.
    - intro u; rewrite V1; destruct (opt_eqb (v_follower (V w v)) (Some u)); auto.
    - intro u; rewrite V1; destruct (opt_eqb (v_follower (V w v)) (Some u)); auto.
    - intros u _; rewrite V1; destruct (opt_eqb (v_follower (V w v)) (Some u)); auto.
    - intros u _; rewrite V1; destruct (opt_eqb (v_follower (V w v)) (Some u)); auto.
    - intros u _; rewrite V1; destruct (opt_eqb (v_follower (V w v)) (Some u)); auto.
    - intros u _; rewrite V1; destruct (opt_eqb (v_follower (V w v)) (Some u)); auto. }
  unfold wcore in W1.
  eapply SInv_ext; [|eapply SInv_end with (w := w1) (w' := w'); [exact I1|..]].
  - intro k. unfold Dq, upd, tail. rewrite A11. destruct (Nat.eqb k l) eqn:E; auto.
    apply Nat.eqb_eq in E; subst. reflexivity.
  - rewrite (fr_w_nv F). congruence.
  - rewrite (fr_w_nl F). congruence.
  - rewrite (fr_w_nn F). congruence.
  - rewrite A6. congruence.
  - rewrite A7. congruence.
  - intros z Hz. rewrite (A12 z Hz), V1. reflexivity.
  - rewrite A15, closed_state, ended_state. destruct (v_aborted (V w v)); auto.
  - rewrite A15, closed_link, ended_link. auto.
  - rewrite (fr_v_orig F), V1v. auto.
  - intro k. rewrite (fr_l_lanes F), L1. auto.
  - intro k. rewrite A9, N1. auto.
Qed.

(** ** Boarding completed *)
Lemma L_mmvm : forall w k out v f g h j,
  L (modl out f (modv v g (modl out h (modl out j w)))) k =
  if Nat.eqb k out then f (h (j (L w out))) else L w k.
Proof.
  intros. rewrite L_modl, !L_modv, !L_modl, Nat.eqb_refl. destruct (Nat.eqb k out); reflexivity.
Qed.

Lemma gen_enter_Inv1 : forall c n v out q w w', Inv1 w None ->
  n < w_nn w -> n_queue (N w n) = v :: q -> In out (n_out (N w n)) ->
  gen_enter c n v out w = Ok w' -> Inv1 w' None.
Proof.
  intros c n v out q w w' [T I] Hn Eq Ho H.
  pose proof (frs_fr (gen_enter_frs _ _ _ _ _ H)) as F.
  split; [eapply topo_fr; eauto|].
  apply (t_out T) in Ho. destruct Ho as [Ho _].
  pose proof (t_lanes T Ho) as Hl.
  unfold gen_enter in H. cbn zeta in H.
  apply bind_ok in H. destruct H as (w2 & E1 & H).
  match type of E1 with attach v out ?x = _ => set (w1 := x) in * end.
  assert (I1 : SInv (Dq w None) (Some v) w1).
  { eapply SInv_board with (n := n) (w := w); eauto; [|reflexivity].
    intro a. repeat split. }
  assert (Hq : In v (n_queue (N w n))) by (rewrite Eq; left; auto).
  pose proof (proj1 (s_queue I n v) Hq) as (Hv & Hs & _).
  assert (V1 : v_link (V w1 v) = Some out /\ v_follower (V w1 v) = v_follower (V w v))
    by (unfold w1; hs; auto).
  destruct V1 as [V1 V1'].
  destruct (@SInv_attach (Dq w None) w1 out v I1) as (w2' & E2 & I2 & A2); auto.
  { rewrite V1'. apply (s_fresh I); auto. }
  { rewrite Dq_none. reflexivity. }
  rewrite E1 in E2. injection E2 as <-.
  apply bind_ok in H. destruct H as (ca & _ & H). injection H as <-.
  assert (L2 : forall k, L w2 k = L w k).
  { intro k. destruct A2 as (_ & B & _). rewrite B. reflexivity. }
  eapply SInv_ext; [|eapply SInv_core with (w := w2); [| | | |exact I2]]; try reflexivity.
  - intro k. rewrite !Dq_none. unfold upd. rewrite Dq_none.
    rewrite L_mmvm, !L2. destruct (Nat.eqb k out) eqn:E; reflexivity.
  - intro u. hs. rewrite V_at. destruct (Nat.eqb u v); reflexivity.
  - intro k. rewrite L_mmvm. destruct (Nat.eqb k out) eqn:E; [apply Nat.eqb_eq in E; subst k|]; reflexivity.
Qed.

(** ** Changing links *)
Lemma transfer_shift_Inv1 : forall c n out v il rest w w', Inv1 w None -> out < w_nl w ->
  l_vehs (L w il) = v :: rest ->
  transfer_shift c n out v w = Ok (il, w') -> Inv1 w' (Some (v, out)).
Proof.
  intros c n out v il rest w w' [T I] Ho El H.
  pose proof (t_lanes T Ho) as Hlo.
  assert (Hv : In v (Dq w None il)) by (rewrite Dq_none, El; left; auto).
  assert (Hil : il < w_nl w) by (eapply In_D_lt; eauto). pose proof (t_lanes T Hil) as Hli.
  assert (Hf : v_follower (V w v) <> Some v) by (eapply SInv_no_self; eauto).
  pose proof (frs_fr (transfer_shift_frs _ _ _ _ _ H)) as F.
  split; [eapply topo_fr; eauto|].
  assert (Hnv : forall u r, l_vehs (L w il) = u :: r -> ~ In v (out_vehs w il out r)).
  { intros u r K. rewrite El in K. injection K as <- <-. unfold out_vehs.
    destruct (Nat.eqb out il) eqn:E.
    - pose proof (s_D_nd I il) as Nd. rewrite Dq_none, El in Nd. inversion Nd; auto.
    - apply Nat.eqb_neq in E. intro K. rewrite <- Dq_none in K.
      apply (s_D I) in K. apply (s_D I) in Hv. destruct K as (_ & _ & K & _), Hv as (_ & _ & Kv & _). congruence. }
  destruct (@transfer_shift_eff c n out v w il w' H Hf Hlo Hnv) as
    (cd & ca & u & r & qq & A1 & A2 & A3 & A4 & A5 & A6 & A7 & A8 & A9 & A10 & A11 & A12 & A13 & A14).
  rewrite El in A4. injection A4 as <- <-.
  destruct (@in_flight w v il out rest Hf) as (w1 & V1v & V1 & L1 & N1 & W1).
  assert (I1 : SInv (upd (Dq w None) il rest) (Some v) w1).
  { eapply SInv_detach with (w := w) (l := il); eauto.
    - rewrite Dq_none. auto.
    - intro k. rewrite L1. destruct (Nat.eqb k il); reflexivity.
    - intro k. rewrite N1. auto.
    - intro z. destruct (Nat.eq_dec z v) as [->|Hz]; [rewrite V1v|rewrite V1 by auto; destruct (opt_eqb (v_follower (V w v)) (Some z))]; auto.
    - intro z. destruct (Nat.eq_dec z v) as [->|Hz]; [rewrite V1v|rewrite V1 by auto; destruct (opt_eqb (v_follower (V w v)) (Some z))]; auto.
    - intros z Hz. rewrite V1 by auto; destruct (opt_eqb (v_follower (V w v)) (Some z)); auto.
    - intros z Hz. rewrite V1 by auto; destruct (opt_eqb (v_follower (V w v)) (Some z)); auto.
    - intros z Hz. rewrite V1 by auto; destruct (opt_eqb (v_follower (V w v)) (Some z)); auto.
    - intros z Hz. rewrite V1 by auto; destruct (opt_eqb (v_follower (V w v)) (Some z)); auto. }
  assert (Wn : w_nl w1 = w_nl w) by (unfold wcore in W1; congruence).
  assert (Lo1 : l_lanes (L w1 out) = l_lanes (L w out)) by (rewrite L1; destruct (Nat.eqb out il); auto).
  assert (Ev1 : l_vehs (L w1 out) = out_vehs w il out rest).
  { rewrite L1. unfold out_vehs. destruct (Nat.eqb out il); auto. }
  destruct (@SInv_attach (upd (Dq w None) il rest) w1 out v I1) as (w2 & E2 & I2 & _);
    [congruence|rewrite Lo1; auto|rewrite V1v; auto|rewrite V1v; auto| |].
  { rewrite Ev1. unfold out_vehs, upd. destruct (Nat.eqb out il); auto. rewrite Dq_none. auto. }
  pose proof (frs_fr (attach_frs _ _ _ E2)) as F2.
  apply attach_eff in E2; [| |rewrite Lo1; auto].
  2:{ rewrite Ev1. eapply Hnv; eauto. }
  destruct E2 as (B1 & B2 & _ & B4 & B5 & _ & B7 & B8 & B9).
  assert (Eld : att_leader w1 out = t_leader w out (out_vehs w il out rest)).
  { unfold att_leader, t_leader. rewrite Lo1, Ev1. reflexivity. }
  assert (Elv : forall z, v_lane (V w1 z) = v_lane (V w z)).
  { intro z. destruct (Nat.eq_dec z v) as [->|Hz]; [rewrite V1v|rewrite V1 by auto; destruct (opt_eqb (v_follower (V w v)) (Some z))]; auto. }
  assert (Ela : att_lane w1 out = t_lane w out (out_vehs w il out rest)).
  { unfold att_lane, t_lane. rewrite Lo1, Ev1. destruct (last_opt _); rewrite ?Elv; auto. }
  rewrite Eld, Ela in *.
  assert (Wl : wcore w' = wcore w2).
  { unfold wcore in *. rewrite (fr_w_nv F), (fr_w_nl F), (fr_w_nn F), A6, A7,
      (fr_w_nv F2), (fr_w_nl F2), (fr_w_nn F2), B4, B5. congruence. }
  eapply SInv_ext; [|eapply SInv_core with (w := w2); [exact Wl| | | |exact I2]].
  - intro k. unfold Dq, upd. rewrite A11, app_nil_r. cbv zeta.
    destruct (Nat.eqb k out) eqn:Eo; destruct (Nat.eqb k il) eqn:Ei; unfold out_link, in_link; rs;
    rewrite ?app_nil_r; auto.
    + apply Nat.eqb_eq in Eo; subst k. rewrite Ei. reflexivity.
    + apply Nat.eqb_eq in Eo; subst k. rewrite Ei, ?app_nil_r. reflexivity.
  - intro z. destruct (Nat.eq_dec z v) as [->|Hz].
    + rewrite A13, B8, V1v. reflexivity.
    + rewrite A14, B9, V1 by auto. cbv zeta.
      destruct (opt_eqb (t_leader w out (out_vehs w il out rest)) (Some z)); reflexivity.
  - intro k. rewrite (fr_l_lanes F), (fr_l_lanes F2), L1. destruct (Nat.eqb k il); auto.
  - intro k. rewrite B2, N1, A9. destruct (Nat.eqb k n) eqn:En; auto. apply Nat.eqb_eq in En; subst k.
    destruct (n_fcap (N w n)); reflexivity.
Qed.

(** ** Departure *)
Lemma depart_Inv1 : forall v w, Inv1 w None -> In v (w_living w) -> v_state (V w v) = Home ->
  Inv1 (modn (v_orig (V w v)) (fun nd => sn_queue (n_queue nd ++ [v]) nd) (modv v (sv_state Wait) w)) None.
Proof.
  intros v w [T I] Hl Hs. set (w' := modn _ _ _).
  assert (F : fr w w') by (apply frs_fr; unfold w'; frs_tac).
  split; [eapply topo_fr; eauto|].
  assert (Hv : v < w_nv w) by (apply (s_living I); auto).
  assert (Vv : V w' v = sv_state Wait (V w v)) by (unfold w'; hs; reflexivity).
  assert (Vu : forall u, u <> v -> V w' u = V w u) by (intros u Hu; unfold w'; hs; rewrite V_modv_other; auto).
  assert (Nq : forall n, n_queue (N w' n) = if Nat.eqb n (v_orig (V w v)) then n_queue (N w n) ++ [v] else n_queue (N w n)).
  { intro n. unfold w'. rewrite N_at. hs. destruct (Nat.eqb n _); reflexivity. }
  assert (Ed : forall l, Dq w' None l = Dq w None l) by reflexivity.
  assert (El : forall l, L w' l = L w l) by reflexivity.
  assert (E1 : w_nv w' = w_nv w) by reflexivity. assert (E2 : w_nl w' = w_nl w) by reflexivity.
  assert (E3 : w_nn w' = w_nn w) by reflexivity. assert (E4 : w_living w' = w_living w) by reflexivity.
  assert (E5 : w_running w' = w_running w) by reflexivity.
  clearbody w'.
  assert (Hnd : forall k, ~ In v (Dq w None k)).
  { intros k K. apply (s_D I) in K. destruct K as (_ & K & _). congruence. }
  assert (Hnq : forall n, ~ In v (n_queue (N w n))).
  { intros k K. apply (s_queue I) in K. destruct K as (_ & K & _). congruence. }
  assert (Hne : forall l i u, nth_error (Dq w None l) i = Some u -> u <> v)
    by (intros l i u K Hu; subst; eapply Hnd; eapply nth_error_In; eauto).
  constructor; intros; rewrite ?E1, ?E2, ?E3, ?E4, ?E5, ?El, ?Ed in *.
  - rewrite (s_living I). destruct (Nat.eq_dec v0 v) as [->|Hu]; [rewrite Vv|rewrite Vu by auto; tauto].
    rs. rewrite Hs. unfold alive. tauto.
  - apply (s_living_nd I).
  - rewrite (s_running I). destruct (Nat.eq_dec v0 v) as [->|Hu]; [rewrite Vv|rewrite Vu by auto; tauto].
    rs. rewrite Hs. intuition discriminate.
  - apply (s_running_nd I).
  - rewrite (s_D I). destruct (Nat.eq_dec v0 v) as [->|Hu]; [rewrite Vv|rewrite Vu by auto; tauto].
    rs. rewrite Hs. intuition discriminate.
  - apply (s_D_nd I).
  - destruct (Nat.eq_dec v0 v) as [->|Hu]; [rewrite Vv|rewrite Vu by auto; apply (s_link I); auto].
    rs. split; [discriminate|]. intros _. apply (s_link I); auto. congruence.
  - rewrite Nq. destruct (Nat.eqb n (v_orig (V w v))) eqn:En.
    + apply Nat.eqb_eq in En. rewrite in_app_iff. cbn. rewrite (s_queue I).
      destruct (Nat.eq_dec v0 v) as [->|Hu]; [rewrite Vv; rs|rewrite Vu by auto].
      * rewrite Hs. split; auto.
      * intuition congruence.
    + apply Nat.eqb_neq in En. rewrite (s_queue I).
      destruct (Nat.eq_dec v0 v) as [->|Hu]; [rewrite Vv; rs|rewrite Vu by auto; tauto].
      rewrite Hs. intuition congruence.
  - rewrite Nq. destruct (Nat.eqb n _); [apply NoDup_app_last|]; auto; apply (s_queue_nd I).
  - rewrite (fr_v_orig F). apply (s_orig I); auto.
  - destruct (Nat.eq_dec v0 v) as [->|Hu]; [rewrite Vv; rs|rewrite Vu in * by auto]; apply (s_fresh I); auto.
  - rewrite Vu by eauto. destruct (s_lane I _ _ H) as [A B]. split; auto.
    intros u Hu. rewrite Vu by eauto. auto.
  - rewrite Vu by eauto. apply (s_leader I); auto.
  - rewrite Vu by eauto. apply (s_follower I); auto.
  - discriminate.
Qed.

(** ** All events *)
Lemma candidate_true : forall c n out w v, candidate c n out w v = Ok true ->
  exists l rest, v_link (V w v) = Some l /\ l_vehs (L w l) = v :: rest /\
    v_next (V w v) = Some (Some out) /\
    (In (n_phase (N w n)) (l_group (L w l)) \/ List.length (n_signal (N w n)) <= 1) /\
    (dN c <= l_coutr (L w l))%Q.
Proof.
  intros c n out w v H. unfold candidate in H.
  apply bind_ok in H. destruct H as (l & E & H). apply of_opt_ok in E.
  destruct (l_vehs (L w l)) as [|u rest] eqn:El; [discriminate|].
  destruct (Nat.eqb u v) eqn:Eu; [|discriminate]. apply Nat.eqb_eq in Eu; subst u.
  apply bind_ok in H. destruct H as (nx & En & H). apply of_opt_ok in En.
  injection H as H. apply andb_true_iff in H. destruct H as [H H3].
  apply andb_true_iff in H. destruct H as [H1 H2].
  exists l, rest. apply opt_eqb_eq in H1. subst nx. qb.
  apply orb_true_iff in H2. rewrite mem_iff, Nat.leb_le in H2. auto.
Qed.

Lemma transfer_shift_from : forall c n out v w il w', transfer_shift c n out v w = Ok (il, w') ->
  v_link (V w v) = Some il.
Proof.
  intros c n out v w il w' H. cbv beta delta [transfer_shift] in H.
  bindo H il0 E0. apply of_opt_ok in E0. bindo H cd E1.
  letw H w1. bindo H ca E2. letw H w2. letw H la. letw H w3. letw H w4. letw H w5. letw H w6. letw H wa.
  clearbody wa. destruct (l_vehs (L wa il0)); [discriminate H|].
  letw H wb1. letw H wb2. letw H wb3. letw H wb. clearbody wb.
  bindo H w8 E8. bindo H q8 Q8. letw H xn. congruence.
Qed.

(** The invariant of routing data: the next link chosen by a vehicle exists.  It is all
    the structure needs; that the next link starts where the vehicle stands is proved
    in Route-related files. *)
Definition NextInv (w : world) : Prop :=
  forall v out, v_next (V w v) = Some (Some out) -> out < w_nl w.

Lemma pair_NextInv : forall w w', fr w w' ->
  (forall v, v_next (V w' v) = v_next (V w v) \/
     forall out, v_next (V w' v) = Some (Some out) -> out < w_nl w) ->
  NextInv w -> NextInv w'.
Proof.
  intros w w' F H I v out E. rewrite (fr_w_nl F). destruct (H v) as [K|K]; [rewrite K in E; eauto|auto].
Qed.

Lemma mstep_Inv1 : forall c e w p w' p', Inv1 w p -> NextInv w -> mstep c e w p w' p' -> Inv1 w' p'.
Proof.
  intros c e w p w' p' I N H. pose proof (mstep_fr H) as F. destruct H.
  - eapply Inv1_ceq; eauto. eapply link_update_ceq; eauto.
  - eapply Inv1_ceq; eauto. constructor; reflexivity.
  - eapply gen_enter_Inv1; eauto. eapply gen_outlinks_sub; eauto.
  - eapply Inv1_ceq; eauto. eapply node_update_ceq; eauto.
  - destruct (candidate_true _ _ _ _ _ H1) as (l & rest & K1 & K2 & K3 & _).
    pose proof (transfer_shift_from _ _ _ _ _ H5) as K4.
    assert (l = il) by congruence. subst l.
    eapply transfer_shift_Inv1; eauto.
  - eapply end_trip_Inv1; eauto.
  - destruct I as [T I]. split; [eapply topo_fr; eauto|].
    eapply SInv_ext; [|eapply SInv_core with (w := w); [| | | |exact I]]; try reflexivity.
    + intro l. rewrite Dq_none. unfold Dq. hs. rewrite L_at. destruct (Nat.eqb l out); rs; auto.
      apply app_nil_r.
    + intro l. hs. rewrite L_at. destruct (Nat.eqb l out); reflexivity.
    + intro k. rewrite N_at. destruct (Nat.eqb k n); reflexivity.
  - eapply Inv1_ceq; eauto. apply ceq_modn; reflexivity.
  - eapply Inv1_ceq; eauto. eapply carfollow_ceq; eauto.
  - eapply Inv1_ceq; eauto. apply record_log_ceq.
  - apply depart_Inv1; auto.
  - eapply Inv1_ceq; eauto. apply ceq_modv; reflexivity.
  - eapply Inv1_ceq; eauto. apply soft_ceq. eapply run_event_soft; eauto.
  - eapply Inv1_ceq; eauto. apply soft_ceq. eapply route_pref_update_soft; eauto.
  - eapply Inv1_ceq; eauto. apply ceq_modv; reflexivity.
  - eapply Inv1_ceq; eauto. apply ceq_modv. unfold next_dest; destruct (v_dests _); reflexivity.
  - eapply Inv1_ceq; eauto. apply ceq_modv; reflexivity.
  - eapply Inv1_ceq; eauto. apply soft_ceq. eapply choose_soft; eauto.
  - eapply Inv1_ceq; eauto. apply ceq_modn; reflexivity.
  - eapply Inv1_ceq; eauto. eapply search_ceq; eauto.
  - eapply Inv1_ceq; eauto. constructor; reflexivity.
  - eapply Inv1_ceq; eauto. constructor; reflexivity.
Qed.
