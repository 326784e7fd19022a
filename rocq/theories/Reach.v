(** * Reach: the structural invariant holds in every reachable state. *)
From Verif Require Import Base Types Sim Build Heap FrameBase Tac Frame Lists Inv Eff Eff2 Trace InvStep.

(** ** States between timesteps *)

(** States reachable by successful public operations and by single timesteps of the main
    loop; [exec_simulation] is a sequence of timesteps (lemma [reachable_reach]), so these
    are the states between public operations and between timesteps inside
    [exec_simulation]. *)
Inductive reach (c : cfg) : world -> Prop :=
| rc_init : forall tmax, reach c (empty_world tmax)
| rc_op : forall w o w', reach c w -> op_ok o w -> (forall a, o <> OExec a) ->
    apply_op c o w = Ok w' -> reach c w'
| rc_tick : forall w w', reach c w -> w_final w = true -> tick c w = Ok w' -> reach c w'
| rc_time : forall w, reach c w -> reach c (sw_TIME (now c w) w).

Lemma finalize_final : forall c tm w w', finalize c tm w = Ok w' -> w_final w' = true.
Proof. intros c tm w w' H. unfold finalize in H. cbn zeta in H. binv H. reflexivity. Qed.

Lemma tick_fr : forall c w w', tick c w = Ok w' ->
  exists w1, body c w = Ok w1 /\ w' = sw_T (S (w_T w)) w1.
Proof.
  intros c w w' H. unfold tick in H. binv H. exists a. split; auto.
  rewrite (fr_w_T (body_fr _ _ E)). reflexivity.
Qed.

Lemma tick_final : forall c w w', tick c w = Ok w' -> w_final w' = w_final w.
Proof.
  intros c w w' H. apply tick_fr in H. destruct H as (w1 & E & ->).
  exact (fr_w_final (body_fr _ _ E)).
Qed.

Lemma ticks_reach : forall c k w w', reach c w -> w_final w = true -> iterM (tick c) k w = Ok w' ->
  reach c w' /\ w_final w' = true.
Proof.
  intros c k; induction k; intros w w' R F H; cbn in H.
  - injection H as <-; auto.
  - apply bind_ok in H. destruct H as (a & E & H). eapply IHk; [| |exact H].
    + eapply rc_tick; eauto.
    + rewrite (tick_final _ _ _ E); auto.
Qed.

Lemma exec_until_reach : forall c z w r w', reach c w -> w_final w = true ->
  exec_until c z w = Ok (r, w') -> reach c w'.
Proof.
  intros c z w r w' R F H. unfold exec_until in H. cbn zeta in H.
  destruct (_ && _); [injection H as _ <-; auto|].
  destruct (Z.ltb _ _); [discriminate|].
  apply bind_ok in H. destruct H as (w1 & E & H). injection H as _ <-.
  apply rc_time. eapply ticks_reach; eauto.
Qed.

Theorem reachable_reach : forall c w, reachable c w -> reach c w.
Proof.
  intros c w H; induction H as [tm|w o w' H IH Ho E]; [apply rc_init|].
  destruct o; try (eapply rc_op; eauto; congruence).
  cbn in E. apply bind_ok in E. destruct E as ([r w1] & E & E1). injection E1 as <-.
  unfold exec_simulation in E. apply bind_ok in E. destruct E as (w2 & E2 & E).
  destruct (w_final w) eqn:Ef.
  - injection E2 as <-. eapply exec_until_reach; eauto.
  - eapply exec_until_reach; [| |exact E].
    + eapply rc_op with (o := OFinalize None); eauto; congruence.
    + eapply finalize_final; eauto.
Qed.

(** ** Exact effects under the invariant *)
Lemma enter_eff : forall c n v q out w w', Inv1 w None -> n < w_nn w ->
  n_queue (N w n) = v :: q -> In out (n_out (N w n)) -> gen_enter c n v out w = Ok w' ->
  exists ca, add_last (l_ca (L w out)) (c_deltan c) = Some ca /\
  (forall k, L w' k = if Nat.eqb k out then gen_link c w v ca (L w out) else L w k) /\
  (forall k, N w' k = if Nat.eqb k n then sn_queue q (N w n) else N w k) /\
  (forall k, R w' k = R w k) /\
  w_living w' = w_living w /\ w_running w' = w_running w ++ [v] /\ w_T w' = w_T w /\
  att_leader w out <> Some v /\
  V w' v = gen_veh c w out (V w v) /\
  (forall z, z <> v -> V w' z = if opt_eqb (att_leader w out) (Some z)
                                then sv_follower (Some v) (V w z) else V w z).
Proof.
  intros c n v q out w w' [T I] Hn Eq Ho H. apply (t_out T) in Ho. destruct Ho as [Ho _].
  assert (Hq : In v (n_queue (N w n))) by (rewrite Eq; left; auto).
  assert (Hnv : ~ In v (l_vehs (L w out))).
  { rewrite <- Dq_none. intro K. apply (s_D I) in K. apply (s_queue I) in Hq.
    destruct K as (_ & K & _), Hq as (_ & K' & _). congruence. }
  pose proof (@gen_enter_eff c n v out w w' H Hnv (t_lanes T Ho)) as E. rewrite Eq in E. exact E.
Qed.

Lemma shift_eff : forall c n out v il w w', Inv1 w None -> out < w_nl w ->
  candidate c n out w v = Ok true -> transfer_shift c n out v w = Ok (il, w') ->
  exists cd ca rest q,
    v_link (V w v) = Some il /\ add_last (l_cd (L w il)) (c_deltan c) = Some cd /\
    add_last (l_ca (L w out)) (c_deltan c) = Some ca /\
    l_vehs (L w il) = v :: rest /\
    qdiv (v_remain (V w v) * l_u (L w out)) (l_u (L w il)) = Ok q /\
    w_running w' = w_running w /\ w_living w' = w_living w /\ w_T w' = w_T w /\
    (forall k, N w' k = if Nat.eqb k n then charge c (N w n) else N w k) /\
    (forall k, R w' k = R w k) /\
    (forall k, L w' k =
       let k1 := if Nat.eqb k il then in_link c w (v_larr (V w v)) cd rest (L w k) else L w k in
       if Nat.eqb k out then out_link c w v ca k1 else k1) /\
    t_leader w out (out_vehs w il out rest) <> Some v /\
    V w' v = moved c w out (t_leader w out (out_vehs w il out rest))
                 (t_lane w out (out_vehs w il out rest)) q (V w v) /\
    (forall z, z <> v -> V w' z =
       let a := if opt_eqb (v_follower (V w v)) (Some z) then sv_leader None (V w z) else V w z in
       if opt_eqb (t_leader w out (out_vehs w il out rest)) (Some z) then sv_follower (Some v) a else a).
Proof.
  intros c n out v il w w' [T I] Ho Hc H.
  destruct (candidate_true _ _ _ _ _ Hc) as (l & rest & K1 & El & _).
  pose proof (transfer_shift_from _ _ _ _ _ H) as K4.
  assert (l = il) by congruence. subst l.
  assert (Hv : In v (Dq w None il)) by (rewrite Dq_none, El; left; auto).
  assert (Hil : il < w_nl w) by (eapply In_D_lt; eauto).
  assert (Hf : v_follower (V w v) <> Some v) by (eapply SInv_no_self; eauto; apply (t_lanes T); auto).
  assert (Hnv : forall u r, l_vehs (L w il) = u :: r -> ~ In v (out_vehs w il out r)).
  { intros u r K. rewrite El in K. injection K as <- <-. unfold out_vehs.
    destruct (Nat.eqb out il) eqn:E.
    - pose proof (s_D_nd I il) as Nd. rewrite Dq_none, El in Nd. inversion Nd; auto.
    - apply Nat.eqb_neq in E. intro K. rewrite <- Dq_none in K.
      apply (s_D I) in K. apply (s_D I) in Hv. destruct K as (_ & _ & K & _), Hv as (_ & _ & Kv & _). congruence. }
  destruct (@transfer_shift_eff c n out v w il w' H Hf (t_lanes T Ho) Hnv) as
    (cd & ca & u & r & qq & A1 & A2 & A3 & A4 & A).
  rewrite El in A4. injection A4 as <- <-. exists cd, ca, rest, qq. auto.
Qed.

Lemma end_eff : forall c v l rest p w w', Inv1 w p -> l_vehs (L w l) = v :: rest ->
  end_trip c v w = Ok w' ->
  exists cd lg tl,
    v_link (V w v) = Some l /\ v_state (V w v) = Run /\ l < w_nl w /\
    add_last (l_cd (L w l)) (c_deltan c) = Some cd /\
    w_running w' = remove_first v (w_running w) /\
    w_living w' = remove_first v (w_living w) /\
    w_T w' = w_T w /\
    (forall k, N w' k = N w k) /\ (forall k, R w' k = R w k) /\
    (forall k, L w' k = if Nat.eqb k l then end_link c w (v_larr (V w v)) cd rest (L w l) else L w k) /\
    (forall z, z <> v -> V w' z = if opt_eqb (v_follower (V w v)) (Some z)
                                  then sv_leader None (V w z) else V w z) /\
    lg = v_log (V w v) ++ (if negb (Z.eqb (c_logint c) (-1))
                then [mkLog (now c w) (v_state (ended c w (V w v))) None None None None None] else []) /\
    tl = v_tlog (V w v) ++ (if opt_eqb None (v_linkold (V w v)) then []
                            else if v_aborted (V w v) then [] else [(now c w, PEnd)]) /\
    V w' v = (let a := sv_linkold None (sv_tlog tl (sv_log lg (ended c w (V w v)))) in
              if c_delpref c then sv_pref PrefNone a else a).
Proof.
  intros c v l rest p w w' [T I] El H.
  assert (Hv : In v (Dq w p l)) by (unfold Dq; rewrite El; left; auto).
  assert (Hll : l < w_nl w) by (eapply In_D_lt; eauto).
  assert (Hf : v_follower (V w v) <> Some v) by (eapply SInv_no_self; eauto; apply (t_lanes T); auto).
  apply (s_D I) in Hv. destruct Hv as (B1 & B2 & B3 & _).
  destruct (end_trip_eff _ _ H Hf) as (l' & cd & u & rest' & lg & tlg & A1 & A2 & A3 & A4 & A5 & A).
  assert (l' = l) by congruence. subst l'. rewrite El in A3. injection A3 as <- <-.
  exists cd, lg, tlg. auto 20.
Qed.

(** ** Fields that only routing events touch *)
Definition vrt (a : vehicle) :=
  (v_dest a, v_dests a, v_events a, v_next a, v_flag a, v_aborted a, v_pref a).
Definition vrt' (a : vehicle) :=
  (v_dest a, v_dests a, v_events a, v_next a, v_flag a, v_aborted a).
Lemma ended_vrt : forall c w a, vrt (ended c w a) = vrt a.
Proof. intros c w a. unfold ended. destruct a. cbn. destruct v_aborted; reflexivity. Qed.
Lemma closed_vrt : forall (b : bool) tl lg a,
  vrt' (let a := sv_linkold None (sv_tlog tl (sv_log lg a)) in if b then sv_pref PrefNone a else a) = vrt' a.
Proof. intros b tl lg a. destruct b, a; reflexivity. Qed.
Lemma vrt_next : forall a b, vrt' a = vrt' b -> v_next a = v_next b.
Proof. unfold vrt'; intros; congruence. Qed.

(** the next link set by [route_next_link_choice] *)
Lemma filterM_sub : forall A (f : A -> bool) l x, In x (filter f l) -> In x l.
Proof. intros A f l x H. apply filter_In in H. tauto. Qed.

Lemma by_name_In : forall w ls l, In l (by_name w ls) <-> In l ls.
Proof.
  intros w ls l. unfold by_name. split; intro H.
  - eapply Permutation.Permutation_in; [apply Permutation.Permutation_sym, sort_perm|exact H].
  - eapply Permutation.Permutation_in; [apply sort_perm|exact H].
Qed.

Lemma filter_links_sub : forall w a outs l, In l (filter_links w a outs) -> In l outs.
Proof.
  intros w a outs l H. unfold filter_links in H.
  assert (H1 : forall x, In x (if is_nil (inter outs (v_prefer a)) then outs
            else by_name w (inter outs (v_prefer a))) -> In x outs).
  { clear H. intros x Hx. destruct (is_nil _); auto. apply by_name_In in Hx. apply filter_In in Hx. tauto. }
  cbv zeta in H. revert H H1. generalize (if is_nil (inter outs (v_prefer a)) then outs
            else by_name w (inter outs (v_prefer a))). intros o1 H H1.
  destruct (is_nil (inter o1 (v_avoid a))); auto.
  apply by_name_In in H. apply filter_In in H. apply H1; tauto.
Qed.

Lemma choose_next : forall c v w w', route_next_link_choice c v w = Ok w' ->
  (forall u, u <> v -> V w' u = V w u) /\
  exists l, v_link (V w v) = Some l /\
  (V w' v = V w v /\ v_spec (V w v) = None /\ v_dest (V w v) = Some (l_end (L w l)) \/
   V w' v = sv_next (Some None) (V w v) /\ n_out (N w (l_end (L w l))) = [] \/
   exists out, In out (n_out (N w (l_end (L w l)))) /\ V w' v = sv_next (Some (Some out)) (V w v)).
Proof.
  intros c v w w' H. unfold route_next_link_choice in H. cbn zeta in H.
  apply bind_ok in H. destruct H as (l & El & H). apply of_opt_ok in El.
  destruct (v_spec (V w v)) as [sp|] eqn:Es.
  - destruct (n_out (N w (l_end (L w l)))) as [|o os] eqn:Eo.
    + injection H as <-. split; [intros; apply V_modv_other; auto|]. exists l. rewrite V_modv_same. auto.
    + destruct (nth_error sp _) as [nl|]; [|discriminate].
      destruct (mem nl (o :: os)) eqn:Em; [|discriminate]. injection H as <-.
      split; [intros; apply V_modv_other; auto|]. exists l. rewrite V_modv_same.
      split; auto. right. right. exists nl. apply mem_iff in Em. rewrite Eo. auto.
  - destruct (opt_eqb (v_dest (V w v)) (Some (l_end (L w l)))) eqn:Ed.
    + injection H as <-. split; auto. exists l. apply opt_eqb_eq in Ed. auto.
    + destruct (n_out (N w (l_end (L w l)))) as [|o os] eqn:Eo.
      * injection H as <-. split; [intros; apply V_modv_other; auto|]. exists l. rewrite V_modv_same. auto.
      * apply bind_ok in H. destruct H as (o2 & E2 & H).
        apply bind_ok in H. destruct H as (ps & _ & H).
        apply bind_ok in H. destruct H as ([x w1] & E & H).
        apply choose_pref_w in E. destruct E as [Ew Hx]. injection H as <-.
        assert (EV : forall u, V w1 u = V w u) by (destruct Ew as [-> | ->]; reflexivity).
        split; [intros; rewrite V_modv_other by auto; apply EV|]. exists l. rewrite V_modv_same, EV.
        split; auto. right. right. exists x. split; auto. rewrite Eo.
        apply filter_links_sub with (w := w) (a := V w v).
        destruct (c_nocyclic c && _).
        -- apply bind_ok in E2. destruct E2 as (tn & _ & E2). injection E2 as <-.
           destruct (is_nil _); auto. apply filter_In in Hx. tauto.
        -- injection E2 as <-. exact Hx.
Qed.

Lemma pref_update_next : forall c v q w w', route_pref_update c v q w = Ok w' ->
  forall u, v_next (V w' u) = v_next (V w u).
Proof.
  intros c v q w w' H u. unfold route_pref_update in H. cbn zeta in H.
  binv H; rewrite V_at; destruct (Nat.eqb u v); reflexivity.
Qed.
Lemma add_dest_next : forall c v d o w w', add_dest c v d o w = Ok w' ->
  forall u, v_next (V w' u) = v_next (V w u).
Proof.
  intros c v d o w w' H u. unfold add_dest in H. binv H.
  - rewrite V_at; destruct (Nat.eqb u v); reflexivity.
  - rewrite (pref_update_next _ _ _ _ _ H u). rewrite V_at; destruct (Nat.eqb u v); reflexivity.
Qed.
Lemma run_event_next : forall c e w w', run_event c e w = Ok w' ->
  forall u, v_next (V w' u) = v_next (V w u).
Proof.
  intros c [r|r] w w' H u; unfold run_event in H; cbn zeta in H; binv H.
  - rewrite V_at. hs. rewrite V_at.
    pose proof (add_dest_next _ _ _ _ _ _ E0 u) as K.
    destruct (Nat.eqb u a); rs; rewrite K; reflexivity.
  - rewrite V_at. destruct (Nat.eqb u a); reflexivity.
Qed.

Lemma record_log_vrt : forall c v b w u, vrt (V (record_log c v b w) u) = vrt (V w u).
Proof.
  intros c v b w u. rewrite record_log_V. destruct (Nat.eqb u v) eqn:E; [|reflexivity].
  apply Nat.eqb_eq in E; subst. reflexivity.
Qed.
Lemma moved_vrt : forall c w out lead lane q a, vrt (moved c w out lead lane q a) = vrt a.
Proof. intros. destruct a. reflexivity. Qed.
Lemma gen_veh_vrt : forall c w out a, vrt (gen_veh c w out a) = vrt a.
Proof. intros. destruct a. reflexivity. Qed.
Lemma vrt_vrt' : forall a b, vrt a = vrt b -> vrt' a = vrt' b.
Proof. unfold vrt, vrt'; intros; congruence. Qed.

(** every event keeps the routing fields, except for those of one vehicle in a routing event *)
Lemma mstep_next : forall c e w p w' p', Inv1 w p -> NextInv w -> mstep c e w p w' p' ->
  forall u, v_next (V w' u) = v_next (V w u) \/
    (forall out, v_next (V w' u) = Some (Some out) -> exists l, at_end w u l /\ In out (n_out (N w (l_end (L w l))))).
Proof.
  intros c e w p w' p' I NI H u. destruct H; try (left; reflexivity).
  - left. unfold link_update in H0. binv H0. reflexivity.
  - left. assert (Ho : In out (n_out (N w n))) by (eapply gen_outlinks_sub; eauto).
    destruct (@enter_eff c n v q out w w' I H H0 Ho H5) as (ca & A1 & A2 & A3 & A4 & A5 & A6 & A7 & A8 & A9 & A10).
    destruct (Nat.eq_dec u v) as [->|Hu].
    + rewrite A9. apply vrt_next, vrt_vrt', gen_veh_vrt.
    + rewrite A10 by auto. destruct (opt_eqb (att_leader w out) (Some u)); reflexivity.
  - left. unfold node_update in H0. binv H0. reflexivity.
  - left. destruct (candidate_true _ _ _ _ _ H1) as (l & rest & K1 & K2 & K3 & _).
    destruct (@shift_eff c n out v il w w' I (NI _ _ K3) H1 H5) as
      (cd & ca & r & q & A1 & A2 & A3 & A4 & A5 & A6 & A7 & A8 & A9 & A10 & A11 & A12 & A13 & A14).
    destruct (Nat.eq_dec u v) as [->|Hu].
    + rewrite A13. apply vrt_next, vrt_vrt', moved_vrt.
    + rewrite A14 by auto. cbv zeta. destruct (opt_eqb (v_follower (V w v)) (Some u));
      destruct (opt_eqb (t_leader w out (out_vehs w il out r)) (Some u)); reflexivity.
  - left. destruct (@end_eff c v l rest p w w' I H H1) as
      (cd & lg & tl & A1 & A2 & A3 & A4 & A5 & A6 & A7 & A8 & A9 & A10 & A11 & A12 & A13 & A14).
    destruct (Nat.eq_dec u v) as [->|Hu].
    + rewrite A14. apply vrt_next. rewrite closed_vrt. apply vrt_vrt', ended_vrt.
    + rewrite A11 by auto. destruct (opt_eqb (v_follower (V w v)) (Some u)); reflexivity.
  - left. unfold carfollow in H. cbn zeta in H. binv H. rewrite V_at. destruct (Nat.eqb u v); auto.
    destruct (qlt _ _); reflexivity.
  - left. apply vrt_next, vrt_vrt', record_log_vrt.
  - left. hs. rewrite V_at. destruct (Nat.eqb u v); reflexivity.
  - left. rewrite V_at. destruct (Nat.eqb u v); reflexivity.
  - left. eapply run_event_next; eauto.
  - left. eapply pref_update_next; eauto.
  - left. rewrite V_at. destruct (Nat.eqb u v); reflexivity.
  - left. rewrite V_at. destruct (Nat.eqb u v); auto. unfold next_dest. destruct (v_dests _); reflexivity.
  - rewrite V_at. destruct (Nat.eqb u v); auto. right. intros out K. discriminate K.
  - destruct (choose_next _ _ _ _ H1) as [B0 (l' & B1 & B2)].
    assert (l' = l) by (destruct H as (_ & K & _); congruence). subst l'.
    destruct (Nat.eq_dec u v) as [->|Hu]; [|left; rewrite B0; auto].
    destruct B2 as [(-> & _)|[(-> & _)|(out & B2 & ->)]]; auto; right.
    + intros out K; discriminate K.
    + intros o K. injection K as <-. eauto.
  - left. unfold route_search_all in H. binv H. reflexivity.
Qed.

Lemma mstep_NextInv : forall c e w p w' p', Inv1 w p -> NextInv w -> mstep c e w p w' p' -> NextInv w'.
Proof.
  intros c e w p w' p' I NI H. eapply pair_NextInv; [eapply mstep_fr; eauto| |exact NI].
  intro v. destruct (@mstep_next c e w p w' p' I NI H v) as [K|K]; auto.
  right. intros out E. destruct (K _ E) as (l & _ & Ho). destruct I as [T _]. apply (t_out T) in Ho. tauto.
Qed.

(** ** The invariant through a run *)
Definition Inv2 (w : world) (p : pend) : Prop := Inv1 w p /\ NextInv w.
Lemma mstep_Inv2 : forall c e w p w' p', Inv2 w p -> mstep c e w p w' p' -> Inv2 w' p'.
Proof.
  intros c e w p w' p' [I NI] H. split.
  - exact (@mstep_Inv1 c e w p w' p' I NI H).
  - exact (@mstep_NextInv c e w p w' p' I NI H).
Qed.
Lemma run_Inv2 : forall c K w w', run c K w w' -> Inv2 w None -> Inv2 w' None.
Proof. intros c K w w' H. eapply run_inv with (I := Inv2); [|exact H]. intros; eapply mstep_Inv2; eauto. Qed.

(** ** Public operations *)
Lemma Inv2_soft : forall w w', soft w w' -> (forall u, v_next (V w' u) = v_next (V w u)) ->
  Inv2 w None -> Inv2 w' None.
Proof.
  intros w w' S HN [I NI]. pose proof (frs_fr (so_frs S)) as F. split.
  - eapply Inv1_ceq; eauto. apply soft_ceq; auto.
  - intros v out K. rewrite HN in K. rewrite (fr_w_nl F). eauto.
Qed.

(** a change of attributes of links, nodes or the world that keeps the structure *)
Record same_struct (w w' : world) : Prop := mkSS {
  ss_v : w_vehs w' = w_vehs w;
  ss_cnt : (w_nn w', w_nl w', w_nv w', w_living w', w_running w') =
           (w_nn w, w_nl w, w_nv w, w_living w, w_running w);
  ss_l : forall l, (l_start (L w' l), l_end (L w' l), l_lanes (L w' l), l_vehs (L w' l)) =
                   (l_start (L w l), l_end (L w l), l_lanes (L w l), l_vehs (L w l));
  ss_n : forall n, (n_out (N w' n), n_in (N w' n), n_queue (N w' n)) =
                   (n_out (N w n), n_in (N w n), n_queue (N w n)) }.

Lemma ss_refl : forall w, same_struct w w.
Proof. constructor; reflexivity. Qed.
Lemma ss_trans : forall a b d, same_struct a b -> same_struct b d -> same_struct a d.
Proof. intros a b d [] []; constructor; intros; etransitivity; eauto. Qed.
Lemma ss_modl : forall w l f,
  (l_start (f (L w l)), l_end (f (L w l)), l_lanes (f (L w l)), l_vehs (f (L w l))) =
  (l_start (L w l), l_end (L w l), l_lanes (L w l), l_vehs (L w l)) -> same_struct w (modl l f w).
Proof.
  intros w l f H. constructor; try reflexivity. intro k. rewrite L_at.
  destruct (Nat.eqb k l) eqn:E; auto. apply Nat.eqb_eq in E; subst; auto.
Qed.
Lemma ss_modn : forall w l f,
  (n_out (f (N w l)), n_in (f (N w l)), n_queue (f (N w l))) =
  (n_out (N w l), n_in (N w l), n_queue (N w l)) -> same_struct w (modn l f w).
Proof.
  intros w l f H. constructor; try reflexivity. intro k. rewrite N_at.
  destruct (Nat.eqb k l) eqn:E; auto. apply Nat.eqb_eq in E; subst; auto.
Qed.

Lemma ss_foldM : forall A (f : A -> world -> result world) xs w w',
  (forall x a b, f x a = Ok b -> same_struct a b) -> foldM f xs w = Ok w' -> same_struct w w'.
Proof.
  intros A f xs w w' Hf H. eapply foldM_rel with (Rel := same_struct); eauto using ss_refl, ss_trans.
Qed.
Lemma ss_fold_left : forall A (f : world -> A -> world) xs w,
  (forall x a, same_struct a (f a x)) -> same_struct w (fold_left f xs w).
Proof.
  intros A f xs; induction xs as [|x xs IH]; intros w Hf; cbn; [apply ss_refl|].
  eapply ss_trans; [apply Hf|apply IH; auto].
Qed.

Lemma same_struct_Inv2 : forall w w', same_struct w w' -> Inv2 w None -> Inv2 w' None.
Proof.
  intros w w' S [[T I] NI]. destruct S as [S1 S2 S3 S4].
  assert (V1 : forall v, V w' v = V w v) by (intro v; unfold V; rewrite S1; auto).
  split; [split|].
  - destruct T as [T1 T2 T3 T4 T5 T6]. constructor; intros;
    try (pose proof (S3 l) as El); try (pose proof (S4 n) as En);
    try injection El as E1 E2 E3 E4; try injection En as F1 F2 F3;
    injection S2 as W1 W2 W3 W4 W5;
    rewrite ?E1, ?E2, ?E3, ?F1, ?F2, ?W1, ?W2 in *; auto.
  - eapply SInv_ext; [|eapply SInv_core with (w := w); [| | | |exact I]].
    + intro l. unfold Dq. specialize (S3 l). injection S3 as _ _ _ E. rewrite E. reflexivity.
    + unfold wcore. congruence.
    + intro v. rewrite V1. reflexivity.
    + intro l. specialize (S3 l). congruence.
    + intro n. specialize (S4 n). congruence.
  - intros v out E. rewrite V1 in E. injection S2 as W1 W2 W3 W4 W5. rewrite W2. eauto.
Qed.

Lemma finalize_ss : forall c tm w w', finalize c tm w = Ok w' -> same_struct w w'.
Proof.
  intros c tm w w' H. unfold finalize in H. cbn zeta in H.
  apply bind_ok in H. destruct H as (w1 & E & H). injection H as <-.
  assert (S1 : same_struct w w1).
  { eapply ss_trans; [|eapply ss_foldM; [|exact E]].
    - constructor; reflexivity.
    - intros l a b K. unfold init_after_tmax_fix in K. cbn zeta in K. binv K; apply ss_modl; reflexivity. }
  match goal with |- same_struct w (sw_final true (sw_avgcnt 0 (sw_avgspd _ ?x))) =>
    cut (same_struct w x); [intro Sx; eapply ss_trans; [exact Sx|constructor; reflexivity]|] end.
  destruct (c_adjust c).
  - eapply ss_trans; [exact S1|]. eapply ss_trans; [|apply ss_fold_left].
    + constructor; reflexivity.
    + intros n a. unfold adjust_node_capacity.
      destruct (n_fcap (N a n)); [apply ss_refl|].
      destruct (map _ (n_in (N a n))); [apply ss_refl|].
      destruct (map _ (n_out (N a n))); [apply ss_refl|].
      apply ss_modn. reflexivity.
  - eapply ss_trans; [exact S1|]. constructor; reflexivity.
Qed.

Lemma N_sw : forall w m k nd, N (sw_nn k (sw_nodes (upd (w_nodes w) m nd) w)) = upd (N w) m nd.
Proof. reflexivity. Qed.

Lemma add_node_Inv2 : forall c a w w', Inv2 w None -> add_node c a w = Ok w' -> Inv2 w' None.
Proof.
  intros c a w w' [[T I] NI] H. unfold add_node in H.
  apply bind_ok in H. destruct H as (nd & E & H).
  destruct (smem _ _); [discriminate|]. injection H as <-.
  assert (B : n_in nd = [] /\ n_out nd = [] /\ n_queue nd = []).
  { unfold new_node in E. cbn zeta in E. apply bind_ok in E. destruct E as ([p t0] & _ & E). injection E as <-. auto. }
  destruct B as (B1 & B2 & B3).
  set (w' := sw_nn _ _).
  assert (HN : forall n, N w' n = if Nat.eqb n (w_nn w) then nd else N w n) by reflexivity.
  assert (Hw : forall n, n_out (N w' n) = n_out (N w n) /\ n_in (N w' n) = n_in (N w n) /\ n_queue (N w' n) = n_queue (N w n)).
  { intro n. rewrite HN. destruct (Nat.eqb n (w_nn w)) eqn:En; auto. apply Nat.eqb_eq in En. subst n.
    rewrite B1, B2, B3. repeat split; symmetry.
    - destruct (n_out (N w (w_nn w))) as [|l ls] eqn:El; auto.
      assert (K : In l (n_out (N w (w_nn w)))) by (rewrite El; left; auto).
      apply (t_out T) in K. destruct K as [K1 K2]. destruct (t_ends T K1). lia.
    - destruct (n_in (N w (w_nn w))) as [|l ls] eqn:El; auto.
      assert (K : In l (n_in (N w (w_nn w)))) by (rewrite El; left; auto).
      apply (t_in T) in K. destruct K as [K1 K2]. destruct (t_ends T K1). lia.
    - destruct (n_queue (N w (w_nn w))) as [|l ls] eqn:El; auto.
      assert (K : In l (n_queue (N w (w_nn w)))) by (rewrite El; left; auto).
      apply (s_queue I) in K. destruct K as [K1 [_ K2]]. pose proof (s_orig I K1). lia. }
  assert (EV : forall v, V w' v = V w v) by reflexivity.
  assert (EL : forall v, L w' v = L w v) by reflexivity.
  assert (E1 : w_nn w' = S (w_nn w)) by reflexivity. assert (E2 : w_nl w' = w_nl w) by reflexivity.
  assert (E3 : w_nv w' = w_nv w) by reflexivity. assert (E4 : w_living w' = w_living w) by reflexivity.
  assert (E5 : w_running w' = w_running w) by reflexivity.
  clearbody w'.
  assert (Ho : forall n, n_out (N w' n) = n_out (N w n)) by apply Hw.
  assert (Hi : forall n, n_in (N w' n) = n_in (N w n)) by apply Hw.
  assert (Hq : forall n, n_queue (N w' n) = n_queue (N w n)) by apply Hw.
  split; [split|].
  - destruct T as [T1 T2 T3 T4 T5 T6]. constructor; intros; rewrite ?EL, ?Ho, ?Hi, ?E1, ?E2 in *; auto.
    destruct (T5 _ H). lia.
  - eapply SInv_ext with (D := Dq w None); [intro l; unfold Dq; rewrite EL; reflexivity|].
    destruct I. constructor; intros; rewrite ?EV, ?EL, ?Hq, ?E1, ?E2, ?E3, ?E4, ?E5 in *; eauto.
    + pose proof (s_orig _ H). lia.
    + destruct (s_lane _ _ _ H) as [P1 P2]. split; auto; intros; rewrite EV; auto.
  - intros v out K. rewrite EV in K. rewrite E2. eauto.
Qed.

Lemma new_link_lanes : forall c a nm k, new_link c a nm = Ok k ->
  1 <= l_lanes k /\ l_start k = la_start a /\ l_end k = la_end a /\ l_vehs k = [].
Proof.
  intros c a nm k H. unfold new_link in H. cbn zeta in H.
  apply bind_ok in H. destruct H as (kp & _ & H).
  apply bind_ok in H. destruct H as (tau & E & H).
  assert (1 <= la_lanes a).
  { unfold qdiv in E. destruct (qeq (Qof_nat (la_lanes a)) 0) eqn:Eq; [discriminate|].
    apply qeq_false in Eq. destruct (la_lanes a); [|lia]. elim Eq. reflexivity. }
  repeat (apply bind_ok in H; let x := fresh "x" in destruct H as (x & _ & H)).
  injection H as <-. auto.
Qed.

Lemma add_link_Inv2 : forall c a w w', Inv2 w None -> add_link c a w = Ok w' -> Inv2 w' None.
Proof.
  intros c a w w' [[T I] NI] H. unfold add_link in H. cbn zeta in H.
  destruct ((la_start a <? w_nn w) && (la_end a <? w_nn w)) eqn:Eb; [|discriminate]. cbn [negb] in H.
  apply andb_true_iff in Eb. destruct Eb as [Es Ee]. apply Nat.ltb_lt in Es, Ee.
  apply bind_ok in H. destruct H as (k & E & H).
  destruct (smem _ _); [discriminate|]. injection H as <-.
  destruct (new_link_lanes _ _ _ _ E) as (B1 & B2 & B3 & B4).
  match goal with |- Inv2 ?x None => set (w' := x) end.
  set (l0 := w_nl w) in *.
  assert (HL : forall l, L w' l = if Nat.eqb l l0 then k else L w l) by reflexivity.
  assert (Ho : forall n, n_out (N w' n) = n_out (N w n) ++ (if Nat.eqb n (la_start a) then [l0] else [])).
  { intro n. unfold w'. rewrite N_at, N_at.
    destruct (Nat.eqb n (la_end a)), (Nat.eqb n (la_start a)); rs; rewrite ?app_nil_r; reflexivity. }
  assert (Hi : forall n, n_in (N w' n) = n_in (N w n) ++ (if Nat.eqb n (la_end a) then [l0] else [])).
  { intro n. unfold w'. rewrite N_at, N_at.
    destruct (Nat.eqb n (la_end a)), (Nat.eqb n (la_start a)); rs; rewrite ?app_nil_r; reflexivity. }
  assert (Hq : forall n, n_queue (N w' n) = n_queue (N w n)).
  { intro n. unfold w'. rewrite N_at, N_at.
    destruct (Nat.eqb n (la_end a)), (Nat.eqb n (la_start a)); reflexivity. }
  assert (EV : forall v, V w' v = V w v) by reflexivity.
  assert (E1 : w_nn w' = w_nn w) by reflexivity. assert (E2 : w_nl w' = S l0) by reflexivity.
  assert (E3 : w_nv w' = w_nv w) by reflexivity. assert (E4 : w_living w' = w_living w) by reflexivity.
  assert (E5 : w_running w' = w_running w) by reflexivity.
  clearbody w'.
  assert (HD : forall l, Dq w' None l = Dq w None l).
  { intro l. rewrite !Dq_none, HL. destruct (Nat.eqb l l0) eqn:El; auto.
    apply Nat.eqb_eq in El; subst l. rewrite B4. rewrite <- Dq_none.
    destruct (Dq w None l0) as [|v vs] eqn:Ed; auto.
    assert (K : In v (Dq w None l0)) by (rewrite Ed; left; auto).
    apply (In_D_lt _ _ I) in K. unfold l0 in K. lia. }
  assert (HL' : forall l, l < l0 -> L w' l = L w l).
  { intros l Hl. rewrite HL. destruct (Nat.eqb l l0) eqn:El; auto. apply Nat.eqb_eq in El. lia. }
  assert (HL0 : L w' l0 = k) by (rewrite HL, Nat.eqb_refl; auto).
  split; [split|].
  - destruct T as [T1 T2 T3 T4 T5 T6]. constructor; intros; rewrite ?Ho, ?Hi, ?E1, ?E2 in *.
    + rewrite in_app_iff, T1. unfold l0 in *. split.
      * intros [[K1 K2]|K]; [rewrite HL' by auto; split; auto; lia|].
        destruct (Nat.eqb n (la_start a)) eqn:En; [|destruct K]. destruct K as [<-|[]].
        apply Nat.eqb_eq in En. rewrite HL0. split; [lia|congruence].
      * intros [K1 K2]. destruct (Nat.eq_dec l (w_nl w)) as [->|Hne].
        -- right. rewrite HL0, B2 in K2. rewrite K2, Nat.eqb_refl. left; auto.
        -- left. rewrite HL' in K2 by lia. split; auto; lia.
    + rewrite in_app_iff, T2. unfold l0 in *. split.
      * intros [[K1 K2]|K]; [rewrite HL' by auto; split; auto; lia|].
        destruct (Nat.eqb n (la_end a)) eqn:En; [|destruct K]. destruct K as [<-|[]].
        apply Nat.eqb_eq in En. rewrite HL0. split; [lia|congruence].
      * intros [K1 K2]. destruct (Nat.eq_dec l (w_nl w)) as [->|Hne].
        -- right. rewrite HL0, B3 in K2. rewrite K2, Nat.eqb_refl. left; auto.
        -- left. rewrite HL' in K2 by lia. split; auto; lia.
    + destruct (Nat.eqb n (la_start a)); rewrite ?app_nil_r; auto. apply NoDup_app_last; auto.
      intro K. apply T1 in K. unfold l0 in K. lia.
    + destruct (Nat.eqb n (la_end a)); rewrite ?app_nil_r; auto. apply NoDup_app_last; auto.
      intro K. apply T2 in K. unfold l0 in K. lia.
    + destruct (Nat.eq_dec l l0) as [->|Hne]; [rewrite HL0; split; congruence|].
      rewrite HL' by lia. apply T5. unfold l0 in *. lia.
    + destruct (Nat.eq_dec l l0) as [->|Hne]; [rewrite HL0; auto|].
      rewrite HL' by lia. apply T6. unfold l0 in *. lia.
  - eapply SInv_ext with (D := Dq w None); [intro l; symmetry; apply HD|].
    assert (HDl : forall l i v, nth_error (Dq w None l) i = Some v -> l < l0).
    { intros l i v K. apply nth_error_In in K. eapply In_D_lt in K; eauto. }
    destruct I. constructor; intros; rewrite ?EV, ?Hq, ?E1, ?E2, ?E3, ?E4, ?E5 in *; eauto.
    + destruct (s_link _ H H0) as [P1 P2]. split; auto. intro K. destruct (P1 K) as (x & X1 & X2). exists x. split; [auto|].
      unfold l0. lia.
    + rewrite HL' by eauto. destruct (s_lane _ _ _ H) as [P1 P2]. split; auto; intros; rewrite EV; auto.
    + rewrite HL' by eauto. auto.
    + rewrite HL' by eauto. auto.
  - intros v out K. rewrite EV in K. rewrite E2. apply NI in K. unfold l0. lia.
Qed.

Lemma add_vehicle_Inv2 : forall c a w w', Inv2 w None -> add_vehicle c a w = Ok w' -> Inv2 w' None.
Proof.
  intros c a w w' [[T I] NI] H. unfold add_vehicle in H. cbn zeta in H.
  destruct (_ && _) eqn:Eb in H; [|discriminate]. cbn [negb] in H.
  apply andb_true_iff in Eb. destruct Eb as [Eb _]. apply andb_true_iff in Eb. destruct Eb as [Eb _].
  apply Nat.ltb_lt in Eb.
  destruct (smem _ _); [discriminate|]. injection H as <-.
  match goal with |- context [upd (w_vehs w) (w_nv w) ?x] => set (nv := x) end.
  assert (B : v_state nv = Home /\ v_link nv = None /\ v_orig nv = va_orig a /\ v_follower nv = None /\ v_next nv = None)
    by (unfold nv; auto).
  destruct B as (B1 & B2 & B3 & B4 & B5). clearbody nv.
  match goal with |- Inv2 ?x None => set (w' := x) end.
  set (v0 := w_nv w) in *.
  assert (HV : forall v, V w' v = if Nat.eqb v v0 then nv else V w v) by reflexivity.
  assert (HN : forall v, N w' v = N w v) by reflexivity.
  assert (HL : forall v, L w' v = L w v) by reflexivity.
  assert (E1 : w_nn w' = w_nn w) by reflexivity. assert (E2 : w_nl w' = w_nl w) by reflexivity.
  assert (E3 : w_nv w' = S v0) by reflexivity. assert (E4 : w_living w' = w_living w ++ [v0]) by reflexivity.
  assert (E5 : w_running w' = w_running w) by reflexivity.
  clearbody w'.
  assert (HV0 : V w' v0 = nv) by (rewrite HV, Nat.eqb_refl; auto).
  assert (HV1 : forall v, v <> v0 -> V w' v = V w v) by (intros v Hv; rewrite HV; apply Nat.eqb_neq in Hv; rewrite Hv; auto).
  assert (HDl : forall l i v, nth_error (Dq w None l) i = Some v -> v <> v0).
  { intros l i v K. apply nth_error_In in K. apply (s_D I) in K. unfold v0. lia. }
  split; [split|].
  - destruct T as [T1 T2 T3 T4 T5 T6]. constructor; intros; rewrite ?HL, ?HN, ?E1, ?E2 in *; auto.
  - eapply SInv_ext with (D := Dq w None); [intro l; unfold Dq; rewrite HL; reflexivity|].
    destruct I. constructor; intros; rewrite ?HN, ?HL, ?E1, ?E2, ?E3, ?E4, ?E5 in *; eauto.
    + rewrite in_app_iff, s_living. cbn [In]. destruct (Nat.eq_dec v v0) as [->|Hne].
      * rewrite HV0, B1. unfold alive. split; auto.
      * rewrite HV1 by auto. unfold v0 in *. intuition lia.
    + apply NoDup_app_last; auto. intro K. apply s_living in K. unfold v0 in *. lia.
    + rewrite s_running. destruct (Nat.eq_dec v v0) as [->|Hne].
      * rewrite HV0, B1. unfold v0. split; [lia|intuition discriminate].
      * rewrite HV1 by auto. unfold v0 in *. intuition lia.
    + rewrite s_D. destruct (Nat.eq_dec v v0) as [->|Hne].
      * rewrite HV0, B1. unfold v0. split; [lia|intuition discriminate].
      * rewrite HV1 by auto. unfold v0 in *. intuition lia.
    + destruct (Nat.eq_dec v v0) as [->|Hne].
      * rewrite HV0, B1, B2. split; [discriminate|auto].
      * rewrite HV1 by auto. apply s_link; auto. unfold v0 in *; lia.
    + rewrite s_queue. destruct (Nat.eq_dec v v0) as [->|Hne].
      * rewrite HV0, B1. unfold v0. split; [lia|intuition discriminate].
      * rewrite HV1 by auto. unfold v0 in *. intuition lia.
    + destruct (Nat.eq_dec v v0) as [->|Hne]; [rewrite HV0, B3; auto|].
      rewrite HV1 by auto. apply s_orig. unfold v0 in *; lia.
    + destruct (Nat.eq_dec v v0) as [->|Hne]; [rewrite HV0; auto|].
      rewrite HV1 in * by auto. apply s_fresh; auto. unfold v0 in *; lia.
    + rewrite HV1 by eauto. destruct (s_lane _ _ _ H) as [P1 P2]. split; auto; intros; rewrite HV1 by eauto; auto.
    + rewrite HV1 by eauto. auto.
    + rewrite HV1 by eauto. auto.
    + discriminate.
  - intros v out K. rewrite E2. destruct (Nat.eq_dec v v0) as [->|Hne].
    + rewrite HV0, B5 in K. discriminate.
    + rewrite HV1 in K by auto. eauto.
Qed.

Lemma emit_inv : forall (J : world -> Prop) c a, (forall w w', J w -> add_vehicle c a w = Ok w' -> J w') ->
  forall k f w f' w', J w -> emit c a k f w = Ok (f', w') -> J w'.
Proof.
  intros J c a Hs k; induction k; intros f w f' w' HJ H; cbn in H.
  - destruct (qle _ _); [discriminate|]. injection H as _ <-; auto.
  - destruct (qle _ _); [|injection H as _ <-; auto].
    apply bind_ok in H. destruct H as (w1 & E & H). eauto.
Qed.

Lemma demand_loop_inv : forall (J : world -> Prop) c o d fl,
  (forall t w w', J w -> add_vehicle c (demand_vehicle o d t) w = Ok w' -> J w') ->
  forall ts f w f' w', J w -> demand_loop c o d fl ts f w = Ok (f', w') -> J w'.
Proof.
  intros J c o d fl Hs ts; induction ts as [|t ts IH]; intros f w f' w' HJ H; cbn [demand_loop] in H.
  - injection H as _ <-; auto.
  - cbn zeta in H. apply bind_ok in H. destruct H as ([f2 w1] & E & H).
    eapply IH; [|exact H]. eapply emit_inv; [|exact HJ|exact E]. apply Hs.
Qed.

Lemma adddemand_inv : forall (J : world -> Prop) c o d t0 t1 fl vol,
  (forall t w w', J w -> add_vehicle c (demand_vehicle o d t) w = Ok w' -> J w') ->
  forall w w', J w -> adddemand c o d t0 t1 fl vol w = Ok w' -> J w'.
Proof.
  intros J c o d t0 t1 fl vol Hs w w' HJ H. unfold adddemand in H.
  apply bind_ok in H. destruct H as (q & _ & H).
  apply bind_ok in H. destruct H as ([f w1] & E & H). injection H as <-.
  eapply demand_loop_inv; eauto.
Qed.

Lemma Inv2_same : forall w w', w_vehs w' = w_vehs w -> w_links w' = w_links w -> w_nodes w' = w_nodes w ->
  (w_nn w', w_nl w', w_nv w', w_living w', w_running w') = (w_nn w, w_nl w, w_nv w, w_living w, w_running w) ->
  Inv2 w None -> Inv2 w' None.
Proof.
  intros w w' A B C D. apply same_struct_Inv2. constructor; auto; intro k; unfold L, N; rewrite ?B, ?C; auto.
Qed.

Lemma Inv2_modv : forall w v f, vcore (f (V w v)) = vcore (V w v) -> v_next (f (V w v)) = v_next (V w v) ->
  Inv2 w None -> Inv2 (modv v f w) None.
Proof.
  intros w v f H1 H2 [[T I] NI]. split; [split|].
  - destruct T; constructor; auto.
  - eapply SInv_ext; [|eapply SInv_ceq; [apply ceq_modv; exact H1|exact I]]. reflexivity.
  - intros u out K. rewrite V_at in K. destruct (Nat.eqb u v) eqn:E; [apply Nat.eqb_eq in E; subst u|]; [rewrite H2 in K|]; eapply NI; eauto.
Qed.

Lemma op_Inv2 : forall c o w w', Inv2 w None -> (forall a, o <> OExec a) ->
  apply_op c o w = Ok w' -> Inv2 w' None.
Proof.
  intros c o w w' I Hx H. destruct o; cbn [apply_op] in H.
  - eapply add_node_Inv2; eauto.
  - eapply add_link_Inv2; eauto.
  - eapply add_vehicle_Inv2; eauto.
  - eapply (adddemand_inv (fun w => Inv2 w None)); [|exact I|exact H]. intros; eapply add_vehicle_Inv2; eauto.
  - eapply same_struct_Inv2; [eapply finalize_ss; eauto|auto].
  - elim (Hx a); auto.
  - eapply Inv2_soft; [eapply add_dest_soft; eauto|eapply add_dest_next; eauto|auto].
  - unfold enforce_route in H. destruct (negb _); [discriminate|]. injection H as <-.
    apply Inv2_modv; auto; destruct set_avoid; reflexivity.
  - injection H as <-. apply Inv2_modv; auto.
  - injection H as <-. apply Inv2_modv; auto.
  - unfold override_signal in H. cbn zeta in H. eapply same_struct_Inv2; [|exact I].
    match type of H with context [modn n ?f w] => assert (S1 : same_struct w (modn n f w)) by (apply ss_modn; destruct reset; reflexivity) end.
    destruct groups as [gs|]; [|injection H as <-; auto].
    destruct (negb _); [discriminate|]. destruct (negb _); [discriminate|]. injection H as <-.
    eapply ss_trans; [exact S1|]. apply ss_fold_left. intros l b. destruct (existsb _ _); [apply ss_modl; reflexivity|apply ss_refl].
  - eapply same_struct_Inv2; [|exact I]. unfold change_free_flow_speed in H. cbn zeta in H.
    destruct (qlt _ _); [injection H as <-; apply ss_refl|].
    repeat (apply bind_ok in H; let x := fresh "x" in destruct H as (x & _ & H)). injection H as <-. apply ss_modl; reflexivity.
  - eapply same_struct_Inv2; [|exact I]. unfold change_jam_density in H. cbn zeta in H.
    destruct (qlt _ _); [injection H as <-; apply ss_refl|].
    repeat (apply bind_ok in H; let x := fresh "x" in destruct H as (x & _ & H)). injection H as <-. apply ss_modl; reflexivity.
  - injection H as <-. eapply same_struct_Inv2; [apply ss_modl; reflexivity|auto].
  - injection H as <-. eapply same_struct_Inv2; [apply ss_modl; reflexivity|auto].
  - injection H as <-. eapply same_struct_Inv2; [apply ss_modl; reflexivity|auto].
  - unfold add_trip_request in H. destruct (negb _); [discriminate|]. injection H as <-.
    eapply Inv2_same; try exact I; reflexivity.
  - unfold assign_taxi in H. destruct (negb _); [discriminate|]. apply bind_ok in H. destruct H as (w1 & E & H).
    cbn zeta in H. injection H as <-.
    assert (I1 : Inv2 w1 None) by (eapply Inv2_soft; [eapply add_dest_soft; eauto|eapply add_dest_next; eauto|auto]).
    assert (I2 : Inv2 (modv v (fun a => sv_events (dset (r_orig (R w1 r)) (GetOn r) (v_events a)) a) w1) None)
      by (apply Inv2_modv; auto).
    eapply Inv2_same; try exact I2; reflexivity.
Qed.

Lemma empty_Inv2 : forall tm, Inv2 (empty_world tm) None.
Proof.
  intro tm. split; [split|].
  - constructor; cbn; intros; try lia; try (split; [tauto|lia]); constructor.
  - constructor; cbn; intros; try lia; try (split; [tauto|lia]); try constructor; try discriminate;
    rewrite ?Dq_none in *; cbn in *; try (split; [tauto|lia]); destruct i; discriminate.
  - intros v out H. discriminate H.
Qed.

Lemma tick_Inv2 : forall c w w', Inv2 w None -> tick c w = Ok w' -> Inv2 w' None.
Proof.
  intros c w w' I H. apply tick_fr in H. destruct H as (w1 & E & ->).
  apply body_run in E. eapply Inv2_same; try (eapply run_Inv2; [exact E|exact I]); reflexivity.
Qed.

Theorem reach_Inv2 : forall c w, reach c w -> Inv2 w None.
Proof.
  intros c w H; induction H.
  - apply empty_Inv2.
  - eapply op_Inv2; eauto.
  - eapply tick_Inv2; eauto.
  - eapply Inv2_same; try exact IHreach; reflexivity.
Qed.
