(** * Exec: splitting exec_simulation, its end, and independence of the random generator. *)
From Verif Require Import Base Types Sim Build Heap FrameBase Tac Frame Inv Reach Steps Phases Spec Commute.

(** ** States that differ only in W.TIME and in the time stamps of trip requests *)
Lemma same_request_refl : forall a, same_request a a.
Proof. intros a. unfold same_request. tauto. Qed.
Lemma retime_id : forall w, retime (w_TIME w) (w_reqs w) w = w.
Proof. intros []; reflexivity. Qed.
Lemma same_refl : forall w, same_state w w.
Proof. intros w. exists (w_TIME w), (w_reqs w). rewrite retime_id. split; auto. intro. apply same_request_refl. Qed.
Lemma same_sym : forall a b, same_state a b -> same_state b a.
Proof.
  intros a b (t & rq & -> & H). exists (w_TIME a), (w_reqs a). split.
  - destruct a; reflexivity.
  - intros r. specialize (H r). change (R (retime t rq a) r) with (rq r). unfold R, same_request in *. intuition congruence.
Qed.
Lemma same_trans : forall a b d, same_state a b -> same_state b d -> same_state a d.
Proof.
  intros a b d (t & rq & -> & H) (t' & rq' & -> & H'). exists t', rq'. split; [reflexivity|].
  intros r. specialize (H r). specialize (H' r). change (R (retime t rq a) r) with (rq r) in H'.
  unfold same_request in *. intuition congruence.
Qed.
Lemma same_time : forall t w, same_state w (sw_TIME t w).
Proof. intros t w. exists t, (w_reqs w). split; [destruct w; reflexivity|intro; apply same_request_refl]. Qed.
Lemma same_T : forall a b, same_state a b -> w_T b = w_T a /\ w_tsize b = w_tsize a /\ w_final b = w_final a.
Proof. intros a b (t & rq & -> & _). auto. Qed.

Section Same.
Variable c : cfg.

Lemma same_of_X : forall (f : world -> result world) a b,
  (forall t rq w, f (retime t rq w) = rmap (retime t rq) (f w)) ->
  (forall w w', f w = Ok w' -> w_reqs w' = w_reqs w) ->
  same_state a b -> same_result (f a) (f b).
Proof.
  intros f a b H K (t & rq & -> & S). rewrite H. destruct (f a) as [w|] eqn:E; cbn; auto.
  exists t, rq. split; auto. unfold R in *. rewrite (K _ _ E). auto.
Qed.
(** commuting with every [retime] implies not changing the requests *)
Lemma X_keeps : forall (f : world -> result world),
  (forall t rq w, f (retime t rq w) = rmap (retime t rq) (f w)) ->
  forall w w', f w = Ok w' -> w_reqs w' = w_reqs w.
Proof.
  intros f H w w' E. specialize (H (w_TIME w) (w_reqs w) w). rewrite retime_id, E in H. cbn in H.
  injection H as H. rewrite H at 1. reflexivity.
Qed.
Lemma same_X : forall (f : world -> result world) a b,
  (forall t rq w, f (retime t rq w) = rmap (retime t rq) (f w)) ->
  same_state a b -> same_result (f a) (f b).
Proof. intros f a b H S. apply same_of_X; auto. apply X_keeps; auto. Qed.

Lemma same_bind : forall r1 r2 f1 f2, same_result r1 r2 -> (forall a b, same_state a b -> same_result (f1 a) (f2 b)) ->
  same_result (bind r1 f1) (bind r2 f2).
Proof. intros [a|] [b|] f1 f2 H K; cbn in *; auto; tauto. Qed.
Lemma same_foldM : forall A (f : A -> world -> result world) l a b,
  (forall x a b, same_state a b -> same_result (f x a) (f x b)) -> same_state a b -> same_result (foldM f l a) (foldM f l b).
Proof.
  intros A f l; induction l as [|x l IH]; intros a b H S; cbn; auto. apply same_bind; auto.
Qed.

Let id_seed : c_det c = true \/ (c_orc c = c_orc c /\ c_orcq c = c_orcq c) := or_intror (conj eq_refl eq_refl).
Lemma reseed_id : reseed (c_orc c) (c_orcq c) c = c.
Proof. destruct c; reflexivity. Qed.

Ltac use H := let t := fresh "t" in let rq := fresh "rq" in let w := fresh "w" in
  intros t rq w; generalize (H c (c_orc c) (c_orcq c) id_seed t rq); rewrite reseed_id; intros K; apply K.

Lemma add_dest_reqs : forall v d ord w w', add_dest c v d ord w = Ok w' -> w_reqs w' = w_reqs w.
Proof.
  intros v d ord. apply X_keeps. intros t rq w.
  pose proof (add_dest_X c (c_orc c) (c_orcq c) t rq v d ord w) as K. rewrite reseed_id in K. exact K.
Qed.

Lemma run_event_same : forall e a b, same_state a b -> same_result (run_event c e a) (run_event c e b).
Proof.
  intros e a b (t & rq & -> & S). unfold run_event. cbv zeta. destruct e as [r|r].
  - change (R (retime t rq a) r) with (rq r). destruct (S r) as (S1 & S2 & S3 & S4 & S5 & S6).
    rewrite <- S4. destruct (r_taxi (R a r)) as [v|] eqn:ET; [|reflexivity]. cbn [of_opt bind].
    rewrite <- S2.
    pose proof (add_dest_X c (c_orc c) (c_orcq c) t rq v (r_dest (R a r)) None a) as K. rewrite reseed_id in K. rewrite K. clear K.
    destruct (add_dest c v (r_dest (R a r)) None a) as [w|] eqn:E; [|reflexivity]. apply add_dest_reqs in E. cbn [rmap bind].
    change (R (retime t rq w) r) with (rq r).
    assert (ER : R w r = R a r) by (unfold R; rewrite E; auto). rewrite ER. rewrite <- S2.
    set (h := fun x => sv_events (dset (r_dest (R a r)) (Arrive r) (v_events x)) x).
    assert (E1 : forall t' w', R (modr r (sr_geton t') (modv v h w')) r = sr_geton t' (R w' r)).
    { intros. unfold R, modr. cbn. rewrite upd_same. reflexivity. }
    rewrite !E1. change (R (retime t rq w) r) with (rq r). cbn [r_orig sr_geton]. rewrite ER, <- S1.
    change (v_events (V (modr r (sr_geton (Some (w_TIME (modv v h (retime t rq w))))) (modv v h (retime t rq w))) v))
      with (v_events (V (modr r (sr_geton (Some (w_TIME (modv v h w)))) (modv v h w)) v)).
    destruct (ddel _ _) as [ev|]; [|reflexivity]. cbn [of_opt bind same_result].
    exists t, (upd rq r (sr_geton (Some t) (rq r))). split; [reflexivity|].
    intros r'. unfold R, modr, modv. cbn. unfold upd. destruct (Nat.eqb r' r) eqn:Er.
    + apply Nat.eqb_eq in Er. subst r'. rewrite E. unfold same_request, R in *; cbn. intuition congruence.
    + rewrite E. apply S.
  - change (w_TIME (retime t rq a)) with t.
    assert (E1 : forall t' w', R (modr r (sr_arrived t') w') r = sr_arrived t' (R w' r)).
    { intros. unfold R, modr. cbn. rewrite upd_same. reflexivity. }
    rewrite !E1. change (R (retime t rq a) r) with (rq r). cbn [r_taxi sr_arrived].
    destruct (S r) as (S1 & S2 & S3 & S4 & S5 & S6).
    rewrite <- S4. destruct (r_taxi (R a r)) as [v|] eqn:ET; [|reflexivity]. cbn [of_opt bind r_dest sr_arrived]. rewrite <- S2.
    change (v_events (V (modr r (sr_arrived (Some t)) (retime t rq a)) v)) with (v_events (V (modr r (sr_arrived (Some (w_TIME a))) a) v)).
    destruct (ddel _ _) as [ev|]; [|reflexivity]. cbn [of_opt bind same_result].
    exists t, (upd rq r (sr_arrived (Some t) (rq r))). split; [reflexivity|].
    intros r'. unfold R, modr, modv. cbn. unfold upd. destruct (Nat.eqb r' r) eqn:Er.
    + apply Nat.eqb_eq in Er. subst r'. unfold same_request, R in *; cbn. intuition congruence.
    + apply S.
Qed.

Lemma at_link_end_rest : forall v l w, at_link_end c v l w =
  (w1 <- match dget (l_end (L w l)) (v_events (V w v)) with Some e => run_event c e w | None => Ok w end ;;
   arrive_rest c v l (l_end (L w l)) w1).
Proof. reflexivity. Qed.

Lemma at_link_end_same : forall v l a b, same_state a b -> same_result (at_link_end c v l a) (at_link_end c v l b).
Proof.
  intros v l a b S. unfold at_link_end. cbv zeta.
  assert (E : l_end (L b l) = l_end (L a l) /\ V b v = V a v) by (destruct S as (t & rq & -> & _); auto).
  destruct E as [-> ->]. set (en := l_end (L a l)). apply same_bind.
  - destruct (dget _ _); [apply run_event_same; auto|exact S].
  - intros a' b' S'. apply (same_X (arrive_rest c v l en)); auto. intros t rq w.
    pose proof (arrive_rest_X c (c_orc c) (c_orcq c) id_seed t rq v l en w) as K. rewrite reseed_id in K. exact K.
Qed.

Lemma drive_same : forall v a b, same_state a b -> same_result (drive c v a) (drive c v b).
Proof.
  intros v a b S. unfold drive. cbv zeta. destruct S as (t & rq & -> & S).
  match goal with |- context [modv v ?f a] => set (g := f) end.
  change (modv v g (retime t rq a)) with (retime t rq (modv v g a)).
  change (V (retime t rq (modv v g a)) v) with (V (modv v g a) v).
  destruct (v_link (V (modv v g a) v)) as [l|]; [|reflexivity]. cbn [of_opt bind].
  change (L (retime t rq (modv v g a)) l) with (L (modv v g a) l).
  assert (S' : same_state (modv v g a) (retime t rq (modv v g a))) by (exists t, rq; split; auto).
  destruct (qeq _ _); [apply at_link_end_same; auto|exact S'].
Qed.

Lemma veh_update_same : forall v a b, same_state a b -> same_result (veh_update c v a) (veh_update c v b).
Proof.
  intros v a b S. unfold veh_update. cbv zeta. destruct S as (t & rq & -> & S).
  pose proof (record_log_X c (c_orc c) (c_orcq c) t rq v false a) as K. rewrite reseed_id in K. rewrite K. clear K.
  assert (KR : w_reqs (record_log c v false a) = w_reqs a).
  { assert (H := X_keeps (fun w => Ok (record_log c v false w))). cbn beta in H. eapply H; [|reflexivity].
    intros t' rq' w. pose proof (record_log_X c (c_orc c) (c_orcq c) t' rq' v false w) as K. rewrite reseed_id in K. rewrite K. reflexivity. }
  assert (S1 : forall r, same_request (R (record_log c v false a) r) (rq r)) by (intros r; unfold R; rewrite KR; apply S).
  clear S KR. generalize dependent (record_log c v false a). clear a. intros a S.
  change (V (retime t rq a) v) with (V a v). change (w_T (retime t rq a)) with (w_T a).
  assert (E : match v_state (V a v) with
              | Home => if (v_dep (V a v) <=? Z.of_nat (w_T a))%Z
                  then modn (v_orig (V a v)) (fun nd => sn_queue (n_queue nd ++ [v]) nd) (modv v (sv_state Wait) (retime t rq a))
                  else retime t rq a
              | _ => retime t rq a end =
           retime t rq match v_state (V a v) with
              | Home => if (v_dep (V a v) <=? Z.of_nat (w_T a))%Z
                  then modn (v_orig (V a v)) (fun nd => sn_queue (n_queue nd ++ [v]) nd) (modv v (sv_state Wait) a)
                  else a
              | _ => a end) by (destruct (v_state (V a v)); try reflexivity; destruct (_ <=? _)%Z; reflexivity).
  rewrite E. clear E.
  match goal with |- context [retime t rq ?x] => set (d := x) end.
  assert (Sd : same_state d (retime t rq d)).
  { exists t, rq. split; auto. intros r. replace (R d r) with (R a r); auto. unfold d. destruct (v_state (V a v)); try reflexivity; destruct (_ <=? _)%Z; reflexivity. }
  change (V (retime t rq d) v) with (V d v). destruct (v_state (V d v)); auto.
  - apply (same_X (maybe_pref_update c v)); auto. intros t' rq' w.
    pose proof (maybe_pref_update_X c (c_orc c) (c_orcq c) t' rq' v w) as K. rewrite reseed_id in K. exact K.
  - apply drive_same; auto.
Qed.

Theorem tick_same : forall a b, same_state a b -> same_result (tick c a) (tick c b).
Proof.
  intros a b S. unfold tick, body.
  assert (X1 : forall f, (forall t rq w, f (retime t rq w) = rmap (retime t rq) (f w)) ->
     forall a b, same_state a b -> same_result (f a) (f b)) by (intros; apply same_X; auto).
  repeat apply same_bind; auto.
  - apply X1; auto. intros t rq w. pose proof (phase_links_X c (c_orc c) (c_orcq c) t rq w) as K. rewrite reseed_id in K. exact K.
  - clear a b S. intros a b S. apply same_bind.
    { apply X1; auto. intros t rq w. pose proof (phase_nodes_X c (c_orc c) (c_orcq c) id_seed t rq w) as K. rewrite reseed_id in K. exact K. }
    clear a b S. intros a b S. apply same_bind.
    { apply X1; auto. intros t rq w. pose proof (phase_transfer_X c (c_orc c) (c_orcq c) id_seed t rq w) as K. rewrite reseed_id in K. exact K. }
    clear a b S. intros a b S. apply same_bind.
    { apply X1; auto. intros t rq w. pose proof (phase_follow_X c (c_orc c) (c_orcq c) t rq w) as K. rewrite reseed_id in K. exact K. }
    clear a b S. intros a b S. apply same_bind.
    { unfold phase_vehicles. replace (w_living b) with (w_living a) by (destruct S as (t & rq & -> & _); auto).
      apply same_foldM; auto. intros v a' b' S'. unfold update_living.
      replace (w_living b') with (w_living a') by (destruct S' as (t & rq & -> & _); auto).
      destruct (mem v (w_living a')); [apply veh_update_same; auto|reflexivity]. }
    clear a b S. intros a b S. apply same_bind.
    { apply X1; auto. intros t rq w. pose proof (route_phase_X c (c_orc c) (c_orcq c) id_seed t rq w) as K. rewrite reseed_id in K. exact K. }
    clear a b S. intros a b S. cbn. eapply same_trans; [apply same_sym, same_time|]. eapply same_trans; [exact S|apply same_time].
  - clear a b S. intros a b S. cbn. destruct S as (t & rq & -> & S). exists t, rq. auto.
Qed.
End Same.

(** ** hard_deterministic_mode: the generator is never consulted *)
Section Seed.
Variables (c : cfg) (o : nat -> nat) (q : nat -> Q).
Hypothesis det : c_det c = true.
Let C := reseed o q c.
Let sd : c_det c = true \/ (o = c_orc c /\ q = c_orcq c) := or_introl det.
Let id_seed : c_det c = true \/ (c_orc c = c_orc c /\ c_orcq c = c_orcq c) := or_intror (conj eq_refl eq_refl).

(** commuting with every [retime], for both generators, gives equality *)
Lemma seed_eq : forall (f1 f2 : world -> result world) w,
  (forall t rq w, f1 (retime t rq w) = rmap (retime t rq) (f1 w)) ->
  (forall t rq w, f2 (retime t rq w) = rmap (retime t rq) (f1 w)) -> f2 w = f1 w.
Proof.
  intros f1 f2 w H1 H2. specialize (H1 (w_TIME w) (w_reqs w) w). specialize (H2 (w_TIME w) (w_reqs w) w).
  rewrite retime_id in *. congruence.
Qed.
Lemma foldM_ext : forall A (f g : A -> world -> result world) l w, (forall x w, f x w = g x w) -> foldM f l w = foldM g l w.
Proof. intros A f g l; induction l as [|x l IH]; intros w H; cbn; auto. rewrite H. destruct (g x w); cbn; auto. Qed.

Ltac sq f := apply (seed_eq (f c)); intros t rq w'.

Lemma phase_links_seed : forall w, phase_links C w = phase_links c w.
Proof.
  intros w. apply (seed_eq (phase_links c) (phase_links C)); intros t rq w'; [|apply phase_links_X].
  pose proof (phase_links_X c (c_orc c) (c_orcq c) t rq w') as K. rewrite reseed_id in K. exact K.
Qed.
Lemma phase_nodes_seed : forall w, phase_nodes C w = phase_nodes c w.
Proof.
  intros w. apply (seed_eq (phase_nodes c) (phase_nodes C)); intros t rq w'; [|apply phase_nodes_X; auto].
  pose proof (phase_nodes_X c (c_orc c) (c_orcq c) id_seed t rq w') as K. rewrite reseed_id in K. exact K.
Qed.
Lemma phase_transfer_seed : forall w, phase_transfer C w = phase_transfer c w.
Proof.
  intros w. apply (seed_eq (phase_transfer c) (phase_transfer C)); intros t rq w'; [|apply phase_transfer_X; auto].
  pose proof (phase_transfer_X c (c_orc c) (c_orcq c) id_seed t rq w') as K. rewrite reseed_id in K. exact K.
Qed.
Lemma phase_follow_seed : forall w, phase_follow C w = phase_follow c w.
Proof.
  intros w. apply (seed_eq (phase_follow c) (phase_follow C)); intros t rq w'; [|apply phase_follow_X].
  pose proof (phase_follow_X c (c_orc c) (c_orcq c) t rq w') as K. rewrite reseed_id in K. exact K.
Qed.
Lemma route_phase_seed : forall w, route_phase C w = route_phase c w.
Proof.
  intros w. apply (seed_eq (route_phase c) (route_phase C)); intros t rq w'; [|apply route_phase_X; auto].
  pose proof (route_phase_X c (c_orc c) (c_orcq c) id_seed t rq w') as K. rewrite reseed_id in K. exact K.
Qed.
Lemma arrive_rest_seed : forall v l en w, arrive_rest C v l en w = arrive_rest c v l en w.
Proof.
  intros v l en w. apply (seed_eq (arrive_rest c v l en) (arrive_rest C v l en)); intros t rq w'; [|apply arrive_rest_X; auto].
  pose proof (arrive_rest_X c (c_orc c) (c_orcq c) id_seed t rq v l en w') as K. rewrite reseed_id in K. exact K.
Qed.
Lemma maybe_pref_seed : forall v w, maybe_pref_update C v w = maybe_pref_update c v w.
Proof. reflexivity. Qed.
Lemma veh_update_seed : forall v w, veh_update C v w = veh_update c v w.
Proof.
  intros v w. unfold veh_update. change (record_log C v false w) with (record_log c v false w). cbv zeta.
  set (w1 := match v_state (V (record_log c v false w) v) with Home => _ | _ => _ end).
  destruct (v_state (V w1 v)); auto. unfold drive. cbv zeta. change (dt C) with (dt c).
  match goal with |- bind (of_opt _ (v_link (V (modv v ?f w1) v))) _ = bind _ _ => generalize (modv v f w1) end. intros w2.
  destruct (v_link (V w2 v)) as [l|]; [|reflexivity]. cbn [of_opt bind]. destruct (qeq _ _); [|reflexivity].
  rewrite !at_link_end_rest. change (run_event C) with (run_event c).
  destruct (match dget _ _ with Some e => _ | None => _ end); [|reflexivity]. cbn [bind]. apply arrive_rest_seed.
Qed.

Theorem tick_seed : forall w, tick C w = tick c w.
Proof.
  intros w. unfold tick, body. rewrite phase_links_seed. destruct (phase_links c w) as [w1|]; [|reflexivity]. cbn [bind].
  rewrite phase_nodes_seed. destruct (phase_nodes c w1) as [w2|]; [|reflexivity]. cbn [bind].
  rewrite phase_transfer_seed. destruct (phase_transfer c w2) as [w3|]; [|reflexivity]. cbn [bind].
  rewrite phase_follow_seed. destruct (phase_follow c w3) as [w4|]; [|reflexivity]. cbn [bind].
  assert (E : phase_vehicles C w4 = phase_vehicles c w4).
  { apply foldM_ext. intros v x. unfold update_living. rewrite veh_update_seed. reflexivity. }
  rewrite E. destruct (phase_vehicles c w4) as [w5|]; [|reflexivity]. cbn [bind].
  rewrite route_phase_seed. reflexivity.
Qed.

Lemma exec_until_seed : forall z w, exec_until C z w = exec_until c z w.
Proof.
  intros z w. unfold exec_until. cbv zeta.
  assert (E : forall k w, iterM (tick C) k w = iterM (tick c) k w).
  { intros k; induction k as [|k IH]; intros x; cbn [iterM]; [reflexivity|]. rewrite tick_seed. destruct (tick c x); cbn [bind]; auto. }
  rewrite E. reflexivity.
Qed.

Lemma emit_seed : forall a fuel f w, emit C a fuel f w = emit c a fuel f w.
Proof.
  intros a fuel; induction fuel as [|k IH]; intros f w; cbn [emit]; [reflexivity|].
  change (dN C) with (dN c). destruct (qle _ _); [|reflexivity]. change (add_vehicle C) with (add_vehicle c).
  destruct (add_vehicle c a w); cbn [bind]; auto.
Qed.
Lemma demand_loop_seed : forall x y fl ts f w, demand_loop C x y fl ts f w = demand_loop c x y fl ts f w.
Proof.
  intros x y fl ts; induction ts as [|t ts IH]; intros f w; cbn [demand_loop]; [reflexivity|].
  change (dt C) with (dt c). rewrite emit_seed. change (emit_fuel C) with (emit_fuel c).
  destruct (emit c _ _ _ w) as [[f2 w1]|]; cbn [bind]; auto.
Qed.

(** every public call has the same outcome whatever the generator *)
Theorem apply_op_seed : forall x w, apply_op C x w = apply_op c x w.
Proof.
  intros x w. destruct x; try reflexivity; cbn [apply_op].
  - unfold adddemand. destruct (if qlt 0 volume then _ else _) as [fl|]; [|reflexivity]. cbn [bind]. rewrite demand_loop_seed. reflexivity.
  - unfold exec_simulation. change (finalize C None w) with (finalize c None w).
    destruct (if w_final w then _ else _) as [w1|]; [|reflexivity]. cbn [bind].
    rewrite exec_until_seed. reflexivity.
Qed.
Theorem calls_seed : forall os w, calls C os w = calls c os w.
Proof.
  intros os; induction os as [|x os IH]; intros w; cbn [calls]; [reflexivity|]. rewrite apply_op_seed.
  destruct (apply_op c x w); cbn [bind]; auto.
Qed.
End Seed.

(** ** exec_simulation as a sequence of timesteps *)
Lemma iterM_app : forall (f : world -> result world) a b w, iterM f (a + b) w = (w1 <- iterM f a w ;; iterM f b w1).
Proof. intros f a; induction a as [|a IH]; intros b w; cbn; auto. destruct (f w); cbn; auto. Qed.

Lemma iter_same : forall c k a b, same_state a b -> same_result (iterM (tick c) k a) (iterM (tick c) k b).
Proof. intros c k; induction k as [|k IH]; intros a b S; cbn [iterM]; auto. apply same_bind; auto. apply tick_same; auto. Qed.

Lemma tick_clock : forall c w w', tick c w = Ok w' -> w_T w' = S (w_T w) /\ w_tsize w' = w_tsize w /\ w_final w' = w_final w.
Proof.
  intros c w w' H. apply tick_fr in H. destruct H as (w1 & E & ->). apply body_fr in E.
  cbn. split; auto. split; [exact (fr_w_tsize E)|exact (fr_w_final E)].
Qed.
Lemma iter_clock : forall c k w w', iterM (tick c) k w = Ok w' ->
  w_T w' = w_T w + k /\ w_tsize w' = w_tsize w /\ w_final w' = w_final w.
Proof.
  intros c k; induction k as [|k IH]; intros w w' H; cbn in H.
  - injection H as <-. auto.
  - apply bind_ok in H. destruct H as (a & E & H). apply tick_clock in E. apply IH in H. destruct E as (E1 & E2 & E3).
    destruct H as (H1 & H2 & H3). rewrite H1, H2, H3, E1. repeat split; auto. lia.
Qed.

(** number of timesteps executed by a call with target timestep [z] *)
Definition exec_count (z : Z) (w : world) : nat :=
  Z.to_nat (Z.min z (Z.of_nat (w_tsize w) - 1) - Z.of_nat (w_T w) + 1).

Lemma exec_until_spec : forall c z w, w_T w <= w_tsize w ->
  exec_until c z w =
    if (Z.of_nat (w_tsize w) <=? z)%Z && (w_T w =? w_tsize w) then Ok (1%Z, w)
    else if (z <? Z.of_nat (w_T w))%Z then Err Exception_
    else w1 <- iterM (tick c) (exec_count z w) w ;;
         Ok (if w_T w1 =? w_tsize w then 1%Z else 0%Z, sw_TIME (now c w1) w1).
Proof.
  intros c z w Hle. unfold exec_until. cbv zeta.
  set (T := Z.of_nat (w_T w)). set (S := Z.of_nat (w_tsize w)).
  assert (ET : (w_T w =? w_tsize w) = (T =? S)%Z).
  { unfold T, S. destruct (Nat.eqb_spec (w_T w) (w_tsize w)) as [->|N]; symmetry; [apply Z.eqb_refl|apply Z.eqb_neq; lia]. }
  rewrite ET. assert (H : (T <= S)%Z) by (unfold T, S; lia).
  assert (Et : forall k w1, iterM (tick c) k w = Ok w1 -> (Z.of_nat (w_T w1) =? S)%Z = (w_T w1 =? w_tsize w)).
  { intros k w1 _. unfold S. destruct (Nat.eqb_spec (w_T w1) (w_tsize w)) as [->|N]; [apply Z.eqb_refl|apply Z.eqb_neq; lia]. }
  assert (K : forall k1 k2, k1 = k2 ->
    (w1 <- iterM (tick c) k1 w ;; Ok (if (Z.of_nat (w_T (sw_TIME (now c w1) w1)) =? S)%Z then 1%Z else 0%Z, sw_TIME (now c w1) w1)) =
    (w1 <- iterM (tick c) k2 w ;; Ok (if w_T w1 =? w_tsize w then 1%Z else 0%Z, sw_TIME (now c w1) w1))).
  { intros k1 k2 ->. destruct (iterM (tick c) k2 w) as [w1|] eqn:E; cbn [bind]; auto.
    change (w_T (sw_TIME (now c w1) w1)) with (w_T w1). rewrite (Et _ _ E). reflexivity. }
  destruct (Z.ltb_spec S z) as [Hz|Hz].
  - replace (S <=? z)%Z with true by (symmetry; apply Z.leb_le; lia). cbn [andb].
    rewrite Z.eqb_refl, andb_true_r. destruct (Z.eqb_spec T S) as [|N]; [reflexivity|].
    replace (S <? T)%Z with false by (symmetry; apply Z.ltb_ge; lia).
    replace (z <? T)%Z with false by (symmetry; apply Z.ltb_ge; lia). apply K.
    replace (S - 1 <=? S)%Z with true by (symmetry; apply Z.leb_le; lia).
    replace (T <=? S - 1)%Z with true by (symmetry; apply Z.leb_le; lia). cbn [andb]. unfold exec_count. fold T S. f_equal. lia.
  - destruct (Z.leb_spec S z) as [Hz2|Hz2].
    + assert (z = S) by lia. subst z. rewrite Z.eqb_refl, andb_true_r. cbn [andb]. destruct (Z.eqb_spec T S) as [|N]; [reflexivity|].
      replace (S <? T)%Z with false by (symmetry; apply Z.ltb_ge; lia). apply K.
      replace (S - 1 <=? S)%Z with true by (symmetry; apply Z.leb_le; lia).
      replace (T <=? S - 1)%Z with true by (symmetry; apply Z.leb_le; lia). cbn [andb]. unfold exec_count. fold T S. f_equal. lia.
    + cbn [andb]. replace (T =? z)%Z with (T =? z)%Z by auto. replace (z =? S)%Z with false by (symmetry; apply Z.eqb_neq; lia).
      rewrite andb_false_r. destruct (Z.ltb_spec z T) as [Ht|Ht]; [reflexivity|]. apply K. unfold exec_count. fold T S. f_equal.
      replace (T <=? S - 1)%Z with true by (symmetry; apply Z.leb_le; lia). rewrite andb_true_r.
      destruct (Z.leb_spec (S - 1) z); lia.
Qed.

Lemma exec_until_steps : forall c z w r w', w_T w <= w_tsize w -> exec_until c z w = Ok (r, w') ->
  exists k w1, iterM (tick c) k w = Ok w1 /\ (w' = sw_TIME (now c w1) w1 \/ w' = w1) /\
    w_T w' = w_T w + k /\ w_T w' <= w_tsize w' /\ w_tsize w' = w_tsize w /\ w_final w' = w_final w /\
    (r = 1%Z \/ r = 0%Z) /\ (r = 1%Z <-> w_T w' = w_tsize w').
Proof.
  intros c z w r w' Hle H. rewrite exec_until_spec in H by auto.
  destruct ((_ <=? z)%Z && _) eqn:E1.
  - injection H as <- <-. apply andb_true_iff in E1. destruct E1 as [E1 E2]. apply Nat.eqb_eq in E2.
    exists 0, w. repeat split; auto; lia.
  - destruct (z <? Z.of_nat (w_T w))%Z eqn:E2; [discriminate|]. apply Z.ltb_ge in E2.
    apply bind_ok in H. destruct H as (w1 & E & H). injection H as <- <-.
    exists (exec_count z w), w1. destruct (iter_clock _ _ _ _ E) as (C1 & C2 & C3).
    split; [auto|]. split; [auto|]. cbn. rewrite C1, C2, C3. split; [auto|].
    assert (Hk : w_T w + exec_count z w <= w_tsize w).
    { unfold exec_count. apply andb_false_iff in E1. destruct E1 as [E1|E1].
      - apply Z.leb_gt in E1. lia.
      - apply Nat.eqb_neq in E1. lia. }
    split; [auto|]. split; [auto|]. split; [auto|].
    destruct (Nat.eqb_spec (w_T w + exec_count z w) (w_tsize w)) as [Eq|Ne]; split; auto; split; intros; auto; try lia.
Qed.

(** TMAX is respected by every sequence of public calls *)
Definition in_time (w : world) : Prop := w_final w = true -> w_T w <= w_tsize w.
Lemma ostep_in_time : forall c w w', ostep c w w' -> in_time w -> in_time w'.
Proof.
  intros c w w' H C. unfold in_time in *. destruct H; unfold wkeep in *; try (cbn; auto; fail).
  - intros _. apply finalize_ok in H0. rewrite (fz_T _ _ _ H0). lia.
  - replace (w_final w') with (w_final w) by congruence. replace (w_T w') with (w_T w) by congruence.
    replace (w_tsize w') with (w_tsize w) by congruence. auto.
  - replace (w_final w') with (w_final w) by congruence. replace (w_T w') with (w_T w) by congruence.
    replace (w_tsize w') with (w_tsize w) by congruence. auto.
Qed.
Theorem clock_le_lemma : forall c w, reachable c w -> w_final w = true -> w_T w <= w_tsize w.
Proof.
  intros c w H; induction H as [tm|w o w' H IH Ho E]; intros F; [cbn in F; discriminate|].
  assert (Hx : (exists a, o = OExec a) \/ (forall a, o <> OExec a)) by (destruct o; try (right; congruence); left; eauto).
  destruct Hx as [(a & ->)|Hx].
  - cbn [apply_op] in E. apply bind_ok in E. destruct E as ([r w2] & E & E2). injection E2 as <-.
    unfold exec_simulation in E. apply bind_ok in E. destruct E as (w1 & E1 & E).
    assert (K : w_T w1 <= w_tsize w1).
    { destruct (w_final w) eqn:Ef; [injection E1 as <-; auto|]. apply finalize_ok in E1. rewrite (fz_T _ _ _ E1). lia. }
    apply exec_until_steps in E; auto. destruct E as (k & w3 & _ & _ & _ & X & _). auto.
  - apply apply_op_osteps in E; auto. revert F. change (in_time w'). change (in_time w) in IH. clear Ho H. induction E; auto.
    apply IHE; auto. eapply ostep_in_time; eauto.
Qed.

Theorem returns_one_lemma : forall c a w r w', reachable c w -> exec_simulation c a w = Ok (r, w') ->
  w_final w' = true /\ (r = 1%Z \/ r = 0%Z) /\ (r = 1%Z <-> w_T w' = w_tsize w') /\ w_T w <= w_T w'.
Proof.
  intros c a w r w' H E. unfold exec_simulation in E. apply bind_ok in E. destruct E as (w1 & E1 & E).
  assert (K : w_T w1 <= w_tsize w1 /\ w_final w1 = true /\ w_T w1 = w_T w).
  { destruct (w_final w) eqn:Ef; [injection E1 as <-; split; auto; eapply clock_le_lemma; eauto|].
    pose proof (reach_clock _ _ (reachable_reach _ _ H)) as C. apply finalize_ok in E1. rewrite (fz_T _ _ _ E1), (fz_final _ _ _ E1), (C Ef).
    repeat split; lia. }
  destruct K as (K1 & K2 & K3). apply exec_until_steps in E; auto.
  destruct E as (k & w3 & _ & _ & X1 & X2 & X3 & X4 & X5 & X6).
  split; [congruence|]. split; [auto|]. split; [auto|lia].
Qed.

Theorem ongoing_lemma : forall w, check_ongoing w = true <-> (w_final w = true -> w_T w < w_tsize w).
Proof.
  intros w. unfold check_ongoing. destruct (w_final w); [rewrite Z.leb_le; split; intros; [lia|assert (w_T w < w_tsize w) by auto; lia]|].
  split; auto; intros; discriminate.
Qed.

(** ** Splitting *)
Lemma exec_list_steps : forall c args w w', w_final w = true -> w_T w <= w_tsize w ->
  calls c (map OExec args) w = Ok w' ->
  exists k w1, iterM (tick c) k w = Ok w1 /\ same_state w1 w' /\ w_T w' = w_T w + k /\ w_T w' <= w_tsize w'.
Proof.
  intros c args; induction args as [|a args IH]; intros w w' F L H; cbn [map calls] in H.
  - injection H as <-. exists 0, w. cbn. split; [auto|]. split; [apply same_refl|lia].
  - apply bind_ok in H. destruct H as (w2 & E & H). cbn [apply_op] in E. apply bind_ok in E.
    destruct E as ([r w3] & E & E2). injection E2 as ->. unfold exec_simulation in E. rewrite F in E. cbn [bind] in E.
    apply exec_until_steps in E; auto. destruct E as (k & w4 & I1 & I2 & X1 & X2 & X3 & X4 & _).
    apply IH in H; [|congruence|auto]. destruct H as (k' & w5 & J1 & J2 & J3 & J4).
    assert (S : same_state w4 w2) by (destruct I2 as [-> | ->]; [apply same_time|apply same_refl]).
    exists (k + k'). rewrite iterM_app, I1. cbn [bind]. pose proof (iter_same c k' _ _ S) as SR. rewrite J1 in SR.
    destruct (iterM (tick c) k' w4) as [w6|]; [|elim SR]. exists w6. split; [auto|]. split; [eapply same_trans; eauto|lia].
Qed.

(** a first exec_simulation finalizes *)
Lemma calls_exec_finalized : forall c a args w w', calls c (map OExec (a :: args)) w = Ok w' ->
  exists w0, (w_final w = true /\ w0 = w \/ w_final w = false /\ finalize c None w = Ok w0) /\
    calls c (map OExec (a :: args)) w0 = Ok w'.
Proof.
  intros c a args w w' H. destruct (w_final w) eqn:Ef; [exists w; auto|].
  cbn [map calls] in *. apply bind_ok in H. destruct H as (w2 & E & H). cbn [apply_op] in *. apply bind_ok in E.
  destruct E as ([r w3] & E & E2). injection E2 as ->. unfold exec_simulation in E. rewrite Ef in E.
  apply bind_ok in E. destruct E as (w0 & E0 & E). exists w0. split; [auto|].
  unfold exec_simulation. rewrite (finalize_final _ _ _ _ E0). cbn [bind]. rewrite E. cbn [bind]. exact H.
Qed.

Theorem split_lemma : forall c w args1 args2 w1 w2, reachable c w ->
  (w_final w = true \/ (args1 <> [] /\ args2 <> [])) ->
  calls c (map OExec args1) w = Ok w1 -> calls c (map OExec args2) w = Ok w2 ->
  w_T w1 = w_T w2 -> same_state w1 w2.
Proof.
  intros c w args1 args2 w1 w2 R F H1 H2 ET.
  assert (K : exists w0, w_final w0 = true /\ w_T w0 <= w_tsize w0 /\ calls c (map OExec args1) w0 = Ok w1 /\ calls c (map OExec args2) w0 = Ok w2).
  { destruct (w_final w) eqn:Ef.
    - exists w. repeat split; auto. eapply clock_le_lemma; eauto.
    - destruct F as [F|[F1 F2]]; [discriminate|]. destruct args1 as [|a1 l1]; [congruence|]. destruct args2 as [|a2 l2]; [congruence|].
      apply calls_exec_finalized in H1, H2. destruct H1 as (x & [[? _]|[_ Fx]] & H1); [congruence|].
      destruct H2 as (y & [[? _]|[_ Fy]] & H2); [congruence|]. assert (y = x) by congruence. subst y.
      exists x. split; [eapply finalize_final; eauto|]. split; auto. apply finalize_ok in Fx. rewrite (fz_T _ _ _ Fx). lia. }
  destruct K as (w0 & F0 & L0 & K1 & K2).
  apply exec_list_steps in K1; auto. apply exec_list_steps in K2; auto.
  destruct K1 as (k1 & a1 & I1 & S1 & T1 & _). destruct K2 as (k2 & a2 & I2 & S2 & T2 & _).
  assert (k1 = k2) by lia. subst k2. assert (a2 = a1) by congruence. subst a2.
  eapply same_trans; [apply same_sym; exact S1|exact S2].
Qed.

(** stopping on the way does not prevent the run, and ends in the same state *)
Theorem stop_on_the_way_lemma : forall c w t0 t r w', reachable c w ->
  exec_simulation c (UntilT t) w = Ok (r, w') ->
  (Z.of_nat (w_T w) <= qtrunc (t0 / dt c) < qtrunc (t / dt c))%Z ->
  exists w1 w2, exec_simulation c (UntilT t0) w = Ok w1 /\ exec_simulation c (UntilT t) (snd w1) = Ok (r, w2) /\ same_state w' w2.
Proof.
  intros c w t0 t r w' R H Ht. unfold exec_simulation in *.
  assert (K : exists w0, (if w_final w then Ok w else finalize c None w) = Ok w0 /\ w_final w0 = true /\ w_T w0 = w_T w /\ w_T w0 <= w_tsize w0).
  { apply bind_ok in H. destruct H as (w0 & E & _). exists w0. split; auto. destruct (w_final w) eqn:Ef.
    - injection E as <-. repeat split; auto. eapply clock_le_lemma; eauto.
    - pose proof (reach_clock _ _ (reachable_reach _ _ R)) as C. split; [eapply finalize_final; eauto|].
      apply finalize_ok in E. rewrite (fz_T _ _ _ E), (C Ef). lia. }
  destruct K as (w0 & E0 & F0 & T0 & L0). rewrite E0 in *. cbn [bind] in *. clear E0. rewrite <- T0 in Ht.
  cbn [end_of_arg] in *. set (z0 := qtrunc (t0 / dt c)) in *. set (z := qtrunc (t / dt c)) in *.
  rewrite exec_until_spec in H by auto. rewrite (exec_until_spec c z0) by auto.
  destruct ((Z.of_nat (w_tsize w0) <=? z)%Z && (w_T w0 =? w_tsize w0)) eqn:E1.
  - injection H as <- <-. apply andb_true_iff in E1. destruct E1 as [E1 E2]. rewrite E2.
    apply Nat.eqb_eq in E2. assert (Ez : (Z.of_nat (w_tsize w0) <=? z0)%Z = true) by (apply Z.leb_le; lia).
    rewrite Ez. cbn [andb]. exists (1%Z, w0), w0. split; [auto|]. cbn [snd]. rewrite F0. cbn [bind].
    rewrite exec_until_spec by auto. fold z. rewrite E1. rewrite (proj2 (Nat.eqb_eq _ _) E2). cbn [andb]. split; [auto|apply same_refl].
  - replace (z <? Z.of_nat (w_T w0))%Z with false in H by (symmetry; apply Z.ltb_ge; lia).
    apply bind_ok in H. destruct H as (wf & E & H). injection H as <- <-.
    assert (Hlt : w_T w0 < w_tsize w0 \/ (z < Z.of_nat (w_tsize w0))%Z).
    { apply andb_false_iff in E1. destruct E1 as [E1|E1]; [right; apply Z.leb_gt in E1; auto|left; apply Nat.eqb_neq in E1; lia]. }
    assert (Hlt2 : w_T w0 < w_tsize w0) by lia.
    replace (w_T w0 =? w_tsize w0) with false by (symmetry; apply Nat.eqb_neq; lia). rewrite andb_false_r.
    replace (z0 <? Z.of_nat (w_T w0))%Z with false by (symmetry; apply Z.ltb_ge; lia).
    assert (Hk : exists k, exec_count z w0 = exec_count z0 w0 + k) by (exists (exec_count z w0 - exec_count z0 w0); unfold exec_count; lia).
    destruct Hk as (k & Hk). pose proof E as E'. rewrite Hk, iterM_app in E. apply bind_ok in E. destruct E as (wm & Em & E). rewrite Em. cbn [bind].
    destruct (iter_clock _ _ _ _ Em) as (C1 & C2 & C3).
    set (wn := sw_TIME (now c wm) wm). exists (if w_T wm =? w_tsize w0 then 1%Z else 0%Z, wn). cbn [snd].
    assert (Sn : same_state wm wn) by apply same_time.
    change (w_final wn) with (w_final wm). rewrite C3, F0. cbn [bind].
    rewrite exec_until_spec by (change (w_T wn) with (w_T wm); change (w_tsize wn) with (w_tsize wm); rewrite C1, C2; unfold exec_count; lia).
    change (w_T wn) with (w_T wm). change (w_tsize wn) with (w_tsize wm). fold z. rewrite C2.
    destruct ((Z.of_nat (w_tsize w0) <=? z)%Z && (w_T wm =? w_tsize w0)) eqn:E2.
    + apply andb_true_iff in E2. destruct E2 as [E2 E3]. apply Nat.eqb_eq in E3.
      assert (k = 0). { unfold exec_count in *. apply Z.leb_le in E2. lia. }
      subst k. cbn [iterM] in E. injection E as ->. exists wn. rewrite E3, Nat.eqb_refl. split; [reflexivity|]. split; [auto|].
      unfold wn. apply same_refl.
    + replace (z <? Z.of_nat (w_T wm))%Z with false by (symmetry; apply Z.ltb_ge; rewrite C1; unfold exec_count; lia).
      assert (Ek : exec_count z wn = k). { unfold exec_count in *. change (w_T wn) with (w_T wm). change (w_tsize wn) with (w_tsize wm). rewrite C1, C2. lia. }
      rewrite Ek. pose proof (iter_same c k _ _ Sn) as SR. rewrite E in SR.
      destruct (iterM (tick c) k wn) as [we|] eqn:Ee; [|elim SR]. cbn [bind].
      destruct (same_T _ _ SR) as (T1 & _). rewrite T1. eexists; split; [reflexivity|]. split; [reflexivity|].
      eapply same_trans; [apply same_sym, same_time|]. eapply same_trans; [exact SR|apply same_time].
Qed.

Theorem run_loop_lemma : forall c d w fuel, (0 < dt c)%Q -> (dt c <= d)%Q -> w_final w = true -> w_T w <= w_tsize w ->
  w_tsize w - w_T w <= fuel ->
  same_result (iterM (tick c) (w_tsize w - w_T w) w) (run_loop c d fuel w).
Proof.
  intros c d w fuel Hd Hdd F L Hf. revert w F L Hf. induction fuel as [|f IH]; intros w F L Hf; cbn [run_loop].
  - replace (w_tsize w - w_T w) with 0 by lia. cbn [iterM]. destruct (check_ongoing w) eqn:E; [|apply same_refl].
    apply ongoing_lemma in E; auto. lia.
  - destruct (check_ongoing w) eqn:E.
    + apply ongoing_lemma in E; auto. unfold exec_simulation. rewrite F. cbn [bind end_of_arg].
      assert (Hz : (1 <= qtrunc (d / dt c))%Z).
      { unfold qtrunc. assert (K : (1 <= d / dt c)%Q) by (apply Qle_shift_div_l; lra). clear -K. destruct (d / dt c)%Q as [a b].
        unfold Qle in K. cbn in *. apply Z.quot_le_lower_bound; lia. }
      set (z := (Z.of_nat (w_T w) + qtrunc (d / dt c) - 1)%Z). rewrite exec_until_spec by auto.
      replace (w_T w =? w_tsize w) with false by (symmetry; apply Nat.eqb_neq; lia). rewrite andb_false_r.
      replace (z <? Z.of_nat (w_T w))%Z with false by (symmetry; apply Z.ltb_ge; unfold z; lia).
      assert (Hk : exists k, w_tsize w - w_T w = exec_count z w + k /\ 0 < exec_count z w).
      { exists (w_tsize w - w_T w - exec_count z w). unfold exec_count, z. lia. }
      destruct Hk as (k & Hk & Hp). rewrite Hk, iterM_app.
      destruct (iterM (tick c) (exec_count z w) w) as [wm|] eqn:Em; cbn [bind]; [|reflexivity].
      destruct (iter_clock _ _ _ _ Em) as (C1 & C2 & C3). set (wn := sw_TIME (now c wm) wm).
      assert (Ek : k = w_tsize wn - w_T wn) by (change (w_T wn) with (w_T wm); change (w_tsize wn) with (w_tsize wm); lia).
      assert (S1 : same_result (iterM (tick c) k wm) (iterM (tick c) k wn)) by (apply iter_same, same_time).
      assert (S2 : same_result (iterM (tick c) k wn) (run_loop c d f wn)).
      { rewrite Ek. apply IH; change (w_final wn) with (w_final wm); change (w_T wn) with (w_T wm); change (w_tsize wn) with (w_tsize wm); try lia; congruence. }
      destruct (iterM (tick c) k wm), (iterM (tick c) k wn), (run_loop c d f wn); cbn in *; try tauto; try congruence.
      eapply same_trans; eauto.
    + assert (~ w_T w < w_tsize w). { intro K. assert (check_ongoing w = true) by (apply ongoing_lemma; auto). congruence. }
      replace (w_tsize w - w_T w) with 0 by lia. apply same_refl.
Qed.

Theorem short_duration_lemma : forall c d w, (0 < dt c)%Q -> (0 <= d < dt c)%Q -> w_final w = true -> w_T w < w_tsize w ->
  exec_simulation c (DurationT2 d) w = Err Exception_.
Proof.
  intros c d w Hd Hdd F L. unfold exec_simulation. rewrite F. cbn [bind end_of_arg].
  assert (Hz : qtrunc (d / dt c) = 0%Z).
  { assert (K : (0 <= d / dt c)%Q) by (apply Qle_shift_div_l; lra). assert (K2 : (d / dt c < 1)%Q) by (apply Qlt_shift_div_r; lra).
    unfold qtrunc. destruct (d / dt c)%Q as [a b]. unfold Qle in K; unfold Qlt in K2; cbn in *. apply Z.quot_small. lia. }
  rewrite Hz. rewrite exec_until_spec by lia.
  replace (w_T w =? w_tsize w) with false by (symmetry; apply Nat.eqb_neq; lia). rewrite andb_false_r.
  replace (Z.of_nat (w_T w) + 0 - 1 <? Z.of_nat (w_T w))%Z with true by (symmetry; apply Z.ltb_lt; lia). reflexivity.
Qed.
