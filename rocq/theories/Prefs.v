(** * Prefs: the route preferences of the vehicles (Vehicle.route_pref). *)
From Verif Require Import Base Types Sim Build Heap Lists Inv FrameBase Tac Frame Eff Eff2 Trace InvStep Reach Steps Effects Phases Attr Life Incoming Vev Ride TripLog Route Green Choice Enforce Counts LinkQueries FD NodeCap Origin Bucket Outflow Trials Motion Spacing Spec Distance Totals SpecDuo.
Local Open Scope nat_scope.

(** ** How preferences change *)
Inductive pref_step (c : cfg) (w : world) (q : Q) (a b : vehicle) : Prop :=
| ps_shared : forall k, v_pref b = PrefShared k -> v_dest b = Some k -> w_final w = true -> v_princ a = HomogeneousDUO -> pref_step c w q a b
| ps_zero : v_pref b = PrefOwn (zero_pref (w_nl w)) -> v_dest b = None -> pref_step c w q a b
| ps_mix : forall d wt (f : lid -> Q), v_pref a = PrefOwn d -> (wt = 1%Q \/ wt = q) -> (forall l, f l = 1%Q \/ f l = 0%Q) ->
    v_pref b = PrefOwn (map (fun lp => (fst lp, ((1 - wt) * snd lp + wt * f (fst lp))%Q)) d) -> pref_step c w q a b.

Lemma pref_update_step : forall c v q w w', route_pref_update c v q w = Ok w' ->
  pref_step c w q (V w v) (V w' v) /\ (forall u, u <> v -> V w' u = V w u) /\ v_dest (V w' v) = v_dest (V w v) /\ v_state (V w' v) = v_state (V w v).
Proof.
  intros c v q w w' H. unfold route_pref_update in H. cbn zeta in H.
  assert (O : forall f u, u <> v -> V (modv v f w) u = V w u).
  { intros f u Hu. rewrite V_at. rewrite (proj2 (Nat.eqb_neq _ _) Hu). reflexivity. }
  destruct (v_princ (V w v)) eqn:Epr.
  - destruct (v_dest (V w v)) as [k|] eqn:Ed.
    + destruct (w_final w) eqn:Ef; [|discriminate]. injection H as <-. split; [|split; [apply O|]].
      * rewrite V_at, Nat.eqb_refl. eapply ps_shared; [reflexivity|exact Ed|exact Ef|exact Epr].
      * rewrite V_at, Nat.eqb_refl. split; [exact Ed|reflexivity].
    + injection H as <-. split; [|split; [apply O|]].
      * rewrite V_at, Nat.eqb_refl. apply ps_zero; [reflexivity|exact Ed].
      * rewrite V_at, Nat.eqb_refl. split; [exact Ed|reflexivity].
  - destruct (v_dest (V w v)) as [k|] eqn:Ed; [|discriminate]. destruct (w_final w) eqn:Ef; [|discriminate]. cbn [negb] in H.
    destruct (v_pref (V w v)) as [d|k'|] eqn:Ep; try discriminate.
    destruct (forallb _ d) in H; [|discriminate]. injection H as <-. split; [|split; [apply O|]].
    + rewrite V_at, Nat.eqb_refl.
      eapply (ps_mix c w q _ _ d (if qeq (qsum (map snd d)) 0 then 1%Q else q)
        (fun l => if opt_eqb (Some (l_end (L w l))) (w_rcnext w (l_start (L w l)) k) then 1%Q else 0%Q) Ep).
      * destruct (qeq _ _); auto.
      * intro l. destruct (opt_eqb _ _); auto.
      * reflexivity.
    + rewrite V_at, Nat.eqb_refl. split; [exact Ed|reflexivity].
Qed.

Lemma pref_step_eq : forall c w w1 q a a1 b b1, w_final w1 = w_final w -> w_nl w1 = w_nl w -> v_pref a1 = v_pref a -> v_princ a1 = v_princ a -> v_pref b1 = v_pref b -> v_dest b1 = v_dest b ->
  pref_step c w1 q a1 b1 -> pref_step c w q a b.
Proof.
  intros c w w1 q a a1 b b1 E1 E2 E3 E3' E4 E5 [k H1 H2 H3 H3'|H1 H2|d wt f H1 H2 H3 H4].
  - apply (ps_shared _ _ _ _ _ k); congruence.
  - apply ps_zero; congruence.
  - apply (ps_mix _ _ _ _ _ d wt f); auto; congruence.
Qed.

Lemma add_dest_step : forall c v d o w w', add_dest c v d o w = Ok w' -> forall u,
  v_pref (V w' u) = v_pref (V w u) \/ pref_step c w 1 (V w u) (V w' u).
Proof.
  intros c v d o w w' H u. unfold add_dest in H. destruct (v_mode (V w v)); [discriminate|].
  destruct (v_dest (V w v)).
  - injection H as <-. left. rewrite V_at. destruct (Nat.eqb u v) eqn:E; [apply Nat.eqb_eq in E; subst|]; reflexivity.
  - apply pref_update_step in H. destruct H as (H & O & _). destruct (Nat.eq_dec u v) as [-> | Hu].
    + right. eapply pref_step_eq; [| | | | | |exact H]; try reflexivity; rewrite V_at, Nat.eqb_refl; reflexivity.
    + left. rewrite O by auto. rewrite V_at, (proj2 (Nat.eqb_neq _ _) Hu). reflexivity.
Qed.
Lemma run_event_step : forall c e w w', run_event c e w = Ok w' -> forall u,
  v_pref (V w' u) = v_pref (V w u) \/ pref_step c w 1 (V w u) (V w' u).
Proof.
  intros c e w w' H u. destruct e; cbn [run_event] in H; cbn zeta in H.
  - apply bind_ok in H. destruct H as (v & _ & H). apply bind_ok in H. destruct H as (w1 & H1 & H).
    apply bind_ok in H. destruct H as (x & _ & H). injection H as <-.
    assert (X : forall ev1 ev2 s (y : world), V (modv v (sv_events ev1) (modr s ev2 y)) u = V (modv v (sv_events ev1) y) u) by reflexivity.
    rewrite X. 
    assert (Y : v_pref (V (modv v (sv_events x) (modv v (fun a => sv_events (dset (r_dest (R w1 r)) (Arrive r) (v_events a)) a) w1)) u) = v_pref (V w1 u) /\
                v_dest (V (modv v (sv_events x) (modv v (fun a => sv_events (dset (r_dest (R w1 r)) (Arrive r) (v_events a)) a) w1)) u) = v_dest (V w1 u)).
    { rewrite !V_at. destruct (Nat.eqb u v) eqn:E; [|split; reflexivity]. apply Nat.eqb_eq in E. subst. split; reflexivity. }
    destruct Y as [Y1 Y2]. destruct (add_dest_step _ _ _ _ _ _ H1 u) as [K | K].
    + left. rewrite Y1. exact K.
    + right. eapply pref_step_eq; [| | | | | |exact K]; auto.
  - apply bind_ok in H. destruct H as (v & _ & H). apply bind_ok in H. destruct H as (x & _ & H). injection H as <-.
    left. rewrite V_at. destruct (Nat.eqb u v) eqn:E; [apply Nat.eqb_eq in E; subst|]; reflexivity.
Qed.

Lemma vrt_pref : forall a b, Reach.vrt a = Reach.vrt b -> v_pref a = v_pref b.
Proof. unfold Reach.vrt; intros a b E. exact (f_equal snd E). Qed.
Lemma closed_pref : forall (b : bool) tl lg a, v_pref (let a := sv_linkold None (sv_tlog tl (sv_log lg a)) in if b then sv_pref PrefNone a else a) = if b then PrefNone else v_pref a.
Proof. intros b tl lg a. destruct b, a; reflexivity. Qed.
Lemma closed_state : forall (b : bool) tl lg a, v_state (let a := sv_linkold None (sv_tlog tl (sv_log lg a)) in if b then sv_pref PrefNone a else a) = v_state a.
Proof. intros b tl lg a. destruct b, a; reflexivity. Qed.
Lemma ended_dead : forall c w a, v_state (ended c w a) = End_ \/ v_state (ended c w a) = Abort.
Proof. intros c w a. unfold ended. destruct a. cbn. destruct v_aborted; auto. Qed.

Lemma mstep_pref : forall c e w p w' p', Inv2 w p -> mstep c e w p w' p' -> forall u,
  v_pref (V w' u) = v_pref (V w u) \/
  ((v_state (V w' u) = End_ \/ v_state (V w' u) = Abort) /\ v_pref (V w' u) = PrefNone) \/
  (exists q, (q = 1%Q \/ q = c_duo_weight c) /\ pref_step c w q (V w u) (V w' u)).
Proof.
  intros c e w p w' p' [I NI] H u. destruct H; try (left; reflexivity).
  - left. unfold link_update in H0. binv H0. reflexivity.
  - left. assert (Ho : In out (n_out (N w n))) by (eapply gen_outlinks_sub; eauto).
    destruct (@enter_eff c n v q out w w' I H H0 Ho H5) as (ca & A1 & A2 & A3 & A4 & A5 & A6 & A7 & A8 & A9 & A10).
    destruct (Nat.eq_dec u v) as [->|Hu].
    + rewrite A9. apply vrt_pref, Reach.gen_veh_vrt.
    + rewrite A10 by auto. destruct (opt_eqb (att_leader w out) (Some u)); reflexivity.
  - left. unfold node_update in H0. binv H0. reflexivity.
  - left. destruct (candidate_true _ _ _ _ _ H1) as (l & rest & K1 & K2 & K3 & _).
    destruct (@shift_eff c n out v il w w' I (NI _ _ K3) H1 H5) as
      (cd & ca & r & q & A1 & A2 & A3 & A4 & A5 & A6 & A7 & A8 & A9 & A10 & A11 & A12 & A13 & A14).
    destruct (Nat.eq_dec u v) as [->|Hu].
    + rewrite A13. apply vrt_pref, Reach.moved_vrt.
    + rewrite A14 by auto. cbv zeta. destruct (opt_eqb (v_follower (V w v)) (Some u));
      destruct (opt_eqb (t_leader w out (out_vehs w il out r)) (Some u)); reflexivity.
  - destruct (@end_eff c v l rest p w w' I H H1) as
      (cd & lg & tl & A1 & A2 & A3 & A4 & A5 & A6 & A7 & A8 & A9 & A10 & A11 & A12 & A13 & A14).
    destruct (Nat.eq_dec u v) as [->|Hu].
    + rewrite A14. rewrite closed_pref, closed_state. destruct (c_delpref c).
      * right. left. split; [apply ended_dead|reflexivity].
      * left. apply vrt_pref, Reach.ended_vrt.
    + left. rewrite A11 by auto. destruct (opt_eqb (v_follower (V w v)) (Some u)); reflexivity.
  - left. unfold carfollow in H. cbn zeta in H. binv H. rewrite V_at. destruct (Nat.eqb u v) eqn:Eu; [apply Nat.eqb_eq in Eu; subst|reflexivity].
    destruct (qlt _ _); reflexivity.
  - left. apply vrt_pref, Reach.record_log_vrt.
  - left. hs. rewrite V_at. destruct (Nat.eqb u v) eqn:Eu; [apply Nat.eqb_eq in Eu; subst|]; reflexivity.
  - left. rewrite V_at. destruct (Nat.eqb u v) eqn:Eu; [apply Nat.eqb_eq in Eu; subst|]; reflexivity.
  - destruct (run_event_step _ _ _ _ H1 u) as [K | K]; [left; exact K|]. right. right. exists 1%Q. auto.
  - apply pref_update_step in H. destruct H as (H & O & _). destruct (Nat.eq_dec u v) as [-> | Hu]; [|left; rewrite O by auto; reflexivity].
    right. right. exists q. auto.
  - left. rewrite V_at. destruct (Nat.eqb u v) eqn:Eu; [apply Nat.eqb_eq in Eu; subst|]; reflexivity.
  - left. rewrite V_at. destruct (Nat.eqb u v) eqn:Eu; [apply Nat.eqb_eq in Eu; subst|]; [|reflexivity]. unfold next_dest. destruct (v_dests _); reflexivity.
  - left. rewrite V_at. destruct (Nat.eqb u v) eqn:Eu; [apply Nat.eqb_eq in Eu; subst|]; reflexivity.
  - left. destruct (choose_next _ _ _ _ H1) as [B0 (l' & B1 & B2)].
    destruct (Nat.eq_dec u v) as [->|Hu]; [|rewrite B0; auto].
    destruct B2 as [(-> & _)|[(-> & _)|(out & B2 & ->)]]; reflexivity.
  - left. unfold route_search_all in H. binv H. reflexivity.
Qed.

(** ** Bounds *)
Definition own_unit (a : vehicle) : Prop := match v_pref a with PrefOwn d => unit_prefs d | _ => True end.
Lemma zero_unit : forall n, unit_prefs (zero_pref n).
Proof. intro n. unfold unit_prefs, zero_pref. apply Forall_forall. intros x H. apply in_map_iff in H. destruct H as (l & <- & _). cbn. split; lra. Qed.
Lemma mix_unit : forall d wt (f : lid -> Q), (0 <= wt)%Q -> (wt <= 1)%Q -> (forall l, f l = 1%Q \/ f l = 0%Q) -> unit_prefs d ->
  unit_prefs (map (fun lp => (fst lp, ((1 - wt) * snd lp + wt * f (fst lp))%Q)) d).
Proof.
  intros d wt f H1 H2 Hf H. unfold unit_prefs in *. apply Forall_forall. intros x Hx. apply in_map_iff in Hx. destruct Hx as ([l q] & <- & Hx).
  rewrite Forall_forall in H. apply H in Hx. cbn [fst snd] in *. destruct Hx as [X1 X2]. destruct (Hf l) as [-> | ->]; split; nra.
Qed.
Lemma pref_step_unit : forall c w q a b, (q = 1%Q \/ q = c_duo_weight c) -> (0 <= c_duo_weight c)%Q -> (c_duo_weight c <= 1)%Q ->
  pref_step c w q a b -> own_unit a -> own_unit b.
Proof.
  intros c w q a b Hq H1 H2 [k E _ _ _|E _|d wt f Ea Hw Hf E] O; unfold own_unit in *; rewrite E; auto.
  - apply zero_unit.
  - rewrite Ea in O. apply mix_unit; auto; destruct Hw as [-> | ->]; destruct Hq as [-> | ->]; lra.
Qed.

(** operations *)
Lemma op_pref : forall c o w w', op_ok o w -> (forall a, o <> OExec a) -> apply_op c o w = Ok w' -> forall u, u < w_nv w' ->
  (u < w_nv w /\ (v_pref (V w' u) = v_pref (V w u) \/ pref_step c w 1 (V w u) (V w' u))) \/
  (w_nv w <= u /\ exists d, v_pref (V w' u) = PrefOwn d /\
     (d = zero_pref (match w_prefveh w with Some n => n | None => w_nl w end) \/ exists a, o = OAddVehicle a /\ va_pref a = Some d)).
Proof.
  intros c o w w' Ho Hx H u Hu.
  assert (T : V w' u = V w u -> w_nv w' = w_nv w -> (u < w_nv w /\ (v_pref (V w' u) = v_pref (V w u) \/ pref_step c w 1 (V w u) (V w' u))) \/
    (w_nv w <= u /\ exists d, v_pref (V w' u) = PrefOwn d /\
     (d = zero_pref (match w_prefveh w with Some n => n | None => w_nl w end) \/ exists a, o = OAddVehicle a /\ va_pref a = Some d))).
  { intros E1 E2. left. split; [lia|]. left. rewrite E1. reflexivity. }
  assert (T2 : v_pref (V w' u) = v_pref (V w u) -> w_nv w' = w_nv w -> (u < w_nv w /\ (v_pref (V w' u) = v_pref (V w u) \/ pref_step c w 1 (V w u) (V w' u))) \/
    (w_nv w <= u /\ exists d, v_pref (V w' u) = PrefOwn d /\
     (d = zero_pref (match w_prefveh w with Some n => n | None => w_nl w end) \/ exists a, o = OAddVehicle a /\ va_pref a = Some d))).
  { intros E1 E2. left. split; [lia|]. auto. }
  destruct o; cbn [apply_op] in H.
  - unfold add_node in H. apply bind_ok in H. destruct H as (nd & _ & H). destruct (smem _ _); [discriminate|].
    injection H as <-. apply T; reflexivity.
  - unfold add_link in H. cbn zeta in H. destruct (negb _); [discriminate|].
    apply bind_ok in H. destruct H as (k & E & H). destruct (smem _ _); [discriminate|]. injection H as <-. apply T; reflexivity.
  - unfold add_vehicle in H. cbn zeta in H. destruct (negb _); [discriminate|]. destruct (smem _ _); [discriminate|].
    injection H as <-. cbn in Hu. destruct (Nat.eq_dec u (w_nv w)) as [-> | Hn].
    + right. split; [lia|]. unfold V; cbn. rewrite upd_same. cbn. eexists. split; [reflexivity|].
      destruct (va_pref a) eqn:Ea; [right; exists a; auto|left; reflexivity].
    + left. split; [lia|]. left. unfold V; cbn. rewrite upd_other by auto. reflexivity.
  - (* demand *)
    assert (G : exists pv, (forall x, w_nv w <= x -> x < w_nv w' -> v_pref (V w' x) = PrefOwn (zero_pref (match w_prefveh w with Some n => n | None => w_nl w end))) /\
      (forall x, x < w_nv w -> V w' x = V w x) /\ w_nl w' = w_nl w /\ w_prefveh w' = pv /\ (pv = w_prefveh w \/ pv = Some (match w_prefveh w with Some n => n | None => w_nl w end)) /\ w_nv w <= w_nv w').
    { refine (adddemand_inv (fun y => exists pv, (forall x, w_nv w <= x -> x < w_nv y -> v_pref (V y x) = PrefOwn (zero_pref (match w_prefveh w with Some n => n | None => w_nl w end))) /\
      (forall x, x < w_nv w -> V y x = V w x) /\ w_nl y = w_nl w /\ w_prefveh y = pv /\ (pv = w_prefveh w \/ pv = Some (match w_prefveh w with Some n => n | None => w_nl w end)) /\ w_nv w <= w_nv y) c _ _ _ _ _ _ _ w w' _ H).
      - intros k y y' (pv & J1 & J2 & J3 & J4 & J5 & J6) E. unfold add_vehicle in E. cbn zeta in E. destruct (negb _); [discriminate|]. destruct (smem _ _); [discriminate|].
        injection E as <-. eexists. cbn. split; [|split; [|split; [exact J3|split; [reflexivity|split]]]].
        + intros x K1 K2. destruct (Nat.eq_dec x (w_nv y)) as [-> | Hn].
          * unfold V; cbn. rewrite upd_same. cbn. rewrite J4, J3. destruct J5 as [-> | ->]; reflexivity.
          * unfold V; cbn. rewrite upd_other by auto. apply J1; lia.
        + intros x K. unfold V; cbn. rewrite upd_other by lia. apply J2. exact K.
        + right. rewrite J4, J3. destruct J5 as [-> | ->]; reflexivity.
        + lia.
      - exists (w_prefveh w). repeat split; auto. intros; lia. }
    destruct G as (pv & G1 & G2 & _ & _ & _ & G6). destruct (lt_dec u (w_nv w)) as [K|K].
    + left. split; [exact K|]. left. rewrite G2 by exact K. reflexivity.
    + right. split; [lia|]. eexists. split; [apply G1; lia|]. left. reflexivity.
  - apply finalize_ok in H. pose proof (fz_cnt _ _ _ H) as E. apply T; [unfold V; rewrite (fz_V _ _ _ H); reflexivity|congruence].
  - exfalso; eapply Hx; reflexivity.
  - pose proof (add_dest_step _ _ _ _ _ _ H u) as K. left. split; [|exact K].
    assert (E : w_nv w' = w_nv w); [|lia]. unfold add_dest in H. destruct (v_mode _); [discriminate|]. destruct (v_dest _); [injection H as <-; reflexivity|].
    unfold route_pref_update in H. cbn zeta in H. binv H; reflexivity.
  - unfold enforce_route in H. destruct (negb _); [discriminate|]. injection H as <-. apply T2; [|reflexivity].
    rewrite V_at. destruct (Nat.eqb u v) eqn:Eu; [apply Nat.eqb_eq in Eu; subst|reflexivity]. destruct set_avoid; reflexivity.
  - injection H as <-. apply T2; [|reflexivity]. rewrite V_at. destruct (Nat.eqb u v) eqn:Eu; [apply Nat.eqb_eq in Eu; subst|]; reflexivity.
  - injection H as <-. apply T2; [|reflexivity]. rewrite V_at. destruct (Nat.eqb u v) eqn:Eu; [apply Nat.eqb_eq in Eu; subst|]; reflexivity.
  - apply T; [unfold V; rewrite (override_V _ _ _ _ _ _ _ H); reflexivity|].
    unfold override_signal in H. cbn zeta in H. destruct groups as [l0|]; [|injection H as <-; reflexivity].
    destruct (negb _); [discriminate|]. destruct (negb _); [discriminate|]. injection H as <-.
    assert (P : forall ls x, w_nv (fold_left (fun w l => if existsb (mem l) l0 then modl l (sl_group (groups_of l l0)) w else w) ls x) = w_nv x).
    { induction ls as [|z ls IH]; intro x; [reflexivity|]. cbn [fold_left]. rewrite IH. destruct (existsb _ _); reflexivity. }
    rewrite P. reflexivity.
  - unfold change_free_flow_speed in H. cbn zeta in H. apply T; binv H; reflexivity.
  - unfold change_jam_density in H. cbn zeta in H. apply T; binv H; reflexivity.
  - injection H as <-. apply T; reflexivity.
  - injection H as <-. apply T; reflexivity.
  - injection H as <-. apply T; reflexivity.
  - unfold add_trip_request in H. destruct (negb _); [discriminate|]. injection H as <-. apply T; reflexivity.
  - unfold assign_taxi in H. destruct (negb _); [discriminate|]. apply bind_ok in H. destruct H as (w1 & E & H). injection H as <-.
    left. split.
    + assert (Ev : w_nv w1 = w_nv w); [|cbn in Hu; lia]. unfold add_dest in E. destruct (v_mode _); [discriminate|]. destruct (v_dest _); [injection E as <-; reflexivity|].
      unfold route_pref_update in E. cbn zeta in E. binv E; reflexivity.
    + destruct (add_dest_step _ _ _ _ _ _ E u) as [K | K].
      * left. rewrite <- K. unfold V. cbn. unfold upd. destruct (Nat.eqb u v) eqn:Eu; [apply Nat.eqb_eq in Eu; subst|]; reflexivity.
      * right. eapply pref_step_eq; [| | | | | |exact K]; try reflexivity;
        unfold V; cbn; unfold upd; destruct (Nat.eqb u v) eqn:Eu; [apply Nat.eqb_eq in Eu; subst| |apply Nat.eqb_eq in Eu; subst|]; reflexivity.
Qed.

Definition Owns (w : world) (p : pend) : Prop := forall u, u < w_nv w -> own_unit (V w u).
Lemma Owns_mstep : forall c, (0 <= c_duo_weight c)%Q -> (c_duo_weight c <= 1)%Q -> forall e w p w' p',
  Inv2 w p -> Owns w p -> mstep c e w p w' p' -> Owns w' p'.
Proof.
  intros c H1 H2 e w p w' p' I O M u Hu. pose proof (mstep_fr M) as F. rewrite (fr_w_nv F) in Hu. specialize (O u Hu).
  destruct (mstep_pref _ _ _ _ _ _ I M u) as [K|[[_ K]|(q & Hq & K)]].
  - unfold own_unit in *. rewrite K. exact O.
  - unfold own_unit. rewrite K. exact Logic.I.
  - eapply pref_step_unit; eauto.
Qed.

Theorem own_bounds_lemma : forall c w v d, good_weights c -> reachP c sound_prefs w -> v < w_nv w ->
  v_pref (V w v) = PrefOwn d -> unit_prefs d.
Proof.
  intros c w v d (G1 & G2 & _) R Hv E.
  assert (O : Owns w None).
  { apply (reachP_phase c Owns Owns Owns) with (P := sound_prefs); [intros ? ? ? ? ? _; apply Owns_mstep; assumption|auto| | | | | | |exact R].
    - intros ? ? ? ? ? _. apply Owns_mstep; assumption.
    - auto.
    - intros ? ? ? ? ? _. apply Owns_mstep; assumption.
    - intros tm u Hu. cbn in Hu. lia.
    - intros x Hf I B u Hu. exact (B u Hu).
    - intros o x x' Rx I A Ho Hs Hx H u Hu. destruct (op_pref _ _ _ _ Ho Hx H u Hu) as [[K1 [K2|K2]]|[K1 (d' & K2 & K3)]].
      + unfold own_unit. rewrite K2. apply A. exact K1.
      + eapply (pref_step_unit c x 1); eauto. 
      + unfold own_unit. rewrite K2. destruct K3 as [-> |(a & -> & K3)]; [apply zero_unit|]. cbn in Hs. rewrite K3 in Hs. exact Hs. }
  specialize (O v Hv). unfold own_unit in O. rewrite E in O. exact O.
Qed.
