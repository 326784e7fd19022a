(** * TTActual: actual travel times of links, uxsim.py 351, 640, 825-844, 1228. *)
From Verif Require Import Base Types Sim Build Heap Lists Inv FrameBase Tac Frame Eff Eff2 Trace InvStep Reach Steps Effects Phases Attr Life Incoming Vev Ride TripLog Route Signal Green Choice Enforce Counts LinkQueries FD NodeCap Origin Bucket Outflow Demand Spec SpecTT.
Local Open Scope nat_scope.

Definition put (c : cfg) (tt : list Q) (x : exit) : list Q := set_from tt (Z.to_nat (qtrunc (entered x / dt c))) (spent x).
Definition pr (w : world) (v : vid) : vid * Q := (v, v_larr (V w v)).

(** vehicles_enter_log after the vehicles [a] entered in timestep [T] *)
Definition noted (T : nat) (a : list vid) (d : list (nat * vid)) : list (nat * vid) := fold_left (fun d v => dset T v d) a d.

(** the cumulative departures count the vehicles [g] *)
Definition parted (c : cfg) (k : link) (g : list exit) (k' : link) : Prop :=
  last0 (l_cd k') = (last0 (l_cd k) + Z.of_nat (List.length g) * c_deltan c)%Z.
Lemma parted_same : forall c k k', l_cd k' = l_cd k -> parted c k [] k'.
Proof. intros c k k' E. unfold parted. rewrite E. cbn. lia. Qed.
Lemma parted_one : forall c k x k', add_last (l_cd k) (c_deltan c) = Some (l_cd k') -> parted c k [x] k'.
Proof. intros c k x k' E. unfold parted. apply (bump_spec 1 (c_deltan c)). right. auto. Qed.
Lemma parted_more : forall c k g k1 g1 k2, parted c k g k1 -> parted c k1 g1 k2 -> parted c k (g ++ g1) k2.
Proof. intros c k g k1 g1 k2 A B. unfold parted in *. rewrite app_length. lia. Qed.

(** the vehicle that leaves is the one of the event *)
Definition goes (c : cfg) (e : ev) (w : world) (x : exit) : Prop :=
  entered x = v_larr (V w (fst (fst x))) /\ v_link (V w (fst (fst x))) <> None /\ fst (fst x) < w_nv w /\
  ((exists n out il, e = VShift n out (fst (fst x)) il /\ left_at x = now c w) \/
   (exists l, e = VEnd (fst (fst x)) l /\ left_at x = (Qof_nat (S (w_T w)) * dt c)%Q)).

(** what an event does to link [k]: vehicles [a] enter, [g] leave *)
Definition xev (c : cfg) (e : ev) (w : world) (p : pend) (w' : world) (p' : pend) (k : lid) : Prop :=
  exists a g, map (pr w) (Dq w p k) ++ map (fun v => (v, now c w)) a = map fst g ++ map (pr w') (Dq w' p' k) /\
    (forall v, In v a -> v_larr (V w' v) = now c w) /\ Forall (leaves c w w') g /\ l_tta (L w' k) = fold_left (put c) g (l_tta (L w k)) /\
    l_enter (L w' k) = noted (w_T w) a (l_enter (L w k)) /\ parted c (L w k) g (L w' k) /\ Forall (goes c e w) g.

Lemma map_pr : forall w w' vs, (forall z, In z vs -> v_larr (V w' z) = v_larr (V w z)) -> map (pr w') vs = map (pr w) vs.
Proof. intros w w' vs H. apply map_ext_in. intros z Hz. unfold pr. rewrite H; auto. Qed.

Lemma xev_none : forall c e w p w' p' k, (forall z, v_larr (V w' z) = v_larr (V w z)) -> Dq w' p' k = Dq w p k ->
  l_tta (L w' k) = l_tta (L w k) -> l_enter (L w' k) = l_enter (L w k) -> last0 (l_cd (L w' k)) = last0 (l_cd (L w k)) -> xev c e w p w' p' k.
Proof.
  intros c e w p w' p' k H1 H2 H3 H4 H5. exists [], []. cbn. rewrite app_nil_r, H2. repeat split; auto.
  - symmetry. apply map_pr. auto.
  - intros v [].
  - unfold parted. rewrite H5. cbn. lia.
Qed.

Lemma xev_same : forall c e w w' k, (forall z, v_larr (V w' z) = v_larr (V w z)) -> L w' k = L w k -> xev c e w None w' None k.
Proof. intros c e w w' k H1 H2. apply xev_none; auto; unfold Dq; rewrite H2; reflexivity. Qed.

Lemma iofc_tta : forall c k, l_tta (in_out_flow_constraint c k) = l_tta k.
Proof. intros c k. unfold in_out_flow_constraint. destruct (l_cin k); [|auto]. destruct (qlt _ _); destruct (qlt _ _); auto. Qed.

Lemma iofc_enter : forall c k, l_enter (in_out_flow_constraint c k) = l_enter k.
Proof. intros c k. unfold in_out_flow_constraint. destruct (l_cin k); [|auto]. destruct (qlt _ _); destruct (qlt _ _); auto. Qed.

Lemma gen_larr : forall c w out a, v_larr (gen_veh c w out a) = now c w.
Proof. reflexivity. Qed.
Lemma moved_larr : forall c w out ld ln q a, v_larr (moved c w out ld ln q a) = now c w.
Proof. reflexivity. Qed.
Lemma ended_dead : forall c w a, ~ alive (v_state (ended c w a)).
Proof. intros c w a. unfold ended, alive. cbn zeta. destruct (v_aborted _); cbn; intuition discriminate. Qed.
Lemma end_state : forall tl lg a, v_state (sv_linkold None (sv_tlog tl (sv_log lg a))) = v_state a.
Proof. reflexivity. Qed.
Lemma end_state_pref : forall tl lg a, v_state (sv_pref PrefNone (sv_linkold None (sv_tlog tl (sv_log lg a)))) = v_state a.
Proof. reflexivity. Qed.

Lemma mstep_xev : forall c e w p w' p', Inv2 w p -> mstep c e w p w' p' -> forall k, xev c e w p w' p' k.
Proof.
  intros c e w p w' p' I M k.
  assert (K : (forall n v out, e <> VEnter n v out) -> (forall n out v il, e <> VShift n out v il) -> forall z, v_larr (V w' z) = v_larr (V w z)).
  { intros N1 N2 z. destruct (larr_step _ _ _ _ _ _ z I M) as [(E & _)|[(n & out & E & _)|(n & out & il & E & _)]]; [exact E|elim (N1 _ _ _ E)|elim (N2 _ _ _ _ E)]. }
  assert (Kv : forall v, (forall n u out, e = VEnter n u out -> u = v) -> (forall n out u il, e = VShift n out u il -> u = v) -> forall z, z <> v -> v_larr (V w' z) = v_larr (V w z)).
  { intros v N1 N2 z Hz. destruct (larr_step _ _ _ _ _ _ z I M) as [(E & _)|[(n & out & E & _)|(n & out & il & E & _)]]; [exact E|elim Hz; eapply N1; eauto|elim Hz; eapply N2; eauto]. }
  pose proof (mstep_eff _ _ _ _ _ _ I M) as H.
  destruct e; cbn [eff] in H;
    try (assert (K' : forall z, v_larr (V w' z) = v_larr (V w z)) by (apply K; discriminate); clear K Kv).
  - destruct H as (-> & -> & _ & _ & _ & _ & _ & d & _ & H). specialize (H k). destruct (Nat.eqb k l) eqn:E.
    + apply Nat.eqb_eq in E. subst l. apply xev_none; auto; unfold Dq; rewrite H; unfold linked; rs; rewrite ?iofc_vehs, ?iofc_tta, ?iofc_enter, ?last0_app; reflexivity.
    + apply xev_same; auto.
  - destruct H as (-> & -> & _ & H & _). apply xev_same; auto.
  - (* VEnter *)
    clear K. specialize (Kv v). destruct H as (-> & -> & q & ca & _ & Hq & _ & _ & _ & _ & _ & Hc & H & _ & _ & _ & _ & _ & Hv & _).
    assert (Ev : v_larr (V w' v) = now c w) by (rewrite Hv; apply gen_larr). clear Hv.
    assert (Kz : forall z, z <> v -> v_larr (V w' z) = v_larr (V w z)) by (apply Kv; congruence).
    assert (Nv : forall l, ~ In v (Dq w None l)).
    { intros l Hin. destruct I as [[_ I] _]. apply (s_D I) in Hin. destruct Hin as (_ & X & _).
      assert (Y : In v (n_queue (N w n))) by (rewrite Hq; left; reflexivity). apply (s_queue I) in Y. destruct Y as (_ & Y & _). congruence. }
    specialize (H k). destruct (Nat.eqb k out) eqn:E.
    + exists [v], []. cbn [map app fold_left]. unfold Dq in *. rewrite H. apply Nat.eqb_eq in E; subst k. cbn [gen_link l_vehs sl_cinr sl_ca sl_enter sl_vehs l_tta l_enter].
      rewrite !app_nil_r, map_app. split; [|split; [|split; [constructor|split; [reflexivity|split; [reflexivity|split; [apply parted_same; reflexivity|constructor]]]]]].
      * f_equal; [|unfold pr; cbn [map]; rewrite Ev; reflexivity]. symmetry. apply map_pr. intros z Hz. apply Kz. intros ->.
        apply (Nv out). rewrite app_nil_r. exact Hz.
      * intros u [<-|[]]. exact Ev.
    + exists [], []. cbn [map app fold_left]. rewrite app_nil_r. unfold Dq in *. rewrite H. split; [|split; [intros u []|split; [constructor|split; [reflexivity|split; [reflexivity|split; [apply parted_same; reflexivity|constructor]]]]]].
      symmetry. apply map_pr. intros z Hz. apply Kz. intros ->. exact (Nv k Hz).
  - destruct H as (-> & -> & _ & _ & H & _). apply xev_same; auto.
  - (* VShift *)
    clear K. specialize (Kv v). destruct H as (-> & -> & cd & ca & rest & q & _ & _ & _ & _ & _ & _ & _ & _ & _ & _ & Hlk & Hst & Hcd & Hca & Hr & _ & _ & _ & _ & H & _ & Hv & _).
    assert (Ev : v_larr (V w' v) = now c w) by (rewrite Hv; apply moved_larr). clear Hv.
    assert (Kz : forall z, z <> v -> v_larr (V w' z) = v_larr (V w z)) by (apply Kv; congruence).
    assert (Nd : NoDup (v :: rest)). { destruct I as [[_ I] _]. pose proof (s_D_nd I il) as X. rewrite Dq_none, Hr in X. exact X. }
    assert (Nv : ~ In v rest) by (inversion Nd; auto).
    assert (No : forall l, l <> il -> ~ In v (l_vehs (L w l))).
    { intros l Hl Hin. destruct I as [[_ I] _]. rewrite <- Dq_none in Hin. apply (s_D I) in Hin. destruct Hin as (_ & _ & X & _). congruence. }
    assert (Gv : goes c (VShift n out v il) w (v, v_larr (V w v), now c w)).
    { split; [reflexivity|]. cbn [fst]. split; [congruence|]. split; [|left; exists n, out, il; auto].
      destruct I as [[_ I] _]. assert (X : In v (Dq w None il)) by (rewrite Dq_none, Hr; left; reflexivity). apply (s_D I) in X. tauto. }
    assert (Lv : leaves c w w' (v, v_larr (V w v), now c w)) by (left; split; [reflexivity|exact Ev]).
    assert (Mr : map (pr w') rest = map (pr w) rest).
    { apply map_pr. intros z Hz. apply Kz. intros ->. exact (Nv Hz). }
    assert (Pv : pr w' v = (v, now c w)) by (unfold pr; rewrite Ev; reflexivity).
    specialize (H k). cbn zeta in H.
    destruct (Nat.eqb k il) eqn:E1; [apply Nat.eqb_eq in E1; subst k|apply Nat.eqb_neq in E1];
    (destruct (Nat.eqb _ out) eqn:E2; [apply Nat.eqb_eq in E2; subst out|]); unfold xev, Dq; rewrite H.
    + exists [v], [(v, v_larr (V w v), now c w)]. rewrite Hr, Nat.eqb_refl. cbn [map app fst fold_left]. unfold out_link, in_link. rs.
      rewrite !map_app, Mr. cbn [map]. rewrite Pv, app_nil_r. split; [reflexivity|].
      split; [intros u [<-|[]]; exact Ev|]. split; [constructor; [exact Lv|constructor]|split; [reflexivity|split; [reflexivity|split; [apply parted_one; exact Hcd|constructor; [exact Gv|constructor]]]]].
    + exists [], [(v, v_larr (V w v), now c w)]. rewrite Hr, E2. cbn [map app fst fold_left]. unfold in_link. rs.
      rewrite !app_nil_r, Mr. split; [reflexivity|]. split; [intros u []|]. split; [constructor; [exact Lv|constructor]|split; [reflexivity|split; [reflexivity|split; [apply parted_one; exact Hcd|constructor; [exact Gv|constructor]]]]].
    + exists [v], []. rewrite Nat.eqb_refl. cbn [map app fst fold_left]. unfold out_link. rs.
      rewrite !map_app. cbn [map]. rewrite Pv, !app_nil_r. split; [|split; [intros u [<-|[]]; exact Ev|split; [constructor|split; [reflexivity|split; [reflexivity|split; [apply parted_same; reflexivity|constructor]]]]]].
      f_equal. symmetry. apply map_pr. intros z Hz. apply Kz. intros ->. exact (No k E1 Hz).
    + exists [], []. rewrite E2. cbn [map app fst fold_left]. rewrite !app_nil_r. split; [|split; [intros u []|split; [constructor|split; [reflexivity|split; [reflexivity|split; [apply parted_same; reflexivity|constructor]]]]]].
      symmetry. apply map_pr. intros z Hz. apply Kz. intros ->. exact (No k E1 Hz).
  - (* VEnd *)
    destruct H as (-> & rest & cd & lg & tl & Hr & _ & Hlk & _ & _ & Hcd & _ & _ & _ & _ & H & _ & _ & _ & Hv).
    assert (Gv : goes c (VEnd v l) w (v, v_larr (V w v), (Qof_nat (S (w_T w)) * dt c)%Q)).
    { split; [reflexivity|]. cbn [fst]. split; [congruence|]. split; [|right; exists l; auto].
      destruct I as [[_ I] _]. assert (X : In v (Dq w p l)) by (unfold Dq; rewrite Hr; left; reflexivity). apply (s_D I) in X. tauto. }
    assert (Dd : ~ alive (v_state (V w' v))).
    { assert (Es : v_state (V w' v) = v_state (ended c w (V w v))) by (rewrite Hv; cbn zeta; destruct (c_delpref c); [apply end_state_pref|apply end_state]).
      rewrite Es. apply ended_dead. }
    clear Hv. specialize (H k). destruct (Nat.eqb k l) eqn:E.
    + apply Nat.eqb_eq in E; subst l. exists [], [(v, v_larr (V w v), (Qof_nat (S (w_T w)) * dt c)%Q)]. unfold Dq. rewrite H, Hr.
      unfold end_link. rs. cbn [map app fst fold_left]. rewrite app_nil_r. split; [|split; [intros u []|split; [|split; [reflexivity|split; [reflexivity|split; [apply parted_one; exact Hcd|constructor; [exact Gv|constructor]]]]]]].
      * unfold pr at 1. f_equal. symmetry. apply map_pr. auto.
      * constructor; [|constructor]. right. cbn. auto.
    + apply xev_none; auto; try unfold Dq; rewrite H; reflexivity.
  - destruct H as (-> & -> & _ & _ & _ & H & _). specialize (H k). apply xev_none; auto.
    + unfold Dq. rewrite H. destruct (Nat.eqb k out); rs; rewrite ?app_nil_r; reflexivity.
    + rewrite H. destruct (Nat.eqb k out); reflexivity.
    + rewrite H. destruct (Nat.eqb k out); reflexivity.
    + rewrite H. destruct (Nat.eqb k out); reflexivity.
  - destruct H as (-> & -> & _ & H & _). apply xev_same; auto.
  - destruct H as (-> & -> & H & _). apply xev_same; auto.
  - destruct H as (-> & -> & _ & H & _). apply xev_same; auto.
  - destruct H as (-> & -> & _ & _ & _ & H & _). apply xev_same; auto.
  - destruct H as (-> & -> & _ & _ & H & _). apply xev_same; auto.
  - destruct H as (-> & -> & H & _). apply xev_same; auto. apply (so_l H).
  - destruct H as (-> & -> & H & _). apply xev_same; auto. apply (so_l H).
  - destruct H as (-> & -> & _ & _ & H & _). apply xev_same; auto.
  - destruct H as (-> & -> & _ & _ & H & _). apply xev_same; auto.
  - destruct H as (-> & -> & _ & _ & H & _). apply xev_same; auto.
  - destruct H as (-> & -> & H & _). apply xev_same; auto. apply (so_l H).
  - destruct H as (-> & -> & _ & _ & H & _). apply xev_same; auto.
  - destruct H as (-> & -> & _ & H & _). apply xev_same; auto.
  - destruct H as (-> & -> & _ & H & _). apply xev_same; auto.
  - destruct H as (-> & -> & _ & H & _). apply xev_same; auto.
Qed.

(** ** A timestep *)
(** an exit took at least a timestep *)
Definition took (c : cfg) (x : exit) : Prop := exists t t', entered x = (Qof_nat t * dt c)%Q /\ left_at x = (Qof_nat t' * dt c)%Q /\ t < t'.
(** a vehicle that changes the link entered its link in an earlier timestep *)
Definition early (c : cfg) (e : ev) (w : world) : Prop :=
  forall n out v il, e = VShift n out v il -> v_link (V w v) <> None -> v < w_nv w -> exists t, v_larr (V w v) = (Qof_nat t * dt c)%Q /\ t < w_T w.

Definition xin (c : cfg) (w0 : world) (k : lid) (w : world) (p : pend) : Prop :=
  w_T w = w_T w0 /\
  exists a g, map (pr w0) (l_vehs (L w0 k)) ++ map (fun v => (v, now c w0)) a = map fst g ++ map (pr w) (Dq w p k) /\
    (forall v, In v a -> v_larr (V w v) = now c w0) /\ Forall (leaves c w0 w) g /\ l_tta (L w k) = fold_left (put c) g (l_tta (L w0 k)) /\
    l_enter (L w k) = noted (w_T w0) a (l_enter (L w0 k)) /\ parted c (L w0 k) g (L w k) /\ Forall (took c) g.

Lemma xin_step : forall c w0 k e w p w' p', Inv2 w p -> arrived_before c (S (w_T w)) w -> early c e w -> mstep c e w p w' p' -> xin c w0 k w p -> xin c w0 k w' p'.
Proof.
  intros c w0 k e w p w' p' I Ar Ea M (ET & a & g & E1 & E2 & E3 & E4 & E5 & E6 & E7). assert (En : now c w = now c w0) by (unfold now; rewrite ET; reflexivity).
  split; [rewrite (fr_w_T (mstep_fr M)); exact ET|].
  destruct (mstep_xev _ _ _ _ _ _ I M k) as (a2 & g2 & F1 & F2 & F3 & F4 & F5 & F6 & F7).
  assert (F8 : Forall (took c) g2).
  { eapply Forall_impl; [|exact F7]. intros x (X1 & X2 & X3 & [(n & out & il & X4 & X5)|(l & X4 & X5)]).
    - destruct (Ea _ _ _ _ X4 X2 X3) as (t & Y1 & Y2). exists t, (w_T w). rewrite X1, X5. auto.
    - destruct (Ar _ X3 X2) as (t & Y1 & Y2). exists t, (S (w_T w)). rewrite X1, X5. auto. }
  rewrite En in *. rewrite ET in F5.
  assert (Kn : forall v, v_larr (V w v) = now c w0 -> v_larr (V w' v) = now c w0).
  { intros v Hv. destruct (larr_step _ _ _ _ _ _ v I M) as [(X & _)|[(n & out & _ & _ & X & _)|(n & out & il & _ & _ & _ & X & _)]]; congruence. }
  exists (a ++ a2), (g ++ g2). split; [|split; [|split; [|split; [|split; [|split]]]]].
  - rewrite map_app, app_assoc, E1, <- app_assoc, F1, map_app, app_assoc. reflexivity.
  - intros v Hv. apply in_app_or in Hv. destruct Hv as [Hv|Hv]; auto.
  - apply Forall_app. split.
    + eapply Forall_impl; [|exact E3]. intros ((v & t) & t') [[X1 X2]|(X1 & X2 & X3)]; cbn in *; [left; auto|right].
      destruct (larr_step _ _ _ _ _ _ v I M) as [(Y & _ & Y2)|[(n & out & _ & Y & _)|(n & out & il & _ & Y & _)]].
      * split; [exact X1|]. split; [|etransitivity; [exact Y|exact X3]]. change (~ alive (v_state (V w' v))). destruct Y2 as [Y2|[Y2|Y2]]; [rewrite Y2; exact X2| |exact Y2]. elim X2. unfold alive. tauto.
      * elim X2. unfold alive. tauto.
      * elim X2. unfold alive. tauto.
    + eapply Forall_impl; [|exact F3]. intros ((v & t) & t') X. unfold leaves in *. rewrite En, ET in X. exact X.
  - rewrite fold_left_app, F4, E4. reflexivity.
  - unfold noted in *. rewrite fold_left_app, F5, E5. reflexivity.
  - eapply parted_more; eauto.
  - apply Forall_app. auto.
Qed.

(** in the first phases a vehicle is as at the start of the timestep or is not touched again *)
Definition calm (w0 : world) (w : world) (p : pend) : Prop := forall v, v < w_nv w -> vride (V w v) = vride (V w0 v) \/ Ride.quiet w p v.
Lemma calm_step : forall c w0 e w p w' p', k_first e = true -> Inv2 w p -> IncA w p -> Ends w p -> mstep c e w p w' p' -> calm w0 w p -> calm w0 w' p'.
Proof.
  intros c w0 e w p w' p' Ke I J En M C v Hv. rewrite (fr_w_nv (mstep_fr M)) in Hv. destruct (C v Hv) as [E|Q].
  - destruct (touches v e) eqn:Et.
    + right. eapply touch_quiet; [exact I|exact J|exact (En v Hv)|exact Hv|exact M|exact Et].
    + left. rewrite (untouched c e w p w' p' v Ke I M Et). exact E.
  - right. destruct (quiet_step c e w p w' p' v Ke I J Q M) as (_ & X & _). exact X.
Qed.
Lemma calm_early : forall c w0 e w p w' p', reach c w0 -> w_T w = w_T w0 -> w_nv w = w_nv w0 -> k_first e = true -> Inv2 w p -> IncA w p ->
  mstep c e w p w' p' -> calm w0 w p -> early c e w.
Proof.
  intros c w0 e w p w' p' R ET EN Ke I J M C n out v il -> Hl Hv. destruct (C v Hv) as [E|Q].
  - apply vride_eq in E. destruct (reach_arrived c w0 R v) as (t & T1 & T2); [rewrite <- EN; exact Hv|intuition congruence|].
    exists t. split; [|lia]. rewrite <- T2. tauto.
  - destruct (quiet_step c _ w p w' p' v Ke I J Q M) as (X & _). cbn [touches] in X. rewrite Nat.eqb_refl in X. discriminate X.
Qed.

Lemma tick_departs : forall c w w' l, reach c w -> tick c w = Ok w' ->
  exists new g, (on_link w l ++ map (fun v => (v, now c w)) new = map fst g ++ on_link w' l /\
    (forall v, In v new -> v_larr (V w' v) = now c w) /\ Forall (leaves c w w') g) /\ l_tta (L w' l) = fold_left (put c) g (l_tta (L w l)) /\
    l_enter (L w' l) = noted (w_T w) new (l_enter (L w l)) /\ parted c (L w l) g (L w' l) /\ Forall (took c) g.
Proof.
  intros c w w' l R H. apply tick_fr in H. destruct H as (w1 & B & ->).
  assert (X : Inv2 w1 None /\ xin c w l w1 None).
  { pose proof (reach_Inv2 _ _ R) as I. pose proof (reach_IncB _ _ R) as J. pose proof (reach_Ends _ _ R) as En.
    apply body_runs in B. destruct B as (x1 & x2 & x3 & x4 & x5 & x6 & E1 & E2 & E3 & E4 & E5 & E6 & ->).
    apply phase_links_run in E1. apply phase_nodes_run in E2. apply phase_transfer_run in E3.
    apply phase_follow_run in E4. apply phase_vehicles_run in E5. apply route_phase_run in E6.
    assert (R3 : run c k_first w x3).
    { eapply run_trans; [|eapply run_trans]; eapply run_weaken; try eassumption; intros [] K; try discriminate K; reflexivity. }
    pose (G := fun (x : world) (p : pend) => xin c w l x p /\ w_nv x = w_nv w /\ arrived_before c (S (w_T w)) x).
    assert (G0 : G w None).
    { split; [|split; [reflexivity|]].
      - split; [reflexivity|]. exists [], []. rewrite Dq_none. cbn. rewrite app_nil_r.
        repeat split; auto; [intros v []|apply parted_same; reflexivity].
      - intros v Hv Hl. destruct (reach_arrived c w R v Hv Hl) as (t & T1 & T2). exists t. split; [lia|exact T2]. }
    assert (St : forall e x p x' p', Inv2 x p -> early c e x -> G x p -> mstep c e x p x' p' -> G x' p').
    { intros e x p x' p' Ix Ex (G1 & G2 & G3) M. pose proof G1 as (ET & _). split; [|split].
      - eapply xin_step; eauto. rewrite ET. exact G3.
      - rewrite (fr_w_nv (mstep_fr M)). exact G2.
      - eapply arrived_step; eauto. lia. }
    assert (F3 : Inv2 x3 None /\ (IncA x3 None /\ Ends x3 None /\ calm w x3 None) /\ G x3 None).
    { destruct (run_with c (fun x p => (IncA x p /\ Ends x p /\ calm w x p) /\ G x p) k_first) with (w := w) (w' := x3) as (Y1 & Y2 & Y3); auto.
      - intros e x p x' p' Ke Ix [(Jx & Enx & Cx) Gx] M. split.
        + split; [eapply IncA_step; eauto|]. split; [eapply Ends_step; eauto|eapply calm_step; eauto].
        + eapply St; [exact Ix| |exact Gx|exact M]. destruct Gx as ((ET & _) & EN & _). eapply calm_early with (w0 := w); eauto.
      - split; [|exact G0]. split; [exact (IncOK_A _ (ib_ok _ J))|]. split; [exact En|]. intros v Hv. left. reflexivity. }
    destruct F3 as (I3 & _ & G3).
    assert (R4 : run c (fun e => negb (match e with VShift _ _ _ _ => true | _ => false end)) x3 (sw_TIME (now c x6) x6)).
    { eapply run_trans; [|eapply run_trans; [|eapply run_trans]].
      1-3: eapply run_weaken; try eassumption; intros [] K; try discriminate K; reflexivity.
      eapply run_one with (e := VTime); [reflexivity|constructor]. }
    destruct (run_with c G (fun e => negb (match e with VShift _ _ _ _ => true | _ => false end))) with (w := x3) (w' := sw_TIME (now c x6) x6) as (Y1 & Y2); auto.
    - intros e x p x' p' Ke Ix Gx M. eapply St; [exact Ix| |exact Gx|exact M]. intros n out v il ->. discriminate Ke.
    - split; [exact Y1|]. apply Y2. }
  destruct X as (_ & _ & a & g & E1 & E2 & E3 & E4 & E5 & E6 & E7). rewrite Dq_none in E1. exists a, g. split; [|split; [exact E4|split; [exact E5|split; [exact E6|exact E7]]]]. auto.
Qed.
Lemma tick_enters : forall c w w' l, reach c w -> tick c w = Ok w' ->
  exists new g, (on_link w l ++ map (fun v => (v, now c w)) new = map fst g ++ on_link w' l /\
    (forall v, In v new -> v_larr (V w' v) = now c w) /\ Forall (leaves c w w') g) /\ l_tta (L w' l) = fold_left (put c) g (l_tta (L w l)) /\
    l_enter (L w' l) = noted (w_T w) new (l_enter (L w l)).
Proof. intros c w w' l R H. destruct (tick_departs c w w' l R H) as (new & g & A & B & C & _). exists new, g. auto. Qed.
Lemma tick_exits : forall c w w' l, reach c w -> tick c w = Ok w' ->
  exists g, exits_in c l w w' g /\ l_tta (L w' l) = fold_left (put c) g (l_tta (L w l)).
Proof. intros c w w' l R H. destruct (tick_enters c w w' l R H) as (new & g & A & B & _). exists g. split; [exists new; exact A|exact B]. Qed.

(** ** A whole run *)
Lemma later_departs : forall c P w0 w l, reach c w0 -> w_final w0 = true -> later c P w0 w ->
  exists g, exits c P l w0 w g /\ l_tta (L w l) = fold_left (put c) g (l_tta (L w0 l)) /\ w_final w = true /\ parted c (L w0 l) g (L w l) /\ Forall (took c) g.
Proof.
  intros c P w0 w l R F K. induction K as [|w1 w2 K IH S].
  - exists []. split; [constructor|]. split; [reflexivity|]. split; [exact F|]. split; [apply parted_same; reflexivity|constructor].
  - destruct IH as (g & G1 & G2 & G3 & G4 & G5). assert (R1 : reach c w1) by (eapply later_reach; eauto).
    pose proof S as S'. destruct S as [w1 o w2 Hok Hp Hx E|w1 w2 Hf E|w1].
    + pose proof (op_clock _ _ _ _ R1 Hok Hx E) as ET.
      assert (X : w_final w2 = true /\ (forall l, lkeep (L w2 l) = lkeep (L w1 l)) /\ (forall v, v < w_nv w1 -> vkeep (V w2 v) = vkeep (V w1 v))).
      { pose proof (apply_op_osteps _ _ _ _ Hok Hx E) as O. pose proof (fun v Hv => osteps_keep c w1 w2 v O Hv) as Kp.
        assert (Kf : w_final w2 = true /\ forall l, lkeep (L w2 l) = lkeep (L w1 l)).
        { clear - O G3. induction O as [|a b d O1 O IHO]; [auto|].
          assert (A : w_final b = true /\ forall l, lkeep (L b l) = lkeep (L a l)).
          { destruct O1; try congruence; unfold wkeep in *; split; auto; try congruence.  intro l. unfold L. congruence. }
          destruct A as [A1 A2]. destruct (IHO A1) as [B1 B2]. split; [exact B1|]. intro l. rewrite B2. apply A2. }
        destruct Kf. split; auto. split; auto. intros v Hv. apply (Kp v Hv). }
      destruct X as (X1 & X2 & X3). specialize (X2 l). unfold lkeep in X2.
      assert (Xt : l_tta (L w2 l) = l_tta (L w1 l)) by congruence. assert (Xv : l_vehs (L w2 l) = l_vehs (L w1 l)) by congruence.
      assert (Xd : l_cd (L w2 l) = l_cd (L w1 l)) by congruence.
      exists g. split; [|split; [congruence|split; [exact X1|split; [unfold parted in *; rewrite Xd; exact G4|exact G5]]]]. eapply ex_other; eauto. unfold on_link. rewrite Xv. apply map_ext_in.
      intros v Hv. pose proof (reach_Inv2 _ _ R1) as [[_ I] _]. rewrite <- Dq_none in Hv. apply (s_D I) in Hv. destruct Hv as (Hv & _).
      specialize (X3 v Hv). unfold vkeep in X3. congruence.
    + destruct (tick_departs c w1 w2 l R1 E) as (new & g2 & H1 & H2 & _ & H3 & H4). exists (g ++ g2). split; [eapply ex_tick; eauto; exists new; exact H1|].
      rewrite fold_left_app. split; [rewrite H2, G2; reflexivity|]. split; [|split; [eapply parted_more; eauto|apply Forall_app; auto]]. apply tick_fr in E. destruct E as (w3 & E & ->). cbn. rewrite (fr_w_final (body_fr _ _ E)). exact Hf.
    + exists g. split; [|split; [exact G2|split; [exact G3|split; [exact G4|exact G5]]]]. eapply ex_other; eauto.
Qed.
Lemma later_exits : forall c P w0 w l, reach c w0 -> w_final w0 = true -> later c P w0 w ->
  exists g, exits c P l w0 w g /\ l_tta (L w l) = fold_left (put c) g (l_tta (L w0 l)) /\ w_final w = true.
Proof. intros c P w0 w l R F K. destruct (later_departs c P w0 w l R F K) as (g & A & B & C & _). exists g. auto. Qed.

(** ** Reading a slot *)
Lemma put_length : forall c g tt, List.length (fold_left (put c) g tt) = List.length tt.
Proof. intros c g. induction g as [|x g IH]; intro tt; [reflexivity|]. cbn [fold_left]. rewrite IH. apply set_from_length. Qed.

Definition slot_of (c : cfg) (x : exit) : nat := Z.to_nat (qtrunc (entered x / dt c)).
Lemma put_nth : forall c g tt j d, j < List.length tt -> nth_error tt j = Some d ->
  nth_error (fold_left (put c) g tt) j = Some (match last_opt (filter (fun x => slot_of c x <=? j) g) with Some x => spent x | None => d end).
Proof.
  intros c g. induction g as [|x g IH] using rev_ind; intros tt j d Hj Hd; [exact Hd|].
  rewrite fold_left_app, filter_app. cbn [fold_left filter]. unfold put at 1. rewrite nth_error_set_from, put_length. fold (slot_of c x).
  rewrite (IH tt j d Hj Hd). rewrite Nat.ltb_antisym. destruct (slot_of c x <=? j) eqn:E; cbn [negb].
  - apply Nat.ltb_lt in Hj. rewrite Hj. rewrite last_opt_app. reflexivity.
  - rewrite app_nil_r. reflexivity.
Qed.

(** the entry times are multiples of the timestep *)
Definition on_grid (c : cfg) (q : Q) : Prop := exists t, q = (Qof_nat t * dt c)%Q.
Lemma exits_grid : forall c P w0 w l g, reach c w0 -> exits c P l w0 w g -> reach c w /\ Forall (fun x => on_grid c (entered x)) g.
Proof.
  intros c P w0 w l g R H. induction H as [|w1 w2 g g2 H IH Hf E (new & G1 & G2 & G3)|w1 w2 g H IH S E1 E2].
  - split; [exact R|constructor].
  - destruct IH as [R1 IH]. split; [eapply step_reach; [exact R1|apply st_tick with (P := P); eauto]|]. apply Forall_app. split; [exact IH|].
    apply Forall_forall. intros x Hx.
    assert (X : In (fst x) (on_link w1 l ++ map (fun v => (v, now c w1)) new)) by (rewrite G1; apply in_or_app; left; apply in_map; exact Hx).
    apply in_app_or in X. destruct X as [X|X]; apply in_map_iff in X; destruct X as (v & X & Hv).
    + pose proof (reach_Inv2 _ _ R1) as [[_ I] _]. rewrite <- Dq_none in Hv. apply (s_D I) in Hv. destruct Hv as (V1 & V2 & V3 & _).
      destruct (reach_arrived c w1 R1 v V1) as (t & _ & Et); [congruence|]. exists t. unfold entered. rewrite <- X. exact Et.
    + exists (w_T w1). unfold entered. rewrite <- X. reflexivity.
  - destruct IH as [R1 IH]. split; [eapply step_reach; eauto|exact IH].
Qed.


Lemma grid_slot : forall c x t, (0 < dt c)%Q -> (0 <= t)%Q -> on_grid c (entered x) ->
  (slot_of c x <=? Z.to_nat (slot c t)) = qle (entered x) t.
Proof.
  intros c x t Hd Ht (k & E). unfold slot_of, slot. rewrite E.
  assert (E1 : ((Qof_nat k * dt c) / dt c == Qof_nat k)%Q) by (field; lra).
  rewrite qtrunc_floor by (rewrite E1; unfold Qof_nat; change 0%Q with (inject_Z 0); rewrite <- Zle_Qle; lia).
  rewrite E1. unfold Qof_nat at 1. rewrite Qfloor_Z, Nat2Z.id.
  assert (A : (0 <= t / dt c)%Q) by (apply Qle_shift_div_l; [exact Hd|lra]).
  assert (B : (0 <= Qfloor (t / dt c))%Z) by (change 0%Z with (Qfloor 0); apply Qfloor_resp_le; exact A).
  destruct (qle (Qof_nat k * dt c) t) eqn:Eq.
  - apply qle_iff in Eq. apply Nat.leb_le.
    assert (C : (Qof_nat k <= t / dt c)%Q) by (apply Qle_shift_div_l; assumption).
    apply Qfloor_resp_le in C. unfold Qof_nat in C. rewrite Qfloor_Z in C. lia.
  - apply qle_false in Eq. apply Nat.leb_gt.
    assert (C : (t / dt c < Qof_nat k)%Q) by (apply Qlt_shift_div_r; assumption).
    assert (D : (inject_Z (Qfloor (t / dt c)) < Qof_nat k)%Q) by (eapply Qle_lt_trans; [apply Qfloor_le|exact C]).
    unfold Qof_nat in D. rewrite <- Zlt_Qlt in D. lia.
Qed.

Lemma filter_same : forall A (f h : A -> bool) l, Forall (fun x => f x = h x) l -> filter f l = filter h l.
Proof. intros A f h l H. induction H as [|x l E H IH]; [reflexivity|]. cbn. rewrite E, IH. reflexivity. Qed.

(** C35: the travel time read for time [t] *)
Lemma actual_value_of : forall c P w0 w l n ff g, (0 < dt c)%Q -> reach c w0 -> l_tta (L w0 l) = repeat ff n ->
  exits c P l w0 w g -> l_tta (L w l) = fold_left (put c) g (l_tta (L w0 l)) ->
  forall t, (0 <= t)%Q -> (t < Qof_nat n * dt c)%Q ->
    actual_travel_time c (L w l) t = Ok (match last_exit t g with Some x => spent x | None => ff end).
Proof.
  intros c P w0 w l n ff g Hd R E0 G1 G2.
  intros t Ht Hn. destruct (exits_grid c P w0 w l g R G1) as [_ G3]. unfold actual_travel_time, clamp_get. rewrite G2, put_length, E0, repeat_length.
  assert (A : (0 <= t / dt c)%Q) by (apply Qle_shift_div_l; [exact Hd|lra]).
  assert (B : (0 <= slot c t)%Z) by (unfold slot; change 0%Z with (Qfloor 0); apply Qfloor_resp_le; exact A).
  assert (C : (slot c t < Z.of_nat n)%Z).
  { unfold slot. assert (D : (inject_Z (Qfloor (t / dt c)) < Qof_nat n)%Q) by (eapply Qle_lt_trans; [apply Qfloor_le|apply Qlt_shift_div_r; assumption]).
    unfold Qof_nat in D. rewrite <- Zlt_Qlt in D. exact D. }
  destruct (Z.leb_spec (Z.of_nat n) (slot c t)) as [X|_]; [lia|]. destruct (Z.ltb_spec (slot c t) 0) as [X|_]; [lia|].
  assert (Hj : Z.to_nat (slot c t) < n) by lia.
  rewrite (put_nth c g (repeat ff n) (Z.to_nat (slot c t)) ff).
  - cbn [of_opt]. unfold last_exit. rewrite (filter_same _ (fun x => slot_of c x <=? Z.to_nat (slot c t)) (fun x => qle (entered x) t)); [reflexivity|].
    eapply Forall_impl; [|exact G3]. intros x Hx. apply grid_slot; assumption.
  - rewrite repeat_length. exact Hj.
  - apply nth_error_repeat. exact Hj.
Qed.
Lemma actual_value : forall c P w0 w l n ff, (0 < dt c)%Q -> reach c w0 -> w_final w0 = true -> l_tta (L w0 l) = repeat ff n ->
  later c P w0 w -> exists g, exits c P l w0 w g /\
  forall t, (0 <= t)%Q -> (t < Qof_nat n * dt c)%Q ->
    actual_travel_time c (L w l) t = Ok (match last_exit t g with Some x => spent x | None => ff end).
Proof.
  intros c P w0 w l n ff Hd R F E0 K. destruct (later_exits c P w0 w l R F K) as (g & G1 & G2 & _). exists g. split; [exact G1|].
  exact (actual_value_of c P w0 w l n ff g Hd R E0 G1 G2).
Qed.

(** C35: beyond the ends *)
Lemma actual_clamped : forall c k t, (0 < dt c)%Q -> l_tta k <> [] ->
  ((t < 0)%Q -> actual_travel_time c k t = actual_travel_time c k 0) /\
  ((Qof_nat (List.length (l_tta k)) * dt c <= t)%Q ->
     actual_travel_time c k t = actual_travel_time c k (Qof_nat (List.length (l_tta k) - 1) * dt c)).
Proof.
  intros c k t Hd Hn. assert (L0 : 0 < List.length (l_tta k)) by (destruct (l_tta k); [congruence|cbn; lia]). split; intro H.
  - unfold actual_travel_time, clamp_get. pose proof (slot_neg c t Hd H) as S1.
    assert (S0 : slot c 0 = 0%Z) by (apply Qfloor_slot; [exact Hd|change (inject_Z 0) with 0%Q; lra|change (inject_Z 0) with 0%Q; lra]).
    rewrite S0. destruct (Z.leb_spec (Z.of_nat (List.length (l_tta k))) (slot c t)); [lia|].
    destruct (Z.ltb_spec (slot c t) 0); [|lia]. destruct (Z.leb_spec (Z.of_nat (List.length (l_tta k))) 0); [lia|]. reflexivity.
  - unfold actual_travel_time, clamp_get. remember (List.length (l_tta k)) as n eqn:En.
    assert (S1 : (Z.of_nat n <= slot c t)%Z).
    { unfold slot. assert (C : (Qof_nat n <= t / dt c)%Q) by (apply Qle_shift_div_l; assumption).
      apply Qfloor_resp_le in C. unfold Qof_nat in C. rewrite Qfloor_Z in C. exact C. }
    assert (S2 : slot c (Qof_nat (n - 1) * dt c) = Z.of_nat (n - 1)).
    { apply Qfloor_slot; [exact Hd|unfold Qof_nat; lra|]. unfold Qof_nat. lra. }
    rewrite S2. destruct (Z.leb_spec (Z.of_nat n) (slot c t)); [|lia]. destruct (Z.leb_spec (Z.of_nat n) (Z.of_nat (n - 1))); [lia|].
    destruct (Z.ltb_spec (Z.of_nat (n - 1)) 0); [lia|]. rewrite Nat2Z.id. subst n.
    clear - L0. destruct (l_tta k) as [|x l] using rev_ind; [cbn in L0; lia|]. rewrite last_opt_app, app_length. cbn [List.length].
    rewrite nth_error_app2 by lia. replace (List.length l + 1 - 1 - List.length l) with 0 by lia. reflexivity.
Qed.

(** C35: departures of vehicles that entered after [t] do not change the value for [t] *)
Lemma actual_kept : forall c w w' l t, (0 < dt c)%Q -> (0 <= t)%Q -> reach c w -> w_final w = true -> tick c w = Ok w' ->
  exists g, exits_in c l w w' g /\ (Forall (fun x => (t < entered x)%Q) g ->
    nth_error (l_tta (L w' l)) (Z.to_nat (slot c t)) = nth_error (l_tta (L w l)) (Z.to_nat (slot c t))).
Proof.
  intros c w w' l t Hd Ht R Hf H. destruct (tick_exits c w w' l R H) as (g & G1 & G2). exists g. split; [exact G1|]. intro A.
  assert (G3 : Forall (fun x => on_grid c (entered x)) g).
  { assert (X : exits c any_op l w w' ([] ++ g)) by (eapply ex_tick; eauto; constructor).
    exact (proj2 (exits_grid c any_op w w' l g R X)). }
  rewrite G2. destruct (Nat.lt_ge_cases (Z.to_nat (slot c t)) (List.length (l_tta (L w l)))) as [Hj|Hj].
  - destruct (nth_error (l_tta (L w l)) (Z.to_nat (slot c t))) as [d|] eqn:Ed; [|apply nth_error_None in Ed; lia].
    rewrite (put_nth c g _ _ d Hj Ed).
    rewrite (filter_same _ _ (fun x => qle (entered x) t)).
    + assert (E : filter (fun x => qle (entered x) t) g = []).
      { clear - A. induction A as [|x g X A IH]; [reflexivity|]. cbn [filter]. apply qle_false in X. rewrite X. exact IH. }
      rewrite E. reflexivity.
    + eapply Forall_impl; [|exact G3]. intros x Hx. apply grid_slot; assumption.
  - transitivity (@None Q); [apply nth_error_None; rewrite put_length; exact Hj|symmetry; apply nth_error_None; exact Hj].
Qed.

(** C35: the free-flow travel times set by finalize_scenario *)
Lemma finalize_tta : forall c tm w w' l, finalize c tm w = Ok w' -> l < w_nl w ->
  exists n ff, l_tta (L w' l) = repeat ff n /\ n = Z.to_nat (qtrunc (match w_tmax w' with Some t => t | None => 0%Q end / dt c)) /\ w_tsize w' = n /\
    (0 < n -> ~ (l_u (L w l) == 0)%Q /\ ff = (l_len (L w l) / l_u (L w l))%Q).
Proof.
  intros c tm w w' l H Hl. unfold finalize in H. cbn zeta in H.
  apply bind_ok in H. destruct H as (w1 & E & H). injection H as <-.
  assert (P : forall ns x, (forall n, L (fold_left (fun w n => adjust_node_capacity c n w) ns x) n = L x n) /\
     w_tmax (fold_left (fun w n => adjust_node_capacity c n w) ns x) = w_tmax x /\ w_tsize (fold_left (fun w n => adjust_node_capacity c n w) ns x) = w_tsize x).
  { induction ns as [|a ns IH]; intros x; [auto|]. cbn [fold_left]. destruct (IH (adjust_node_capacity c a x)) as (A1 & A2 & A3).
    assert (B : (forall n, L (adjust_node_capacity c a x) n = L x n) /\ w_tmax (adjust_node_capacity c a x) = w_tmax x /\ w_tsize (adjust_node_capacity c a x) = w_tsize x).
    { unfold adjust_node_capacity. destruct (n_fcap _); [auto|]. destruct (map _ _); [auto|]. destruct (map _ _); auto. }
    destruct B as (B1 & B2 & B3). split; [intro n; rewrite A1; apply B1|]. split; congruence. }
  remember (match w_tmax w with Some t => t | None => match tm with Some t => t | None => auto_tmax c w end end) as t0 eqn:Et.
  remember (Z.to_nat (qtrunc (t0 / dt c))) as ts eqn:Ets.
  assert (Q : forall ls x y, foldM (init_after_tmax_fix c t0 ts) ls x = Ok y ->
      w_tmax y = w_tmax x /\ w_tsize y = w_tsize x /\ (forall k, l_len (L y k) = l_len (L x k) /\ l_u (L y k) = l_u (L x k)) /\
      (In l ls -> exists ff, l_tta (L y l) = repeat ff ts /\ (0 < ts -> ~ (l_u (L x l) == 0)%Q /\ ff = (l_len (L x l) / l_u (L x l))%Q)) /\
      (~ In l ls -> l_tta (L y l) = l_tta (L x l))).
  { induction ls as [|a ls IH]; intros x y F; cbn [foldM] in F.
    - injection F as <-. repeat split; auto. intros [].
    - apply bind_ok in F. destruct F as (z & F1 & F). destruct (IH _ _ F) as (A1 & A2 & A3 & A4 & A5).
      unfold init_after_tmax_fix in F1. apply bind_ok in F1. destruct F1 as (x1 & _ & F1). apply bind_ok in F1. destruct F1 as (x2 & _ & F1).
      apply bind_ok in F1. destruct F1 as (x3 & _ & F1). apply bind_ok in F1. destruct F1 as (ff & Eff & F1). injection F1 as <-.
      assert (B : forall k, l_len (L (modl a (sl_tta (repeat ff ts)) x) k) = l_len (L x k) /\ l_u (L (modl a (sl_tta (repeat ff ts)) x) k) = l_u (L x k)).
      { intro k. rewrite L_at. destruct (Nat.eqb k a); auto. }
      split; [exact A1|]. split; [exact A2|]. split; [intro k; destruct (A3 k), (B k); split; congruence|]. split.
      + intro Hin. destruct (in_dec Nat.eq_dec l ls) as [X|X].
        * destruct (A4 X) as (f & Q1 & Q2). exists f. split; [exact Q1|]. destruct (B l) as [B1 B2]. rewrite <- B1, <- B2. exact Q2.
        * assert (a = l) by (destruct Hin; [auto|contradiction]). subst a. exists ff. rewrite (A5 X), L_at, Nat.eqb_refl. split; [reflexivity|].
          intro Hts. destruct (Nat.eqb ts 0) eqn:E0; [apply Nat.eqb_eq in E0; lia|]. unfold qdiv in Eff. destruct (qeq (l_u (L x l)) 0) eqn:Eu; [discriminate|].
          injection Eff as <-. split; [apply qeq_false; exact Eu|reflexivity].
      + intro Hn. rewrite A5 by (intro X; apply Hn; right; exact X). rewrite L_at.
        assert (Hla : Nat.eqb l a = false) by (apply Nat.eqb_neq; intro X; apply Hn; left; auto). rewrite Hla. reflexivity. }
  destruct (Q _ _ _ E) as (Q1 & Q2 & Q3 & Q4 & _). destruct (Q4 ltac:(apply in_seq; cbn; lia)) as (ff & Q5 & Q6).
  match goal with |- context [if c_adjust c then fold_left ?f ?xs ?x0 else _] => destruct (P xs x0) as (P1 & P2 & P3) end.
  cbn [w_tmax w_tsize sw_tsize sw_TIME sw_T sw_tmax] in Q1, Q2.
  change (L (sw_tsize ts (sw_TIME 0%Q (sw_T 0 (sw_tmax (Some t0) w)))) l) with (L w l) in Q6.
  exists ts, ff. destruct (c_adjust c).
  - split; [change (l_tta (L (fold_left (fun w0 n => adjust_node_capacity c n w0) (seq 0 (w_nn w1)) (sw_rcdist (fun _ _ : nat => Some 0%Q) (sw_rcnext (fun _ _ : nat => Some 0) (sw_rcpref (fun _ _ : nat => 0%Q) (sw_rcrec [] w1))))) l) = repeat ff ts); rewrite P1; exact Q5|].
    cbn [w_tmax w_tsize sw_final sw_avgcnt sw_avgspd]. rewrite P2, P3. cbn [w_tmax w_tsize sw_rcdist sw_rcnext sw_rcpref sw_rcrec]. rewrite Q1, Q2. auto.
  - split; [exact Q5|]. cbn [w_tmax w_tsize sw_final sw_avgcnt sw_avgspd sw_rcdist sw_rcnext sw_rcpref sw_rcrec]. rewrite Q1, Q2. auto.
Qed.
