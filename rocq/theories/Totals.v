(** * Totals: distance traveled (C15) and travel time (C14) of a trip against the links of its route. *)
From Verif Require Import Base Types Sim Build Heap Lists Inv FrameBase Tac Frame Eff Eff2 Trace InvStep Reach Steps Effects Phases Attr Life Incoming Vev Ride TripLog Route Green Choice Enforce Counts LinkQueries FD NodeCap Origin Bucket Outflow Trials Motion Spacing Spec Distance.
Local Open Scope nat_scope.

(** ** The recorded links between timesteps *)
Lemma trail_shape : forall c w v, reach c w -> v < w_nv w ->
  Forall (fun l => l < w_nl w) (trail (V w v)) /\
  (v_state (V w v) = Home \/ v_state (V w v) = Wait -> trail (V w v) = [] /\ v_linkold (V w v) = None) /\
  (v_state (V w v) = Run -> exists pre l, trail (V w v) = pre ++ [l] /\ v_link (V w v) = Some l /\ v_linkold (V w v) = Some l) /\
  (v_state (V w v) = Wait -> (v_dep (V w v) < Z.of_nat (w_T w))%Z).
Proof.
  intros c w v R Hv. destruct (reach_trip c w R v Hv) as (es & [A1 A2 A3 A4 A5 A6 A7 A8 A9 A10 A11]).
  assert (El : trail (V w v) = map snd es).
  { destruct A1 as (t0 & A1). unfold route_of. rewrite A1. change (links_of ((t0, PHome) :: rows c es ++ end_row c (V w v)))
      with (links_of (rows c es ++ end_row c (V w v))).
    rewrite links_of_app, links_of_rows, links_of_end, app_nil_r. reflexivity. }
  rewrite El. split; [apply Forall_map; exact A4|]. split; [intro Hs; destruct (A7 Hs) as (-> & B & _); auto|].
  split; [|exact A8]. intro Hr. destruct (A9 Hr) as (l & B1 & B2 & [(es' & t & B3 & ->)|[(B3 & _)|(B3 & _)]]); try discriminate.
  exists (map snd es'), l. rewrite map_app. auto.
Qed.

Lemma reachP_frame : forall c (P : op -> world -> Prop) w w' o, reachP c P w -> op_ok o w -> P o w -> (forall a, o <> OExec a) -> apply_op c o w = Ok w' ->
  w_final w = true -> w_nl w' = w_nl w /\ (forall l, l_start (L w' l) = l_start (L w l)) /\ (forall l, l_end (L w' l) = l_end (L w l)) /\ (forall l, l_len (L w' l) = l_len (L w l)).
Proof.
  intros c P w w' o R Ho Hp Hx H Hf. pose proof (reachP_reach _ _ _ R) as R'. 
  pose proof (apply_op_osteps _ _ _ _ Ho Hx H) as O. clear - O Hf.
  induction O as [w|a b d O1 O IH]; [auto|].
  assert (K : w_final b = true /\ w_nl b = w_nl a /\ (forall l, l_start (L b l) = l_start (L a l)) /\ (forall l, l_end (L b l) = l_end (L a l)) /\ (forall l, l_len (L b l) = l_len (L a l))).
  { destruct O1; unfold wkeep in *; try congruence.
    - cbn. repeat split; auto.
    - unfold L. rewrite H0. repeat split; auto; congruence.
    - split; [congruence|]. split; [congruence|]. repeat split; intro l; specialize (H0 l); unfold lkeep in H0; congruence. }
  destruct K as (K0 & K1 & K2 & K3 & K4). destruct (IH K0) as (J1 & J2 & J3 & J4).
  split; [congruence|]. split; [intro; rewrite J2; auto|]. split; [intro; rewrite J3; auto|intro; rewrite J4; auto].
Qed.

Lemma op_net : forall c o w w' l, op_ok o w -> (forall a, o <> OExec a) -> apply_op c o w = Ok w' -> l < w_nl w ->
  l_start (L w' l) = l_start (L w l) /\ l_end (L w' l) = l_end (L w l).
Proof.
  intros c o w w' l Ho Hx H Hl. pose proof (apply_op_osteps _ _ _ _ Ho Hx H) as O. clear - O Hl.
  induction O as [w|a b d O1 O IH]; [auto|].
  assert (K : w_nl a <= w_nl b /\ l_start (L b l) = l_start (L a l) /\ l_end (L b l) = l_end (L a l)).
  { destruct O1; unfold wkeep in *.
    - cbn. auto.
    - cbn. split; [lia|]. unfold L; cbn. rewrite !upd_other by lia. auto.
    - cbn. auto.
    - pose proof (finalize_ok _ _ _ _ H0) as Z. pose proof (fz_cnt _ _ _ Z) as Zc. split; [injection Zc; intros; lia|].
      destruct (fz_L _ _ _ Z l) as (q & ->). auto.
    - unfold L. rewrite H0. split; [injection H2; intros; lia|auto].
    - split; [injection H2; intros; lia|]. specialize (H0 l). unfold lkeep in H0. split; congruence. }
  destruct K as (K0 & K1 & K2). destruct IH as [J1 J2]; [lia|]. split; congruence.
Qed.

(** ** Vehicles that wait for their trip end are at the end of the link *)
Definition FlagEnd (w : world) (v : vid) : Prop :=
  v_state (V w v) = Run -> v_flag (V w v) = true -> forall l, v_link (V w v) = Some l -> (v_x (V w v) == l_len (L w l))%Q.

Lemma reachP_view : forall c (P : op -> world -> Prop), (0 <= dt c)%Q -> (forall o w, P o w -> sound_links o w) ->
  forall w w3 w4 w' v, reachP c P w -> v < w_nv w -> fr w w' -> body_view c v w w' w3 w4 -> tview c v w (V w' v).
Proof.
  intros c P Hd HP w w3 w4 w' v R Hv F BV. pose proof (reachP_reach _ _ _ R) as R'.
  eapply (tick_view c v w w' w3 w4); auto.
  - exact (reach_Geo c P HP w R).
  - exact (reach_Inv2 _ _ R').
  - exact (reach_Pos c P Hd HP w R v Hv).
  - exact (reach_Ends _ _ R').
Qed.

Theorem reach_FlagEnd : forall c (P : op -> world -> Prop), (0 <= dt c)%Q -> (forall o w, P o w -> sound_links o w) ->
  forall w, reachP c P w -> forall v, v < w_nv w -> FlagEnd w v.
Proof.
  intros c P Hd HP. apply reachP_ride.
  - intros w w3 w4 w' v R _ Hv I _ F _ J BV. pose proof (reachP_view c P Hd HP w w3 w4 w' v R Hv F BV) as T.
    unfold FlagEnd. change (V (sw_T (S (w_T w)) w') v) with (V w' v). change (L (sw_T (S (w_T w)) w')) with (L w').
    intros Hr Hfl l Hl. rewrite (fr_l_len F).
    destruct T as [a T1 T2 T3|k a T1 T2 T3 T4 T5|k x3 r3 x r a T1 T2 T3 T4 T5 T6 T7 T8 T9 T10 T11]; subst a.
    + destruct T2 as [T2|(_ & T2 & _)]; congruence.
    + destruct T5 as [(T5 & _)|T5]; congruence.
    + destruct T11 as [(U1 & U2 & U3 & U4 & U5 & U6)|(U1 & [(U2 & _)|U2])]; [|congruence|congruence].
      assert (k = l) by congruence. subst k. rewrite U3. destruct (U6 Hfl) as [(U7 & U8)|U7]; [|exact U7].
      destruct T2 as [(V1 & V2 & V3 & _)|[(V1 & _)|(il & _ & _ & _ & _ & _ & _ & V1 & _)]]; [|congruence|congruence].
      pose proof (J V1 U7 l V2) as X. rewrite <- V3 in X. lra.
  - intros w v J. exact J.
  - intros w o w' v R I Ho Hp Hx H Hv J. destruct (op_keep c o w w' v Ho Hx H Hv) as (K & _). unfold vkeep in K.
    unfold FlagEnd in *. intros Hr Hf l Hl. assert (Hr' : v_state (V w v) = Run) by congruence.
    assert (Hl' : v_link (V w v) = Some l) by congruence. destruct I as [[T I] _].
    destruct (s_link I Hv ltac:(discriminate)) as [Z _]. destruct (Z Hr') as (k & Z1 & Z2). assert (k = l) by congruence. subst k.
    rewrite (op_len c o w w' l Ho Hx H Z2). replace (v_x (V w' v)) with (v_x (V w v)) by congruence. apply J; congruence.
  - intros w o w' v a nl nm R Ho Hp Hx H H1 H2 K. unfold vkeep in K. intro Hr.
    assert (E2 : v_state (V w' v) = Home) by (change Home with (v_state (new_vehicle c a nl nm)); congruence). congruence.
Qed.

(** ** Sums over links *)
Definition lsum (f : lid -> Q) (ls : list lid) : Q := qsum (map f ls).
Lemma lsum_app : forall f a b, (lsum f (a ++ b) == lsum f a + lsum f b)%Q.
Proof. intros f a b. unfold lsum. induction a as [|x a IH]; cbn [map app qsum fold_right]; [ring|]. unfold qsum in *. cbn. rewrite IH. ring. Qed.
Lemma lsum_snoc : forall f a x, (lsum f (a ++ [x]) == lsum f a + f x)%Q.
Proof. intros. rewrite lsum_app. unfold lsum. cbn. ring. Qed.
Lemma lsum_ext : forall f g ls, Forall (fun l => f l = g l) ls -> lsum f ls = lsum g ls.
Proof. intros f g ls H. unfold lsum. induction H as [|x l H0 H IH]; cbn; [reflexivity|]. unfold qsum in *. cbn. rewrite H0, IH. reflexivity. Qed.
Lemma snoc_inj : forall (a b : list lid) x y, a ++ [x] = b ++ [y] -> a = b /\ x = y.
Proof. intros. apply app_inj_tail. exact H. Qed.
Lemma tl_snoc : forall (a : list lid) x y, tl ((a ++ [x]) ++ [y]) = tl (a ++ [x]) ++ [y].
Proof. intros [|z a] x y; reflexivity. Qed.

(** The quantity [M] of a route, in which link [l] counts with [f w l], is at most the length
    covered on it: used for the distance, from above and below. *)
Definition DistU (w : world) (v : vid) : Prop := no_loops w -> v_mode (V w v) = SingleTrip ->
  (v_state (V w v) = Home \/ v_state (V w v) = Wait -> (v_dist (V w v) == 0)%Q) /\
  (v_state (V w v) = Run -> forall pre l, route_of (V w v) = pre ++ [l] -> (v_dist (V w v) <= total_length w pre + v_x (V w v))%Q) /\
  (v_state (V w v) = End_ \/ v_state (V w v) = Abort -> (v_dist (V w v) <= total_length w (route_of (V w v)))%Q).

Lemma fr_total : forall w w' ls, fr w w' -> total_length w' ls = total_length w ls.
Proof. intros w w' ls F. unfold total_length. f_equal. apply map_ext. intro l. apply (fr_l_len F). Qed.
Lemma fr_free : forall w w' ls, fr w w' -> free_time w' ls = free_time w ls.
Proof. intros w w' ls F. unfold free_time. f_equal. apply map_ext. intro l. rewrite (fr_l_len F), (fr_l_u F). reflexivity. Qed.
Lemma fr_step : forall c w w' ls, fr w w' -> step_length c w' ls = step_length c w ls.
Proof. intros c w w' ls F. unfold step_length. f_equal. apply map_ext. intro l. rewrite (fr_l_u F). reflexivity. Qed.
Lemma total_snoc : forall w pre l, (total_length w (pre ++ [l]) == total_length w pre + l_len (L w l))%Q.
Proof. intros. apply (lsum_snoc (fun l => l_len (L w l))). Qed.
Lemma free_snoc : forall w pre l, (free_time w (pre ++ [l]) == free_time w pre + l_len (L w l) / l_u (L w l))%Q.
Proof. intros. apply (lsum_snoc (fun l => l_len (L w l) / l_u (L w l))%Q). Qed.
Lemma step_snoc : forall c w pre l, (step_length c w (pre ++ [l]) == step_length c w pre + l_u (L w l) * dt c)%Q.
Proof. intros. apply (lsum_snoc (fun l => l_u (L w l) * dt c)%Q). Qed.
Lemma no_loops_fr : forall w w', fr w w' -> no_loops w' -> no_loops w.
Proof. intros w w' F H l Hl. specialize (H l). unfold exists_link in *. rewrite (fr_w_nl F), (fr_l_start F), (fr_l_end F) in H. auto. Qed.

(** a link is recorded unless it is the link recorded last *)
Lemma rec_new : forall w v pre k l, no_loops w -> k < w_nl w -> v_linkold (V w v) = Some k -> route_of (V w v) = pre ++ [k] ->
  l_start (L w l) = l_end (L w k) -> (route_of (V w v) ++ (if opt_eqb (Some l) (v_linkold (V w v)) then [] else [l])) = (pre ++ [k]) ++ [l].
Proof.
  intros w v pre k l NL Hk Ho Er Hc. rewrite Ho, Er. cbn [opt_eqb]. destruct (Nat.eqb l k) eqn:E; [|reflexivity].
  apply Nat.eqb_eq in E. subst l. elim (NL k Hk). exact Hc.
Qed.
Lemma rec_same : forall w v l, v_linkold (V w v) = Some l -> (route_of (V w v) ++ (if opt_eqb (Some l) (v_linkold (V w v)) then [] else [l])) = route_of (V w v).
Proof. intros w v l Ho. rewrite Ho. cbn [opt_eqb]. rewrite Nat.eqb_refl, app_nil_r. reflexivity. Qed.

Lemma not_home_final : forall c w v, reach c w -> v < w_nv w -> v_state (V w v) <> Home -> w_final w = true.
Proof. intros c w v R Hv H. destruct (w_final w) eqn:E; [reflexivity|]. elim H. apply (reach_home _ _ R); auto. Qed.

Theorem reach_DistU : forall c (P : op -> world -> Prop), (0 <= dt c)%Q -> (forall o w, P o w -> sound_links o w) ->
  forall w, reachP c P w -> forall v, v < w_nv w -> DistU w v.
Proof.
  intros c P Hd HP. apply reachP_ride.
  - intros w w3 w4 w' v R _ Hv I _ F _ J BV. pose proof (reachP_view c P Hd HP w w3 w4 w' v R Hv F BV) as T.
    destruct (trail_shape c w v (reachP_reach _ _ _ R) Hv) as (S0 & S1 & S2 & _).
    unfold DistU. change (V (sw_T (S (w_T w)) w') v) with (V w' v).
    change (total_length (sw_T (S (w_T w)) w')) with (total_length w'). intros NL' Hm.
    assert (NL : no_loops w) by (eapply no_loops_fr; [exact F|]; exact NL').
    destruct T as [a T1 T2 T3|k a T1 T2 T3 T4 T5|k x3 r3 x r a T1 T2 T3 T4 T5 T6 T7 T8 T9 T10 T11]; subst a.
    + assert (Hm' : v_mode (V w v) = SingleTrip) by congruence. destruct (J NL Hm') as (J1 & J2 & J3).
      assert (Ed : v_dist (V w' v) = v_dist (V w v)) by congruence. assert (Er : route_of (V w' v) = route_of (V w v)) by congruence.
      rewrite Ed, Er, (fr_total _ _ _ F). split; [intro Hs; apply J1; destruct T2 as [T2|(T2 & _)]; [rewrite <- T2; exact Hs|auto]|].
      split; [intro Hr; destruct T2 as [T2|(_ & T2 & _)]; congruence|].
      intro Hs. apply J3. destruct T2 as [T2|(_ & T2 & _)]; [rewrite <- T2; exact Hs|destruct Hs; congruence].
    + assert (Hm' : v_mode (V w v) = SingleTrip) by congruence. destruct (J NL Hm') as (J1 & J2 & J3).
      assert (Ed : v_dist (V w' v) = v_dist (V w v)) by congruence. assert (Er : route_of (V w' v) = route_of (V w v)) by congruence.
      split; [intros [Hs|Hs]; destruct T5 as [[T5 _]|T5]; congruence|]. split; [intro Hs; destruct T5 as [[T5 _]|T5]; congruence|].
      intros _. rewrite Ed, Er, (fr_total _ _ _ F). destruct (S2 T1) as (pre & l & S3 & S4 & S5).
      pose proof (J2 T1 pre l S3) as J4. rewrite S3, total_snoc.
      pose proof (reach_Pos c P Hd HP w R v Hv) as [_ Px]. destruct (Px T1 l S4) as [_ Px2]. lra.
    + assert (Hm' : v_mode (V w v) = SingleTrip) by congruence. destruct (J NL Hm') as (J1 & J2 & J3).
      assert (Main : exists pre, route_of (V w' v) = pre ++ [k] /\ (v_dist (V w v) <= total_length w pre + x3)%Q).
      { rewrite T10. destruct T2 as [(V1 & V2 & V3 & _)|[(V1 & V2 & _)|(il & V0 & V1 & V2 & V3 & V4 & V5 & V6 & V7 & V8)]].
        - destruct (S2 V1) as (pre & l & S3 & S4 & S5). assert (l = k) by congruence. subst l.
          exists pre. rewrite rec_same by exact S5. split; [exact S3|]. rewrite V3. apply (J2 V1 pre k S3).
        - destruct (S1 (or_intror V1)) as [S3 S4]. exists []. rewrite S3, S4. cbn. split; [reflexivity|]. rewrite V2, J1 by auto. lra.
        - destruct (S2 V1) as (pre & l & S3 & S4 & S5). assert (l = il) by congruence. subst l. exists (pre ++ [il]).
          split; [apply rec_new; auto|]. pose proof (J2 V1 pre il S3) as J4. rewrite total_snoc. lra. }
      destruct Main as (pre & M1 & M2).
      split; [intros [Hs|Hs]; destruct T11 as [(U1 & _)|(_ & [(U1 & _)|U1])]; congruence|].
      split.
      * intros Hr pre' l Hl. destruct T11 as [(U1 & U2 & U3 & U4 & U5 & U6)|(_ & [(U1 & _)|U1])]; [|congruence|congruence].
        rewrite M1 in Hl. apply snoc_inj in Hl. destruct Hl as [<- <-]. rewrite (fr_total _ _ _ F), U3, T9. lra.
      * intros _. rewrite M1, (fr_total _ _ _ F), total_snoc, T9. lra.
  - intros w v J. exact J.
  - intros w o w' v R I Ho Hp Hx H Hv J. destruct (op_keep c o w w' v Ho Hx H Hv) as (K & _).
    assert (E : (v_state (V w' v), v_mode (V w' v), v_dist (V w' v), v_x (V w' v), route_of (V w' v)) = (v_state (V w v), v_mode (V w v), v_dist (V w v), v_x (V w v), route_of (V w v)))
      by (unfold vkeep in K; unfold route_of; congruence). clear K.
    assert (E1 : v_state (V w' v) = v_state (V w v)) by congruence. assert (E2 : v_mode (V w' v) = v_mode (V w v)) by congruence.
    assert (E3 : v_dist (V w' v) = v_dist (V w v)) by congruence. assert (E4 : v_x (V w' v) = v_x (V w v)) by congruence.
    assert (E5 : route_of (V w' v) = route_of (V w v)) by congruence. clear E.
    unfold DistU. rewrite E1, E2, E3, E4, E5. intros NL' Hm.
    destruct (op_nl _ _ _ _ Hx H Ho) as (Hn & _).
    assert (NL : no_loops w).
    { intros l Hl. destruct (op_net c o w w' l Ho Hx H Hl) as [<- <-]. apply NL'. unfold exists_link in *. lia. }
    destruct (J NL Hm) as (J1 & J2 & J3). split; [exact J1|].
    assert (Tl : v_state (V w v) <> Home -> forall ls, total_length w' ls = total_length w ls).
    { intros Hs ls. pose proof (not_home_final c w v (reachP_reach _ _ _ R) Hv Hs) as Hf.
      destruct (reachP_frame c P w w' o R Ho Hp Hx H Hf) as (_ & _ & _ & Z). unfold total_length. f_equal. apply map_ext. exact Z. }
    split; [intros Hr pre l Hl; rewrite Tl by congruence; eauto|]. intro Hs. rewrite Tl by (destruct Hs; congruence). auto.
  - intros w o w' v a nl nm R Ho Hp Hx H H1 H2 K. unfold vkeep in K.
    assert (E1 : v_dist (V w' v) = 0%Q) by (change 0%Q with (v_dist (new_vehicle c a nl nm)); congruence).
    assert (E2 : v_state (V w' v) = Home) by (change Home with (v_state (new_vehicle c a nl nm)); congruence).
    intros _ _. rewrite E1, E2. split; [intros _; reflexivity|]. split; [discriminate|]. intros [Z|Z]; discriminate.
Qed.

Lemma mode_keep : forall c P w w' o v, reachP c P w -> op_ok o w -> P o w -> (forall a, o <> OExec a) -> apply_op c o w = Ok w' -> v < w_nv w ->
  v_state (V w' v) = v_state (V w v) /\ v_dist (V w' v) = v_dist (V w v) /\ v_x (V w' v) = v_x (V w v) /\ route_of (V w' v) = route_of (V w v) /\
  v_remain (V w' v) = v_remain (V w v) /\ v_dep (V w' v) = v_dep (V w v) /\ v_tt (V w' v) = v_tt (V w v).
Proof.
  intros c P w w' o v R Ho Hp Hx H Hv. destruct (op_keep c o w w' v Ho Hx H Hv) as (K & _). unfold vkeep in K. unfold route_of. repeat split; congruence.
Qed.

Definition DistL (c : cfg) (w : world) (v : vid) : Prop :=
  (v_state (V w v) = Home \/ v_state (V w v) = Wait -> (v_dist (V w v) == 0)%Q) /\
  (v_state (V w v) = Run -> forall pre l, route_of (V w v) = pre ++ [l] ->
     (total_length w pre + v_x (V w v) <= v_dist (V w v) + step_length c w (tl (pre ++ [l])))%Q) /\
  (v_state (V w v) = End_ \/ v_state (V w v) = Abort ->
     (total_length w (route_of (V w v)) <= v_dist (V w v) + step_length c w (tl (route_of (V w v))))%Q).

Lemma tl_in : forall (a : list lid) x, In x (tl a) -> In x a.
Proof. intros [|y a] x H; [elim H|right; exact H]. Qed.

Theorem reach_DistL : forall c (P : op -> world -> Prop), (0 <= dt c)%Q -> (forall o w, P o w -> keep_speed o w) ->
  forall w, reachP c P w -> forall v, v < w_nv w -> DistL c w v.
Proof.
  intros c P Hd HPk. assert (HP : forall o w, P o w -> sound_links o w) by (intros o w K; apply HPk in K; apply K).
  apply reachP_ride.
  - intros w w3 w4 w' v R _ Hv I _ F _ J BV. pose proof (reachP_view c P Hd HP w w3 w4 w' v R Hv F BV) as T.
    destruct (trail_shape c w v (reachP_reach _ _ _ R) Hv) as (S0 & S1 & S2 & _). pose proof (reach_Geo c P HP w R) as G.
    unfold DistL. change (V (sw_T (S (w_T w)) w') v) with (V w' v).
    change (total_length (sw_T (S (w_T w)) w')) with (total_length w'). change (step_length c (sw_T (S (w_T w)) w')) with (step_length c w').
    destruct J as (J1 & J2 & J3).
    destruct T as [a T1 T2 T3|k a T1 T2 T3 T4 T5|k x3 r3 x r a T1 T2 T3 T4 T5 T6 T7 T8 T9 T10 T11]; subst a.
    + assert (Ed : v_dist (V w' v) = v_dist (V w v)) by congruence. assert (Er : route_of (V w' v) = route_of (V w v)) by congruence.
      rewrite Ed, Er, (fr_total _ _ _ F), (fr_step _ _ _ _ F). split; [intro Hs; apply J1; destruct T2 as [T2|(T2 & _)]; [rewrite <- T2; exact Hs|auto]|].
      split; [intro Hr; destruct T2 as [T2|(_ & T2 & _)]; congruence|].
      intro Hs. apply J3. destruct T2 as [T2|(_ & T2 & _)]; [rewrite <- T2; exact Hs|destruct Hs; congruence].
    + assert (Ed : v_dist (V w' v) = v_dist (V w v)) by congruence. assert (Er : route_of (V w' v) = route_of (V w v)) by congruence.
      split; [intros [Hs|Hs]; destruct T5 as [[T5 _]|T5]; congruence|]. split; [intro Hs; destruct T5 as [[T5 _]|T5]; congruence|].
      intros _. rewrite Ed, Er, (fr_total _ _ _ F), (fr_step _ _ _ _ F). destruct (S2 T1) as (pre & l & S3 & S4 & S5).
      pose proof (J2 T1 pre l S3) as J4. rewrite S3, total_snoc.
      pose proof (reach_FlagEnd c P Hd HP w R v Hv T1 T3 l S4). lra.
    + assert (Main : exists pre, route_of (V w' v) = pre ++ [k] /\ (total_length w pre + x3 <= v_dist (V w v) + step_length c w (tl (pre ++ [k])))%Q).
      { rewrite T10. destruct T2 as [(V1 & V2 & V3 & _)|[(V1 & V2 & _)|(il & V0 & V1 & V2 & V3 & V4 & V5 & V6 & V7 & V8 & V9)]].
        - destruct (S2 V1) as (pre & l & S3 & S4 & S5). assert (l = k) by congruence. subst l.
          exists pre. rewrite rec_same by exact S5. split; [exact S3|]. rewrite V3. apply (J2 V1 pre k S3).
        - destruct (S1 (or_intror V1)) as [S3 S4]. exists []. rewrite S3, S4. cbn. split; [reflexivity|]. rewrite V2, J1 by auto. lra.
        - destruct (S2 V1) as (pre & l & S3 & S4 & S5). assert (l = il) by congruence. subst l.
          pose proof (J2 V1 pre il S3) as J4. destruct (G il V0) as [G1 G2].
          destruct (Nat.eq_dec k il) as [-> | Hne].
          + exists pre. rewrite rec_same by exact S5. split; [exact S3|]. lra.
          + exists (pre ++ [il]). rewrite S5. cbn [opt_eqb]. apply Nat.eqb_neq in Hne. rewrite Hne, S3. split; [reflexivity|].
            rewrite tl_snoc, total_snoc, step_snoc.
            assert (Hr : (v_remain (V w v) <= l_u (L w il) * dt c)%Q) by (apply (proj2 (reach_Rem c P Hd HPk w R v Hv)); auto).
            assert (G2' : (0 < l_u (L w il))%Q) by (apply Qle_lteq in G2; destruct G2 as [G2|G2]; [exact G2|symmetry in G2; contradiction]).
            assert (X : (v_remain (V w v) * l_u (L w k) / l_u (L w il) <= l_u (L w k) * dt c)%Q).
            { apply Qle_shift_div_r; [exact G2'|].
              setoid_replace (l_u (L w k) * dt c * l_u (L w il))%Q with (l_u (L w il) * dt c * l_u (L w k))%Q by ring.
              apply Qmult_le_compat_r; [exact Hr|]. apply G. exact T1. }
            lra. }
      destruct Main as (pre & M1 & M2).
      split; [intros [Hs|Hs]; destruct T11 as [(U1 & _)|(_ & [(U1 & _)|U1])]; congruence|].
      split.
      * intros Hr pre' l Hl. destruct T11 as [(U1 & U2 & U3 & U4 & U5 & U6)|(_ & [(U1 & _)|U1])]; [|congruence|congruence].
        rewrite M1 in Hl. apply snoc_inj in Hl. destruct Hl as [<- <-]. rewrite (fr_total _ _ _ F), (fr_step _ _ _ _ F), U3, T9. lra.
      * intro Hs. destruct T11 as [(U1 & _)|(U1 & _)]; [destruct Hs; congruence|].
        rewrite M1, (fr_total _ _ _ F), (fr_step _ _ _ _ F), total_snoc, T9. lra.
  - intros w v J. exact J.
  - intros w o w' v R I Ho Hp Hx H Hv J. destruct (mode_keep c P w w' o v R Ho Hp Hx H Hv) as (E1 & E3 & E4 & E5 & _).
    unfold DistL. rewrite E1, E3, E4, E5. destruct J as (J1 & J2 & J3). split; [exact J1|].
    destruct (trail_shape c w v (reachP_reach _ _ _ R) Hv) as (S0 & _).
    assert (Tl : v_state (V w v) <> Home -> forall ls, total_length w' ls = total_length w ls).
    { intros Hs ls. pose proof (not_home_final c w v (reachP_reach _ _ _ R) Hv Hs) as Hf.
      destruct (reachP_frame c P w w' o R Ho Hp Hx H Hf) as (_ & _ & _ & Z). unfold total_length. f_equal. apply map_ext. exact Z. }
    assert (Ts : step_length c w' (tl (route_of (V w v))) = step_length c w (tl (route_of (V w v)))).
    { unfold step_length. f_equal. apply map_ext_in. intros l Hl. apply tl_in in Hl. rewrite Forall_forall in S0.
      rewrite (op_speed c o w w' l Ho Hx (proj2 (HPk _ _ Hp)) H (S0 l Hl)). reflexivity. }
    split.
    + intros Hr pre l Hl. rewrite Hl in Ts. rewrite Tl, Ts by congruence. eauto.
    + intro Hs. rewrite Tl, Ts by (destruct Hs; congruence). auto.
  - intros w o w' v a nl nm R Ho Hp Hx H H1 H2 K. unfold vkeep in K.
    assert (E1 : v_dist (V w' v) = 0%Q) by (change 0%Q with (v_dist (new_vehicle c a nl nm)); congruence).
    assert (E2 : v_state (V w' v) = Home) by (change Home with (v_state (new_vehicle c a nl nm)); congruence).
    unfold DistL. rewrite E1, E2. split; [intros _; reflexivity|]. split; [discriminate|]. intros [Z|Z]; discriminate.
Qed.

(** C15 *)
Theorem distance_lemma : forall c w v, (0 <= dt c)%Q -> reachP c sound_links w -> no_loops w -> exists_veh w v -> v_mode (V w v) = SingleTrip ->
  (v_dist (V w v) <= total_length w (route_of (V w v)))%Q.
Proof.
  intros c w v Hd R NL Hv Hm. destruct (reach_DistU c _ Hd (fun _ _ K => K) w R v Hv NL Hm) as (J1 & J2 & J3).
  destruct (trail_shape c w v (reachP_reach _ _ _ R) Hv) as (S0 & S1 & S2 & _).
  destruct (v_state (V w v)) eqn:Es; [| | |apply J3; auto|apply J3; auto].
  - destruct S1 as [-> _]; [auto|]. rewrite J1 by auto. cbn. lra.
  - destruct S1 as [-> _]; [auto|]. rewrite J1 by auto. cbn. lra.
  - destruct (S2 eq_refl) as (pre & l & S3 & S4 & S5). rewrite S3, total_snoc. pose proof (J2 eq_refl pre l S3).
    destruct (reach_Pos c _ Hd (fun _ _ K => K) w R v Hv) as [_ Px]. destruct (Px Es l S4). lra.
Qed.
Theorem distance_low_lemma : forall c w v, (0 <= dt c)%Q -> reachP c keep_speed w -> exists_veh w v -> v_state (V w v) = End_ ->
  (total_length w (route_of (V w v)) - step_length c w (tl (route_of (V w v))) <= v_dist (V w v))%Q.
Proof.
  intros c w v Hd R Hv Hs. destruct (reach_DistL c _ Hd (fun _ _ K => K) w R v Hv) as (_ & _ & J3). specialize (J3 (or_introl Hs)). lra.
Qed.

(** ** Travel time *)
Lemma div_step : forall y z u d, (0 < u)%Q -> (y <= z + u * d)%Q -> (y / u <= z / u + d)%Q.
Proof.
  intros y z u d Hu H. apply Qle_shift_div_r; [exact Hu|]. setoid_replace ((z / u + d) * u)%Q with (z + u * d)%Q; [exact H|].
  field. intro K. rewrite K in Hu. lra.
Qed.
Lemma div_le : forall y z u, (0 < u)%Q -> (y <= z)%Q -> (y / u <= z / u)%Q.
Proof. intros y z u Hu H. apply Qmult_le_compat_r; [exact H|]. apply Qinv_le_0_compat. lra. Qed.

Definition TimeU (c : cfg) (w : world) (v : vid) : Prop := fast_links w ->
  (v_state (V w v) = Run -> forall pre l, route_of (V w v) = pre ++ [l] ->
     (free_time w pre + (v_x (V w v) + v_remain (V w v)) / l_u (L w l) <= inject_Z (Z.of_nat (w_T w) - 1 - v_dep (V w v)) * dt c)%Q) /\
  (v_state (V w v) = End_ -> (free_time w (route_of (V w v)) <= v_tt (V w v))%Q).

Lemma later_bound : forall t d q, (0 <= q)%Q -> (inject_Z (Z.of_nat t - 1 - d) * q + q == inject_Z (Z.of_nat t - d) * q)%Q.
Proof. intros t d q H. rewrite !inject_Z_minus || unfold Z.sub. rewrite !inject_Z_plus. change (inject_Z (- (1))) with (-1 # 1)%Q. ring. Qed.

Theorem reach_TimeU : forall c (P : op -> world -> Prop), (0 <= dt c)%Q -> (forall o w, P o w -> keep_speed o w) ->
  forall w, reachP c P w -> forall v, v < w_nv w -> TimeU c w v.
Proof.
  intros c P Hd HPk. assert (HP : forall o w, P o w -> sound_links o w) by (intros o w K; apply HPk in K; apply K).
  apply reachP_ride.
  - intros w w3 w4 w' v R _ Hv I _ F _ J BV. pose proof (reachP_view c P Hd HP w w3 w4 w' v R Hv F BV) as T.
    destruct (trail_shape c w v (reachP_reach _ _ _ R) Hv) as (S0 & S1 & S2 & Sw). pose proof (reach_Geo c P HP w R) as G.
    unfold TimeU. change (V (sw_T (S (w_T w)) w') v) with (V w' v).
    change (free_time (sw_T (S (w_T w)) w')) with (free_time w'). change (L (sw_T (S (w_T w)) w')) with (L w').
    change (w_T (sw_T (S (w_T w)) w')) with (S (w_T w)). intros FL'.
    assert (FL : fast_links w).
    { intros l Hl. specialize (FL' l). unfold exists_link in *. cbn in FL'. rewrite (fr_w_nl F) in FL'. rewrite <- (fr_l_u F). auto. }
    replace (Z.of_nat (S (w_T w)) - 1)%Z with (Z.of_nat (w_T w)) by lia.
    destruct (J FL) as (J2 & J3). pose proof (later_bound (w_T w) (v_dep (V w v)) (dt c) Hd) as LB.
    destruct T as [a T1 T2 T3|k a T1 T2 T3 T4 T5|k x3 r3 x r a T1 T2 T3 T4 T5 T6 T7 T8 T9 T10 T11]; subst a.
    + split; [intro Hr; destruct T2 as [T2|(_ & T2 & _)]; congruence|]. intro Hs. rewrite (fr_free _ _ _ F).
      assert (Er : route_of (V w' v) = route_of (V w v)) by congruence. assert (Et : v_tt (V w' v) = v_tt (V w v)) by congruence.
      rewrite Er, Et. apply J3. destruct T2 as [T2|(_ & T2 & _)]; congruence.
    + split; [intro Hs; destruct T5 as [[T5 _]|T5]; congruence|]. intro Hs. destruct T5 as [[_ T5]|T5]; [|congruence].
      assert (Er : route_of (V w' v) = route_of (V w v)) by congruence. rewrite Er, T5, (fr_free _ _ _ F).
      destruct (S2 T1) as (pre & l & S3 & S4 & S5). pose proof (J2 T1 pre l S3) as J4.
      pose proof (reach_FlagEnd c P Hd HP w R v Hv T1 T3 l S4) as X. destruct (reach_Pos c P Hd HP w R v Hv) as [Pr _].
      rewrite S3, free_snoc. assert (Hl : l < w_nl w) by (rewrite S3, Forall_app in S0; destruct S0 as [_ S0]; inversion S0; assumption).
      pose proof (div_le (l_len (L w l)) (v_x (V w v) + v_remain (V w v)) (l_u (L w l)) (FL l Hl) ltac:(lra)). lra.
    + assert (Fk : (0 < l_u (L w k))%Q) by (apply FL; exact T1).
      assert (Main : exists pre, route_of (V w' v) = pre ++ [k] /\
         (free_time w pre + (x3 + r3) / l_u (L w k) <= inject_Z (Z.of_nat (w_T w) - 1 - v_dep (V w v)) * dt c)%Q /\ (0 <= r3)%Q).
      { rewrite T10. destruct (reach_Pos c P Hd HP w R v Hv) as [Pr _].
        destruct T2 as [(V1 & V2 & V3 & V3')|[(V1 & V2 & V3)|(il & V0 & V1 & V2 & V3 & V4 & V5 & V6 & V7 & V8 & V9)]].
        - destruct (S2 V1) as (pre & l & S3 & S4 & S5). assert (l = k) by congruence. subst l.
          exists pre. rewrite rec_same by exact S5. split; [exact S3|]. rewrite V3, V3'. split; [apply (J2 V1 pre k S3)|exact Pr].
        - destruct (S1 (or_intror V1)) as [S3 S4]. exists []. rewrite S3, S4. cbn [opt_eqb app]. split; [reflexivity|].
          rewrite V2, V3, (proj1 (reach_Rem c P Hd HPk w R v Hv) (or_intror V1)). split; [|lra].
          unfold free_time. cbn [map qsum]. specialize (Sw V1).
          assert (X : (0 <= inject_Z (Z.of_nat (w_T w) - 1 - v_dep (V w v)) * dt c)%Q)
            by (apply Qmult_le_0_compat; [rewrite <- (Zle_Qle 0); lia|exact Hd]).
          setoid_replace (0 + (0 + 0) / l_u (L w k))%Q with 0%Q by (field; intro K; rewrite K in Fk; lra). exact X.
        - destruct (S2 V1) as (pre & l & S3 & S4 & S5). assert (l = il) by congruence. subst l.
          pose proof (J2 V1 pre il S3) as J4. destruct (G il V0) as [G1 G2]. pose proof (FL il V0) as Fi.
          assert (X : (x3 / l_u (L w k) <= v_remain (V w v) / l_u (L w il))%Q).
          { apply Qle_shift_div_r; [exact Fk|]. apply (Qle_trans _ _ _ V9). apply Qle_lteq. right. field. exact V8. }
          assert (Y : (l_len (L w il) / l_u (L w il) + v_remain (V w v) / l_u (L w il) == (v_x (V w v) + v_remain (V w v)) / l_u (L w il))%Q)
            by (rewrite V3; field; exact V8).
          assert (Z : (0 <= l_len (L w il) / l_u (L w il))%Q) by (apply Qle_shift_div_l; lra).
          assert (W : ((x3 + r3) / l_u (L w k) == x3 / l_u (L w k))%Q) by (rewrite V4; field; intro K; rewrite K in Fk; lra).
          destruct (Nat.eq_dec k il) as [-> | Hne].
          + exists pre. rewrite rec_same by exact S5. split; [exact S3|]. split; [|rewrite V4; lra]. rewrite W. lra.
          + exists (pre ++ [il]). rewrite S5. cbn [opt_eqb]. apply Nat.eqb_neq in Hne. rewrite Hne, S3. split; [reflexivity|].
            split; [|rewrite V4; lra]. rewrite free_snoc, W. lra. }
      destruct Main as (pre & M1 & M2 & M3).
      assert (Adv : ((x + r) / l_u (L w k) <= (x3 + r3) / l_u (L w k) + dt c)%Q).
      { apply div_step; [exact Fk|]. destruct T7 as [T7|[_ T7]]; [rewrite T7|]; lra. }
      assert (Ed : v_dep (V w' v) = v_dep (V w v)) by congruence.
      split.
      * intros Hr pre' l Hl. destruct T11 as [(U1 & U2 & U3 & U4 & U5 & U6)|(_ & [(U1 & _)|U1])]; [|congruence|congruence].
        rewrite M1 in Hl. apply snoc_inj in Hl. destruct Hl as [<- <-]. rewrite (fr_free _ _ _ F), (fr_l_u F), U3, U4, Ed. lra.
      * intro Hs. destruct T11 as [(U1 & _)|(U1 & [(_ & U2)|U2])]; [congruence| |congruence].
        rewrite M1, (fr_free _ _ _ F), free_snoc, U2.
        pose proof (div_le (l_len (L w k)) (x + r) (l_u (L w k)) Fk ltac:(lra)). lra.
  - intros w v J. exact J.
  - intros w o w' v R I Ho Hp Hx H Hv J. destruct (mode_keep c P w w' o v R Ho Hp Hx H Hv) as (E1 & E3 & E4 & E5 & E6 & E7 & E8).
    unfold TimeU. rewrite E1, E4, E5, E6, E7, E8. rewrite (op_clock c o w w' (reachP_reach _ _ _ R) Ho Hx H). intro FL'.
    destruct (trail_shape c w v (reachP_reach _ _ _ R) Hv) as (S0 & _). destruct (op_nl _ _ _ _ Hx H Ho) as (Hn & _).
    assert (Sp : forall l, l < w_nl w -> l_u (L w' l) = l_u (L w l)) by (intros l Hl; apply (op_speed c o w w' l Ho Hx (proj2 (HPk _ _ Hp)) H Hl)).
    assert (FL : fast_links w) by (intros l Hl; rewrite <- Sp by exact Hl; apply FL'; unfold exists_link in *; lia).
    destruct (J FL) as (J1 & J2).
    assert (Tf : v_state (V w v) <> Home -> forall ls, Forall (fun l => l < w_nl w) ls -> free_time w' ls = free_time w ls).
    { intros Hs ls Hls. pose proof (not_home_final c w v (reachP_reach _ _ _ R) Hv Hs) as Hf.
      destruct (reachP_frame c P w w' o R Ho Hp Hx H Hf) as (_ & _ & _ & Z). unfold free_time. f_equal. apply map_ext_in.
      intros l Hl. rewrite Forall_forall in Hls. rewrite Z, Sp by auto. reflexivity. }
    split.
    + intros Hr pre l Hl. rewrite Hl, Forall_app in S0. destruct S0 as [S0 S0']. inversion S0' as [|? ? S3 _]; subst.
      rewrite Tf, Sp by (congruence || assumption). eauto.
    + intro Hs. rewrite Tf by (congruence || assumption). auto.
  - intros w o w' v a nl nm R Ho Hp Hx H H1 H2 K. unfold vkeep in K.
    assert (E2 : v_state (V w' v) = Home) by (change Home with (v_state (new_vehicle c a nl nm)); congruence).
    intros _. rewrite E2. split; discriminate.
Qed.

(** C14 *)
Theorem travel_time_lemma : forall c w v, (0 <= dt c)%Q -> reachP c keep_speed w -> fast_links w -> exists_veh w v -> v_state (V w v) = End_ ->
  (free_time w (route_of (V w v)) <= v_tt (V w v))%Q.
Proof. intros c w v Hd R FL Hv Hs. exact (proj2 (reach_TimeU c _ Hd (fun _ _ K => K) w R v Hv FL) Hs). Qed.
