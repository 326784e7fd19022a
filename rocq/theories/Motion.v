(** * Motion: positions and speeds of vehicles (C04). *)
From Verif Require Import Base Types Sim Build Heap Lists Inv FrameBase Tac Frame Eff Eff2 Trace InvStep Reach Steps Effects Phases Attr Life Incoming Vev Ride TripLog Route Green Choice Enforce Counts LinkQueries FD NodeCap Origin Bucket Outflow Spec.
Local Open Scope nat_scope.

(** ** Lengths and speeds *)
Definition Geo (w : world) : Prop := forall l, l < w_nl w -> (0 <= l_len (L w l))%Q /\ (0 <= l_u (L w l))%Q.

Lemma new_link_par : forall c a nm k, new_link c a nm = Ok k -> l_len k = la_len a /\ l_u k = la_ffs a /\ l_lanes k = la_lanes a.
Proof.
  intros c a nm k E. unfold new_link in E. cbv zeta in E.
  repeat (apply bind_ok in E; destruct E as (? & _ & E)). injection E as E. rewrite <- E. repeat split; reflexivity.
Qed.
Lemma change_speed_par : forall l q w w', change_free_flow_speed l q w = Ok w' ->
  w' = w \/ (0 <= q)%Q /\ l_len (L w' l) = l_len (L w l) /\ l_u (L w' l) = q /\ l_dpl (L w' l) = l_dpl (L w l) /\ l_kappa (L w' l) = l_kappa (L w l).
Proof.
  intros l q w w' H. unfold change_free_flow_speed in H. destruct (qlt q 0) eqn:E; [injection H as <-; auto|]. right.
  apply qlt_false in E. cbv zeta in H. repeat (apply bind_ok in H; destruct H as (? & _ & H)). injection H as H. rewrite <- H.
  rewrite L_at, Nat.eqb_refl. auto.
Qed.
Lemma change_jam_par : forall l q w w', change_jam_density l q w = Ok w' ->
  w' = w \/ (0 <= q)%Q /\ l_len (L w' l) = l_len (L w l) /\ l_u (L w' l) = l_u (L w l) /\ l_kappa (L w' l) = q /\ l_lanes (L w' l) = l_lanes (L w l).
Proof.
  intros l q w w' H. unfold change_jam_density in H. destruct (qlt q 0) eqn:E; [injection H as <-; auto|]. right.
  apply qlt_false in E. cbv zeta in H. repeat (apply bind_ok in H; destruct H as (? & _ & H)). injection H as H. rewrite <- H.
  rewrite L_at, Nat.eqb_refl. auto.
Qed.

Lemma Geo_fr : forall w w', fr w w' -> Geo w -> Geo w'.
Proof. intros w w' F G l Hl. rewrite (fr_l_len F), (fr_l_u F). apply G. rewrite <- (fr_w_nl F). exact Hl. Qed.

Lemma Geo_op : forall c o w w', op_ok o w -> sound_links o w -> (forall a, o <> OExec a) -> apply_op c o w = Ok w' -> Geo w -> Geo w'.
Proof.
  intros c o w w' Ho P Hx H G l Hl.
  destruct (op_link c o w w' l Ho Hx H Hl) as [K1 K2 _ _|a nm -> K1 K2|q -> K|q -> K|q -> K|q -> K].
  - unfold lpar in K2. assert (E1 : l_len (L w' l) = l_len (L w l)) by congruence.
    assert (E2 : l_u (L w' l) = l_u (L w l)) by congruence. rewrite E1, E2. apply G. exact K1.
  - apply new_link_par in K2. destruct K2 as (-> & -> & _). exact P.
  - assert (Hl0 : l < w_nl w) by (rewrite <- (op_nl_same _ _ _ _ Hx H Ho) by discriminate; exact Hl).
    apply change_speed_par in K. destruct K as [-> |(K1 & -> & -> & _)]; [apply G; exact Hl0|]. split; [apply G; exact Hl0|exact K1].
  - assert (Hl0 : l < w_nl w) by (rewrite <- (op_nl_same _ _ _ _ Hx H Ho) by discriminate; exact Hl).
    apply change_jam_par in K. destruct K as [-> |(_ & -> & -> & _)]; apply G; exact Hl0.
  - assert (Hl0 : l < w_nl w) by (rewrite <- (op_nl_same _ _ _ _ Hx H Ho) by discriminate; exact Hl). rewrite K. apply G. exact Hl0.
  - assert (Hl0 : l < w_nl w) by (rewrite <- (op_nl_same _ _ _ _ Hx H Ho) by discriminate; exact Hl). rewrite K. apply G. exact Hl0.
Qed.

Theorem reach_Geo : forall c (P : op -> world -> Prop), (forall o w, P o w -> sound_links o w) -> forall w, reachP c P w -> Geo w.
Proof.
  intros c P HP w H. apply (reachP_ind' c P Geo); [|..|exact H].
  - intros tm l Hl. cbn in Hl. lia.
  - intros a b R Ha S. destruct S as [a o b K1 K2 K3 K4|a b K1 K2|a].
    + eapply Geo_op; eauto.
    + apply tick_fr in K2. destruct K2 as (w1 & E & ->). exact (Geo_fr _ _ (body_fr _ _ E) Ha).
    + exact Ha.
Qed.

(** ** One timestep of a vehicle that drives *)
Definition vmo (a : vehicle) := (v_state a, v_link a, v_x a, v_xnext a, v_xold a, v_v a, v_dist a, v_remain a, v_larr a).
Lemma vride_mo : forall a b, vride a = vride b -> vmo a = vmo b.
Proof. intros a b H. apply vride_eq in H. unfold vmo. intuition congruence. Qed.
Lemma logged_mo : forall c w v, vmo (logged c w v false) = vmo (V w v).
Proof. intros. unfold logged. reflexivity. Qed.
Lemma driven_mo : forall c a, vmo (driven c a) = (v_state a, v_link a, v_xnext a, v_xnext a, v_x a, ((v_xnext a - v_x a) / dt c)%Q,
   (v_dist a + (v_xnext a - v_x a))%Q, v_remain a, v_larr a).
Proof. reflexivity. Qed.
Lemma driven_dist : forall c a, v_dist (driven c a) = (v_dist a + (v_xnext a - v_x a))%Q.
Proof. reflexivity. Qed.
Lemma flag_mo : forall a, vmo (sv_flag true a) = vmo a. Proof. reflexivity. Qed.
Lemma aborting_mo : forall a, vmo (aborting a) = vmo a. Proof. reflexivity. Qed.
Lemma next_mo : forall x a, vmo (sv_next x a) = vmo a. Proof. reflexivity. Qed.
Lemma followed_mo : forall c w l a, vmo (followed c w l a) =
  (v_state a, v_link a, v_x a, v_xnext (followed c w l a), v_xold a, v_v a, v_dist a, v_remain (followed c w l a), v_larr a).
Proof. intros. unfold followed. destruct (qlt _ _); reflexivity. Qed.
Lemma state_wait : forall a, vmo (sv_state Wait a) = (Wait, v_link a, v_x a, v_xnext a, v_xold a, v_v a, v_dist a, v_remain a, v_larr a).
Proof. reflexivity. Qed.
Lemma ended_remain : forall c w a tl lg b, vride b = vride (sv_linkold None (sv_tlog tl (sv_log lg (ended c w a)))) ->
  v_remain b = v_remain a /\ v_dist b = v_dist a.
Proof.
  intros c w a tl lg b H. split.
  - apply vride_eq in H. destruct H as (_ & _ & _ & _ & _ & _ & _ & _ & _ & _ & _ & _ & _ & H & _).
    rewrite H. unfold ended. rs. destruct (v_aborted a); reflexivity.
  - apply ended_fields in H. apply H.
Qed.

(** the outcome of [Vehicle.update] *)
Lemma updated_mo : forall c v wa b, updated c v wa b ->
  (v_state (V wa v) <> Run /\ v_state b <> Run /\ v_remain b = v_remain (V wa v) /\ v_xold b = v_xold (V wa v) /\ v_dist b = v_dist (V wa v)) \/
  (v_state (V wa v) = Run /\ exists l, v_link (V wa v) = Some l /\
    (vmo b = vmo (driven c (V wa v)) \/
     (v_state b <> Run /\ v_remain b = v_remain (V wa v) /\ v_dist b = v_dist (driven c (V wa v))))).
Proof.
  intros c v wa b U. pose proof (logged_mo c wa v) as L1.
  assert (L2 : vmo (driven c (logged c wa v false)) = vmo (driven c (V wa v))) by (rewrite !driven_mo; unfold vmo in L1; congruence).
  destruct U as [U1 U2 U3|U1 U2 U3|U1 U2|l U1 U2 U3 U4|l m d U1 U2 U3 Fm Sm -> U4];
    remember (logged c wa v false) as lg eqn:Elg.
  - left. apply vride_mo in U3. unfold vmo in *. repeat split; congruence.
  - left. apply vride_mo in U3. rewrite state_wait in U3. unfold vmo in *. repeat split; congruence.
  - left. apply vride_mo in U2. unfold vmo in *. repeat split; congruence.
  - right. split; [exact U1|]. exists l. split; [exact U2|]. left. apply vride_mo in U4. congruence.
  - right. split; [exact U1|]. exists l. split; [exact U2|]. remember (driven c lg) as d eqn:Ed.
    destruct U4 as [x x' G1 G2 G3 G4 G5 G6 G7 G8|d' b' G1 -> G3].
    + left. apply vride_mo in G4. apply vride_mo in G8. rewrite G8, <- L2, <- G4.
      apply choose_next in G7. destruct G7 as (_ & k & _ & [(-> & _)|[(-> & _)|(out & _ & ->)]]); try apply next_mo; reflexivity.
    + assert (Ed' : vmo (sv_flag true d') = vmo (driven c (V wa v))).
      { rewrite flag_mo. destruct G1 as [(-> & _)|(-> & _)]; [exact L2|]. rewrite aborting_mo. exact L2. }
      destruct G3 as [G3|G3].
      * left. apply vride_mo in G3. congruence.
      * right. split.
        -- apply vride_state in G3. rewrite G3. destruct (finished_state c m (sv_flag true d')) as [Z|Z]; rewrite Z; discriminate.
        -- unfold finished in G3. apply ended_remain in G3.
           destruct G3 as [-> ->].
           assert (H : v_remain (sv_flag true d') = v_remain (driven c (V wa v)) /\ v_dist (sv_flag true d') = v_dist (driven c (V wa v)))
             by (unfold vmo in Ed'; split; congruence).
           destruct H as [-> ->]. split; reflexivity.
Qed.

(** The timestep of vehicle [v] after the transfers (state [w3]) *)
Lemma drive_view : forall c v w w' w3 w4, body_view c v w w' w3 w4 ->
  (v_state (V w3 v) <> Run /\ v_state (V w' v) <> Run /\ v_remain (V w' v) = v_remain (V w3 v) /\
     v_xold (V w' v) = v_xold (V w3 v) /\ v_dist (V w' v) = v_dist (V w3 v)) \/
  (v_state (V w3 v) = Run /\ exists l, v_link (V w3 v) = Some l /\
    (vmo (V w' v) = vmo (driven c (followed c w3 l (V w3 v))) \/
     (v_state (V w' v) <> Run /\ v_remain (V w' v) = v_remain (followed c w3 l (V w3 v)) /\
      v_dist (V w' v) = v_dist (driven c (followed c w3 l (V w3 v)))))).
Proof.
  intros c v w w' w3 w4 BV.
  destruct (alive_dec (v_state (V w3 v))) as [Ha|Ha].
  - destruct (bv_update _ _ _ _ _ _ BV Ha) as (wa & b & B1 & B2 & B3 & B4 & B5 & B6). apply vride_mo in B4. apply vride_mo in B6.
    destruct (updated_mo _ _ _ _ B5) as [(U1 & U2 & U3 & U3' & U3'')|(U1 & l & U2 & U3)].
    + destruct (vstate_dec (v_state (V w3 v)) Run) as [Hr|Hr].
      * exfalso. destruct (bv_follow _ _ _ _ _ _ BV Hr) as (l & _ & E). pose proof (followed_mo c w3 l (V w3 v)) as Fo.
        rewrite <- E in Fo. unfold vmo in *. apply U1. congruence.
      * left. rewrite (bv_still _ _ _ _ _ _ BV Hr) in B4. unfold vmo in *. repeat split; congruence.
    + destruct (vstate_dec (v_state (V w3 v)) Run) as [Hr|Hr].
      * right. split; [exact Hr|]. destruct (bv_follow _ _ _ _ _ _ BV Hr) as (l' & E' & E). exists l'. split; [exact E'|].
        rewrite <- E. destruct U3 as [U3|(U3 & U4 & U5)].
        -- left. rewrite B6, U3, !driven_mo. unfold vmo in B4. congruence.
        -- right. unfold vmo in B6, B4. split; [congruence|]. split; [congruence|].
           assert (X : v_dist (V w' v) = v_dist b) by congruence. rewrite X, U5, !driven_dist. congruence.
      * exfalso. rewrite (bv_still _ _ _ _ _ _ BV Hr) in B4. apply Hr. unfold vmo in B4. congruence.
  - left. pose proof (bv_gone _ _ _ _ _ _ BV Ha) as E. apply vride_mo in E.
    assert (v_state (V w3 v) <> Run) by (intro K; apply Ha; apply alive_run; exact K). unfold vmo in E. repeat split; congruence.
Qed.

(** car following *)
Lemma follow_x_low : forall c w l a, (0 <= l_u (L w l) * dt c)%Q -> (v_x a <= follow_x c w l a)%Q.
Proof.
  intros c w l a H. unfold follow_x. cbv zeta. destruct (v_leader a) as [u|]; [|lra].
  destruct (qlt (v_x (V w u) - l_dpl (L w l) * dN c) (v_x a))%Q eqn:E1; destruct (qlt _ (v_x a + _)%Q) eqn:E2; try lra.
  apply qlt_false in E1. lra.
Qed.
Lemma follow_x_up : forall c w l a, (follow_x c w l a <= v_x a + l_u (L w l) * dt c)%Q.
Proof.
  intros c w l a. unfold follow_x. cbv zeta. destruct (v_leader a) as [u|]; [|lra].
  destruct (qlt _ (v_x a + _)%Q) eqn:E2; [apply qlt_iff in E2; lra|lra].
Qed.
Lemma followed_bounds : forall c w l a, (0 <= l_u (L w l) * dt c)%Q -> (v_x a <= l_len (L w l))%Q ->
  let b := followed c w l a in
  (v_x a <= v_xnext b)%Q /\ (v_xnext b <= l_len (L w l))%Q /\ (v_xnext b <= v_x a + l_u (L w l) * dt c)%Q /\
  (v_remain b = v_remain a \/ (v_xnext b == l_len (L w l) /\ 0 <= v_remain b /\ v_xnext b + v_remain b <= v_x a + l_u (L w l) * dt c))%Q.
Proof.
  intros c w l a H Hx b. pose proof (follow_x_low c w l a H). pose proof (follow_x_up c w l a).
  subst b. unfold followed. destruct (qlt _ _) eqn:E.
  - apply qlt_iff in E. cbn. split; [lra|]. split; [lra|]. split; [lra|]. right. split; [lra|]. split; lra.
  - apply qlt_false in E. cbn. split; [lra|]. split; [lra|]. split; [lra|]. left. reflexivity.
Qed.

(** the left-over move *)
Lemma t_x_bounds : forall c w out ld q, (0 <= q)%Q -> (0 <= l_len (L w out))%Q ->
  (0 <= t_x c w out ld q)%Q /\ (t_x c w out ld q <= l_len (L w out))%Q /\ (t_x c w out ld q <= q)%Q.
Proof.
  intros c w out ld q Hq Hl. unfold t_x. cbv zeta.
  assert (K : forall x1, (0 <= x1)%Q -> (x1 <= q)%Q -> let r := if qle (l_len (L w out)) x1 then l_len (L w out) else x1 in
    (0 <= r)%Q /\ (r <= l_len (L w out))%Q /\ (r <= q)%Q).
  { intros x1 H1 H2 r. subst r. destruct (qle _ _) eqn:E; [apply qle_iff in E; repeat split; lra|].
    apply qle_false in E. repeat split; lra. }
  apply K; destruct ld as [u|]; try lra.
  - destruct (qlt _ 0) eqn:E1; destruct (qlt _ q) eqn:E2; try lra. apply qlt_false in E1. lra.
  - destruct (qlt _ q) eqn:E2; try lra. apply qlt_iff in E2. lra.
Qed.

Definition Pos (w : world) (v : vid) : Prop :=
  (0 <= v_remain (V w v))%Q /\
  (v_state (V w v) = Run -> forall l, v_link (V w v) = Some l -> (0 <= v_x (V w v))%Q /\ (v_x (V w v) <= l_len (L w l))%Q).

(** the first phases *)
Lemma first_mo : forall c v w w3, (0 <= dt c)%Q -> Geo w -> v < w_nv w -> Pos w v -> first_view c v w w3 ->
  (vmo (V w3 v) = vmo (V w v)) \/
  (v_state (V w v) = Wait /\ v_state (V w3 v) = Run /\ v_x (V w3 v) = 0%Q /\ v_remain (V w3 v) = v_remain (V w v)) \/
  (v_state (V w v) = Run /\ v_state (V w3 v) = Run /\ v_larr (V w3 v) = now c w /\ v_remain (V w3 v) = 0%Q /\
     exists il out q, v_link (V w v) = Some il /\ v_link (V w3 v) = Some out /\ out < w_nl w /\ il < w_nl w /\ ~ l_u (L w il) == 0 /\
     (q == v_remain (V w v) * l_u (L w out) / l_u (L w il))%Q /\ (0 <= q)%Q /\
     (0 <= v_x (V w3 v))%Q /\ (v_x (V w3 v) <= l_len (L w out))%Q /\ (v_x (V w3 v) <= q)%Q) \/
  (v_state (V w v) = Run /\ v_state (V w3 v) <> Run /\ v_remain (V w3 v) = v_remain (V w v)).
Proof.
  intros c v w w3 Hd G Hv [P1 P2] FV. destruct FV as [E|e m p m' p' es1 es2 Ht _ _ Tr M _ I1 J1 E1 F1 F2 _ Va Vb].
  - left. apply vride_mo. exact E.
  - apply vride_mo in Va. apply vride_mo in Vb.
    pose proof (mstep_vev c e m p m' p' I1 M v) as K.
    destruct K as [E|n out q E2 E3 E4 E5 E6 E7 E8 E9|n out il q ld ln E2 E3 E4 E5 E6 E7 E8 E9 E10 E11 E12|l tl lg E2 E3 E4 E5 E6 E7 E8 E9|l E2 E3 E4|E2 E3 E4|E2 E3 E4 E5 E6|E2 E3 E4 E5|l E2 E3 E4 E5|l E2 E3 E4 E5 E6 E7|l nx E2 E3 E4 E5 E6];
      try (subst e; discriminate Ht).
    + left. apply vride_mo in E. congruence.
    + right; left. rewrite E9 in Vb. unfold vmo in Vb, Va.
      assert (A1 : v_state (V w3 v) = v_state (gen_veh c m out (V m v))) by congruence.
      assert (A2 : v_x (V w3 v) = v_x (gen_veh c m out (V m v))) by congruence.
      assert (A3 : v_remain (V w3 v) = v_remain (gen_veh c m out (V m v))) by congruence.
      rewrite A1, A2, A3. cbn. repeat split; congruence.
    + right; right; left. rewrite E12 in Vb.
      assert (A1 : v_state (V w3 v) = v_state (moved c m out ld ln q (V m v))) by (unfold vmo in Vb; congruence).
      assert (A2 : v_x (V w3 v) = t_x c m out ld q) by (unfold vmo in Vb; injection Vb; intros; assumption).
      assert (A3 : v_remain (V w3 v) = 0%Q) by (unfold vmo in Vb; injection Vb; intros; assumption).
      assert (A4 : v_larr (V w3 v) = now c m) by (unfold vmo in Vb; injection Vb; intros; assumption).
      assert (A5 : v_link (V w3 v) = Some out) by (unfold vmo in Vb; injection Vb; intros; assumption).
      rewrite moved_state in A1. unfold vmo in Va. split; [congruence|]. split; [congruence|].
      split; [rewrite A4; unfold now; rewrite (fr_w_T F1); reflexivity|]. split; [exact A3|].
      exists il, out, q. split; [congruence|]. split; [exact A5|]. rewrite (fr_w_nl F1) in E6, E7. split; [exact E6|]. split; [exact E7|].
      apply qdiv_ok in E11. destruct E11 as [Z1 Z2]. rewrite (fr_l_u F1 il) in Z1, Z2. rewrite (fr_l_u F1 out) in Z2.
      assert (Er : v_remain (V m v) = v_remain (V w v)) by congruence. rewrite Er in Z2.
      split; [exact Z1|]. split; [rewrite Z2; reflexivity|].
      destruct (G out E6) as [G1 G2]. destruct (G il E7) as [G3 G4].
      assert (Hq : (0 <= q)%Q).
      { rewrite Z2. apply Qle_shift_div_l.
        - apply Qle_lteq in G4. destruct G4 as [G4|G4]; [exact G4|]. symmetry in G4. contradiction.
        - rewrite Qmult_0_l. apply Qmult_le_0_compat; assumption. }
      split; [exact Hq|]. rewrite A2.
      destruct (t_x_bounds c m out ld q Hq) as (T1 & T2 & T3); [rewrite (fr_l_len F1); exact G1|].
      rewrite (fr_l_len F1) in T2. auto.
    + right; right; right. unfold vmo in Va, Vb. split; [congruence|]. pose proof (proj1 (ended_remain _ _ _ _ _ _ E9)) as A1.
      apply ended_fields in E9. destruct E9 as (_ & _ & _ & _ & _ & _ & _ & _ & _ & _ & _ & _ & _ & H & _).
      split; [|congruence]. assert (A2 : v_state (V w3 v) = v_state (V m' v)) by congruence. rewrite A2, H.
      destruct (v_aborted (V m v)); discriminate.
Qed.

(** one timestep *)
Lemma motion_body : forall c v w w' w3 w4, (0 <= dt c)%Q -> Geo w -> v < w_nv w -> fr w w' -> Pos w v -> body_view c v w w' w3 w4 ->
  Pos w' v /\ (v_state (V w' v) = Run -> exists l, v_state (V w3 v) = Run /\ v_link (V w3 v) = Some l /\ v_link (V w' v) = Some l /\ l < w_nl w /\
     (0 <= v_x (V w3 v) <= v_x (V w' v))%Q /\ (v_x (V w' v) <= l_len (L w l))%Q /\ (v_x (V w' v) <= v_x (V w3 v) + l_u (L w l) * dt c)%Q /\
     v_v (V w' v) = ((v_x (V w' v) - v_x (V w3 v)) / dt c)%Q /\ v_xold (V w' v) = v_x (V w3 v) /\
     v_dist (V w' v) = (v_dist (V w3 v) + (v_x (V w' v) - v_x (V w3 v)))%Q /\
     (v_remain (V w' v) = v_remain (V w3 v) \/
      (v_x (V w' v) == l_len (L w l) /\ 0 <= v_remain (V w' v) /\ v_x (V w' v) + v_remain (V w' v) <= v_x (V w3 v) + l_u (L w l) * dt c)%Q)).
Proof.
  intros c v w w' w3 w4 Hd G Hv F P BV. pose proof (bv_fr3 _ _ _ _ _ _ BV) as F3. pose proof (bv_inv3 _ _ _ _ _ _ BV) as I3.
  assert (P3 : Pos w3 v).
  { destruct (first_mo c v w w3 Hd G Hv P (bv_first _ _ _ _ _ _ BV)) as [E|[(A1 & A2 & A3 & A4)|[(A1 & A2 & A3 & A4 & il & out & q & B1 & B2 & B3 & B4 & B5 & B6 & B7 & B8 & B9 & B10)|(A1 & A2 & A3)]]].
    - destruct P as [P1 P2]. unfold vmo in E. split.
      + assert (X : v_remain (V w3 v) = v_remain (V w v)) by congruence. rewrite X. exact P1.
      + assert (X : v_x (V w3 v) = v_x (V w v)) by congruence. rewrite X.
        intros Hr l Hl. rewrite (fr_l_len F3). apply P2; congruence.
    - split; [rewrite A4; apply P|]. intros _ l Hl. rewrite A3. split; [lra|]. rewrite (fr_l_len F3). apply G.
      destruct I3 as [[T3 S3] _]. assert (Hv3 : v < w_nv w3) by (rewrite (fr_w_nv F3); exact Hv).
      destruct (s_link S3 Hv3 ltac:(discriminate)) as [K _]. destruct (K A2) as (k & K1 & K2). rewrite (fr_w_nl F3) in K2. congruence.
    - split; [rewrite A4; lra|]. intros _ l Hl. assert (l = out) by congruence. subst l. rewrite (fr_l_len F3). auto.
    - split; [rewrite A3; apply P|]. intro K. congruence. }
  destruct P3 as [P3 P4].
  destruct (drive_view _ _ _ _ _ _ BV) as [(D1 & D2 & D3 & D3' & D3'')|(D1 & l & D2 & D3)].
  - split; [|intro K; congruence]. split; [rewrite D3; exact P3|intro K; congruence].
  - destruct (P4 D1 l D2) as [X1 X2].
    assert (Hl : l < w_nl w).
    { destruct I3 as [[T3 S3] _]. assert (Hv3 : v < w_nv w3) by (rewrite (fr_w_nv F3); exact Hv).
      destruct (s_link S3 Hv3 ltac:(discriminate)) as [K _]. destruct (K D1) as (k & K1 & K2). rewrite (fr_w_nl F3) in K2. congruence. }
    destruct (G l Hl) as [G1 G2]. assert (Hu : (0 <= l_u (L w3 l) * dt c)%Q) by (rewrite (fr_l_u F3); apply Qmult_le_0_compat; assumption).
    destruct (followed_bounds c w3 l (V w3 v) Hu X2) as (Y1 & Y2 & Y3 & Y4). cbv zeta in *.
    pose proof (followed_mo c w3 l (V w3 v)) as Fo.
    remember (followed c w3 l (V w3 v)) as f eqn:Ef. clear Ef.
    assert (Hrem : (0 <= v_remain f)%Q) by (destruct Y4 as [Y4|(_ & Y4 & _)]; [rewrite Y4; exact P3|exact Y4]).
    destruct D3 as [D3|(D3 & D4 & D5)].
    + rewrite driven_mo in D3. unfold vmo in D3, Fo.
      assert (Ex : v_x (V w' v) = v_xnext f) by congruence. assert (Er : v_remain (V w' v) = v_remain f) by congruence.
      assert (El : v_link (V w' v) = Some l) by congruence. assert (Efx : v_x f = v_x (V w3 v)) by congruence.
      assert (Eo : v_xold (V w' v) = v_x f) by congruence.
      assert (Ev : v_v (V w' v) = ((v_xnext f - v_x f) / dt c)%Q) by congruence.
      assert (Edi : v_dist (V w' v) = (v_dist f + (v_xnext f - v_x f))%Q) by congruence.
      assert (Edf : v_dist f = v_dist (V w3 v)) by congruence.
      assert (Fw : l_len (L w' l) = l_len (L w l)).
      { apply (fr_l_len F). }
      split.
      * split; [rewrite Er; exact Hrem|]. intros _ k Hk. assert (k = l) by congruence. subst k. rewrite Ex.
        rewrite Fw. rewrite (fr_l_len F3) in Y2. split; [lra|exact Y2].
      * intros _. exists l. split; [exact D1|]. split; [exact D2|]. split; [exact El|]. split; [exact Hl|].
        rewrite Ex, Er, Eo, Ev, Edi, Edf, Efx. rewrite (fr_l_len F3) in Y2, Y4. rewrite (fr_l_u F3) in Y3, Y4.
        split; [lra|]. split; [exact Y2|]. split; [exact Y3|]. split; [reflexivity|]. split; [reflexivity|]. split; [reflexivity|]. exact Y4.
    + split; [|intro K; congruence]. split; [rewrite D4; exact Hrem|intro K; congruence].
Qed.

(** ** Histories *)
Lemma osteps_newborn : forall c w w' v, osteps c w w' -> w_nv w <= v -> v < w_nv w' ->
  exists a nl nm, vkeep (V w' v) = vkeep (new_vehicle c a nl nm).
Proof.
  intros c w w' v O. induction O as [w|a b d O1 O IH]; intros H1 H2; [lia|].
  destruct (Nat.lt_ge_cases v (w_nv b)) as [Hb|Hb]; [|apply IH; assumption].
  destruct (osteps_keep c b d v O Hb) as (K & _ & _). rewrite K.
  destruct O1; unfold wkeep in *; try (cbn in Hb; lia).
  - exists a, nl, nm. assert (v = w_nv w) by (cbn in Hb; lia). subst v. unfold V. cbn. rewrite upd_same. reflexivity.
  - pose proof (fz_cnt _ _ _ (finalize_ok _ _ _ _ H0)) as Z. assert (w_nv w' = w_nv w) by congruence. lia.
  - assert (w_nv w' = w_nv w) by congruence. lia.
  - assert (w_nv w' = w_nv w) by congruence. lia.
Qed.
Lemma op_newborn : forall c o w w' v, op_ok o w -> (forall a, o <> OExec a) -> apply_op c o w = Ok w' -> w_nv w <= v -> v < w_nv w' ->
  exists a nl nm, vkeep (V w' v) = vkeep (new_vehicle c a nl nm).
Proof. intros c o w w' v Ho Hx H. apply osteps_newborn. eapply apply_op_osteps; eauto. Qed.

Lemma op_len : forall c o w w' l, op_ok o w -> (forall a, o <> OExec a) -> apply_op c o w = Ok w' -> l < w_nl w ->
  l_len (L w' l) = l_len (L w l).
Proof.
  intros c o w w' l Ho Hx H Hl. assert (Hl' : l < w_nl w') by (pose proof (op_nl _ _ _ _ Hx H Ho); lia).
  destruct (op_link c o w w' l Ho Hx H Hl') as [_ K _ _|a nm _ K _|q -> K|q -> K|q -> K|q -> K].
  - unfold lpar in K. congruence.
  - lia.
  - apply change_speed_par in K. destruct K as [-> |K]; [reflexivity|apply K].
  - apply change_jam_par in K. destruct K as [-> |K]; [reflexivity|apply K].
  - rewrite K. reflexivity.
  - rewrite K. reflexivity.
Qed.

(** a property of every vehicle, carried along histories whose operations satisfy [P] *)
Theorem reachP_ride : forall c (P : op -> world -> Prop) (J : world -> vid -> Prop),
  (forall w w3 w4 w' v, reachP c P w -> w_final w = true -> v < w_nv w -> Inv2 w None -> IncB w -> fr w w' ->
     body c w = Ok w' -> J w v -> body_view c v w w' w3 w4 -> J (sw_T (S (w_T w)) w') v) ->
  (forall w v, J w v -> J (sw_TIME (now c w) w) v) ->
  (forall w o w' v, reachP c P w -> Inv2 w None -> op_ok o w -> P o w -> (forall a, o <> OExec a) -> apply_op c o w = Ok w' ->
     v < w_nv w -> J w v -> J w' v) ->
  (forall w o w' v a nl nm, reachP c P w -> op_ok o w -> P o w -> (forall a, o <> OExec a) -> apply_op c o w = Ok w' ->
     w_nv w <= v -> v < w_nv w' -> vkeep (V w' v) = vkeep (new_vehicle c a nl nm) -> J w' v) ->
  forall w, reachP c P w -> forall v, v < w_nv w -> J w v.
Proof.
  intros c P J Hb Ht Ho Hn w R. apply (reachP_ind' c P (fun w => forall v, v < w_nv w -> J w v)); [| |exact R].
  - intros tm v Hv. cbn in Hv. lia.
  - clear w R. intros w w' R IH S v Hv. pose proof (reachP_reach _ _ _ R) as R'. destruct S as [w o w' Hok Hp Hx E|w w' Hf E|w].
    + destruct (Nat.lt_ge_cases v (w_nv w)) as [Hv'|Hv'].
      * eapply Ho; eauto. apply reach_Inv2 in R'. exact R'.
      * destruct (op_newborn c o w w' v Hok Hx E Hv' Hv) as (a & nl & nm & K). eapply Hn; eauto.
    + apply tick_fr in E. destruct E as (w1 & E & ->). pose proof (body_fr _ _ E) as F.
      assert (Hv' : v < w_nv w) by (cbn in Hv; rewrite (fr_w_nv F) in Hv; exact Hv).
      pose proof (reach_Inv2 _ _ R') as I. pose proof (reach_IncB _ _ R') as B. pose proof (reach_Ends _ _ R') as En.
      destruct (body_viewed c v w w1 Hv' I B En E) as (w3 & w4 & BV). eapply Hb; eauto.
    + apply Ht. apply IH. exact Hv.
Qed.

Theorem reach_Pos : forall c (P : op -> world -> Prop), (0 <= dt c)%Q -> (forall o w, P o w -> sound_links o w) ->
  forall w, reachP c P w -> forall v, v < w_nv w -> Pos w v.
Proof.
  intros c P Hd HP. apply reachP_ride.
  - intros w w3 w4 w' v R _ Hv I _ F _ J BV. exact (proj1 (motion_body c v w w' w3 w4 Hd (reach_Geo c P HP w R) Hv F J BV)).
  - intros w v J. exact J.
  - intros w o w' v R I Ho Hp Hx H Hv [J1 J2]. destruct (op_keep c o w w' v Ho Hx H Hv) as (K & _). unfold vkeep in K.
    assert (E1 : v_remain (V w' v) = v_remain (V w v)) by congruence. assert (E2 : v_x (V w' v) = v_x (V w v)) by congruence.
    split; [rewrite E1; exact J1|]. rewrite E2. intros Hr l Hl. assert (Hr' : v_state (V w v) = Run) by congruence.
    assert (Hl' : v_link (V w v) = Some l) by congruence. destruct I as [[T I] _].
    destruct (s_link I Hv ltac:(discriminate)) as [Z _]. destruct (Z Hr') as (k & Z1 & Z2). assert (k = l) by congruence. subst k.
    rewrite (op_len c o w w' l Ho Hx H Z2). apply J2; assumption.
  - intros w o w' v a nl nm R Ho Hp Hx H H1 H2 K. unfold vkeep in K.
    assert (E1 : v_remain (V w' v) = 0%Q) by (change 0%Q with (v_remain (new_vehicle c a nl nm)); congruence).
    assert (E2 : v_state (V w' v) = Home) by (change Home with (v_state (new_vehicle c a nl nm)); congruence).
    split; [rewrite E1; lra|]. intro; congruence.
Qed.

(** C04 *)
Theorem position_in_link : forall c w v l, (0 <= dt c)%Q -> reachP c sound_links w -> exists_veh w v -> on_link w v l ->
  (0 <= v_x (V w v) <= l_len (L w l))%Q.
Proof. intros c w v l Hd R Hv [H1 H2]. apply (reach_Pos c sound_links Hd (fun _ _ H => H) w R v Hv); assumption. Qed.

Lemma crossed_in : forall c w w' v l, In v (crossed c w w' l) <-> v < w_nv w /\ v_link (V w v) = Some l /\ (v_larr (V w' v) == now c w)%Q.
Proof.
  intros. unfold crossed. rewrite filter_In, in_seq, andb_true_iff, opt_eqb_eq. rewrite Qeq_bool_iff. split; intros; intuition lia.
Qed.

Lemma speed_bound : forall x y d u, (0 < d)%Q -> (0 <= y - x)%Q -> (y - x <= u * d)%Q ->
  (0 <= (y - x) / d)%Q /\ ((y - x) / d <= u)%Q /\ ((y - x) / d * d == y - x)%Q.
Proof.
  intros x y d u Hd H1 H2. split; [|split].
  - apply Qle_shift_div_l; [exact Hd|]. lra.
  - apply Qle_shift_div_r; assumption.
  - field. intro K. rewrite K in Hd. apply Qlt_irrefl in Hd. exact Hd.
Qed.

Lemma vmo_larr : forall a b, vmo a = vmo b -> v_larr a = v_larr b. Proof. unfold vmo. intros. congruence. Qed.

(** everything about the move of a vehicle in a timestep *)
Theorem timestep_motion : forall c w w' v l, (0 < dt c)%Q -> reachP c sound_links w -> exists_veh w v -> tick c w = Ok w' -> on_link w' v l ->
  let x := v_x (V w v) in let x' := v_x (V w' v) in let s := v_v (V w' v) in let u := l_u (L w l) in
  (0 <= s <= u)%Q /\ (s * dt c <= x')%Q /\
  (forall k, on_link w v k -> ~ In v (crossed c w w' k) -> k = l /\ x' == x + s * dt c)%Q /\
  (forall k, on_link w v k -> In v (crossed c w w' k) -> ~ l_u (L w k) == 0 /\ x' <= v_remain (V w v) * u / l_u (L w k) + s * dt c)%Q.
Proof.
  intros c w w' v l Hd R Hv H [Hr Hl]. cbv zeta.
  pose proof (reachP_reach _ _ _ R) as R'. pose proof (reach_Inv2 _ _ R') as I. pose proof (reach_IncB _ _ R') as B. pose proof (reach_Ends _ _ R') as En.
  apply tick_fr in H. destruct H as (w1 & E & ->). pose proof (body_fr _ _ E) as F.
  destruct (body_viewed c v w w1 Hv I B En E) as (w3 & w4 & BV).
  pose proof (reach_Geo c _ (fun _ _ H => H) w R) as G. assert (Hd' : (0 <= dt c)%Q) by lra.
  pose proof (reach_Pos c _ Hd' (fun _ _ H => H) w R v Hv) as Pw.
  destruct (motion_body c v w w1 w3 w4 Hd' G Hv F Pw BV) as [_ M]. change (V (sw_T (S (w_T w)) w1)) with (V w1) in *.
  destruct (M Hr) as (l' & M1 & M2 & M3 & M4 & (M5 & M5') & M6 & M7 & M8 & M9 & M10 & M11). clear M.
  assert (l' = l) by congruence. subst l'.
  assert (D : vmo (V w1 v) = vmo (driven c (followed c w3 l (V w3 v)))).
  { destruct (drive_view _ _ _ _ _ _ BV) as [(D1 & _)|(_ & k & D2 & [D3|(D3 & _)])]; try congruence. }
  assert (La : v_larr (V w1 v) = v_larr (V w3 v)).
  { rewrite driven_mo in D. pose proof (followed_mo c w3 l (V w3 v)) as Fo. remember (followed c w3 l (V w3 v)) as f. unfold vmo in *. congruence. }
  destruct (speed_bound (v_x (V w3 v)) (v_x (V w1 v)) (dt c) (l_u (L w l)) Hd ltac:(lra) ltac:(lra)) as (S1 & S2 & S3).
  rewrite M8. split; [split; assumption|]. split; [rewrite S3; lra|].
  destruct (first_mo c v w w3 Hd' G Hv Pw (bv_first _ _ _ _ _ _ BV)) as [Q|[(A1 & A2 & A3 & A4)|[(A1 & A2 & A3 & A4 & il & out & q & B1 & B2 & B3 & B4 & B5 & B6 & B7 & B8 & B9 & B10)|(A1 & A2 & A3)]]].
  - split.
    + intros k [K1 K2] _. unfold vmo in Q. split; [congruence|]. rewrite S3. assert (X : v_x (V w3 v) = v_x (V w v)) by congruence. rewrite X. lra.
    + intros k [K1 K2] K3. exfalso. apply crossed_in in K3. destruct K3 as (_ & _ & K3). change (V (sw_T (S (w_T w)) w1)) with (V w1) in K3.
      rewrite La, (vmo_larr _ _ Q) in K3. destruct (reach_arrived c w R' v Hv) as (t & T1 & T2); [congruence|]. rewrite T2 in K3.
      unfold now in K3. assert (Qof_nat t * dt c < Qof_nat (w_T w) * dt c)%Q; [|rewrite K3 in H; apply Qlt_irrefl in H; exact H].
      apply Qmult_lt_compat_r; [exact Hd|]. unfold Qof_nat. rewrite <- Zlt_Qlt. lia.
  - split; intros k [K1 _]; congruence.
  - assert (out = l) by congruence. subst out. split.
    + intros k [K1 K2] K3. exfalso. apply K3. apply crossed_in. split; [exact Hv|]. split; [exact K2|].
      change (V (sw_T (S (w_T w)) w1)) with (V w1). rewrite La, A3. reflexivity.
    + intros k [K1 K2] _. assert (k = il) by congruence. subst k. split; [exact B5|]. rewrite S3, <- B6. lra.
  - congruence.
Qed.

(** the left-over distance is at most one timestep at full speed *)
Definition Rem (c : cfg) (w : world) (v : vid) : Prop :=
  (v_state (V w v) = Home \/ v_state (V w v) = Wait -> v_remain (V w v) = 0%Q) /\
  (v_state (V w v) = Run -> forall l, v_link (V w v) = Some l -> (v_remain (V w v) <= l_u (L w l) * dt c)%Q).

Lemma op_speed : forall c o w w' l, op_ok o w -> (forall a, o <> OExec a) -> (forall k q, o <> OChangeSpeed k q) ->
  apply_op c o w = Ok w' -> l < w_nl w -> l_u (L w' l) = l_u (L w l).
Proof.
  intros c o w w' l Ho Hx Hs H Hl. destruct (op_nl _ _ _ _ Hx H Ho) as (Hl' & _).
  destruct (op_link c o w w' l Ho Hx H ltac:(lia)) as [_ K _ _|a nm _ K _|q -> K|q -> K|q -> K|q -> K].
  - unfold lpar in K. congruence.
  - lia.
  - elim (Hs l q). reflexivity.
  - apply change_jam_par in K. destruct K as [-> |K]; [reflexivity|apply K].
  - rewrite K. reflexivity.
  - rewrite K. reflexivity.
Qed.

(** states before and after a body *)
Lemma first_state : forall c v w w3, v < w_nv w -> first_view c v w w3 -> v_state (V w3 v) = Home \/ v_state (V w3 v) = Wait ->
  vmo (V w3 v) = vmo (V w v).
Proof.
  intros c v w w3 Hv FV. destruct FV as [E|e m p m' p' es1 es2 Ht _ _ Tr M _ I1 J1 E1 F1 F2 _ Va Vb].
  - intros _. apply vride_mo. exact E.
  - apply vride_mo in Va. apply vride_mo in Vb. intro Hs.
    pose proof (mstep_vev c e m p m' p' I1 M v) as K.
    destruct K as [E|n out q E2 E3 E4 E5 E6 E7 E8 E9|n out il q ld ln E2 E3 E4 E5 E6 E7 E8 E9 E10 E11 E12|l tl lg E2 E3 E4 E5 E6 E7 E8 E9|l E2 E3 E4|E2 E3 E4|E2 E3 E4 E5 E6|E2 E3 E4 E5|l E2 E3 E4 E5|l E2 E3 E4 E5 E6 E7|l nx E2 E3 E4 E5 E6];
      try (subst e; discriminate Ht).
    + apply vride_mo in E. congruence.
    + exfalso. rewrite E9 in Vb. assert (A1 : v_state (V w3 v) = v_state (gen_veh c m out (V m v))) by (unfold vmo in Vb; congruence).
      rewrite A1 in Hs. cbn in Hs. destruct Hs; discriminate.
    + exfalso. rewrite E12 in Vb. assert (A1 : v_state (V w3 v) = v_state (moved c m out ld ln q (V m v))) by (unfold vmo in Vb; congruence).
      rewrite moved_state in A1. rewrite A1 in Hs. destruct Hs; congruence.
    + exfalso. apply ended_fields in E9. destruct E9 as (_ & _ & _ & _ & _ & _ & _ & _ & _ & _ & _ & _ & _ & H & _).
      assert (A2 : v_state (V w3 v) = v_state (V m' v)) by (unfold vmo in Vb; congruence). rewrite A2, H in Hs.
      destruct (v_aborted (V m v)); destruct Hs; discriminate.
Qed.

Lemma updated_early : forall c v wa b, updated c v wa b -> v_state b = Home \/ v_state b = Wait -> v_state (V wa v) <> Run.
Proof.
  intros c v wa b U Hs. pose proof (logged_mo c wa v) as L1.
  assert (L2 : vmo (driven c (logged c wa v false)) = vmo (driven c (V wa v))) by (rewrite !driven_mo; unfold vmo in L1; congruence).
  rewrite (driven_mo c (V wa v)) in L2.
  destruct U as [U1 U2 U3|U1 U2 U3|U1 U2|l U1 U2 U3 U4|l m d U1 U2 U3 Fm Sm -> U4];
    remember (logged c wa v false) as lg eqn:Elg; try congruence.
  - exfalso. apply vride_mo in U4. unfold vmo in *. destruct Hs; congruence.
  - exfalso. remember (driven c lg) as d eqn:Ed.
    destruct U4 as [x x' G1 G2 G3 G4 G5 G6 G7 G8|d' b' G1 -> G3].
    + apply vride_mo in G4. apply vride_mo in G8.
      assert (X : vmo (V x' v) = vmo (V x v)).
      { apply choose_next in G7. destruct G7 as (_ & k & _ & [(-> & _)|[(-> & _)|(out & _ & ->)]]); try apply next_mo; reflexivity. }
      unfold vmo in *. destruct Hs; congruence.
    + assert (Ed' : vmo (sv_flag true d') = vmo d).
      { rewrite flag_mo. destruct G1 as [(-> & _)|(-> & _)]; reflexivity. }
      destruct G3 as [G3|G3].
      * apply vride_mo in G3. unfold vmo in *. destruct Hs; congruence.
      * apply vride_state in G3. destruct (finished_state c m (sv_flag true d')) as [Z|Z]; rewrite Z in G3; destruct Hs; congruence.
Qed.

(** a vehicle that is at home or waits after a timestep was so before it *)
Lemma body_early : forall c v w w' w3 w4, v < w_nv w -> body_view c v w w' w3 w4 -> v_state (V w' v) = Home \/ v_state (V w' v) = Wait ->
  (v_state (V w v) = Home \/ v_state (V w v) = Wait) /\ v_remain (V w' v) = v_remain (V w v) /\ v_xold (V w' v) = v_xold (V w v) /\ v_dist (V w' v) = v_dist (V w v).
Proof.
  intros c v w w' w3 w4 Hv BV Hs.
  destruct (drive_view _ _ _ _ _ _ BV) as [(D1 & D2 & D3 & D3' & D3'')|(D1 & l & D2 & D3)].
  - assert (Ha : alive (v_state (V w3 v))).
    { destruct (alive_dec (v_state (V w3 v))) as [Ha|Ha]; [exact Ha|]. pose proof (bv_gone _ _ _ _ _ _ BV Ha) as E. apply vride_mo in E.
      exfalso. apply Ha. assert (E' : v_state (V w' v) = v_state (V w3 v)) by (unfold vmo in E; congruence). rewrite <- E'. unfold alive. tauto. }
    assert (H3 : v_state (V w3 v) = Home \/ v_state (V w3 v) = Wait) by (unfold alive in Ha; intuition congruence).
    pose proof (first_state c v w w3 Hv (bv_first _ _ _ _ _ _ BV) H3) as E. unfold vmo in E.
    assert (E1 : v_state (V w3 v) = v_state (V w v)) by congruence. rewrite <- E1. split; [exact H3|]. split; [congruence|]. split; congruence.
  - exfalso. assert (Ha : alive (v_state (V w3 v))) by (apply alive_run; exact D1).
    destruct (bv_update _ _ _ _ _ _ BV Ha) as (wa & b & B1 & B2 & B3 & B4 & B5 & B6). apply vride_mo in B4. apply vride_mo in B6.
    destruct (bv_follow _ _ _ _ _ _ BV D1) as (k & _ & E). pose proof (followed_mo c w3 k (V w3 v)) as Fo. rewrite <- E in Fo.
    assert (Eb : v_state (V w' v) = v_state b) by (unfold vmo in B6; congruence). rewrite Eb in Hs.
    apply (updated_early c v wa b B5 Hs). unfold vmo in *. congruence.
Qed.

Theorem reach_Rem : forall c (P : op -> world -> Prop), (0 <= dt c)%Q -> (forall o w, P o w -> keep_speed o w) ->
  forall w, reachP c P w -> forall v, v < w_nv w -> Rem c w v.
Proof.
  intros c P Hd HP. apply reachP_ride.
  - intros w w3 w4 w' v R _ Hv I _ F _ [J1 J2] BV.
    assert (HP' : forall o w, P o w -> sound_links o w) by (intros o x K; apply HP in K; apply K).
    pose proof (reach_Geo c P HP' w R) as G. pose proof (reach_Pos c P Hd HP' w R v Hv) as Pw.
    pose proof (proj2 (motion_body c v w w' w3 w4 Hd G Hv F Pw BV)) as M.
    split; [intro Hs; destruct (body_early _ _ _ _ _ _ Hv BV Hs) as (E1 & E2 & _); change (V (sw_T (S (w_T w)) w')) with (V w'); rewrite E2; auto|].
    change (V (sw_T (S (w_T w)) w')) with (V w'). change (L (sw_T (S (w_T w)) w')) with (L w').
    intros Hr l Hl. destruct (M Hr) as (l' & M1 & M2 & M3 & M4 & (M5 & M5') & M6 & M7 & M8 & M9 & M10 & M11).
    assert (l' = l) by congruence. subst l'. rewrite (fr_l_u F).
    assert (Hu : (0 <= l_u (L w l) * dt c)%Q) by (apply Qmult_le_0_compat; [apply G; exact M4|exact Hd]).
    destruct M11 as [M11|(M11 & M12 & M13)]; [|lra]. rewrite M11.
    destruct (first_mo c v w w3 Hd G Hv Pw (bv_first _ _ _ _ _ _ BV)) as [Q|[(A1 & A2 & A3 & A4)|[(A1 & A2 & A3 & A4 & _)|(A1 & A2 & A3)]]].
    + unfold vmo in Q. assert (X : v_remain (V w3 v) = v_remain (V w v)) by congruence. rewrite X. apply J2; congruence.
    + rewrite A4, J1 by (right; exact A1). exact Hu.
    + rewrite A4. exact Hu.
    + congruence.
  - intros w v J. exact J.
  - intros w o w' v R I Ho Hp Hx H Hv [J1 J2]. destruct (op_keep c o w w' v Ho Hx H Hv) as (K & _). unfold vkeep in K.
    assert (E1 : v_remain (V w' v) = v_remain (V w v)) by congruence. assert (E2 : v_state (V w' v) = v_state (V w v)) by congruence.
    unfold Rem. rewrite E1, E2. split; [exact J1|]. intros Hr l Hl.
    assert (Hl' : v_link (V w v) = Some l) by congruence. destruct I as [[T I] _].
    destruct (s_link I Hv ltac:(discriminate)) as [Z _]. destruct (Z Hr) as (k & Z1 & Z2). assert (k = l) by congruence. subst k.
    rewrite (op_speed c o w w' l Ho Hx (proj2 (HP _ _ Hp)) H Z2). apply J2; assumption.
  - intros w o w' v a nl nm R Ho Hp Hx H H1 H2 K. unfold vkeep in K.
    assert (E1 : v_remain (V w' v) = 0%Q) by (change 0%Q with (v_remain (new_vehicle c a nl nm)); congruence).
    assert (E2 : v_state (V w' v) = Home) by (change Home with (v_state (new_vehicle c a nl nm)); congruence).
    split; [intros _; exact E1|]. intro; congruence.
Qed.

(** C04: a vehicle that crosses a node moves by at most two timesteps at full speed *)
Theorem crossing_motion : forall c w w' v k l, (0 < dt c)%Q -> reachP c keep_speed w -> exists_veh w v -> tick c w = Ok w' ->
  on_link w v k -> In v (crossed c w w' k) -> on_link w' v l ->
  (0 <= v_x (V w' v) <= 2 * (l_u (L w l) * dt c))%Q.
Proof.
  intros c w w' v k l Hd R Hv H H1 H2 H3.
  assert (Rs : reachP c sound_links w).
  { destruct R as (tm & R). exists tm. eapply later_weaken; [|exact R]. intros o x K. apply K. }
  assert (Hd' : (0 <= dt c)%Q) by lra. pose proof (timestep_motion c w w' v l Hd Rs Hv H H3) as M. cbv zeta in M.
  destruct M as ((M1 & M2) & M3 & _ & M4). destruct (M4 k H1 H2) as [N1 N2].
  pose proof (proj2 (reach_Rem c _ Hd' (fun _ _ K => K) w R v Hv)) as Hrem. specialize (Hrem (proj1 H1) k (proj2 H1)).
  pose proof (proj1 (reach_Pos c _ Hd' (fun _ _ K => K) w Rs v Hv)) as Hrem0.
  pose proof (reach_Inv2 _ _ (reachP_reach _ _ _ R)) as I. destruct I as [[T I] _].
  destruct (s_link I Hv ltac:(discriminate)) as [Z _]. destruct (Z (proj1 H1)) as (k' & Z1 & Z2). destruct H1 as [H1 H1'].
  assert (k' = k) by congruence. subst k'. destruct (reach_Geo c _ (fun _ _ K => K) w Rs k Z2) as [_ Gk].
  assert (Gk' : (0 < l_u (L w k))%Q).
  { apply Qle_lteq in Gk. destruct Gk as [Gk|Gk]; [exact Gk|]. symmetry in Gk. contradiction. }
  assert (Gl : (0 <= l_u (L w l))%Q) by lra.
  assert (Q1 : (v_remain (V w v) * l_u (L w l) / l_u (L w k) <= l_u (L w l) * dt c)%Q).
  { apply Qle_shift_div_r; [exact Gk'|].
    setoid_replace (l_u (L w l) * dt c * l_u (L w k))%Q with (l_u (L w k) * dt c * l_u (L w l))%Q by ring.
    apply Qmult_le_compat_r; assumption. }
  assert (Q2 : (v_v (V w' v) * dt c <= l_u (L w l) * dt c)%Q) by (apply Qmult_le_compat_r; lra).
  assert (Q3 : (0 <= v_v (V w' v) * dt c)%Q) by (apply Qmult_le_0_compat; lra).
  split; lra.
Qed.
