(** * Distance: one timestep of a vehicle with its logs; distance traveled and travel time. *)
From Verif Require Import Base Types Sim Build Heap Lists Inv FrameBase Tac Frame Eff Eff2 Trace InvStep Reach Steps Effects Phases Attr Life Incoming Vev Ride TripLog Route Green Choice Enforce Counts LinkQueries FD NodeCap Origin Bucket Outflow Trials Motion Spacing Spec.
Local Open Scope nat_scope.

(** ** What [Vehicle.update] does, with the logs *)

(** all fields used below *)
Definition vx (a : vehicle) := (v_orig a, v_dep a, v_tt a, (v_state a, v_link a, v_x a, v_xnext a, v_xold a, v_v a, v_dist a, v_remain a, v_larr a),
  (v_flag a, v_log a, v_tlog a, v_linkold a, v_mode a)).
Lemma vride_vx : forall a b, vride a = vride b -> vx a = vx b.
Proof. intros a b H. apply vride_eq in H. unfold vx. intuition congruence. Qed.
Lemma logged_vx : forall c w v, let a := V w v in vx (logged c w v false) =
  (v_orig a, v_dep a, v_tt a, (v_state a, v_link a, v_x a, v_xnext a, v_xold a, v_v a, v_dist a, v_remain a, v_larr a),
   (v_flag a, v_log a ++ log_rows c w v false, v_tlog a ++ tlog_rows c w a, v_link a, v_mode a)).
Proof. intros. unfold logged. reflexivity. Qed.
Lemma driven_vx : forall c a, vx (driven c a) = (v_orig a, v_dep a, v_tt a, (v_state a, v_link a, v_xnext a, v_xnext a, v_x a, ((v_xnext a - v_x a) / dt c)%Q,
   (v_dist a + (v_xnext a - v_x a))%Q, v_remain a, v_larr a), (v_flag a, v_log a, v_tlog a, v_linkold a, v_mode a)).
Proof. reflexivity. Qed.
Lemma flag_vx : forall a, vx (sv_flag true a) = (v_orig a, v_dep a, v_tt a, (v_state a, v_link a, v_x a, v_xnext a, v_xold a, v_v a, v_dist a, v_remain a, v_larr a),
  (true, v_log a, v_tlog a, v_linkold a, v_mode a)).
Proof. reflexivity. Qed.
Lemma aborting_vx : forall a, vx (aborting a) = vx a. Proof. reflexivity. Qed.
Lemma next_vx : forall x a, vx (sv_next x a) = vx a. Proof. reflexivity. Qed.
Lemma wait_vx : forall a, vx (sv_state Wait a) = (v_orig a, v_dep a, v_tt a, (Wait, v_link a, v_x a, v_xnext a, v_xold a, v_v a, v_dist a, v_remain a, v_larr a),
  (v_flag a, v_log a, v_tlog a, v_linkold a, v_mode a)).
Proof. reflexivity. Qed.

(** Outcome [b] of [Vehicle.update] of [v] in [w]. *)
Inductive uview (c : cfg) (v : vid) (w : world) (b : vehicle) : Prop :=
| uv_calm : let a := V w v in v_state a <> Run ->
    (v_state b = v_state a \/ v_state a = Home /\ v_state b = Wait /\ (v_dep a <= Z.of_nat (w_T w))%Z) ->
    (v_state a = Home -> v_state b = Home -> (Z.of_nat (w_T w) < v_dep a)%Z) ->
    (v_orig b, v_dep b, v_tt b, v_link b, v_x b, v_dist b, v_remain b, v_flag b, v_mode b) =
    (v_orig a, v_dep a, v_tt a, v_link a, v_x a, v_dist a, v_remain a, v_flag a, v_mode a) ->
    v_log b = v_log a ++ log_rows c w v false -> v_tlog b = v_tlog a ++ tlog_rows c w a -> uview c v w b
| uv_drive : forall l, let a := V w v in v_state a = Run -> v_link a = Some l -> v_state b = Run -> v_link b = Some l ->
    v_x b = v_xnext a -> v_dist b = (v_dist a + (v_xnext a - v_x a))%Q -> v_remain b = v_remain a ->
    (v_orig b, v_dep b, v_tt b, v_mode b) = (v_orig a, v_dep a, v_tt a, v_mode a) ->
    (v_flag b = v_flag a \/ v_xnext a == l_len (L w l))%Q ->
    v_linkold b = Some l ->
    v_log b = v_log a ++ log_rows c w v false -> v_tlog b = v_tlog a ++ tlog_rows c w a -> uview c v w b
| uv_end : forall l e1 e2, let a := V w v in v_state a = Run -> v_link a = Some l -> (v_xnext a == l_len (L w l))%Q ->
    v_link b = None -> v_dist b = (v_dist a + (v_xnext a - v_x a))%Q ->
    (v_orig b, v_dep b, v_mode b) = (v_orig a, v_dep a, v_mode a) ->
    (v_state b = End_ /\ v_tt b = (inject_Z (Z.of_nat (w_T w) - v_dep a) * dt c)%Q \/ v_state b = Abort) ->
    e1 = (if negb (Z.eqb (c_logint c) (-1)) then [mkLog (now c w) (v_state b) None None None None None] else []) ->
    links_of e2 = [] ->
    v_log b = v_log a ++ log_rows c w v false ++ e1 -> v_tlog b = v_tlog a ++ tlog_rows c w a ++ e2 -> uview c v w b.

Lemma updated_view : forall c v w b, updated c v w b -> uview c v w b.
Proof.
  intros c v w b U. pose proof (logged_vx c w v) as L1. cbv zeta in L1.
  destruct U as [U1 U2 U3|U1 U2 U3|U1 U2|l U1 U2 U3 U4|l m d U1 U2 U3 Fm Sm -> U4];
    remember (logged c w v false) as lg eqn:Elg.
  - apply vride_vx in U3. unfold vx in *. apply uv_calm; try (congruence || (left; congruence)); intros; exact U2.
  - apply vride_vx in U3. rewrite wait_vx in U3. unfold vx in *. apply uv_calm; try congruence.
    right. repeat split; try congruence; auto.
  - apply vride_vx in U2. unfold vx in *. apply uv_calm; try congruence. left; congruence.
  - apply vride_vx in U4. rewrite driven_vx in U4. unfold vx in *. apply uv_drive with (l := l); try congruence.
    left; congruence.
  - pose proof (driven_vx c lg) as D. remember (driven c lg) as d eqn:Ed. clear Ed.
    destruct U4 as [x x' G1 G2 G3 G4 G5 G6 G7 G8|d' b' G1 -> G3].
    + apply vride_vx in G4. apply vride_vx in G8.
      assert (X : vx (V x' v) = vx (V x v)).
      { apply choose_next in G7. destruct G7 as (_ & k & _ & [(-> & _)|[(-> & _)|(out & _ & ->)]]); try apply next_vx; reflexivity. }
      unfold vx in *. apply uv_drive with (l := l); try congruence. left; congruence.
    + assert (E' : vx d' = vx d) by (destruct G1 as [(-> & _)|(-> & _)]; [reflexivity|apply aborting_vx]).
      pose proof (flag_vx d') as Fl. remember (sv_flag true d') as f eqn:Ef. clear Ef.
      destruct G3 as [G3|G3].
      * apply vride_vx in G3. unfold vx in *. apply uv_drive with (l := l); try congruence. right; exact U3.
      * unfold finished in G3. apply ended_fields in G3.
        destruct G3 as (B1 & B2 & B3 & B4 & B5 & B6 & B7 & B8 & B9 & B10 & B11 & B12 & B13 & B14 & B15).
        unfold vx in *.
        assert (Et : w_T m = w_T w) by exact (fr_w_T Fm).
        assert (Ed : v_dep f = v_dep (V w v)) by congruence.
        assert (Edi : v_dist f = (v_dist (V w v) + (v_xnext (V w v) - v_x (V w v)))%Q) by congruence.
        assert (El : v_log f = v_log (V w v) ++ log_rows c w v false) by congruence.
        assert (Etl : v_tlog f = v_tlog (V w v) ++ tlog_rows c w (V w v)) by congruence.
        assert (Em : v_mode f = v_mode (V w v)) by congruence. assert (Eo : v_orig f = v_orig (V w v)) by congruence.
        assert (Es : v_state (ended c m f) = v_state b) by (rewrite B14; unfold ended; cbn; destruct (v_aborted f); reflexivity).
        eapply uv_end with (l := l); [exact U1|exact U2|exact U3|exact B1|congruence|congruence| |reflexivity| | |].
        -- rewrite B14, B15, Ed, Et. destruct (v_aborted f); [right|left; split]; reflexivity.
        -- instantiate (1 := if opt_eqb None (v_linkold f) then [] else if v_aborted f then [] else [(now c m, PEnd)]).
           destruct (opt_eqb None (v_linkold f)); [reflexivity|]. destruct (v_aborted f); reflexivity.
        -- rewrite B4. unfold end_log. rewrite El, Es. unfold now. rewrite Et, app_assoc. reflexivity.
        -- rewrite B3. unfold end_tlog. rewrite Etl, app_assoc. reflexivity.
Qed.

Lemma gen_vx : forall c w out a, vx (gen_veh c w out a) = (v_orig a, v_dep a, v_tt a, (Run, Some out, 0%Q, v_xnext a, v_xold a, l_u (L w out), v_dist a, v_remain a, now c w),
  (v_flag a, v_log a, v_tlog a, v_linkold a, v_mode a)).
Proof. intros. unfold gen_veh. rs. unfold vx. rs. reflexivity. Qed.
Lemma moved_vx : forall c w out ld ln q a, vx (moved c w out ld ln q a) = (v_orig a, v_dep a, v_tt a, (v_state a, Some out, t_x c w out ld q, v_xnext a, v_xold a, (v_v a + t_x c w out ld q / dt c)%Q, v_dist a, 0%Q, now c w),
  (v_flag a, v_log a, v_tlog a, v_linkold a, v_mode a)).
Proof. intros. unfold moved. cbv zeta. unfold vx. rs. reflexivity. Qed.

(** ** The first phases, with the logs *)
Lemma first_full : forall c v w w3, Geo w -> Pos w v -> v < w_nv w -> Inv2 w None -> first_view c v w w3 ->
  (vx (V w3 v) = vx (V w v)) \/
  (v_state (V w v) = Wait /\ v_state (V w3 v) = Run /\ v_x (V w3 v) = 0%Q /\
     (v_orig (V w3 v), v_dep (V w3 v), v_dist (V w3 v), v_remain (V w3 v), v_log (V w3 v), v_tlog (V w3 v), v_linkold (V w3 v), v_mode (V w3 v), v_flag (V w3 v), v_tt (V w3 v)) =
     (v_orig (V w v), v_dep (V w v), v_dist (V w v), v_remain (V w v), v_log (V w v), v_tlog (V w v), v_linkold (V w v), v_mode (V w v), v_flag (V w v), v_tt (V w v))) \/
  (exists il out, v_state (V w v) = Run /\ v_state (V w3 v) = Run /\ v_link (V w v) = Some il /\ v_link (V w3 v) = Some out /\
     (v_x (V w v) == l_len (L w il))%Q /\ v_next (V w v) = Some (Some out) /\
     (v_orig (V w3 v), v_dep (V w3 v), v_dist (V w3 v), v_log (V w3 v), v_tlog (V w3 v), v_linkold (V w3 v), v_mode (V w3 v), v_flag (V w3 v), v_tt (V w3 v)) =
     (v_orig (V w v), v_dep (V w v), v_dist (V w v), v_log (V w v), v_tlog (V w v), v_linkold (V w v), v_mode (V w v), v_flag (V w v), v_tt (V w v)) /\
     v_flag (V w v) = false /\ (v_mode (V w v) = SingleTrip -> l_start (L w out) = l_end (L w il)) /\ out < w_nl w /\ il < w_nl w /\ v_remain (V w3 v) = 0%Q /\ ~ (l_u (L w il) == 0)%Q /\
     (0 <= v_x (V w3 v))%Q /\ (v_x (V w3 v) <= l_len (L w out))%Q /\ (v_x (V w3 v) <= v_remain (V w v) * l_u (L w out) / l_u (L w il))%Q) \/
  (exists l e2, v_state (V w v) = Run /\ v_link (V w v) = Some l /\ v_flag (V w v) = true /\ v_link (V w3 v) = None /\
     (v_orig (V w3 v), v_dep (V w3 v), v_dist (V w3 v), v_mode (V w3 v)) = (v_orig (V w v), v_dep (V w v), v_dist (V w v), v_mode (V w v)) /\
     (v_state (V w3 v) = End_ /\ v_tt (V w3 v) = (inject_Z (Z.of_nat (w_T w) - v_dep (V w v)) * dt c)%Q \/ v_state (V w3 v) = Abort) /\
     v_log (V w3 v) = v_log (V w v) ++ (if negb (Z.eqb (c_logint c) (-1)) then [mkLog (now c w) (v_state (V w3 v)) None None None None None] else []) /\
     links_of e2 = [] /\ v_tlog (V w3 v) = v_tlog (V w v) ++ e2).
Proof.
  intros c v w w3 G [P1 P2] Hv I FV. destruct FV as [E|e m p m' p' es1 es2 Ht _ _ Tr M _ I1 J1 E1 F1 F2 _ Va Vb].
  - left. apply vride_vx. exact E.
  - pose proof (vride_eq _ _ Va) as Va'.
    assert (Nx : v_next (V m v) = v_next (V w v)) by (intuition congruence).
    apply vride_vx in Va. apply vride_vx in Vb.
    pose proof (mstep_vev c e m p m' p' I1 M v) as K. assert (Et : w_T m = w_T w) by exact (fr_w_T F1).
    destruct K as [E|n out q E2 E3 E4 E5 E6 E7 E8 E9|n out il q ld ln E2 E3 E4 E5 E6 E7 E8 E9 E10 E11 E12|l tl lg E2 E3 E4 E5 E6 E7 E8 E9|l E2 E3 E4|E2 E3 E4|E2 E3 E4 E5 E6|E2 E3 E4 E5|l E2 E3 E4 E5|l E2 E3 E4 E5 E6 E7|l nx E2 E3 E4 E5 E6];
      try (subst e; discriminate Ht).
    + left. apply vride_vx in E. congruence.
    + right; left. rewrite E9 in Vb. clear E9. unfold vx in Vb, Va.
      pose proof (gen_vx c m out (V m v)) as A.
      unfold vx in A. remember (gen_veh c m out (V m v)) as g eqn:Eg. clear Eg. repeat split; congruence.
    + right; right; left. exists il, out.
      assert (B3 : v_flag (V m v) = false /\ v_aborted (V m v) = false /\ l_end (L m il) = n).
      { apply (shift_flag c n out v il m p m' p'); auto; [apply E1; rewrite (fr_w_nv F1); exact Hv|rewrite <- E2; exact M]. }
      assert (Hx : (v_x (V m v) == l_len (L m il))%Q /\ (v_mode (V m v) = SingleTrip -> l_start (L m out) = l_end (L m il))).
      { subst e. apply (mstep_eff c _ _ _ _ _ I1) in M. cbn [eff] in M. destruct M as (-> & _ & _).
        destruct (ia_in _ _ J1 n v E4) as (_ & [(l' & (_ & Y & Z) & Y1 & Y2)|[(o & Y)|[Y|Y]]]); try congruence.
        assert (l' = il) by congruence. subst l'. split; [apply qeq_iff; exact Z|]. intro Hm.
        destruct Y2 as [(Y2 & _)|[(o & Y2 & Y3)|Y2]]; [congruence| |congruence].
        assert (o = out) by congruence. subst o. apply (t_out (proj1 (proj1 I1))) in Y2. destruct Y2 as [_ Y2]. congruence. }
      destruct Hx as [Hx Hcn].
      rewrite E12 in Vb. clear E12.
      pose proof (moved_vx c m out ld ln q (V m v)) as A.
      rewrite (fr_l_len F1) in Hx.
      remember (moved c m out ld ln q (V m v)) as g eqn:Eg. clear Eg. unfold vx in *.
      assert (Ex : v_x (V w v) = v_x (V m v)) by congruence. rewrite Ex.
      split; [congruence|]. split; [congruence|]. split; [congruence|]. split; [congruence|]. split; [exact Hx|].
      split; [congruence|]. split; [congruence|]. destruct B3 as [B3 _]. split; [congruence|].
      split; [intro Hm; rewrite <- (fr_l_start F1), <- (fr_l_end F1); apply Hcn; congruence|].
      rewrite (fr_w_nl F1) in E6, E7. split; [exact E6|]. split; [exact E7|]. split; [congruence|].
      apply qdiv_ok in E11. destruct E11 as [Z1 Z2]. rewrite (fr_l_u F1 il) in Z1, Z2. rewrite (fr_l_u F1 out) in Z2.
      assert (Er : v_remain (V m v) = v_remain (V w v)) by congruence. rewrite Er in Z2. split; [exact Z1|].
      destruct (G out E6) as [G1 G2]. destruct (G il E7) as [G3 G4].
      assert (Hq : (0 <= q)%Q).
      { rewrite Z2. apply Qle_shift_div_l.
        - apply Qle_lteq in G4. destruct G4 as [G4|G4]; [exact G4|]. symmetry in G4. contradiction.
        - rewrite Qmult_0_l. apply Qmult_le_0_compat; assumption. }
      assert (Ex3 : v_x (V w3 v) = t_x c m out ld q) by congruence. rewrite Ex3.
      destruct (t_x_bounds c m out ld q Hq) as (T1 & T2 & T3); [rewrite (fr_l_len F1); exact G1|].
      rewrite (fr_l_len F1) in T2. split; [exact T1|]. split; [exact T2|]. apply (Qle_trans _ _ _ T3). rewrite Z2. apply Qle_refl.
    + right; right; right. exists l, (if opt_eqb None (v_linkold (V m v)) then [] else if v_aborted (V m v) then [] else [(now c m, PEnd)]).
      apply ended_fields in E9.
      destruct E9 as (B1 & B2 & B3 & B4 & B5 & B6 & B7 & B8 & B9 & B10 & B11 & B12 & B13 & B14 & B15).
      assert (Es : v_state (ended c m (V m v)) = v_state (V m' v)) by (rewrite B14; unfold ended; cbn; destruct (v_aborted (V m v)); reflexivity).
      unfold vx in *. split; [congruence|]. split; [congruence|]. split; [congruence|]. split; [congruence|]. split; [congruence|].
      assert (X1 : v_state (V w3 v) = v_state (V m' v)) by congruence. assert (X2 : v_tt (V w3 v) = v_tt (V m' v)) by congruence.
      assert (X3 : v_log (V w3 v) = lg) by congruence. assert (X4 : v_tlog (V w3 v) = tl) by congruence.
      assert (X5 : v_dep (V w v) = v_dep (V m v)) by congruence. assert (X6 : v_log (V m v) = v_log (V w v)) by congruence.
      assert (X7 : v_tlog (V m v) = v_tlog (V w v)) by congruence. clear Va Vb.
      split; [rewrite X1, X2, B14, B15, X5, Et; destruct (v_aborted (V m v)); [right|left; split]; reflexivity|].
      split; [rewrite X3, E7, X6, Es, X1; unfold now; rewrite Et; reflexivity|].
      split; [destruct (opt_eqb None (v_linkold (V m v))); [reflexivity|]; destruct (v_aborted (V m v)); reflexivity|].
      rewrite X4, E8, X7. reflexivity.
Qed.

Lemma followed_vx : forall c w l a, vx (followed c w l a) = (v_orig a, v_dep a, v_tt a, (v_state a, v_link a, v_x a, v_xnext (followed c w l a), v_xold a, v_v a, v_dist a,
  v_remain (followed c w l a), v_larr a), (v_flag a, v_log a, v_tlog a, v_linkold a, v_mode a)).
Proof. intros. unfold followed. destruct (qlt _ _); reflexivity. Qed.

Lemma links_tlog : forall c w a, links_of (tlog_rows c w a) =
  match v_state a, v_link a with Run, Some l => if opt_eqb (Some l) (v_linkold a) then [] else [l] | _, _ => [] end.
Proof.
  intros c w a. unfold tlog_rows. destruct (v_state a), (v_link a) as [l|]; try (destruct (opt_eqb _ _); reflexivity).
Qed.

Notation trail := route_of.

(** ** A timestep of vehicle [v]: from [V w v] to [b] *)
Inductive tview (c : cfg) (v : vid) (w : world) (b : vehicle) : Prop :=
| tv_calm : let a := V w v in v_state a <> Run ->
    (v_state b = v_state a \/ v_state a = Home /\ v_state b = Wait /\ (v_dep a <= Z.of_nat (w_T w))%Z) ->
    (v_orig b, v_dep b, v_tt b, v_dist b, v_mode b, trail b) = (v_orig a, v_dep a, v_tt a, v_dist a, v_mode a, trail a) -> tview c v w b
| tv_end : forall l, let a := V w v in v_state a = Run -> v_link a = Some l -> v_flag a = true ->
    (v_orig b, v_dep b, v_dist b, v_mode b, trail b) = (v_orig a, v_dep a, v_dist a, v_mode a, trail a) ->
    (v_state b = End_ /\ v_tt b = (inject_Z (Z.of_nat (w_T w) - v_dep a) * dt c)%Q \/ v_state b = Abort) -> tview c v w b
| tv_move : forall l x3 r3 x r, let a := V w v in l < w_nl w ->
    (v_state a = Run /\ v_link a = Some l /\ x3 = v_x a /\ r3 = v_remain a \/
     v_state a = Wait /\ x3 = 0%Q /\ r3 = v_remain a \/
     (exists il, il < w_nl w /\ v_state a = Run /\ v_link a = Some il /\ (v_x a == l_len (L w il))%Q /\ r3 = 0%Q /\ v_next a = Some (Some l) /\ v_flag a = false /\ (v_mode a = SingleTrip -> l_start (L w l) = l_end (L w il)) /\
        ~ (l_u (L w il) == 0)%Q /\ (x3 <= v_remain a * l_u (L w l) / l_u (L w il))%Q)) ->
    (0 <= x3 <= x)%Q -> (x <= l_len (L w l))%Q -> (x <= x3 + l_u (L w l) * dt c)%Q -> (0 <= r)%Q ->
    (r = r3 \/ (x == l_len (L w l) /\ x + r <= x3 + l_u (L w l) * dt c)%Q) ->
    (v_orig b, v_dep b, v_mode b) = (v_orig a, v_dep a, v_mode a) -> v_dist b = (v_dist a + (x - x3))%Q ->
    trail b = trail a ++ (if opt_eqb (Some l) (v_linkold a) then [] else [l]) ->
    (v_state b = Run /\ v_link b = Some l /\ v_x b = x /\ v_remain b = r /\ v_linkold b = Some l /\
       (v_flag b = true -> v_flag a = true /\ v_state a = Run \/ (x == l_len (L w l))%Q) \/
     (x == l_len (L w l))%Q /\
       (v_state b = End_ /\ v_tt b = (inject_Z (Z.of_nat (w_T w) - v_dep a) * dt c)%Q \/ v_state b = Abort)) ->
    tview c v w b.

Lemma tick_view : forall c v w w' w3 w4, (0 <= dt c)%Q -> Geo w -> v < w_nv w -> Inv2 w None -> fr w w' -> Pos w v -> Ends w None -> body_view c v w w' w3 w4 ->
  tview c v w (V w' v).
Proof.
  intros c v w w' w3 w4 Hd G Hv I F P En BV. pose proof (bv_fr3 _ _ _ _ _ _ BV) as F3. pose proof (bv_inv3 _ _ _ _ _ _ BV) as I3.
  pose proof (first_full c v w w3 G P Hv I (bv_first _ _ _ _ _ _ BV)) as FF.
  assert (ET3 : w_T w3 = w_T w) by exact (fr_w_T F3).
  destruct (vstate_dec (v_state (V w3 v)) Run) as [Hr|Hr].
  - (* driving *)
    assert (Ha : alive (v_state (V w3 v))) by (apply alive_run; exact Hr).
    destruct (bv_update _ _ _ _ _ _ BV Ha) as (wa & b & B1 & B2 & B3 & B4 & B5 & B6).
    destruct (bv_follow _ _ _ _ _ _ BV Hr) as (l & El & E4). rewrite E4 in B4.
    assert (Hl : l < w_nl w).
    { destruct I3 as [[T3 S3] _]. assert (Hv3 : v < w_nv w3) by (rewrite (fr_w_nv F3); exact Hv).
      destruct (s_link S3 Hv3 ltac:(discriminate)) as [K _]. destruct (K Hr) as (k & K1 & K2). rewrite (fr_w_nl F3) in K2. congruence. }
    destruct (G l Hl) as [G1 G2]. assert (Hu : (0 <= l_u (L w3 l) * dt c)%Q) by (rewrite (fr_l_u F3); apply Qmult_le_0_compat; assumption).
    (* the start *)
    assert (Fst : let a := V w v in
      (v_state a = Run /\ v_link a = Some l /\ v_x (V w3 v) = v_x a /\ v_remain (V w3 v) = v_remain a \/
       v_state a = Wait /\ v_x (V w3 v) = 0%Q /\ v_remain (V w3 v) = v_remain a \/
       (exists il, il < w_nl w /\ v_state a = Run /\ v_link a = Some il /\ (v_x a == l_len (L w il))%Q /\ v_remain (V w3 v) = 0%Q /\ v_next a = Some (Some l) /\ v_flag a = false /\ (v_mode a = SingleTrip -> l_start (L w l) = l_end (L w il)) /\
          ~ (l_u (L w il) == 0)%Q /\ (v_x (V w3 v) <= v_remain a * l_u (L w l) / l_u (L w il))%Q)) /\
      (v_orig (V w3 v), v_dep (V w3 v), v_dist (V w3 v), v_log (V w3 v), v_tlog (V w3 v), v_linkold (V w3 v), v_mode (V w3 v), v_flag (V w3 v)) =
      (v_orig a, v_dep a, v_dist a, v_log a, v_tlog a, v_linkold a, v_mode a, v_flag a) /\ (v_flag a = true -> v_state a = Run) /\
      (0 <= v_x (V w3 v))%Q /\ (v_x (V w3 v) <= l_len (L w l))%Q /\ (0 <= v_remain (V w3 v))%Q).
    { cbv zeta. destruct P as [P1 P2].
      destruct FF as [E|[(A1 & A2 & A3 & A4)|[(il & out & A1 & A2 & A3 & A4 & A5 & A6 & A7 & A8 & Acn & A9 & A10 & A11 & A12 & A13 & A14 & A15)|(k & e2 & A1 & A2 & A3 & A4 & A5 & [(A6 & _)|A6] & _)]]]; [| | |congruence|congruence].
      - unfold vx in E. split; [left; repeat split; congruence|]. split; [congruence|]. split; [intros _; congruence|].
        assert (X1 : v_x (V w3 v) = v_x (V w v)) by congruence.
        assert (X2 : v_remain (V w3 v) = v_remain (V w v)) by congruence.
        rewrite X1, X2. destruct (P2 ltac:(congruence) l ltac:(congruence)) as [Y1 Y2]. auto.
      - split; [right; left; repeat split; congruence|]. split; [congruence|].
        split; [intro K; destruct (eo_start _ _ (En v Hv) (or_intror A1)) as [K1 _]; congruence|].
        assert (X2 : v_remain (V w3 v) = v_remain (V w v)) by congruence.
        rewrite A3, X2. split; [lra|]. split; [exact G1|exact P1].
      - assert (out = l) by congruence. subst out.
        split; [|split; [congruence|split; [intros _; exact A1|]]].
        + right; right. exists il. repeat split; auto; congruence.
        + rewrite A11. split; [exact A13|]. split; [exact A14|lra]. }
    cbv zeta in Fst. destruct Fst as (Fst & Feq & Ffl & X1 & X2 & X3). clear FF.
    assert (X2' : (v_x (V w3 v) <= l_len (L w3 l))%Q) by (rewrite (fr_l_len F3); exact X2).
    destruct (followed_bounds c w3 l (V w3 v) Hu X2') as (Y1 & Y2 & Y3 & Y4).
    pose proof (followed_vx c w3 l (V w3 v)) as Fx. rewrite (fr_l_len F3) in Y2, Y4. rewrite (fr_l_u F3) in Y3, Y4.
    apply vride_vx in B4. apply vride_vx in B6. apply updated_view in B5.
    remember (followed c w3 l (V w3 v)) as f eqn:Ef. clear Ef E4.
    assert (Er : (0 <= v_remain f)%Q) by (destruct Y4 as [Y4|(_ & Y4 & _)]; [rewrite Y4; exact X3|exact Y4]).
    assert (Fa : vx (V wa v) = vx f) by congruence. clear B4.
    assert (Et : w_T wa = w_T w) by exact (fr_w_T B1). assert (Elen : l_len (L wa l) = l_len (L w l)) by apply (fr_l_len B1).
    assert (Tr : links_of (tlog_rows c wa (V wa v)) = if opt_eqb (Some l) (v_linkold (V w v)) then [] else [l]).
    { rewrite links_tlog. unfold vx in *. replace (v_state (V wa v)) with Run by congruence. replace (v_link (V wa v)) with (Some l) by congruence.
      replace (v_linkold (V wa v)) with (v_linkold (V w v)) by congruence. reflexivity. }
    assert (Q1 : v_xnext (V wa v) = v_xnext f) by (unfold vx in *; congruence).
    assert (Q2 : v_x (V wa v) = v_x (V w3 v)) by (unfold vx in *; congruence).
    assert (Q3 : v_dist (V wa v) = v_dist (V w v)) by (unfold vx in *; congruence).
    assert (Q4 : v_tlog (V wa v) = v_tlog (V w v)) by (unfold vx in *; congruence).
    assert (Q5 : v_dep (V wa v) = v_dep (V w v)) by (unfold vx in *; congruence).
    assert (Q6 : v_flag (V wa v) = v_flag (V w v)) by (unfold vx in *; congruence).
    assert (Q7 : v_orig (V wa v) = v_orig (V w v)) by (unfold vx in *; congruence).
    assert (Q8 : v_mode (V wa v) = v_mode (V w v)) by (unfold vx in *; congruence).
    assert (Q9 : v_state (V wa v) = Run) by (unfold vx in *; congruence).
    assert (Q10 : v_link (V wa v) = Some l) by (unfold vx in *; congruence).
    assert (Q11 : v_remain (V wa v) = v_remain f) by (unfold vx in *; congruence). clear Fa Fx Feq.
    apply tv_move with (l := l) (x3 := v_x (V w3 v)) (r3 := v_remain (V w3 v)) (x := v_xnext f) (r := v_remain f); auto.
    + destruct Y4 as [Y4|(Y4 & _ & Y5)]; [left; exact Y4|right; split; assumption].
    + unfold vx in B6. destruct B5 as [a U1 _ _ _ _ _|k a U1 U2 U3 U4 U5 U6 U7 U8 U9 U10 U11 U12|k e1 e2 a U1 U2 U3 U4 U5 U6 U7 U8 U9 U10 U11]; subst a; congruence.
    + assert (Xd : v_dist (V w' v) = v_dist b) by (unfold vx in B6; congruence). rewrite Xd.
      destruct B5 as [a U1 _ _ _ _ _|k a U1 U2 U3 U4 U5 U6 U7 U8 U9 U10 U11 U12|k e1 e2 a U1 U2 U3 U4 U5 U6 U7 U8 U9 U10 U11]; subst a; [congruence| |].
      * rewrite U6, Q1, Q2, Q3. reflexivity.
      * rewrite U5, Q1, Q2, Q3. reflexivity.
    + unfold route_of. assert (Xd : v_tlog (V w' v) = v_tlog b) by (unfold vx in B6; congruence). rewrite Xd.
      destruct B5 as [a U1 _ _ _ _ _|k a U1 U2 U3 U4 U5 U6 U7 U8 U9 U10 U11 U12|k e1 e2 a U1 U2 U3 U4 U5 U6 U7 U8 U9 U10 U11]; subst a; [congruence| |].
      * rewrite U12, links_of_app, Tr, Q4. reflexivity.
      * rewrite U11, !links_of_app, Tr, Q4, U9, app_nil_r. reflexivity.
    + destruct B5 as [a U1 _ _ _ _ _|k a U1 U2 U3 U4 U5 U6 U7 U8 U9 U10 U11 U12|k e1 e2 a U1 U2 U3 U4 U5 U6 U7 U8 U9 U10 U11]; subst a; [congruence| |].
      * left. assert (k = l) by congruence. subst k. unfold vx in B6. repeat split; try congruence.
        intro K. destruct U9 as [U9|U9]; [|right; rewrite <- Q1, <- Elen; exact U9].
        assert (Kf : v_flag (V w v) = true) by congruence. left. split; [exact Kf|auto].
      * right. assert (k = l) by congruence. subst k. rewrite Q1, Elen in U3. split; [exact U3|].
        unfold vx in B6. destruct U7 as [[U7 U7']|U7]; [left|right; congruence]. split; [congruence|]. rewrite <- Q5, <- Et, <- U7'. congruence.
  - destruct FF as [E|[(A1 & A2 & A3 & A4)|[(il & out & A1 & A2 & A3 & A4 & A5 & A6 & A7 & A8 & A9)|(k & e2 & A1 & A2 & A3 & A4 & A5 & A6 & A7 & A8 & A9)]]];
      [|congruence|congruence|].
    + destruct (alive_dec (v_state (V w3 v))) as [Ha|Ha].
      * destruct (bv_update _ _ _ _ _ _ BV Ha) as (wa & b & B1 & B2 & B3 & B4 & B5 & B6). rewrite (bv_still _ _ _ _ _ _ BV Hr) in B4.
        apply vride_vx in B4. apply vride_vx in B6. apply updated_view in B5. rewrite E in B4.
        assert (Et : w_T wa = w_T w) by exact (fr_w_T B1).
        assert (Hs : v_state (V wa v) = v_state (V w3 v)) by (unfold vx in *; congruence).
        destruct B5 as [a U1 U2 U3 U4 U5 U6|k a U1 _ _ _ _ _ _ _ _ _ _ _|k e1 e2 a U1 _ _ _ _ _ _ _ _ _ _]; subst a; [|congruence|congruence].
        assert (Tr : trail b = trail (V wa v)).
        { unfold route_of. rewrite U6, links_of_app, links_tlog. destruct (v_state (V wa v)) eqn:Es; try congruence; apply app_nil_r. }
        assert (T1 : trail (V w' v) = trail b) by (unfold route_of; unfold vx in *; congruence).
        assert (T2 : trail (V wa v) = trail (V w v)) by (unfold route_of; unfold vx in *; congruence).
        apply tv_calm.
        -- unfold vx in *; congruence.
        -- rewrite Et in U2. unfold vx in *. destruct U2 as [U2|(U2 & U2' & U2'')]; [left; congruence|right].
           split; [congruence|]. split; [congruence|]. replace (v_dep (V w v)) with (v_dep (V wa v)) by congruence. exact U2''.
        -- unfold vx in *. congruence.
      * pose proof (bv_gone _ _ _ _ _ _ BV Ha) as Eg. apply vride_vx in Eg. unfold vx, route_of in *.
        apply tv_calm; [congruence|left; congruence|unfold route_of; congruence].
    + assert (Ha : ~ alive (v_state (V w3 v))) by (unfold alive; destruct A6 as [[A6 _]|A6]; rewrite A6; intuition congruence).
      pose proof (bv_gone _ _ _ _ _ _ BV Ha) as Eg. apply vride_vx in Eg.
      assert (Tr : trail (V w3 v) = trail (V w v)) by (unfold route_of; rewrite A9, links_of_app, A8; apply app_nil_r).
      assert (T1 : trail (V w' v) = trail (V w3 v)) by (unfold route_of; unfold vx in *; congruence).
      unfold vx in Eg.
      apply tv_end with (l := k); auto; [congruence|]. destruct A6 as [[A6 A6']|A6]; [left; split|right]; congruence.
Qed.
