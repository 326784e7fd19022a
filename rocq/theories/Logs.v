(** * Logs: the log of a vehicle with logging interval 1 (uxsim.py 1507-1556). *)
From Verif Require Import Base Types Sim Build Heap Lists Inv FrameBase Tac Frame Eff Eff2 Trace InvStep Reach Steps Effects Phases Attr Life Incoming Vev Ride TripLog Route Signal Green Choice Enforce Counts LinkQueries FD NodeCap Origin Bucket Outflow Trials Motion Spacing Spec Distance Totals SpecLogs.
Local Open Scope nat_scope.

(** the position before the move and the speed *)
Lemma updated_old : forall c v w b, updated c v w b -> v_state (V w v) = Run -> v_state b = Run ->
  v_xold b = v_x (V w v) /\ v_v b = ((v_x b - v_xold b) / dt c)%Q.
Proof.
  intros c v w b U Hr Hb. pose proof (logged_vx c w v) as L1. cbv zeta in L1.
  destruct U as [U1 U2 U3|U1 U2 U3|U1 U2|l U1 U2 U3 U4|l m d U1 U2 U3 Fm Sm -> U4]; try congruence;
    remember (logged c w v false) as lg eqn:Elg; clear Elg.
  - apply vride_vx in U4. rewrite driven_vx in U4. unfold vx in *.
    assert (A1 : v_x lg = v_x (V w v)) by congruence. assert (A2 : v_xold b = v_x lg) by congruence.
    assert (A3 : v_v b = ((v_xnext lg - v_x lg) / dt c)%Q) by congruence. assert (A4 : v_x b = v_xnext lg) by congruence.
    split; [congruence|]. rewrite A3, A4, A2. reflexivity.
  - pose proof (driven_vx c lg) as D. remember (driven c lg) as d eqn:Ed. clear Ed.
    assert (X : vx b = vx d \/ (v_orig b, v_dep b, v_tt b, (v_state b, v_link b, v_x b, v_xnext b, v_xold b, v_v b, v_dist b, v_remain b, v_larr b), (v_log b, v_tlog b, v_linkold b, v_mode b)) =
      (v_orig d, v_dep d, v_tt d, (v_state d, v_link d, v_x d, v_xnext d, v_xold d, v_v d, v_dist d, v_remain d, v_larr d), (v_log d, v_tlog d, v_linkold d, v_mode d))).
    { destruct U4 as [x x' G1 G2 G3 G4 G5 G6 G7 G8|d' b' G1 -> G3].
      + apply vride_vx in G4. apply vride_vx in G8.
        assert (X : vx (V x' v) = vx (V x v)).
        { apply choose_next in G7. destruct G7 as (_ & k & _ & [(-> & _)|[(-> & _)|(out & _ & ->)]]); try apply next_vx; reflexivity. }
        left. congruence.
      + assert (E' : vx d' = vx d) by (destruct G1 as [(-> & _)|(-> & _)]; [reflexivity|apply aborting_vx]).
        pose proof (flag_vx d') as Fl. remember (sv_flag true d') as f eqn:Ef. clear Ef.
        destruct G3 as [G3|G3].
        * apply vride_vx in G3. right. unfold vx in *. congruence.
        * exfalso. unfold finished in G3. apply ended_fields in G3.
          destruct G3 as (B1 & B2 & B3 & B4 & B5 & B6 & B7 & B8 & B9 & B10 & B11 & B12 & B13 & B14 & B15).
          destruct (v_aborted f); congruence. }
    assert (Y : v_x b = v_x d /\ v_xold b = v_xold d /\ v_v b = v_v d) by (unfold vx in X; destruct X as [X|X]; repeat split; congruence).
    clear X U4. destruct Y as (Y1 & Y2 & Y3). unfold vx in *.
    assert (A1 : v_x lg = v_x (V w v)) by congruence. assert (A2 : v_xold d = v_x lg) by congruence.
    assert (A3 : v_v d = ((v_xnext lg - v_x lg) / dt c)%Q) by congruence. assert (A4 : v_x d = v_xnext lg) by congruence.
    split; [congruence|]. rewrite Y3, A3, Y1, A4, Y2, A2. reflexivity.
Qed.

(** ** The first phases, with the logs *)
Lemma first_log : forall c v w w3, v < w_nv w -> Inv2 w None -> first_view c v w w3 ->
  vx (V w3 v) = vx (V w v) \/
  (exists out, v_state (V w v) = Wait /\ v_state (V w3 v) = Run /\ v_x (V w3 v) = 0%Q /\ v_link (V w3 v) = Some out /\
     In out (n_out (N w (v_orig (V w v)))) /\ v_log (V w3 v) = v_log (V w v)) \/
  (exists il out, v_state (V w v) = Run /\ v_state (V w3 v) = Run /\ v_link (V w v) = Some il /\ v_link (V w3 v) = Some out /\
     (v_x (V w v) == l_len (L w il))%Q /\ v_next (V w v) = Some (Some out) /\ v_log (V w3 v) = v_log (V w v) /\
     (v_mode (V w v) = SingleTrip -> In out (n_out (N w (l_end (L w il)))))) \/
  (exists l, v_state (V w v) = Run /\ v_link (V w v) = Some l /\ ~ alive (v_state (V w3 v)) /\
     v_log (V w3 v) = v_log (V w v) ++ (if negb (Z.eqb (c_logint c) (-1)) then [empty_row (now c w) (v_state (V w3 v))] else [])).
Proof.
  intros c v w w3 Hv I FV. destruct FV as [E|e m p m' p' es1 es2 Ht _ _ Tr M _ I1 J1 E1 F1 F2 _ Va Vb].
  - left. apply vride_vx. exact E.
  - pose proof (vride_eq _ _ Va) as Va'.
    assert (Nx : v_next (V m v) = v_next (V w v)) by (intuition congruence).
    assert (Md : v_mode (V m v) = v_mode (V w v)) by (intuition congruence).
    apply vride_vx in Va. apply vride_vx in Vb.
    pose proof (mstep_vev c e m p m' p' I1 M v) as K. assert (Et : w_T m = w_T w) by exact (fr_w_T F1).
    destruct K as [E|n out q E2 E3 E4 E5 E6 E7 E8 E9|n out il q ld ln E2 E3 E4 E5 E6 E7 E8 E9 E10 E11 E12|l tl lg E2 E3 E4 E5 E6 E7 E8 E9|l E2 E3 E4|E2 E3 E4|E2 E3 E4 E5 E6|E2 E3 E4 E5|l E2 E3 E4 E5|l E2 E3 E4 E5 E6 E7|l nx E2 E3 E4 E5 E6];
      try (subst e; discriminate Ht).
    + left. apply vride_vx in E. congruence.
    + right; left. exists out. rewrite E9 in Vb. clear E9. unfold vx in Vb, Va.
      pose proof (gen_vx c m out (V m v)) as A.
      unfold vx in A. remember (gen_veh c m out (V m v)) as g eqn:Eg. clear Eg.
      split; [congruence|]. split; [congruence|]. split; [congruence|]. split; [congruence|]. split; [|congruence].
      assert (Eo : v_orig (V w v) = n).
      { destruct I1 as [[_ I1] _]. assert (Q1 : In v (n_queue (N m n))) by (rewrite E4; left; reflexivity).
        assert (v_orig (V m v) = n) by (destruct (proj1 (s_queue I1 n v) Q1) as (_ & _ & X); exact X). congruence. }
      rewrite Eo, <- (fr_n_out F1). exact E6.
    + right; right; left. exists il, out.
      assert (Hx : (v_x (V m v) == l_len (L m il))%Q /\ (v_mode (V m v) = SingleTrip -> In out (n_out (N m (l_end (L m il)))))).
      { subst e. apply (mstep_eff c _ _ _ _ _ I1) in M. cbn [eff] in M. destruct M as (-> & _ & _).
        destruct (ia_in _ _ J1 n v E4) as (_ & [(l' & (_ & Y & Z) & Y1 & Y2)|[(o & Y)|[Y|Y]]]); try congruence.
        assert (l' = il) by congruence. subst l'. split; [apply qeq_iff; exact Z|]. intro Hm. rewrite Y1.
        destruct Y2 as [[Y2 _]|[(o & Y2 & Y3)|Y2]]; congruence. }
      destruct Hx as [Hx Hc]. rewrite (fr_l_end F1), (fr_n_out F1), Md in Hc. clear Md.
      rewrite E12 in Vb. clear E12.
      pose proof (moved_vx c m out ld ln q (V m v)) as A.
      rewrite (fr_l_len F1) in Hx.
      remember (moved c m out ld ln q (V m v)) as g eqn:Eg. clear Eg. unfold vx in *.
      assert (Ex : v_x (V w v) = v_x (V m v)) by congruence. rewrite Ex.
      repeat (split; [first [exact Hx | congruence]|]). exact Hc.
    + right; right; right. exists l.
      apply ended_fields in E9.
      destruct E9 as (B1 & B2 & B3 & B4 & B5 & B6 & B7 & B8 & B9 & B10 & B11 & B12 & B13 & B14 & B15).
      assert (Es : v_state (ended c m (V m v)) = v_state (V m' v)) by (rewrite B14; unfold ended; cbn; destruct (v_aborted (V m v)); reflexivity).
      unfold vx in *. split; [congruence|]. split; [congruence|].
      assert (X1 : v_state (V w3 v) = v_state (V m' v)) by congruence.
      assert (X3 : v_log (V w3 v) = lg) by congruence.
      assert (X6 : v_log (V m v) = v_log (V w v)) by congruence. clear Va Vb.
      split; [rewrite X1, B14; unfold alive; destruct (v_aborted (V m v)); intuition discriminate|].
      rewrite X3, E7, X6, Es, X1; unfold now; rewrite Et; reflexivity.
Qed.

Lemma log_rows1 : forall c w v, c_logint c = 1%Z -> v_state (V w v) <> Run -> log_rows c w v false = [empty_row (now c w) (v_state (V w v))].
Proof. intros c w v H K. unfold log_rows. rewrite H. cbn. destruct (v_state (V w v)); try reflexivity. congruence. Qed.
Lemma log_rowsR : forall c w v, c_logint c = 1%Z -> v_state (V w v) = Run -> exists r, log_rows c w v false = [r] /\
  g_t r = now c w /\ g_state r = Run /\ g_link r = v_link (V w v) /\ g_x r = Some (v_x (V w v)).
Proof. intros c w v H K. unfold log_rows. rewrite H, K. cbn. eexists. split; [reflexivity|]. cbn. auto. Qed.

Lemma tick_log : forall c v w w' w3 w4, c_logint c = 1%Z -> v < w_nv w -> Inv2 w None -> body_view c v w w' w3 w4 ->
  log_step c w w' v.
Proof.
  intros c v w w' w3 w4 L1 Hv I BV. pose proof (bv_fr3 _ _ _ _ _ _ BV) as F3.
  pose proof (first_log c v w w3 Hv I (bv_first _ _ _ _ _ _ BV)) as FF.
  destruct (vstate_dec (v_state (V w3 v)) Run) as [Hr|Hr].
  - (* driving *)
    assert (Ha : alive (v_state (V w3 v))) by (apply alive_run; exact Hr).
    destruct (bv_update _ _ _ _ _ _ BV Ha) as (wa & b & B1 & B2 & B3 & B4 & B5 & B6).
    destruct (bv_follow _ _ _ _ _ _ BV Hr) as (l & El & E4). rewrite E4 in B4.
    assert (Fst : forall r, g_t r = now c w -> g_state r = Run -> g_link r = Some l -> g_x r = Some (v_x (V w3 v)) -> row_of c w v r).
    { intros r G1 G2 G3 G4.
      destruct FF as [E|[(out & A1 & A2 & A3 & A4 & A5 & A6)|[(il & out & A1 & A2 & A3 & A4 & A5 & A6 & A7 & A8)|(k & A1 & A2 & A3 & A4)]]].
      - unfold vx in E. apply ro_stays with (l := l); auto; congruence.
      - assert (out = l) by congruence. subst out. apply ro_enters with (out := l); auto. congruence.
      - assert (out = l) by congruence. subst out. eapply ro_crosses with (il := il) (out := l); eauto.
      - contradiction. }
    assert (Al : alive (v_state (V w v)) /\ v_log (V w3 v) = v_log (V w v) /\ (v_state (V w v) = Run \/ v_state (V w v) = Wait)).
    { destruct FF as [E|[(out & A1 & A2 & A3 & A4 & A5 & A6)|[(il & out & A1 & A2 & A3 & A4 & A5 & A6 & A7 & A8)|(k & A1 & A2 & A3 & A4)]]].
      - unfold vx in E. assert (E1 : v_state (V w v) = Run) by congruence. rewrite E1. split; [unfold alive; tauto|]. split; [congruence|tauto].
      - rewrite A1. split; [unfold alive; tauto|tauto].
      - rewrite A1. split; [unfold alive; tauto|tauto].
      - contradiction. }
    destruct Al as (Al & Elog & Ew).
    pose proof (followed_vx c w3 l (V w3 v)) as Fx. apply vride_vx in B4. apply vride_vx in B6. pose proof B5 as B5'. apply updated_view in B5.
    remember (followed c w3 l (V w3 v)) as f eqn:Ef. clear Ef E4.
    assert (Fa : vx (V wa v) = vx f) by congruence. clear B4.
    assert (Et : now c wa = now c w) by (unfold now; rewrite (fr_w_T B1); reflexivity).
    assert (Q2 : v_x (V wa v) = v_x (V w3 v)) by (unfold vx in *; congruence).
    assert (Q4 : v_log (V wa v) = v_log (V w v)) by (unfold vx in *; congruence).
    assert (Q9 : v_state (V wa v) = Run) by (unfold vx in *; congruence).
    assert (Q10 : v_link (V wa v) = Some l) by (unfold vx in *; congruence). clear Fa Fx.
    destruct (log_rowsR c wa v L1 Q9) as (r & R1 & R2 & R3 & R4 & R5).
    assert (Rr : row_of c w v r) by (apply Fst; congruence).
    destruct B5 as [a U1 _ _ _ _ _|k a U1 U2 U3 U4 U5 U6 U7 U8 U9 U10 U11 U12|k e1 e2 a U1 U2 U3 U4 U5 U6 U7 U8 U9 U10 U11]; subst a; [congruence| |].
    + destruct (updated_old c v wa b B5' Q9 U3) as [O1 O2].
      assert (Sb : v_state (V w' v) = Run) by (unfold vx in B6; congruence).
      apply ls_on with (r := r); auto.
      * rewrite Sb. unfold alive. tauto.
      * rewrite <- R1, <- Q4, <- U11. unfold vx in B6. congruence.
      * congruence.
      * intros _. split; [exact Sb|]. split; [unfold vx in B6; congruence|].
        assert (Z : v_xold (V w' v) = v_xold b /\ v_v (V w' v) = v_v b /\ v_x (V w' v) = v_x b) by (unfold vx in B6; repeat split; congruence).
        destruct Z as (-> & -> & ->). split; [congruence|exact O2].
    + assert (Sb : v_state (V w' v) = v_state b) by (unfold vx in B6; congruence).
      assert (Lb : v_log (V w' v) = v_log b) by (unfold vx in B6; congruence).
      apply ls_end with (rows := [r]); auto.
      * rewrite Sb. destruct U7 as [[U7 _]|U7]; rewrite U7; unfold alive; intuition discriminate.
      * right. exists r. auto.
      * rewrite Lb, U10, R1, Q4, U8, L1, Et, Sb. reflexivity.
  - destruct FF as [E|[(out & A1 & A2 & A3 & A4 & A5 & A6)|[(il & out & A1 & A2 & A3 & A4 & A5 & A6 & A7 & A8)|(k & A1 & A2 & A3 & A4)]]];
      [|congruence|congruence|].
    + assert (Es : v_state (V w3 v) = v_state (V w v)) by (unfold vx in E; congruence).
      destruct (alive_dec (v_state (V w3 v))) as [Ha|Ha].
      * destruct (bv_update _ _ _ _ _ _ BV Ha) as (wa & b & B1 & B2 & B3 & B4 & B5 & B6). rewrite (bv_still _ _ _ _ _ _ BV Hr) in B4.
        apply vride_vx in B4. apply vride_vx in B6. apply updated_view in B5. rewrite E in B4.
        assert (Et : now c wa = now c w) by (unfold now; rewrite (fr_w_T B1); reflexivity).
        assert (Hs : v_state (V wa v) = v_state (V w v)) by (unfold vx in *; congruence).
        assert (Hl : v_log (V wa v) = v_log (V w v)) by (unfold vx in *; congruence).
        destruct B5 as [a U1 U2 U3 U4 U5 U6|k a U1 _ _ _ _ _ _ _ _ _ _ _|k e1 e2 a U1 _ _ _ _ _ _ _ _ _ _]; subst a; [|congruence|congruence].
        rewrite (log_rows1 c wa v L1 U1), Hl, Hs, Et in U5.
        assert (Sb : v_state (V w' v) = v_state b) by (unfold vx in B6; congruence).
        assert (Lb : v_log (V w' v) = v_log b) by (unfold vx in B6; congruence).
        apply ls_on with (r := empty_row (now c w) (v_state (V w v))).
        -- rewrite <- Es. exact Ha.
        -- rewrite Sb. destruct U2 as [U2|(_ & U2 & _)]; [rewrite U2, Hs, <- Es; exact Ha|rewrite U2; unfold alive; tauto].
        -- apply ro_still; [congruence|reflexivity].
        -- congruence.
        -- intros _. cbn. destruct U2 as [U2|(U2 & U2' & _)]; [left; congruence|right; split; congruence].
        -- cbn. intro X. congruence.
      * pose proof (bv_gone _ _ _ _ _ _ BV Ha) as Eg. apply vride_vx in Eg. unfold vx in *.
        apply ls_over; [rewrite <- Es; exact Ha|congruence|congruence].
    + pose proof (bv_gone _ _ _ _ _ _ BV A3) as Eg. apply vride_vx in Eg.
      assert (Sb : v_state (V w' v) = v_state (V w3 v)) by (unfold vx in Eg; congruence).
      assert (Lb : v_log (V w' v) = v_log (V w3 v)) by (unfold vx in Eg; congruence).
      apply ls_end with (rows := []); auto; [congruence|]. rewrite Lb, A4, L1, Sb. reflexivity.
Qed.

(** ** The whole log *)
Lemma times_snoc : forall c b n, times c b (S n) = times c b n ++ [at_step c (b + n)].
Proof. intros. unfold times. rewrite seq_S, map_app. reflexivity. Qed.

Lemma row_of_t : forall c w v r, row_of c w v r -> g_t r = now c w.
Proof. intros c w v r [H ->|l H H0 H1 H2 H3 H4|out H H0 H1 H2 H3 H4|il out x H H0 H1 H2 H3 H4 H5 H6]; auto. Qed.
Lemma row_of_alive : forall c w v r, alive (v_state (V w v)) -> row_of c w v r -> alive (g_state r).
Proof.
  intros c w v r A [H ->|l H H0 H1 H2 H3 H4|out H H0 H1 H2 H3 H4|il out x H H0 H1 H2 H3 H4 H5 H6]; auto; unfold alive; auto.
Qed.

Lemma log_ok_step : forall c b w w' v, log_step c w w' v -> log_ok c b w v -> log_ok c b (sw_T (S (w_T w)) w') v.
Proof.
  intros c b w w' v St [K1 K2 K3].
  destruct St as [r A1 A2 A3 A4 _ _|rows A1 A2 A3 A4|A1 A2 A3]; constructor; change (V (sw_T (S (w_T w)) w')) with (V w') in *; change (w_T (sw_T (S (w_T w)) w')) with (S (w_T w)) in *; try lia.
  - intros _. destruct (K2 A1) as [Q1 Q2]. rewrite A4. split.
    + rewrite map_app, Q1, (Nat.sub_succ_l b (w_T w) K1), times_snoc. cbn [map]. rewrite (row_of_t _ _ _ _ A3).
      unfold now, at_step. replace (b + (w_T w - b)) with (w_T w) by lia. reflexivity.
    + apply Forall_app. split; [exact Q2|]. constructor; [|constructor]. exact (row_of_alive c w v r A1 A3).
  - intro X. contradiction.
  - intro X. contradiction.
  - intros _. assert (Al : alive (v_state (V w v))) by (unfold alive; tauto). destruct (K2 Al) as [Q1 Q2].
    exists (w_T w), (v_log (V w v) ++ rows). rewrite A4, app_assoc. repeat split; try lia; auto.
    + destruct A3 as [-> |(r & -> & A3 & A5)]; [left; rewrite app_nil_r; exact Q1|right].
      rewrite map_app, Q1, (Nat.sub_succ_l b (w_T w) K1), times_snoc. cbn [map]. rewrite (row_of_t _ _ _ _ A5).
      unfold now, at_step. replace (b + (w_T w - b)) with (w_T w) by lia. reflexivity.
    + apply Forall_app. split; [exact Q2|]. destruct A3 as [-> |(r & -> & A3 & A5)]; [constructor|].
      constructor; [unfold alive; tauto|constructor].
  - intro X. rewrite A2 in X. contradiction.
  - intros _. destruct (K3 A1) as (e & rows & E1 & E2 & E3 & E4). exists e, rows. rewrite A2, A3. repeat split; try tauto; lia.
Qed.

Lemma log_ok_same : forall c b w w' v, w_T w' = w_T w -> v_log (V w' v) = v_log (V w v) -> v_state (V w' v) = v_state (V w v) ->
  log_ok c b w v -> log_ok c b w' v.
Proof. intros c b w w' v E1 E2 E3 [K1 K2 K3]. constructor; rewrite E1, ?E2, ?E3; auto. Qed.

Lemma later_log : forall c w0 w v b, c_logint c = 1%Z -> reach c w0 -> v < w_nv w0 -> later c any_op w0 w -> log_ok c b w0 v -> log_ok c b w v.
Proof.
  intros c w0 w v b L1 R Hv K A.
  refine (proj1 (later_ride c any_op (fun x => log_ok c b x v) v _ _ _ w0 w R K Hv A)).
  - intros x w3 w4 x' _ _ Hx I _ _ _ J BV. apply log_ok_step; auto. eapply tick_log; eauto.
  - intros x J. apply (log_ok_same c b x); auto.
  - intros x o x' Rx Ho _ Hx H Hvx J. destruct (op_keep c o x x' v Ho Hx H Hvx) as (Kp & _). unfold vkeep in Kp.
    apply (log_ok_same c b x); auto; try congruence. exact (op_clock _ _ _ _ Rx Ho Hx H).
Qed.

(** a vehicle whose log is still empty was created in the current timestep *)
Lemma log_start : forall c w v, v_log (V w v) = [] -> alive (v_state (V w v)) -> log_ok c (w_T w) w v.
Proof.
  intros c w v E A. constructor; [lia| |intro X; contradiction]. intros _. rewrite E, Nat.sub_diag. split; [reflexivity|constructor].
Qed.

Lemma log_lemma : forall c w0 w v, c_logint c = 1%Z -> reach c w0 -> v < w_nv w0 -> later c any_op w0 w ->
  v_log (V w0 v) = [] -> alive (v_state (V w0 v)) -> log_ok c (w_T w0) w v.
Proof. intros. eapply later_log; eauto. apply log_start; auto. Qed.

Lemma log_exists : forall c w v, c_logint c = 1%Z -> reach c w -> v < w_nv w -> exists b, log_ok c b w v.
Proof.
  intros c w v L1 R Hv.
  refine (reachP_ride c any_op (fun x u => exists b, log_ok c b x u) _ _ _ _ w _ v Hv).
  - intros x w3 w4 x' u _ _ Hx I _ _ _ (b & J) BV. exists b. apply log_ok_step; auto. eapply tick_log; eauto.
  - intros x u (b & J). exists b. apply (log_ok_same c b x); auto.
  - intros x o x' u Rx I Ho _ Hx H Hvx (b & J). exists b. destruct (op_keep c o x x' u Ho Hx H Hvx) as (Kp & _). unfold vkeep in Kp.
    apply (log_ok_same c b x); auto; try congruence. exact (op_clock _ _ _ _ (reachP_reach _ _ _ Rx) Ho Hx H).
  - intros x o x' u a nl nm Rx Ho _ Hx H H1 H2 Kp. exists (w_T x').
    assert (A1 : v_log (V x' u) = v_log (new_vehicle c a nl nm)) by (unfold vkeep in Kp; congruence).
    assert (A2 : v_state (V x' u) = v_state (new_vehicle c a nl nm)) by (unfold vkeep in Kp; congruence).
    apply log_start; [rewrite A1; reflexivity|rewrite A2; unfold alive; cbn; tauto].
  - clear v Hv. induction R as [tm|x o x' R IH Ho Hx H|x x' R IH Hf H|x R IH].
    + exists tm. apply lt_refl.
    + eapply reachP_step; [exact IH|]. apply st_op with (o := o); auto. exact Logic.I.
    + eapply reachP_step; [exact IH|]. apply st_tick; auto.
    + eapply reachP_step; [exact IH|]. apply st_time.
Qed.

Lemma tick_log_lemma : forall c w w' v, c_logint c = 1%Z -> reach c w -> v < w_nv w -> tick c w = Ok w' -> log_step c w w' v.
Proof.
  intros c w w' v L1 R Hv H. apply tick_fr in H. destruct H as (w1 & B & ->).
  destruct (body_viewed c v w w1 Hv (reach_Inv2 _ _ R) (reach_IncB _ _ R) (reach_Ends _ _ R) B) as (w3 & w4 & BV).
  pose proof (tick_log c v w w1 w3 w4 L1 Hv (reach_Inv2 _ _ R) BV) as X.
  destruct X as [r A1 A2 A3 A4 A5 A6|rows A1 A2 A3 A4|A1 A2 A3].
  - apply ls_on with (r := r); auto.
  - apply ls_end with (rows := rows); auto.
  - apply ls_over; auto.
Qed.
