(** * Traj: the trajectories recorded in the vehicle logs go forward. *)
From Verif Require Import Base Types Sim Build Heap Lists Inv FrameBase Tac Frame Eff Eff2 Trace InvStep Reach Steps Effects Phases Attr Life Incoming Vev Ride TripLog Route Signal Green Choice Enforce Counts LinkQueries FD NodeCap Origin Bucket Outflow Trials Motion Spacing Spec Distance Totals SpecLogs Logs Edie SpecEdie EdieOK.
Local Open Scope nat_scope.

(** ** Positions during a timestep *)
Lemma pos_first : forall c v w w' w3 w4, (0 <= dt c)%Q -> Geo w -> v < w_nv w -> Pos w v -> body_view c v w w' w3 w4 -> Pos w3 v.
Proof.
  intros c v w w' w3 w4 Hd G Hv P BV. pose proof (bv_fr3 _ _ _ _ _ _ BV) as F3. pose proof (bv_inv3 _ _ _ _ _ _ BV) as I3.
  destruct (first_mo c v w w3 Hd G Hv P (bv_first _ _ _ _ _ _ BV)) as [E|[(A1 & A2 & A3 & A4)|[(A1 & A2 & A3 & A4 & il & out & q & B1 & B2 & B3 & B4 & B5 & B6 & B7 & B8 & B9 & B10)|(A1 & A2 & A3)]]].
  - destruct P as [P1 P2]. unfold vmo in E. split.
    + assert (X : v_remain (V w3 v) = v_remain (V w v)) by congruence. rewrite X. exact P1.
    + assert (X : v_x (V w3 v) = v_x (V w v)) by congruence. rewrite X.
      intros Hr l Hl. rewrite (fr_l_len F3). apply P2; congruence.
  - split; [rewrite A4; apply P|]. intros _ l Hl. rewrite A3. split; [lra|]. rewrite (fr_l_len F3). apply G.
    destruct I3 as [[T3 S3] _]. assert (Hv3 : v < w_nv w3) by (rewrite (fr_w_nv F3); exact Hv).
    destruct (s_link S3 Hv3 ltac:(discriminate)) as [K _]. destruct (K A2) as (k & K1 & K2). rewrite (fr_w_nl F3) in K2. congruence.
  - split; [rewrite A4; lra|]. intros _ l Hl. assert (l = out) by congruence. subst l. rewrite (fr_l_len F3). auto.
  - split; [rewrite A3; apply P|]. intro K. congruence.
Qed.

(** the row of a timestep is on its link; on a new link its position is at most the left-over distance *)
Definition row_pos (w : world) (v : vid) (r : logrow) : Prop := forall l x, g_link r = Some l -> g_x r = Some x ->
  l < w_nl w /\ (0 <= x <= l_len (L w l))%Q /\
  (forall k, v_state (V w v) = Run -> v_link (V w v) = Some k -> k <> l ->
     ~ (l_u (L w k) == 0)%Q /\ (x <= v_remain (V w v) * l_u (L w l) / l_u (L w k))%Q).

Lemma row_pos_empty : forall w v t s, row_pos w v (empty_row t s).
Proof. intros w v t s l x H. discriminate H. Qed.

Lemma tick_rows : forall c v w w' w3 w4, c_logint c = 1%Z -> (0 <= dt c)%Q -> Geo w -> v < w_nv w -> Pos w v -> Inv2 w None ->
  body_view c v w w' w3 w4 -> exists rows, v_log (V w' v) = v_log (V w v) ++ rows /\ Forall (row_pos w v) rows.
Proof.
  intros c v w w' w3 w4 L1 Hd G Hv P I BV. pose proof (bv_fr3 _ _ _ _ _ _ BV) as F3.
  destruct (vstate_dec (v_state (V w3 v)) Run) as [Hr|Hr].
  - pose proof (first_log c v w w3 Hv I (bv_first _ _ _ _ _ _ BV)) as FF.
    pose proof (pos_first c v w w' w3 w4 Hd G Hv P BV) as [_ P3].
    assert (Ha : alive (v_state (V w3 v))) by (apply alive_run; exact Hr).
    destruct (bv_update _ _ _ _ _ _ BV Ha) as (wa & b & B1 & B2 & B3 & B4 & B5 & B6).
    destruct (bv_follow _ _ _ _ _ _ BV Hr) as (l & El & E4). rewrite E4 in B4. specialize (P3 Hr l El). rewrite (fr_l_len F3) in P3.
    assert (Hl : l < w_nl w).
    { destruct (bv_inv3 _ _ _ _ _ _ BV) as [[T3 S3] _]. assert (Hv3 : v < w_nv w3) by (rewrite (fr_w_nv F3); exact Hv).
      destruct (s_link S3 Hv3 ltac:(discriminate)) as [K _]. destruct (K Hr) as (k & K1 & K2). rewrite (fr_w_nl F3) in K2. congruence. }
    assert (Elog : v_log (V w3 v) = v_log (V w v)).
    { destruct FF as [E|[(out & A1 & A2 & A3 & A4 & A5 & A6)|[(il & out & A1 & A2 & A3 & A4 & A5 & A6 & A7 & A8)|(k & A1 & A2 & A3 & A4)]]];
        [unfold vx in E; congruence|exact A6|exact A7|contradiction]. }
    assert (Rp : forall r, g_link r = Some l -> g_x r = Some (v_x (V w3 v)) -> row_pos w v r).
    { intros r G1 G2 l' x' H1 H2. assert (l' = l) by congruence. assert (x' = v_x (V w3 v)) by congruence. subst l' x'.
      split; [exact Hl|]. split; [exact P3|]. intros k Hs Hk Hne.
      destruct (first_mo c v w w3 Hd G Hv P (bv_first _ _ _ _ _ _ BV)) as [E|[(A1 & A2 & A3 & A4)|[(A1 & A2 & A3 & A4 & il & out & q & C1 & C2 & C3 & C4 & C5 & C6 & C7 & C8 & C9 & C10)|(A1 & A2 & A3)]]].
      - exfalso. unfold vmo in E. congruence.
      - congruence.
      - assert (il = k) by congruence. assert (out = l) by congruence. subst il out. split; [exact C5|]. rewrite <- C6. exact C10.
      - congruence. }
    pose proof (followed_vx c w3 l (V w3 v)) as Fx. apply vride_vx in B4. apply vride_vx in B6. apply updated_view in B5.
    remember (followed c w3 l (V w3 v)) as f eqn:Ef. clear Ef E4.
    assert (Fa : vx (V wa v) = vx f) by congruence. clear B4.
    assert (Q2 : v_x (V wa v) = v_x (V w3 v)) by (unfold vx in *; congruence).
    assert (Q4 : v_log (V wa v) = v_log (V w v)) by (unfold vx in *; congruence).
    assert (Q9 : v_state (V wa v) = Run) by (unfold vx in *; congruence).
    assert (Q10 : v_link (V wa v) = Some l) by (unfold vx in *; congruence). clear Fa Fx.
    destruct (log_rowsR c wa v L1 Q9) as (r & R1 & R2 & R3 & R4 & R5).
    assert (Lb : v_log (V w' v) = v_log b) by (unfold vx in B6; congruence).
    destruct B5 as [a U1 _ _ _ _ _|k a U1 U2 U3 U4 U5 U6 U7 U8 U9 U10 U11 U12|k e1 e2 a U1 U2 U3 U4 U5 U6 U7 U8 U9 U10 U11]; subst a; [congruence| |].
    + exists [r]. split; [congruence|]. constructor; [|constructor]. apply Rp; congruence.
    + exists ([r] ++ [empty_row (now c wa) (v_state b)]). split.
      * rewrite Lb, U10, R1, Q4, U8, L1. reflexivity.
      * constructor; [apply Rp; congruence|]. constructor; [apply row_pos_empty|constructor].
  - destruct (tick_log c v w w' w3 w4 L1 Hv I BV) as [r A1 A2 A3 A4 A5 A6|rows A1 A2 A3 A4|A1 A2 A3].
    + exists [r]. split; [exact A4|]. constructor; [|constructor]. 
      destruct (drive_view _ _ _ _ _ _ BV) as [(D1 & D2 & _)|(D1 & _)]; [|contradiction].
      destruct A3 as [B1 B2|l B1 B2 B3 B4 B5 B6|out B1 B2 B3 B4 B5 B6|il out x B1 B2 B3 B4 B5 B6 B7 B8 B9]; try (elim D2; apply A6; assumption).
      rewrite B2. apply row_pos_empty.
    + pose proof (first_log c v w w3 Hv I (bv_first _ _ _ _ _ _ BV)) as FF.
      destruct FF as [E|[(out & C1 & C2 & C3 & C4 & C5 & C6)|[(il & out & C1 & C2 & C3 & C4 & C5 & C6 & C7 & C8)|(k & C1 & C2 & C3 & C4)]]]; try congruence.
      * exfalso. assert (Es : v_state (V w3 v) = v_state (V w v)) by (unfold vx in E; congruence).
        assert (Wt : v_state (V w3 v) = Wait) by (destruct A1; congruence).
        assert (Ha : alive (v_state (V w3 v))) by (rewrite Wt; unfold alive; tauto).
        destruct (bv_update _ _ _ _ _ _ BV Ha) as (wa & b & B1 & B2 & B3 & B4 & B5 & B6). rewrite (bv_still _ _ _ _ _ _ BV Hr) in B4.
        apply vride_vx in B4. apply vride_vx in B6. apply updated_view in B5.
        assert (Hs : v_state (V wa v) = Wait) by (unfold vx in *; congruence).
        destruct B5 as [a U1 U2 U3 U4 U5 U6|k a U1 _ _ _ _ _ _ _ _ _ _ _|k e1 e2 a U1 _ _ _ _ _ _ _ _ _ _]; subst a; [|congruence|congruence].
        apply A2. assert (Sb : v_state (V w' v) = v_state b) by (unfold vx in B6; congruence). rewrite Sb.
        destruct U2 as [U2|(_ & U2 & _)]; rewrite U2, ?Hs; unfold alive; tauto.
      * pose proof (bv_gone _ _ _ _ _ _ BV C3) as Eg. apply vride_vx in Eg.
        assert (Lb : v_log (V w' v) = v_log (V w3 v)) by (unfold vx in Eg; congruence).
        rewrite L1 in C4. eexists. split; [rewrite Lb, C4; reflexivity|]. cbn. constructor; [apply row_pos_empty|constructor].
    + exists []. rewrite app_nil_r. split; [exact A3|constructor].
Qed.

(** ** Visits *)
Definition vfold (rows : list logrow) : option lid * list visit := fold_left (fun s r => visits_step r s) rows (None, []).
Lemma vfold_app : forall a b, vfold (a ++ b) = fold_left (fun s r => visits_step r s) b (vfold a).
Proof. intros a b. unfold vfold. apply fold_left_app. Qed.
Lemma vfold_snoc : forall a r, vfold (a ++ [r]) = visits_step r (vfold a).
Proof. intros a r. rewrite vfold_app. reflexivity. Qed.
Lemma visits_in : forall rows z, In z (visits rows) <-> In z (snd (vfold rows)).
Proof. intros rows z. unfold visits. symmetry. apply in_rev. Qed.

Lemma segs_snoc : forall ps p q, segs (ps ++ [p; q]) = segs (ps ++ [p]) ++ [(p, q)].
Proof.
  induction ps as [|a ps IH]; intros p q; [reflexivity|]. destruct ps as [|b ps]; [reflexivity|].
  change (segs ((a :: b :: ps) ++ [p; q])) with ((a, b) :: segs ((b :: ps) ++ [p; q])). rewrite IH. reflexivity.
Qed.

(** a visit: its points are on the link and before [tm], it goes forward in space and strictly forward in time *)
Record track (len u d tm : Q) (K : Prop) (ps : list point) : Prop := mkTrack {
  tk_in : forall p, In p ps -> (0 <= px p <= len /\ 0 <= pt p /\ pt p + d <= tm)%Q;
  tk_segs : forall s, In s (segs ps) -> (px (fst s) <= px (snd s) /\ pt (fst s) < pt (snd s))%Q;
  tk_ne : ps <> [];
  tk_front : K -> forall p tl, ps = p :: tl -> (px p <= u * d /\ (px p == 0 \/ d <= pt p))%Q }.

Lemma track_later : forall len u d tm tm' (K : Prop) ps, (tm <= tm')%Q -> track len u d tm K ps -> track len u d tm' K ps.
Proof. intros len u d tm tm' K ps H [A B C D]. constructor; auto. intros p Hp. destruct (A p Hp) as (A1 & A2 & A3). repeat split; try lra; apply A1. Qed.
Lemma track_new : forall len u d t (K : Prop) x, (0 <= x <= len)%Q -> (0 <= t)%Q -> (0 <= d)%Q -> (K -> x <= u * d /\ (x == 0 \/ d <= t))%Q ->
  track len u d (t + d) K [(x, t)].
Proof.
  intros len u d t K x Hx Ht Hd Hf. constructor.
  - intros p [<-|[]]. unfold px, pt. cbn. repeat split; try lra; apply Hx.
  - intros s [].
  - discriminate.
  - intros k p tl E. injection E as <- <-. unfold px, pt. cbn. auto.
Qed.
Lemma track_snoc : forall len u d (K : Prop) ps p x t, (0 < d)%Q -> track len u d t K (ps ++ [p]) -> (px p <= x)%Q -> (x <= len)%Q ->
  track len u d (t + d) K ((ps ++ [p]) ++ [(x, t)]).
Proof.
  intros len u d K ps p x t Hd [A B C D] H1 H2.
  destruct (A p) as ((A1 & A1') & A2 & A3); [apply in_or_app; right; left; reflexivity|]. constructor.
  - intros q Hq. apply in_app_or in Hq. destruct Hq as [Hq|[<-|[]]].
    + destruct (A q Hq) as (E1 & E2 & E3). repeat split; try lra; apply E1.
    + unfold px, pt in *. cbn [fst snd]. repeat split; lra.
  - intros s Hs. rewrite <- app_assoc in Hs. cbn [app] in Hs. rewrite segs_snoc in Hs. apply in_app_or in Hs.
    destruct Hs as [Hs|[<-|[]]]; [auto|]. unfold px, pt in *. cbn [fst snd]. split; lra.
  - destruct ps; discriminate.
  - intros k q tl E. destruct ps as [|a ps]; cbn in E; injection E as <- E; eapply D; eauto; reflexivity.
Qed.

Definition Tracks (c : cfg) (K : Prop) (w : world) (v : vid) : Prop := no_loops w -> v_mode (V w v) = SingleTrip ->
  (forall z, In z (snd (vfold (v_log (V w v)))) -> fst z < w_nl w /\ track (l_len (L w (fst z))) (l_u (L w (fst z))) (dt c) (now c w) K (snd z)) /\
  (v_state (V w v) = Run -> exists l ps p tl, v_link (V w v) = Some l /\ vfold (v_log (V w v)) = (Some l, (l, ps ++ [p]) :: tl) /\ (px p <= v_x (V w v))%Q) /\
  (v_state (V w v) = Home \/ v_state (V w v) = Wait -> vfold (v_log (V w v)) = (None, [])).

Lemma now_next : forall c w w', (now c (sw_T (S (w_T w)) w') == now c w + dt c)%Q.
Proof.
  intros c w w'. unfold now. cbn [w_T sw_T]. unfold Qof_nat. rewrite Nat2Z.inj_succ. unfold Z.succ. rewrite inject_Z_plus. ring.
Qed.

Lemma tracks_body : forall c (K : Prop) w w' w3 w4 v, c_logint c = 1%Z -> (0 < dt c)%Q -> Geo w -> Pos w v -> (K -> Rem c w v) -> v < w_nv w -> Inv2 w None ->
  fr w w' -> Tracks c K w v -> body_view c v w w' w3 w4 -> Tracks c K (sw_T (S (w_T w)) w') v.
Proof.
  intros c K w w' w3 w4 v L1 Hd G P RM Hv I F J BV NL Hm.
  assert (Hd' : (0 <= dt c)%Q) by lra.
  change (V (sw_T (S (w_T w)) w')) with (V w') in *. change (L (sw_T (S (w_T w)) w')) with (L w').
  change (w_nl (sw_T (S (w_T w)) w')) with (w_nl w'). rewrite (fr_w_nl F). rewrite (fr_v_mode F) in Hm.
  assert (NLw : no_loops w) by (eapply no_loops_fr; [exact F|]; exact NL).
  destruct (J NLw Hm) as (J1 & J2 & J3). clear J.
  destruct (tick_rows c v w w' w3 w4 L1 Hd' G Hv P I BV) as (rows & Er & Rp).
  pose proof (proj2 (motion_body c v w w' w3 w4 Hd' G Hv F P BV)) as M.
  pose proof (now_next c w w') as Nn. remember (now c (sw_T (S (w_T w)) w')) as tm eqn:Etm. clear Etm.
  assert (T0 : (0 <= now c w)%Q).
  { unfold now. apply Qmult_le_0_compat; [|exact Hd']. unfold Qof_nat. change 0%Q with (inject_Z 0). rewrite <- Zle_Qle. lia. }
  assert (Old : forall z, In z (snd (vfold (v_log (V w v)))) -> fst z < w_nl w /\ track (l_len (L w' (fst z))) (l_u (L w' (fst z))) (dt c) tm K (snd z)).
  { intros z Hz. destruct (J1 z Hz) as [Z1 Z2]. split; [exact Z1|]. rewrite (fr_l_len F), (fr_l_u F). eapply track_later; [|exact Z2]. lra. }
  (* a row on a link *)
  assert (Step : forall r l, row_pos w v r -> row_of c w v r -> g_link r = Some l ->
     exists ps x tl, vfold (v_log (V w v) ++ [r]) = (Some l, (l, ps ++ [(x, now c w)]) :: tl) /\ g_x r = Some x /\
       (forall z, In z (snd (vfold (v_log (V w v) ++ [r]))) -> fst z < w_nl w /\ track (l_len (L w' (fst z))) (l_u (L w' (fst z))) (dt c) tm K (snd z))).
  { intros r l Rr Ro El. rewrite vfold_snoc.
    assert (New : forall s x, vfold (v_log (V w v)) = s -> g_x r = Some x -> g_t r = now c w ->
       (fst s = None \/ exists k, fst s = Some k /\ k <> l) ->
       (K -> x <= l_u (L w l) * dt c /\ (x == 0 \/ dt c <= now c w))%Q ->
       exists ps y tl, visits_step r s = (Some l, (l, ps ++ [(y, now c w)]) :: tl) /\ g_x r = Some y /\
       (forall z, In z (snd (visits_step r s)) -> fst z < w_nl w /\ track (l_len (L w' (fst z))) (l_u (L w' (fst z))) (dt c) tm K (snd z))).
    { intros s x Es Ex Et Hs Hf. exists [], x, (snd s).
      assert (E : visits_step r s = (Some l, (l, [(x, now c w)]) :: snd s)).
      { unfold visits_step. rewrite El, Ex, Et. destruct Hs as [->|(k & -> & Hk)]; [reflexivity|].
        destruct (snd s) as [|[k' ps'] tl]; [reflexivity|]. apply not_eq_sym in Hk. apply Nat.eqb_neq in Hk. rewrite Hk. reflexivity. }
      split; [exact E|]. split; [exact Ex|]. rewrite E. cbn [snd]. intros z [<-|Hz]; [|apply Old; rewrite Es; exact Hz]. cbn [fst snd].
      destruct (Rr l x El Ex) as (R1 & R2 & _). split; [exact R1|]. rewrite (fr_l_len F), (fr_l_u F).
      apply track_later with (tm := (now c w + dt c)%Q); [lra|]. apply track_new; auto. }
    destruct Ro as [B1 B2|k B1 B2 B3 B4 B5 B6|out B1 B2 B3 B4 B5 B6|il out x B1 B2 B3 B4 B5 B6 B7 B8 B9].
    - rewrite B2 in El. discriminate El.
    - assert (k = l) by congruence. subst k.
      destruct (J2 B1) as (l' & ps & p & tl & C1 & C2 & C3). assert (l' = l) by congruence. subst l'. rewrite C2 in *.
      exists (ps ++ [p]), (v_x (V w v)), tl.
      assert (E : visits_step r (Some l, (l, ps ++ [p]) :: tl) = (Some l, (l, (ps ++ [p]) ++ [(v_x (V w v), now c w)]) :: tl)).
      { unfold visits_step. rewrite El, B6, B3. cbn [fst snd]. rewrite Nat.eqb_refl. reflexivity. }
      split; [exact E|]. split; [exact B6|]. rewrite E. cbn [snd]. intros z [<-|Hz]; [|apply Old; right; exact Hz]. cbn [fst snd].
      destruct (Rr l _ El B6) as (R1 & R2 & _). split; [exact R1|]. rewrite (fr_l_len F), (fr_l_u F).
      apply track_later with (tm := (now c w + dt c)%Q); [lra|].
      destruct (J1 (l, ps ++ [p]) (or_introl eq_refl)) as [_ Tk]. cbn [fst snd] in Tk. apply track_snoc; auto. apply R2.
    - apply New with (x := 0%Q); auto.
      + left. rewrite J3 by (right; exact B1). reflexivity.
      + intros _. assert (out = l) by congruence. subst out. destruct (Rr l _ El B6) as (R1 & _).
        destruct (G l R1) as [_ G2]. split; [|left; reflexivity]. apply Qmult_le_0_compat; assumption.
    - assert (out = l) by congruence. subst out.
      destruct (J2 B1) as (l' & ps & p & tl & C1 & C2 & C3). assert (l' = il) by congruence. subst l'.
      destruct I as [[T I] _]. destruct (s_link I Hv ltac:(discriminate)) as [Z _]. destruct (Z B1) as (k' & Z1 & Z2). assert (k' = il) by congruence. subst k'.
      assert (Hne : il <> l).
      { intros ->. specialize (B5 Hm). apply (t_out T) in B5. destruct B5 as [_ B5]. exact (NLw l Z2 B5). }
      apply New with (x := x); auto.
      + right. exists il. rewrite C2. split; [reflexivity|exact Hne].
      + intro k. destruct (RM k) as [_ RM2]. specialize (RM2 B1 il B2). destruct (Rr l x El B9) as (R1 & R2 & R3).
        destruct (R3 il B1 B2 Hne) as [R4 R5]. destruct (G il Z2) as [_ Gi]. destruct (G l R1) as [_ Gl].
        assert (Gi' : (0 < l_u (L w il))%Q) by (apply Qle_lteq in Gi; destruct Gi as [Gi|Gi]; [exact Gi|]; symmetry in Gi; contradiction).
        split.
        * eapply Qle_trans; [exact R5|]. apply Qle_shift_div_r; [exact Gi'|].
          setoid_replace (l_u (L w l) * dt c * l_u (L w il))%Q with (l_u (L w il) * dt c * l_u (L w l))%Q by ring.
          apply Qmult_le_compat_r; assumption.
        * right. destruct (J1 (il, ps ++ [p])) as [_ Tk]; [rewrite C2; left; reflexivity|].
          destruct (tk_in _ _ _ _ _ _ Tk p) as (_ & X1 & X2); [apply in_or_app; right; left; reflexivity|]. lra. }
  destruct (tick_log c v w w' w3 w4 L1 Hv I BV) as [r A1 A2 A3 A4 A5 A6|rs A1 A2 A3 A4|A1 A2 A3].
  - assert (rows = [r]) by (rewrite A4 in Er; apply app_inv_head in Er; congruence). subst rows. inversion Rp as [|? ? Rr _]; subst.
    rewrite A4. destruct (vstate_dec (g_state r) Run) as [Hg|Hg].
    + destruct (A6 Hg) as (D1 & D2 & D3 & D4). destruct (M D1) as (l & M1 & M2 & M3 & M4 & (M5 & M5') & M6 & M7 & M8 & M9 & _).
      destruct (Step r l Rr A3 ltac:(congruence)) as (ps & x & tl & S1 & S2 & S3).
      split; [exact S3|]. split; [|intros [X|X]; congruence].
      intros _. exists l, ps, (x, now c w), tl. split; [exact M3|]. split; [exact S1|]. unfold px. cbn [fst].
      assert (x = v_xold (V w' v)) by congruence. subst x. rewrite M9. exact M5'.
    + assert (El : r = empty_row (now c w) (v_state (V w v)) /\ v_state (V w v) <> Run)
        by (destruct A3 as [B1 B2|k B1 B2 B3 B4 B5 B6|out B1 B2 B3 B4 B5 B6|il out x B1 B2 B3 B4 B5 B6 B7 B8 B9]; [auto|congruence|congruence|congruence]).
      destruct El as [El Hs]. assert (Ev : vfold (v_log (V w v) ++ [r]) = vfold (v_log (V w v))) by (rewrite vfold_snoc, El; reflexivity).
      rewrite Ev. split; [exact Old|].
      assert (Hn : v_state (V w' v) <> Run).
      { specialize (A5 Hg). rewrite El in A5. cbn in A5. destruct A5 as [A5|[_ A5]]; congruence. }
      split; [intro; contradiction|]. intros _. apply J3. unfold alive in A1. destruct (v_state (V w v)); auto; intuition discriminate.
  - assert (Er' : rows = rs ++ [empty_row (now c w) (v_state (V w' v))]) by (rewrite A4 in Er; apply app_inv_head in Er; congruence).
    rewrite A4. rewrite app_assoc, vfold_snoc. change (visits_step (empty_row (now c w) (v_state (V w' v))) (vfold (v_log (V w v) ++ rs))) with (vfold (v_log (V w v) ++ rs)).
    split; [|unfold alive in A2; split; [intro X; elim A2; rewrite X; tauto|intros [X|X]; elim A2; rewrite X; tauto]].
    destruct A3 as [->|(r & -> & Hg & Ro)]; [rewrite app_nil_r; exact Old|].
    assert (Rr : row_pos w v r) by (rewrite Er' in Rp; inversion Rp; assumption).
    assert (El : exists l, g_link r = Some l).
    { destruct Ro as [B1 B2|k B1 B2 B3 B4 B5 B6|out B1 B2 B3 B4 B5 B6|il out x B1 B2 B3 B4 B5 B6 B7 B8 B9]; [|eauto|eauto|eauto].
      rewrite B2 in Hg. contradiction. }
    destruct El as (l & El). destruct (Step r l Rr Ro El) as (ps & x & tl & S1 & S2 & S3). exact S3.
  - rewrite A3, A2. split; [exact Old|]. unfold alive in A1. split; [intro X; elim A1; rewrite X; tauto|intros [X|X]; elim A1; rewrite X; tauto].
Qed.

Lemma reach_Tracks : forall c (P : op -> world -> Prop) (K : Prop), c_logint c = 1%Z -> (0 < dt c)%Q -> (forall o w, P o w -> sound_links o w) ->
  (K -> forall o w, P o w -> keep_speed o w) -> forall w, reachP c P w -> forall v, v < w_nv w -> Tracks c K w v.
Proof.
  intros c P K L1 Hd HP HK. assert (Hd' : (0 <= dt c)%Q) by lra. apply reachP_ride.
  - intros w w3 w4 w' v R _ Hv I _ F _ J BV. eapply tracks_body; eauto.
    + exact (reach_Geo c P HP w R).
    + exact (reach_Pos c P Hd' HP w R v Hv).
    + intro k. exact (reach_Rem c P Hd' (HK k) w R v Hv).
  - intros w v J. exact J.
  - intros w o w' v R I Ho Hp Hx H Hv J NL' Hm. destruct (op_keep c o w w' v Ho Hx H Hv) as (Kp & _). unfold vkeep in Kp.
    assert (E1 : v_state (V w' v) = v_state (V w v)) by congruence. assert (E2 : v_mode (V w' v) = v_mode (V w v)) by congruence.
    assert (E3 : v_log (V w' v) = v_log (V w v)) by congruence. assert (E4 : v_x (V w' v) = v_x (V w v)) by congruence.
    assert (E5 : v_link (V w' v) = v_link (V w v)) by congruence. clear Kp.
    destruct (op_nl _ _ _ _ Hx H Ho) as (Hn & _).
    assert (NL : no_loops w).
    { intros l Hl. destruct (op_net c o w w' l Ho Hx H Hl) as [<- <-]. apply NL'. unfold exists_link in *. lia. }
    rewrite E2 in Hm. destruct (J NL Hm) as (J1 & J2 & J3). rewrite E1, E3, E4, E5. split; [|split; assumption].
    intros z Hz. destruct (J1 z Hz) as [Z1 Z2]. split; [lia|].
    assert (Et : now c w' = now c w) by (unfold now; rewrite (op_clock _ _ _ _ (reachP_reach _ _ _ R) Ho Hx H); reflexivity).
    rewrite (op_len c o w w' (fst z) Ho Hx H Z1), Et. destruct Z2 as [Z2 Z3 Z4 Z5]. constructor; auto.
    intros k. rewrite (op_speed c o w w' (fst z) Ho Hx (proj2 (HK k _ _ Hp)) H Z1). exact (Z5 k).
  - intros w o w' v a nl nm R Ho Hp Hx H H1 H2 Kp. unfold vkeep in Kp.
    assert (E1 : v_log (V w' v) = []) by (change (@nil logrow) with (v_log (new_vehicle c a nl nm)); congruence).
    assert (E2 : v_state (V w' v) = Home) by (change Home with (v_state (new_vehicle c a nl nm)); congruence).
    intros _ _. rewrite E1, E2. split; [intros z []|]. split; [discriminate|reflexivity].
Qed.

(** ** The trajectories of a link *)
Definition tidy (len tm : Q) (ps : list point) : Prop :=
  (forall p, In p ps -> (0 <= px p <= len /\ 0 <= pt p <= tm)%Q) /\ (forall s, In s (segs ps) -> (px (fst s) <= px (snd s) /\ pt (fst s) < pt (snd s))%Q).

Lemma segs_in : forall ps s, In s (segs ps) -> In (fst s) ps /\ In (snd s) ps.
Proof.
  induction ps as [|a ps IH]; intros s H; [elim H|]. destruct ps as [|b ps]; [elim H|].
  change (segs (a :: b :: ps)) with ((a, b) :: segs (b :: ps)) in H. destruct H as [<-|H]; [cbn; auto|].
  apply IH in H. split; right; apply H.
Qed.
Lemma tidy_all : forall len tm trs, (forall tr, In tr trs -> tidy len tm tr) -> all_forward trs /\ within len tm trs.
Proof.
  intros len tm trs H. split.
  - intros tr s Ht Hs. destruct (H tr Ht) as [A B]. destruct (segs_in _ _ Hs) as [C1 C2].
    destruct (A _ C1) as (A1 & A2). destruct (A _ C2) as (A3 & A4). destruct (B s Hs) as [B1 B2]. unfold forward. repeat split; try lra; apply A1 || apply A2.
  - intros s Hs. unfold all_segs in Hs. apply in_flat_map in Hs. destruct Hs as (tr & Ht & Hs). destruct (H tr Ht) as [A B].
    destruct (segs_in _ _ Hs) as [_ C2]. destruct (A _ C2) as (A3 & A4). split; [apply A3|apply A4].
Qed.
Lemma track_tidy : forall len u d tm (K : Prop) ps, (0 <= d)%Q -> track len u d tm K ps -> tidy len tm ps.
Proof. intros len u d tm K ps Hd [A B _ _]. split; [|exact B]. intros p Hp. destruct (A p Hp) as (A1 & A2 & A3). repeat split; try lra; apply A1. Qed.

Lemma recorded_in : forall w l tr, In tr (recorded w l) -> exists v, v < w_nv w /\ In (l, tr) (visits (v_log (V w v))).
Proof.
  intros w l tr H. unfold recorded in H. apply in_flat_map in H. destruct H as (v & Hv & H). apply in_seq in Hv.
  apply in_map_iff in H. destruct H as ([k ps] & E & H). cbn in E. subst ps. apply filter_In in H. destruct H as [H1 H2]. cbn in H2.
  apply Nat.eqb_eq in H2. subst k. exists v. split; [lia|exact H1].
Qed.

Lemma recorded_lemma : forall c w l, c_logint c = 1%Z -> (0 < dt c)%Q -> reachP c sound_links w -> no_loops w -> Singles w ->
  all_forward (recorded w l) /\ within (l_len (L w l)) (now c w) (recorded w l).
Proof.
  intros c w l L1 Hd R NL Sg. apply tidy_all. intros tr Ht. destruct (recorded_in _ _ _ Ht) as (v & Hv & Hz). apply visits_in in Hz.
  destruct (reach_Tracks c sound_links False L1 Hd (fun _ _ H => H) ltac:(tauto) w R v Hv NL (Sg v Hv)) as (J & _).
  destruct (J _ Hz) as [_ Tk]. cbn [fst snd] in Tk. eapply track_tidy; [|exact Tk]. lra.
Qed.

(** ** The extrapolation *)
Lemma nonempty_snoc : forall (A : Type) (l : list A), l <> [] -> exists a x, l = a ++ [x].
Proof. intros A l H. destruct (exists_last H) as (a & x & E). eauto. Qed.

Lemma px_pair : forall a b : Q, px (a, b) = a.
Proof. reflexivity. Qed.
Lemma pt_pair : forall a b : Q, pt (a, b) = b.
Proof. reflexivity. Qed.
Lemma front_tidy : forall len u d tm ps, (0 < d)%Q -> (0 <= u)%Q -> track len u d tm True ps ->
  tidy len tm (extend_front u d ps) /\ exists a p, extend_front u d ps = a ++ [p] /\ (pt p + d <= tm)%Q.
Proof.
  intros len u d tm ps Hd Hu Tk. pose proof (track_tidy _ _ _ _ _ _ (Qlt_le_weak _ _ Hd) Tk) as Td.
  destruct Tk as [A B C D]. destruct (nonempty_snoc _ ps C) as (a & p & E).
  assert (Hp : (pt p + d <= tm)%Q) by (apply A; rewrite E; apply in_or_app; right; left; reflexivity).
  destruct ps as [|q tl]; [congruence|]. cbn [extend_front].
  destruct (negb (qeq (px q) 0) && qlt (d * (1 # 100)) (px q / u))%bool eqn:Cd.
  - apply andb_true_iff in Cd. destruct Cd as [C1 C2]. apply negb_true_iff in C1. apply qlt_iff in C2.
    assert (C1' : ~ (px q == 0)%Q) by (intro K; apply qeq_iff in K; congruence).
    destruct (D Logic.I q tl eq_refl) as [D1 [D2|D2]]; [contradiction|].
    destruct (A q (or_introl eq_refl)) as ((A1 & A2) & A3 & A4).
    assert (Up : (0 < u)%Q).
    { apply Qle_lteq in Hu. destruct Hu as [Hu|Hu]; [exact Hu|]. exfalso. rewrite <- Hu in D1. apply C1'. lra. }
    assert (X1 : (px q / u <= d)%Q) by (apply Qle_shift_div_r; [exact Up|rewrite Qmult_comm; exact D1]).
    split; [split|].
    + intros z [<-|Hz]; [|apply Td; exact Hz]. rewrite px_pair, pt_pair. repeat split; lra.
    + intros s Hs. change (segs ((0%Q, (pt q - px q / u)%Q) :: q :: tl)) with (((0%Q, (pt q - px q / u)%Q), q) :: segs (q :: tl)) in Hs.
      destruct Hs as [<-|Hs]; [|apply B; exact Hs]. cbn [fst snd]. rewrite px_pair, pt_pair. split; lra.
    + exists ((0%Q, (pt q - px q / u)%Q) :: a), p. rewrite E. split; [reflexivity|exact Hp].
  - split; [exact Td|]. exists a, p. auto.
Qed.

Lemma back_tidy : forall len u d tm a p, (0 < d)%Q -> (0 <= u)%Q -> tidy len tm (a ++ [p]) -> (pt p + d <= tm)%Q -> tidy len tm (extend_back u len d (a ++ [p])).
Proof.
  intros len u d tm a p Hd Hu [A B] Hp. unfold extend_back. rewrite last_opt_app.
  destruct (qle (len - u * d) (px p) && qlt (px p) len && qlt (d * (1 # 100)) ((len - px p) / u))%bool eqn:Cd; [|split; assumption].
  rewrite !andb_true_iff in Cd. destruct Cd as [[C1 C2] C3]. apply qle_iff in C1. apply qlt_iff in C2. apply qlt_iff in C3.
  assert (Up : (0 < u)%Q).
  { apply Qle_lteq in Hu. destruct Hu as [Hu|Hu]; [exact Hu|]. exfalso. rewrite <- Hu in C1. lra. }
  assert (X1 : ((len - px p) / u <= d)%Q) by (apply Qle_shift_div_r; [exact Up|lra]).
  destruct (A p) as ((A1 & A2) & A3 & A4); [apply in_or_app; right; left; reflexivity|]. split.
  - intros z Hz. apply in_app_or in Hz. destruct Hz as [Hz|[<-|[]]]; [auto|]. rewrite px_pair, pt_pair. repeat split; lra.
  - intros s Hs. rewrite <- app_assoc in Hs. cbn [app] in Hs. rewrite segs_snoc in Hs. apply in_app_or in Hs.
    destruct Hs as [Hs|[<-|[]]]; [auto|]. cbn [fst snd]. rewrite px_pair, pt_pair. split; lra.
Qed.

Lemma extended_lemma : forall c w l, c_logint c = 1%Z -> (0 < dt c)%Q -> reachP c keep_speed w -> no_loops w -> Singles w -> l < w_nl w ->
  let trs := map (extend (l_u (L w l)) (l_len (L w l)) (dt c)) (recorded w l) in
  all_forward trs /\ within (l_len (L w l)) (now c w) trs.
Proof.
  intros c w l L1 Hd R NL Sg Hl trs. apply tidy_all. intros tr0 Ht. unfold trs in Ht. apply in_map_iff in Ht. destruct Ht as (tr & <- & Ht).
  destruct (recorded_in _ _ _ Ht) as (v & Hv & Hz). apply visits_in in Hz.
  assert (HS : forall o w, keep_speed o w -> sound_links o w) by (intros o x K; apply K).
  destruct (reach_Tracks c keep_speed True L1 Hd HS (fun _ _ _ H => H) w R v Hv NL (Sg v Hv)) as (J & _).
  destruct (J _ Hz) as [_ Tk]. cbn [fst snd] in Tk. destruct (reach_Geo c keep_speed HS w R l Hl) as [_ Gu].
  destruct (front_tidy _ _ _ _ _ Hd Gu Tk) as [Td (a & p & E & Hp)]. unfold extend. rewrite E in *. apply back_tidy; assumption.
Qed.

(** the cells of a simulated link: they contain the extrapolated trajectories *)
Lemma simulated_lemma : forall c w l dx dtE tmax nx nt, c_logint c = 1%Z -> (0 < dt c)%Q -> reachP c keep_speed w -> no_loops w -> Singles w -> l < w_nl w ->
  (0 < dx)%Q -> (0 < dtE)%Q -> (l_len (L w l) == inject_Z (Z.of_nat nx) * dx)%Q -> (tmax == inject_Z (Z.of_nat nt) * dtE)%Q -> (now c w <= tmax)%Q ->
  let trs := map (extend (l_u (L w l)) (l_len (L w l)) (dt c)) (recorded w l) in
  exists m, edie dx dtE (l_len (L w l)) tmax (dN c) trs = Ok m /\
    (cell_sum nt nx (fun i j => fst (m i j)) == dN c * qsum (map (fun s => px (snd s) - px (fst s)) (all_segs trs)))%Q /\
    (cell_sum nt nx (fun i j => snd (m i j)) == dN c * qsum (map (fun s => pt (snd s) - pt (fst s)) (filter (fun s => qlt (px (fst s)) (l_len (L w l))) (all_segs trs))))%Q.
Proof.
  intros c w l dx dtE tmax nx nt L1 Hd R NL Sg Hl H1 H2 H3 H4 H5. destruct (extended_lemma c w l L1 Hd R NL Sg Hl) as [A B]. cbv zeta in *.
  apply whole_lemma; auto. intros s Hs. destruct (B s Hs) as [B1 B2]. split; [exact B1|]. lra.
Qed.

(** the rows of a timestep *)
Lemma row_position_lemma : forall c w w' v, c_logint c = 1%Z -> (0 <= dt c)%Q -> reachP c sound_links w -> exists_veh w v -> tick c w = Ok w' ->
  exists rows, v_log (V w' v) = v_log (V w v) ++ rows /\ forall r l x, In r rows -> g_link r = Some l -> g_x r = Some x ->
    exists_link w l /\ (0 <= x <= l_len (L w l))%Q /\
    (forall k, on_link w v k -> k <> l -> ~ (l_u (L w k) == 0)%Q /\ (x <= v_remain (V w v) * l_u (L w l) / l_u (L w k))%Q).
Proof.
  intros c w w' v L1 Hd Rp Hv H. pose proof (reachP_reach _ _ _ Rp) as R. apply tick_fr in H. destruct H as (w1 & B & ->).
  destruct (body_viewed c v w w1 Hv (reach_Inv2 _ _ R) (reach_IncB _ _ R) (reach_Ends _ _ R) B) as (w3 & w4 & BV).
  destruct (tick_rows c v w w1 w3 w4 L1 Hd (reach_Geo c _ (fun _ _ K => K) w Rp) Hv (reach_Pos c _ Hd (fun _ _ K => K) w Rp v Hv) (reach_Inv2 _ _ R) BV) as (rows & E & F).
  exists rows. split; [exact E|]. intros r l x Hr Hl Hx. rewrite Forall_forall in F. destruct (F r Hr l x Hl Hx) as (F1 & F2 & F3).
  split; [exact F1|]. split; [exact F2|]. intros k [K1 K2] Hk. apply F3; assumption.
Qed.
