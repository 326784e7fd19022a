(** The per-timestep log of a vehicle and its route (uxsim.py 1507-1556).
    [record_log] writes a row with the current link every [c_logint] timesteps; the route of a vehicle is read off
    another list, which gets an entry whenever the link changed.  The two agree if every timestep is logged; with a
    longer interval a link passed between two logged timesteps is missing in the log. *)
From Coq Require Import List Arith ZArith QArith Bool String Lia.
From Verif Require Import Base Types Sim Build Heap Lists Inv FrameBase Tac Frame Eff Eff2 Trace InvStep Reach Steps Effects Phases Attr Life Incoming Vev Ride TripLog Spec.
Import ListNotations.
Local Open Scope nat_scope.

(** the links of the per-timestep log *)
Definition seen (a : vehicle) (l : lid) : Prop := exists r, In r (v_log a) /\ g_link r = Some l.

Record LR (c : cfg) (a : vehicle) : Prop := mkLR {
  lr_log : forall l, seen a l -> In l (links_of (v_tlog a));
  lr_run : forall r, In r (v_log a) -> g_link r <> None -> g_state r = Run;
  lr_old : forall l, v_linkold a = Some l -> In l (links_of (v_tlog a));
  lr_all : c_logint c = 1%Z -> forall l, In l (links_of (v_tlog a)) -> seen a l }.

Lemma LR_eq : forall c a b, v_log a = v_log b -> v_tlog a = v_tlog b -> v_linkold a = v_linkold b -> LR c b -> LR c a.
Proof. intros c a b E1 E2 E3 [A B C D]. constructor; unfold seen in *; rewrite ?E1, ?E2, ?E3 in *; auto. Qed.
Lemma LR_vride : forall c a b, vride a = vride b -> LR c b -> LR c a.
Proof. intros c a b E. apply vride_eq in E. apply LR_eq; intuition congruence. Qed.

Lemma links_of_app : forall a b, links_of (a ++ b) = links_of a ++ links_of b.
Proof. intros. unfold links_of. apply flat_map_app. Qed.

Lemma seen_app : forall a rs b l, v_log b = v_log a ++ rs -> seen b l <-> seen a l \/ exists r, In r rs /\ g_link r = Some l.
Proof.
  intros a rs b l E. unfold seen. rewrite E. split.
  - intros (r & H & K). apply in_app_iff in H. destruct H as [H|H]; eauto.
  - intros [(r & H & K)|(r & H & K)]; exists r; (split; [apply in_app_iff; auto|exact K]).
Qed.

(** the rows written by [record_log] name the current link only *)
Lemma log_row_link : forall c w v l, (exists r, In r (log_rows c w v false) /\ g_link r = Some l) ->
  v_state (V w v) = Run /\ v_link (V w v) = Some l.
Proof.
  intros c w v l (r & H & K). unfold log_rows in H. destruct (_ && _) in H; [|destruct H].
  destruct (v_state (V w v)); destruct H as [<-|[]]; cbn in K; try discriminate K. auto.
Qed.
Lemma log_row_every : forall c w v l, c_logint c = 1%Z -> v_state (V w v) = Run -> v_link (V w v) = Some l ->
  exists r, In r (log_rows c w v false) /\ g_link r = Some l.
Proof. intros c w v l E S H. unfold log_rows. rewrite E, S, H. cbn. eexists. split; [left; reflexivity|reflexivity]. Qed.

Lemma tlog_row_link : forall c w a l, In l (links_of (tlog_rows c w a)) -> v_state a = Run /\ v_link a = Some l.
Proof.
  intros c w a l H. unfold tlog_rows in H. destruct (opt_eqb _ _) in H; [destruct H|].
  destruct (v_state a); try (destruct H; fail); destruct (v_link a) as [k|]; cbn in H; try (destruct H; fail).
  destruct H as [<-|[]]. auto.
Qed.
Lemma opt_eqb_some : forall a b, opt_eqb a b = true -> a = b.
Proof. intros [x|] [y|]; cbn; intro H; try discriminate H; auto. apply Nat.eqb_eq in H. congruence. Qed.

Lemma LR_logged : forall c w v, (v_state (V w v) <> Run -> v_link (V w v) = None) -> LR c (V w v) -> LR c (logged c w v false).
Proof.
  intros c w v Hn [A D B C]. unfold logged. remember (V w v) as a eqn:Ea.
  assert (Cur : forall l, v_state a = Run -> v_link a = Some l -> In l (links_of (v_tlog a ++ tlog_rows c w a))).
  { intros l S H. rewrite links_of_app. apply in_app_iff. unfold tlog_rows.
    destruct (opt_eqb (v_link a) (v_linkold a)) eqn:E.
    - left. apply B. apply opt_eqb_some in E. congruence.
    - right. rewrite S, H. left. reflexivity. }
  constructor; cbn [v_tlog v_linkold sv_linkold sv_tlog sv_log].
  - intros l H. eapply seen_app in H; [|reflexivity]. destruct H as [H|H].
    + rewrite links_of_app. apply in_app_iff. left. apply A. exact H.
    + apply log_row_link in H. rewrite <- Ea in H. apply Cur; tauto.
  - intros r H K. cbn [v_log sv_linkold sv_tlog sv_log] in H. apply in_app_iff in H. destruct H as [H|H]; [apply D; auto|].
    unfold log_rows in H. destruct (_ && _) in H; [|destruct H].
    destruct (v_state (V w v)); destruct H as [<-|[]]; cbn in K; try congruence. reflexivity.
  - intros l H. apply Cur; [|exact H]. destruct (v_state a) eqn:S; auto; exfalso; rewrite Hn in H; discriminate.
  - intros E l H. eapply seen_app; [reflexivity|]. rewrite links_of_app in H. apply in_app_iff in H. destruct H as [H|H].
    + left. apply C; auto.
    + right. apply tlog_row_link in H. apply log_row_every; [exact E|rewrite <- Ea; tauto|rewrite <- Ea; tauto].
Qed.

Lemma LR_ended : forall c a b lg tl rs ts, v_log b = lg -> v_tlog b = tl -> v_linkold b = None ->
  lg = v_log a ++ rs -> tl = v_tlog a ++ ts -> (forall r, In r rs -> g_link r = None) -> links_of ts = [] -> LR c a -> LR c b.
Proof.
  intros c a b lg tl rs ts E1 E2 E3 E4 E5 Hr Ht [A D B C]. subst lg tl.
  assert (K : forall l, In l (links_of (v_tlog b)) <-> In l (links_of (v_tlog a))).
  { intro l. rewrite E5, links_of_app, Ht, app_nil_r. tauto. }
  assert (M : forall l, seen b l <-> seen a l).
  { intro l. rewrite (seen_app a rs b l E4). split; [|auto]. intros [H|(r & H & G)]; [exact H|]. rewrite (Hr r H) in G. discriminate G. }
  constructor.
  - intros l H. apply K, A, M, H.
  - intros r H G. rewrite E4 in H. apply in_app_iff in H. destruct H as [H|H]; [apply D; auto|]. rewrite (Hr r H) in G. congruence.
  - intros l H. rewrite E3 in H. discriminate H.
  - intros E l H. apply M, C, K, H; auto.
Qed.

Lemma LR_step : forall c e w p w' p', Inv2 w p -> (forall v, v < w_nv w -> LR c (V w v)) -> mstep c e w p w' p' ->
  forall v, v < w_nv w' -> LR c (V w' v).
Proof.
  intros c e w p w' p' I H M v Hv.
  assert (Hv0 : v < w_nv w) by (rewrite <- (fr_w_nv (mstep_fr M)); exact Hv).
  specialize (H v Hv0). destruct (mstep_vev c e w p w' p' I M v).
  - eapply LR_vride; eauto.
  - rewrite H7. apply (LR_eq c _ (V w v)); [reflexivity..|exact H].
  - rewrite H10. apply (LR_eq c _ (V w v)); [reflexivity..|exact H].
  - apply vride_eq in H7. eapply LR_ended with (lg := lg) (tl := tl); [| | | exact H5|exact H6| | |exact H].
    + destruct H7 as (_ & _ & _ & _ & _ & _ & _ & _ & _ & _ & _ & _ & _ & _ & _ & _ & _ & -> & _). reflexivity.
    + destruct H7 as (_ & _ & _ & _ & _ & _ & _ & _ & _ & _ & _ & _ & _ & _ & _ & _ & _ & _ & -> & _). reflexivity.
    + destruct H7 as (_ & _ & _ & _ & _ & _ & _ & _ & _ & _ & _ & _ & _ & _ & _ & _ & _ & _ & _ & -> & _). reflexivity.
    + intros r Hr. destruct (negb _) in Hr; [|destruct Hr]. destruct Hr as [<-|[]]. reflexivity.
    + destruct (opt_eqb _ _); [reflexivity|]. destruct (v_aborted _); reflexivity.
  - rewrite H2. apply (LR_eq c _ (V w v)); [..|exact H]; unfold followed; destruct (qlt _ _); reflexivity.
  - subst e. rewrite H2. apply LR_logged; [|exact H]. inversion M; subst.
    destruct I as [[T J] _]. apply (s_link J Hv0). discriminate.
  - rewrite H4. apply (LR_eq c _ (V w v)); [reflexivity..|exact H].
  - rewrite H3. apply (LR_eq c _ (V w v)); [reflexivity..|exact H].
  - rewrite H3. apply (LR_eq c _ (V w v)); [reflexivity..|exact H].
  - rewrite H5. apply (LR_eq c _ (V w v)); [reflexivity..|exact H].
  - rewrite H4. apply (LR_eq c _ (V w v)); [reflexivity..|exact H].
Qed.

Theorem reach_LR : forall c w, reach c w -> forall v, v < w_nv w -> LR c (V w v).
Proof.
  intros c w R. pose (A := fun (w : world) (p : pend) => forall v, v < w_nv w -> LR c (V w v)).
  change (A w None). apply (reach_phase c A A A); try exact R; unfold A; clear.
  - intros e w p w' p' _ I H M. eapply LR_step; eauto.
  - auto.
  - intros e w p w' p' _ I H M. eapply LR_step; eauto.
  - auto.
  - intros e w p w' p' _ I H M. eapply LR_step; eauto.
  - intros tm v H. cbn in H. lia.
  - intros w _ _ H v Hv. exact (H v Hv).
  - intros w w' I Cl IH O v Hv.
    destruct O; unfold wkeep in *.
    + apply IH; auto.
    + apply IH; auto.
    + cbn in Hv. destruct (Nat.eq_dec v (w_nv w)) as [-> | Hne].
      * unfold V; cbn. rewrite upd_same. cbn. constructor; cbn; try discriminate; try tauto. intros l (r & [] & _).
      * assert (Ev : V (added_veh (new_vehicle c a nl nm) pv w) v = V w v) by (unfold V; cbn; rewrite upd_other by auto; reflexivity).
        rewrite Ev. apply IH. lia.
    + pose proof (finalize_ok _ _ _ _ H0) as Z. assert (Ev : V w' v = V w v) by (unfold V; rewrite (fz_V _ _ _ Z); reflexivity).
      pose proof (fz_cnt _ _ _ Z) as Zc. rewrite Ev. apply IH. replace (w_nv w) with (w_nv w') by congruence. exact Hv.
    + apply (LR_eq c _ (V w v)); [..|apply IH; replace (w_nv w) with (w_nv w') by congruence; exact Hv]; specialize (H v); unfold vkeep in H; congruence.
    + assert (Ev : V w' v = V w v) by (unfold V; rewrite H; reflexivity). rewrite Ev. apply IH.
      replace (w_nv w) with (w_nv w') by congruence. exact Hv.
Qed.

(** the links in the log are links of the route; all of them if every timestep is logged *)
Theorem log_route : forall c w v, reach c w -> exists_veh w v ->
  (forall l, seen (V w v) l -> In l (route_of (V w v))) /\
  (c_logint c = 1%Z -> forall l, In l (route_of (V w v)) -> seen (V w v) l).
Proof. intros c w v R Hv. destruct (reach_LR c w R v Hv) as [A D B C]. split; assumption. Qed.
