(** * Errors: which errors a timestep can raise (C20). *)
From Verif Require Import Base Types Sim Build Heap Lists Inv FrameBase Tac Frame Eff Eff2 Trace InvStep Reach Steps Effects Phases Attr Life Incoming Vev Ride TripLog Route Signal Green Choice Enforce Counts LinkQueries FD NodeCap Origin Bucket Outflow Trials Motion Spacing Spec Distance Totals SpecDuo Duo Search DuoInv Prefs SpecSafe Safe.
Local Open Scope nat_scope.

(** a result is an error only for a documented reason, present in a state reached on the way *)
Definition fault (c : cfg) (w : world) (e : exn) : Prop := e = ValueError /\ exists w1, run c k_all w w1 /\ route_fault w1.
Definition fine {A} (c : cfg) (w : world) (r : result A) : Prop := forall e, r = Err e -> fault c w e.

Lemma fault_run : forall c w w' e, run c k_all w w' -> fault c w' e -> fault c w e.
Proof. intros c w w' e R (E & w1 & R1 & F). split; [exact E|]. exists w1. split; [eapply run_trans; eauto|exact F]. Qed.
Lemma run_all : forall c K w w', run c K w w' -> run c k_all w w'.
Proof. intros c K w w' R. eapply run_weaken; [|exact R]. reflexivity. Qed.
Lemma fine_ok : forall A c w (x : A), fine c w (Ok x).
Proof. intros A c w x e H. discriminate. Qed.
Lemma fine_total : forall A c w (r : result A), (exists x, r = Ok x) -> fine c w r.
Proof. intros A c w r (x & ->). apply fine_ok. Qed.
Lemma fine_bind : forall A B c w (r : result A) (f : A -> result B),
  fine c w r -> (forall x, r = Ok x -> fine c w (f x)) -> fine c w (bind r f).
Proof. intros A B c w r f H K e E. destruct r as [x|e']; cbn in E; [eapply K; eauto|]. injection E as <-. apply H. reflexivity. Qed.
Lemma fine_run : forall A c K w w' (r : result A), run c K w w' -> fine c w' r -> fine c w r.
Proof. intros A c K w w' r R H e E. eapply fault_run; [eapply run_all; exact R|auto]. Qed.

Lemma fine_foldM : forall A c (P : list A -> world -> Prop) (f : A -> world -> result world),
  (forall x xs w, P (x :: xs) w -> fine c w (f x w)) ->
  (forall x xs w w', P (x :: xs) w -> f x w = Ok w' -> run c k_all w w' /\ P xs w') ->
  forall xs w, P xs w -> fine c w (foldM f xs w).
Proof.
  intros A c P f H1 H2 xs; induction xs as [|x xs IH]; intros w H; cbn [foldM]; [apply fine_ok|].
  apply fine_bind; [eapply H1; eauto|]. intros w' E. destruct (H2 _ _ _ _ H E) as [R Q]. eapply fine_run; [exact R|auto].
Qed.
Lemma mapM_total : forall A B (f : A -> result B) l, (forall x, In x l -> exists y, f x = Ok y) -> exists ys, mapM f l = Ok ys.
Proof.
  intros A B f l; induction l as [|x l IH]; intro H; cbn; [eauto|].
  destruct (H x (or_introl eq_refl)) as (y & ->). destruct IH as (ys & E); [intros z Hz; apply H; right; exact Hz|].
  cbn. rewrite E. cbn. eauto.
Qed.
Lemma mapM_len : forall A B (f : A -> result B) l ys, mapM f l = Ok ys -> List.length ys = List.length l.
Proof.
  intros A B f l; induction l as [|x l IH]; intros ys H; cbn in H; [injection H as <-; reflexivity|].
  apply bind_ok in H. destruct H as (y & _ & H). apply bind_ok in H. destruct H as (zs & E & H). injection H as <-. cbn. f_equal. auto.
Qed.
Lemma mapM_all : forall A B (f : A -> result B) (P : B -> Prop) l ys, (forall x y, In x l -> f x = Ok y -> P y) -> mapM f l = Ok ys -> Forall P ys.
Proof.
  intros A B f P l; induction l as [|x l IH]; intros ys Hp H; cbn in H; [injection H as <-; constructor|].
  apply bind_ok in H. destruct H as (y & E & H). apply bind_ok in H. destruct H as (zs & E2 & H). injection H as <-.
  constructor; [eapply Hp; [left; reflexivity|exact E]|]. apply IH; auto. intros z q Hz. apply Hp. right. exact Hz.
Qed.
Lemma filterM_total : forall A (f : A -> result bool) l, (forall x, In x l -> exists y, f x = Ok y) -> exists ys, filterM f l = Ok ys.
Proof.
  intros A f l; induction l as [|x l IH]; intro H; cbn; [eauto|].
  destruct (H x (or_introl eq_refl)) as (y & ->). destruct IH as (ys & E); [intros z Hz; apply H; right; exact Hz|].
  cbn. rewrite E. cbn. eauto.
Qed.

(** ** Random choices *)
Lemma choice_uniform_total : forall c xs w, xs <> [] -> exists p, choice_uniform c xs w = Ok p.
Proof.
  intros c xs w H. unfold choice_uniform. cbn.
  destruct (nth_error xs (Nat.modulo (c_orc c (w_draw w)) (List.length xs))) eqn:E; [eauto|].
  apply nth_error_None in E. exfalso.
  assert (List.length xs <> 0) by (destruct xs; [congruence|discriminate]).
  pose proof (Nat.mod_upper_bound (c_orc c (w_draw w)) (List.length xs) H0). lia.
Qed.
Lemma choice_max_total : forall ps xs, xs <> [] -> List.length ps = List.length xs -> exists x, choice_max ps xs = Ok x.
Proof. intros [|p ps] [|x xs] H E; try congruence; try discriminate E. unfold choice_max. cbn [combine]. eauto. Qed.
Lemma qsum_nonneg : forall ps, Forall (fun p => (0 <= p)%Q) ps -> (0 <= qsum ps)%Q.
Proof. intros ps H. induction H as [|p ps H _ IH]; cbn; [lra|]. fold (qsum ps). lra. Qed.
Lemma choice_p_total : forall c ps (xs : list nat) w, List.length ps = List.length xs -> Forall (fun p => (0 <= p)%Q) ps -> (0 < qsum ps)%Q ->
  exists p, choice_p c ps xs w = Ok p.
Proof.
  intros c ps xs w HL HF HS. unfold choice_p. cbn zeta. set (s := qsum ps) in *.
  destruct (qeq s 0) eqn:E1; [apply qeq_iff in E1; lra|].
  assert (Hdiv : forall p, (0 <= p)%Q -> (0 <= p / s)%Q).
  { intros p Hp. apply Qle_shift_div_l; [exact HS|]. lra. }
  destruct (existsb _ ps) eqn:E2.
  { apply existsb_exists in E2. destruct E2 as (p & Hp & E2). apply qlt_iff in E2. rewrite Forall_forall in HF.
    pose proof (Hdiv p (HF p Hp)). lra. }
  apply choice_uniform_total.
  assert (X : exists px, In px (combine ps xs) /\ (0 < fst px)%Q).
  { clear E1 E2 Hdiv. unfold s in HS. clear s. revert xs HL HS. induction HF as [|p ps H HF IH]; intros [|x xs] HL HS; try discriminate HL.
    - cbn in HS. lra.
    - destruct (Qlt_le_dec 0 p) as [Hp|Hp].
      + exists (p, x). split; [left; reflexivity|exact Hp].
      + destruct (IH xs) as (px & A & B); [injection HL; auto|cbn in HS; fold (qsum ps) in HS; lra|].
        exists px. split; [right; exact A|exact B]. }
  destruct X as (px & A & B). intro K. apply map_eq_nil in K.
  assert (Z : In px (filter (fun px => qlt 0 (fst px / s)) (combine ps xs))).
  { apply filter_In. split; [exact A|]. apply qlt_iff. apply Qlt_shift_div_l; [exact HS|]. lra. }
  rewrite K in Z. destruct Z.
Qed.
Lemma choose_pref_total : forall c ps xs w, xs <> [] -> List.length ps = List.length xs -> Forall (fun p => (0 <= p)%Q) ps ->
  exists p, choose_pref c ps xs w = Ok p.
Proof.
  intros c ps xs w Hx HL HF. unfold choose_pref. destruct (c_det c).
  - destruct (choice_max_total ps xs Hx HL) as (x & ->). cbn. eauto.
  - destruct (qlt 0 (qsum ps)) eqn:E; [apply qlt_iff in E; apply choice_p_total; auto|apply choice_uniform_total; auto].
Qed.
Lemma choose_pref_nil : forall c ps w e, choose_pref c ps [] w = Err e -> e = ValueError.
Proof.
  intros c ps w e H.
  assert (U : forall k, choice_uniform c [] w = Err k -> k = ValueError).
  { intros k K. unfold choice_uniform in K. destruct (draw c w) as [r w1].
    assert (Z : forall i, nth_error (@nil nat) i = None) by (intros []; reflexivity). rewrite Z in K. congruence. }
  unfold choose_pref, choice_max, choice_p in H.
  replace (combine ps (@nil nat)) with (@nil (Q * nat)) in H by (destruct ps; reflexivity). cbn [bind filter map] in H.
  destruct (c_det c); [congruence|]. destruct (qlt 0 (qsum ps)); [|auto].
  cbn zeta in H. destruct (qeq (qsum ps) 0); [congruence|]. destruct (existsb _ ps); [congruence|auto].
Qed.

(** ** Lanes *)
Definition laned (w : world) (m : nat) (vs : list vid) : Prop := forall i v, nth_error vs i = Some v ->
  v_lane (V w v) < m /\ (forall u, nth_error vs (S i) = Some u -> v_lane (V w u) = Nat.modulo (v_lane (V w v) + 1) m).

Lemma laned_step : forall w m vs, 1 <= m -> laned w m vs -> forall d i v u, nth_error vs i = Some v -> nth_error vs (i + d) = Some u ->
  v_lane (V w u) = Nat.modulo (v_lane (V w v) + d) m.
Proof.
  intros w m vs Hm H d; induction d as [|d IH]; intros i v u Hi Hu.
  - rewrite Nat.add_0_r in Hu. assert (u = v) by congruence. subst u. rewrite Nat.add_0_r, Nat.mod_small; [reflexivity|]. apply (H i); auto.
  - destruct (nth_error vs (i + d)) as [x|] eqn:E.
    + destruct (H _ _ E) as [_ K]. rewrite (K u) by (rewrite <- Hu; f_equal; lia).
      rewrite (IH i v x Hi E). rewrite Nat.add_mod_idemp_l by lia. f_equal. lia.
    + apply nth_error_None in E. assert (i + S d < List.length vs) by (apply nth_error_Some; congruence). lia.
Qed.

#[local] Transparent attach.
Lemma attach_total : forall v out w, 1 <= l_lanes (L w out) -> laned w (l_lanes (L w out)) (l_vehs (L w out)) ->
  ~ In v (l_vehs (L w out)) -> exists w', attach v out w = Ok w'.
Proof.
  intros v out w Hm H Hn. unfold attach. cbn zeta. set (m := l_lanes (L w out)) in *. set (vs := l_vehs (L w out)) in *.
  destruct (m <=? List.length vs) eqn:E; [|eauto]. apply Nat.leb_le in E.
  rewrite from_end_nth by lia. destruct (nth_error vs (List.length vs - m)) as [u|] eqn:Eu.
  2:{ apply nth_error_None in Eu. lia. }
  rewrite last_opt_nth. destruct (nth_error vs (List.length vs - 1)) as [x|] eqn:Ex.
  2:{ apply nth_error_None in Ex. lia. }
  assert (Huv : u <> v) by (intros ->; apply Hn; eapply nth_error_In; eauto).
  assert (El : Nat.modulo (v_lane (V w x) + 1) m = v_lane (V w u)).
  { rewrite (laned_step w m vs Hm H (m - 1) _ u x Eu) by (rewrite <- Ex; f_equal; lia).
    rewrite Nat.add_mod_idemp_l by lia. replace (v_lane (V w u) + (m - 1) + 1) with (v_lane (V w u) + 1 * m) by lia.
    rewrite Nat.mod_add by lia. apply Nat.mod_small. apply (H _ _ Eu). }
  rewrite !V_at, Nat.eqb_refl. apply Nat.eqb_neq in Huv. rewrite Huv. rewrite Nat.eqb_sym in Huv. rewrite Huv.
  rewrite ?Nat.eqb_refl. cbn [v_lane sv_leader sv_follower sv_lane]. rewrite El, Nat.eqb_refl. eauto.
Qed.
Lemma attach_links : forall v out w w', attach v out w = Ok w' -> forall l, L w' l = L w l.
Proof.
  intros v out w w' H l. unfold attach in H. cbn zeta in H. destruct (_ <=? _); [|injection H as <-; reflexivity].
  destruct (from_end _ _); [|discriminate]. destruct (Nat.eqb _ _); [|discriminate]. injection H as <-. reflexivity.
Qed.
#[local] Opaque attach.

(** ** Invariants inside the timestep *)
Definition Cnt (w : world) : Prop := forall l, l < w_nl w -> l_ca (L w l) <> [] /\ l_cd (L w l) <> [] /\ l_tti (L w l) <> [].
Definition Shared (w : world) : Prop := forall k l, (0 <= w_rcpref w k l)%Q.
Definition IncR (w : world) : Prop := forall n v, In v (n_incoming (N w n)) ->
  v_next (V w v) <> None /\ (forall o, v_next (V w v) = Some (Some o) -> In o (n_out (N w n))) /\
  (n_out (N w n) <> [] -> v_flag (V w v) = false /\ v_state (V w v) = Run).

Record Good (w : world) (p : pend) : Prop := mkGood {
  g_inv : Inv2 w p;
  g_safe : Safe w p;
  g_cnt : Cnt w;
  g_shared : Shared w;
  g_inc : IncA w p;
  g_ends : Ends w p;
  g_incr : IncR w }.

Lemma Cnt_step : forall c e w p w' p', not_link e = true -> Inv2 w p -> mstep c e w p w' p' -> Cnt w -> Cnt w'.
Proof.
  intros c e w p w' p' Ke I M H l Hl. rewrite (fr_w_nl (mstep_fr M)) in Hl. destruct (H l Hl) as (A & B & D).
  rewrite (mstep_tti _ _ _ _ _ _ I M Ke).
  assert (Nl : e <> VLink l) by (intro; subst; discriminate).
  destruct (mstep_link _ _ _ _ _ _ I M l) as [(K & _)|(_ & a & d & Ba & Bd & _)]; [contradiction|].
  apply bump_spec in Ba, Bd. destruct Ba as (_ & _ & A1 & _), Bd as (_ & _ & D1 & _).
  split; [|split; [|exact D]]; intro K; [rewrite K in A1|rewrite K in D1]; cbn in *.
  - destruct (l_ca (L w l)); [congruence|discriminate].
  - destruct (l_cd (L w l)); [congruence|discriminate].
Qed.
Lemma ended_next : forall c w a, v_next (ended c w a) = v_next a.
Proof. intros. unfold ended. rs. destruct (v_aborted a); reflexivity. Qed.
Lemma IncR_step : forall c e w p w' p', k_first e = true -> Inv2 w p -> mstep c e w p w' p' -> IncR w -> IncR w'.
Proof.
  intros c e w p w' p' Ke I M H n v Hv. pose proof (first_inc c e w p w' p' Ke I M n v Hv) as Hi.
  destruct (H n v Hi) as (A & B & D). rewrite (fr_n_out (mstep_fr M) n).
  pose proof (mstep_vev c e w p w' p' I M v) as K.
  destruct K as [K|m out q K1 K2 K3 K4 K5 K6 K7 K8|m out il q ld ln K1 K2 K3 K4 K5 K6 K7 K8 K9 K10 K11|l tl lg K1 K2 K3 K4 K5 K6 K7 K8|l K1 K2 K3|K1 K2 K3|K1 K2 K3 K4 K5|K1 K2 K3 K4|l K1 K2 K3 K4|l K1 K2 K3 K4 K5 K6|l nx K1 K2 K3 K4 K5];
    try (subst e; discriminate Ke).
  - apply vride_eq in K. assert (X : v_next (V w' v) = v_next (V w v) /\ v_flag (V w' v) = v_flag (V w v) /\ v_state (V w' v) = v_state (V w v)) by intuition congruence.
    destruct X as (-> & -> & ->). auto.
  - rewrite K8. rewrite gen_flag, gen_state. assert (X : forall a, v_next (gen_veh c w out a) = v_next a) by reflexivity. rewrite X.
    split; [exact A|]. split; [exact B|]. intro Y. split; [apply D; exact Y|reflexivity].
  - rewrite K11. rewrite moved_flag, moved_state. assert (X : forall a, v_next (moved c w out ld ln q a) = v_next a) by reflexivity. rewrite X. auto.
  - assert (X : v_next (V w' v) = v_next (V w v)).
    { rewrite <- (ended_next c w (V w v)). apply vride_eq in K8. destruct (ended c w (V w v)) eqn:Q. cbn in K8. intuition congruence. }
    rewrite X. split; [exact A|]. split; [exact B|]. intro Y. destruct (D Y). congruence.
Qed.
Definition k_mid (e : ev) : bool := k_nodes e || k_transfer e.
Lemma Good_step : forall c e w p w' p', good_weights c -> k_mid e = true -> Good w p -> mstep c e w p w' p' -> Good w' p'.
Proof.
  intros c e w p w' p' G Ke [A1 A2 A3 A4 A5 A6 A7] M.
  assert (K1 : k_first e = true) by (destruct e; try discriminate Ke; reflexivity).
  assert (K2 : not_link e = true) by (destruct e; try discriminate Ke; reflexivity).
  assert (K3 : no_rc e = true) by (destruct e; try discriminate Ke; reflexivity).
  constructor.
  - eapply mstep_Inv2; eauto.
  - eapply Safe_mstep; eauto.
  - eapply Cnt_step; eauto.
  - apply mstep_rc in M; [|exact K3]. unfold rcw in M. intros k l. replace (w_rcpref w') with (w_rcpref w) by congruence. apply A4.
  - eapply IncA_step; eauto.
  - eapply Ends_step; eauto.
  - eapply IncR_step; eauto.
Qed.
Lemma Good_run : forall c K w w', good_weights c -> (forall e, K e = true -> k_mid e = true) -> run c K w w' -> Good w None -> Good w' None.
Proof.
  intros c K w w' G HK R H. eapply run_inv with (I := Good); [|exact R|exact H].
  intros e x p x' p' Ke Gx M. eapply Good_step; eauto.
Qed.

(** ** Preferences and links *)
Lemma dget_in : forall A k (d : list (nat * A)) a, dget k d = Some a -> In (k, a) d.
Proof.
  intros A k d; induction d as [|[j b] d IH]; intros a H; cbn in H; [discriminate|].
  destruct (Nat.eqb k j) eqn:E; [apply Nat.eqb_eq in E; subst; injection H as <-; left; reflexivity|right; auto].
Qed.
Lemma prefs_total : forall w v outs, Safe w None -> Shared w -> v < w_nv w -> alive (v_state (V w v)) -> (forall l, In l outs -> l < w_nl w) ->
  exists ps, mapM (pref_of w (V w v)) outs = Ok ps /\ List.length ps = List.length outs /\ Forall (fun p => (0 <= p)%Q) ps.
Proof.
  intros w v outs S Sh Hv Ha Ho.
  assert (X : forall l, l < w_nl w -> exists q, pref_of w (V w v) l = Ok q /\ (0 <= q)%Q).
  { intros l Hl. pose proof (vs_pref _ _ (sf_vehs _ _ S v Hv) Ha) as P. unfold pref_safe in P. unfold pref_of.
    destruct (v_pref (V w v)) as [d|k|]; [|destruct P as [P _]|destruct P].
    - destruct P as (U & F & _). destruct (F l Hl) as (q & E). rewrite E. exists q. split; [reflexivity|].
      unfold unit_prefs in U. rewrite Forall_forall in U. apply dget_in in E. apply (U _ E).
    - exists (w_rcpref w k l). apply Nat.ltb_lt in P, Hl. rewrite P, Hl. split; [reflexivity|apply Sh]. }
  destruct (mapM_total _ _ (pref_of w (V w v)) outs) as (ps & E).
  { intros l Hl. destruct (X l (Ho l Hl)) as (q & E & _). eauto. }
  exists ps. split; [exact E|]. split; [eapply mapM_len; eauto|].
  eapply mapM_all; [|exact E]. intros l q Hl K. destruct (X l (Ho l Hl)) as (q' & E' & H). congruence.
Qed.

(** all offered links are avoided, or not preferred while another one is *)
Lemma no_admissible : forall w a outs, filter_links w a outs = [] -> forall l, In l outs ->
  In l (v_avoid a) \/ (~ In l (v_prefer a) /\ exists k, In k outs /\ In k (v_prefer a)).
Proof.
  intros w a outs E l Hl.
  destruct (in_dec Nat.eq_dec l (v_avoid a)) as [Ha|Ha]; [left; exact Ha|right].
  assert (Na : ~ admissible a outs l) by (intro K; apply (filter_links_iff w) in K; rewrite E in K; destruct K).
  destruct (in_dec Nat.eq_dec l (v_prefer a)) as [Hp|Hp].
  - exfalso. apply Na. split; [exact Hl|]. split; auto.
  - split; [exact Hp|].
    destruct (existsb (fun k => mem k (v_prefer a)) outs) eqn:Ee.
    + apply existsb_exists in Ee. destruct Ee as (k & Hk & Em). apply mem_iff in Em. eauto.
    + exfalso. apply Na. split; [exact Hl|]. split; [|exact Ha]. intros (k & Hk & Hq). exfalso.
      assert (X : existsb (fun k => mem k (v_prefer a)) outs = true) by (apply existsb_exists; exists k; split; [exact Hk|apply mem_iff; exact Hq]).
      congruence.
Qed.

(** ** Links *)
Lemma links_total : forall c w, tti_interval c <> 0 -> Safe w None -> TInv w -> exists w', phase_links c w = Ok w'.
Proof.
  intros c w Ht Sf Tv.
  assert (X : forall xs x, (forall l, In l xs -> l < w_nl x) -> (forall l, l < w_nl x -> (0 < l_u (L x l))%Q) ->
     (w_T x <> 0 -> forall l, l < w_nl x -> l_tti (L x l) <> []) -> exists y, foldM (link_update c) xs x = Ok y).
  { intros xs; induction xs as [|l xs IH]; intros x H1 H2 H3; cbn [foldM]; [eauto|].
    assert (E : exists y, link_update c l x = Ok y).
    { unfold link_update. cbn zeta.
      assert (E : exists k, set_traveltime_instant c x (in_out_flow_constraint c (L x l)) = Ok k).
      { unfold set_traveltime_instant. destruct (Nat.eqb (tti_interval c) 0) eqn:E1; [apply Nat.eqb_eq in E1; contradiction|].
        destruct (iofc_tti c (L x l)) as (Q1 & _).
        destruct (Nat.eqb (Nat.modulo (w_T x) (tti_interval c)) 0) eqn:E2.
        - cbn zeta. destruct (qlt 0 _); [eauto|]. unfold qdiv.
          assert (U : l_u (in_out_flow_constraint c (L x l)) = l_u (L x l)).
          { unfold in_out_flow_constraint. destruct (l_cin _); [|reflexivity]. cbn zeta. destruct (qlt (l_coutr _) _); destruct (qlt (l_cinr _) _); reflexivity. }
          rewrite U. destruct (qeq (l_u (L x l) / 100) 0) eqn:E3; [|cbn; eauto]. apply qeq_iff in E3.
          pose proof (H2 l (H1 l (or_introl eq_refl))). exfalso.
          assert (l_u (L x l) == l_u (L x l) / 100 * 100)%Q by field. rewrite E3 in H0. lra.
        - rewrite Q1. destruct (last_opt (l_tti (L x l))) eqn:E3; [eauto|]. apply last_opt_nil in E3. exfalso.
          apply (H3) with (l := l); auto; [|apply H1; left; reflexivity]. intro K. rewrite K, Nat.mod_0_l in E2 by exact Ht. discriminate. }
      destruct E as (k & ->). cbn. eauto. }
    destruct E as (y & E). rewrite E. cbn [bind].
    pose proof (link_update_frs _ _ _ E) as F. apply frs_fr in F.
    assert (Hl : l < w_nl x) by (apply H1; left; reflexivity).
    assert (Ey : (forall k, k < w_nl y -> l_tti (L x k) <> [] -> l_tti (L y k) <> [])).
    { unfold link_update in E. apply bind_ok in E. destruct E as (k2 & E & K). injection K as <-. intros k Hk Nz.
      rewrite L_at. destruct (Nat.eqb k l) eqn:Ek; [|exact Nz]. destruct (set_tti_ok _ _ _ _ E) as (d & ->). cbn.
      intro Z. apply app_eq_nil in Z. destruct Z; discriminate. }
    apply IH.
    - intros k Hk. rewrite (fr_w_nl F). apply H1. right. exact Hk.
    - intros k Hk. rewrite (fr_l_u F). apply H2. rewrite <- (fr_w_nl F). exact Hk.
    - intros Hz k Hk. apply Ey; [exact Hk|]. apply H3; [rewrite <- (fr_w_T F); exact Hz|rewrite <- (fr_w_nl F); exact Hk]. }
  unfold phase_links. apply X.
  - intros l Hl. apply in_seq in Hl. lia.
  - intros l Hl. apply (sf_links _ _ Sf l Hl).
  - intros Hz l Hl K. destruct Tv as [_ Tv]. destruct (Tv l Hl) as (_ & _ & Z). rewrite K in Z. cbn in Z. lia.
Qed.
Lemma links_cnt : forall c w w', phase_links c w = Ok w' -> Cnt w'.
Proof.
  intros c w w' H l Hl. pose proof (phase_links_eff _ _ _ H) as (_ & _ & _ & _ & P).
  apply phase_links_frs in H. rewrite (fr_w_nl (frs_fr H)) in Hl. destruct (P l Hl) as (d & _ & ->). unfold linked. rs.
  split; [|split]; intro Z; apply app_eq_nil in Z; destruct Z; discriminate.
Qed.

(** ** Nodes *)
Lemma gen_enter_total : forall c n v q out w, Good w None -> n_queue (N w n) = v :: q -> out < w_nl w -> exists w', gen_enter c n v out w = Ok w'.
Proof.
  intros c n v q out w Gd Eq Ho. destruct (g_inv _ _ Gd) as [[T I] _].
  assert (Hw : v_state (V w v) = Wait) by (assert (X : In v (n_queue (N w n))) by (rewrite Eq; left; auto); apply (s_queue I) in X; tauto).
  unfold gen_enter. cbn zeta.
  match goal with |- context [attach v out ?W] => set (w1 := W) end.
  assert (El : L w1 out = L w out) by reflexivity.
  assert (Ev : forall u, v_lane (V w1 u) = v_lane (V w u)).
  { intro u. unfold w1. change (V (sw_running ?x ?y) u) with (V y u). rewrite V_at. destruct (Nat.eqb u v) eqn:E; [|reflexivity].
    apply Nat.eqb_eq in E. subst u. reflexivity. }
  destruct (attach_total v out w1) as (w2 & E2).
  - rewrite El. apply (t_lanes T). exact Ho.
  - rewrite El. intros i u Hi. rewrite !Ev. rewrite <- (Dq_none w out) in Hi. destruct (s_lane I out i Hi) as [A B]. split; [exact A|].
    intros x Hx. rewrite Ev. apply B. rewrite Dq_none. exact Hx.
  - rewrite El. intro K. rewrite <- (Dq_none w out) in K. apply (s_D I) in K. destruct K as (_ & K & _). congruence.
  - rewrite E2. cbn [bind].
    assert (Ec : l_ca (L w2 out) = l_ca (L w out)).
    { pose proof (attach_links _ _ _ _ E2 out) as K. rewrite K. reflexivity. }
    rewrite L_at, Nat.eqb_refl. change (l_ca (sl_enter ?a (sl_vehs ?b ?k))) with (l_ca k). rewrite Ec.
    destruct (@add_last_some (l_ca (L w out)) (c_deltan c)) as (ca & ->); [apply (g_cnt _ _ Gd); exact Ho|]. cbn. eauto.
Qed.

Lemma gen_loop_fine : forall c n k w, good_weights c -> Good w None -> n < w_nn w -> (k <> 0 -> n_out (N w n) <> []) ->
  fine c w (gen_loop c n k w).
Proof.
  intros c n k; induction k as [|k IH]; intros w G Gd Hn Hk; cbn [gen_loop]; [apply fine_ok|].
  destruct (n_queue (N w n)) as [|v q] eqn:Eq; [apply fine_ok|].
  destruct (g_inv _ _ Gd) as [[T I] _].
  assert (Hq : In v (n_queue (N w n))) by (rewrite Eq; left; auto). apply (s_queue I) in Hq. destruct Hq as (Hv & Hw & Hor).
  assert (Ch : chooses w v n 0) by (split; [exact Hv|left; auto]).
  pose proof (sf_vehs _ _ (g_safe _ _ Gd) v Hv) as Vs.
  assert (Fa : route_fault w -> fault c w ValueError) by (intro K; split; [reflexivity|]; exists w; split; [apply run_refl|exact K]).
  assert (Go : forall outs, gen_outlinks w (V w v) (n_out (N w n)) = Ok outs -> forall l, In l outs -> l < w_nl w /\ In l (n_out (N w n))).
  { intros outs E l Hl. assert (X : In l (n_out (N w n))) by (eapply gen_outlinks_sub; eauto). split; [apply (t_out T n l); exact X|exact X]. }
  destruct (gen_outlinks w (V w v) (n_out (N w n))) as [outs|e] eqn:Eo; cbn [bind].
  - destruct (prefs_total w v outs (g_safe _ _ Gd) (g_shared _ _ Gd) Hv) as (ps & Ep & Lp & Fp).
    { rewrite Hw. unfold alive; auto. }
    { intros l Hl. eapply Go; eauto. }
    rewrite Ep. cbn [bind].
    destruct outs as [|o outs].
    + assert (Hs : v_spec (V w v) = None).
      { unfold gen_outlinks in Eo. destruct (v_spec (V w v)) as [sp|]; [|reflexivity].
        apply bind_ok in Eo. destruct Eo as (x & _ & Eo). destruct (mem x _); discriminate Eo. }
      unfold gen_outlinks in Eo. rewrite Hs in Eo. injection Eo as Eo.
      intros e E. destruct (choose_pref c ps [] w) as [[x w1]|e'] eqn:Ec.
      * exfalso. apply choose_pref_w in Ec. destruct Ec as [_ []].
      * cbn [bind] in E. injection E as <-. rewrite (choose_pref_nil _ _ _ _ Ec). apply Fa.
        eapply rf_no_link; [exact Ch|exact Hs|]. apply (no_admissible w). exact Eo.
    + destruct (choose_pref_total c ps (o :: outs) w) as ((out & w1) & Ec); [discriminate|exact Lp|exact Fp|].
      rewrite Ec. cbn [bind]. apply choose_pref_w in Ec. destruct Ec as [Ew Hout].
      assert (R1 : run c k_nodes w w1) by (eapply draw_run; eauto).
      assert (G1 : Good w1 None) by (eapply Good_run; [exact G| |exact R1|exact Gd]; intros e Ke; unfold k_mid; rewrite Ke; reflexivity).
      destruct (has_space c w1 (L w1 out) && qle (dN c) (l_cinr (L w1 out))) eqn:Eg; [|apply fine_ok].
      apply andb_true_iff in Eg. destruct Eg as [Eg1 Eg2].
      assert (Eq1 : n_queue (N w1 n) = v :: q) by (destruct Ew as [-> | ->]; exact Eq).
      destruct (Go _ eq_refl out Hout) as [Hol Hoo].
      assert (Hol1 : out < w_nl w1) by (destruct Ew as [-> | ->]; exact Hol).
      destruct (gen_enter_total c n v q out w1 G1 Eq1 Hol1) as (w2 & E2). rewrite E2. cbn [bind].
      assert (R2 : run c k_nodes w1 w2).
      { eapply run_one with (e := VEnter n v out); [reflexivity|].
        eapply m_enter with (q := q) (outs := o :: outs); eauto.
        - destruct Ew as [-> | ->]; exact Hn.
        - destruct Ew as [-> | ->]; exact Eo. }
      pose proof (run_trans R1 R2) as R12. eapply fine_run; [exact R12|].
      pose proof (run_fr _ _ _ _ R12) as F12.
      apply IH; [exact G| |rewrite (fr_w_nn F12); exact Hn|].
      * eapply Good_run; [exact G| |exact R2|exact G1]. intros e Ke; unfold k_mid; rewrite Ke; reflexivity.
      * intros _. rewrite (fr_n_out F12 n). apply Hk. discriminate.
  - intros e' E. injection E as <-. unfold gen_outlinks in Eo. destruct (v_spec (V w v)) as [sp|] eqn:Es; [|discriminate].
    destruct sp as [|x sp]; [elim (vs_spec _ _ Vs); exact Es|]. cbn [nth_error of_opt bind] in Eo.
    destruct (mem x (n_out (N w n))) eqn:Em; [discriminate|]. injection Eo as <-. apply Fa.
    eapply rf_specified; [exact Ch|exact Es|reflexivity|]. intro K. apply mem_iff in K. congruence.
Qed.

Lemma node_update_total : forall c n w, Safe w None -> n < w_nn w -> exists w', node_update c n w = Ok w'.
Proof.
  intros c n w Sf Hn. destruct (sf_nodes _ _ Sf n Hn) as [A B]. unfold node_update, signal_control.
  destruct (nth_error (n_signal (N w n)) (n_phase (N w n))) as [g|] eqn:E; [|apply nth_error_None in E; lia]. cbn [of_opt bind]. cbn zeta.
  unfold flow_capacity_update.
  match goal with |- context [n_fcap ?nd] => assert (E1 : n_fcap nd = n_fcap (N w n) /\ n_lanes nd = n_lanes (N w n)) by (destruct (qlt g (n_sigt (N w n))); split; reflexivity) end.
  destruct E1 as [E1 E2]. rewrite E1, E2. destruct (n_fcap (N w n)); [|cbn; eauto].
  destruct (n_lanes (N w n)) as [m|]; [cbn; eauto|]. exfalso. apply B; congruence.
Qed.

Lemma nodes_fine : forall c w, good_weights c -> Good w None -> fine c w (phase_nodes c w).
Proof.
  intros c w G Gd. unfold phase_nodes.
  apply (fine_foldM _ c (fun xs x => Good x None /\ forall n, In n xs -> n < w_nn x)).
  - clear w Gd. intros n xs w [Gd Hx]. assert (Hn : n < w_nn w) by (apply Hx; left; reflexivity).
    apply fine_bind.
    + unfold generate. apply gen_loop_fine; auto. intros K Z. rewrite Z in K. apply K. reflexivity.
    + intros w1 E. apply fine_total. apply gen_loop_run in E; [|exact Hn].
      assert (G1 : Good w1 None) by (eapply Good_run; [exact G| |exact E|exact Gd]; intros e Ke; unfold k_mid; rewrite Ke; reflexivity).
      apply node_update_total; [apply (g_safe _ _ G1)|]. rewrite (fr_w_nn (run_fr _ _ _ _ E)). exact Hn.
  - clear w Gd. intros n xs w w' [Gd Hx] H. assert (Hn : n < w_nn w) by (apply Hx; left; reflexivity).
    apply bind_ok in H. destruct H as (w1 & E & H). apply gen_loop_run in E; [|exact Hn].
    assert (R : run c k_nodes w w').
    { eapply run_trans; [exact E|]. eapply run_one with (e := VNode n); [reflexivity|]. constructor; [|exact H].
      rewrite (fr_w_nn (run_fr _ _ _ _ E)). exact Hn. }
    split; [eapply run_all; exact R|]. split.
    + eapply Good_run; [exact G| |exact R|exact Gd]. intros e Ke; unfold k_mid; rewrite Ke; reflexivity.
    + intros k Hk. rewrite (fr_w_nn (run_fr _ _ _ _ R)). apply Hx. right. exact Hk.
  - split; [exact Gd|]. intros n Hn. apply in_seq in Hn. lia.
Qed.

(** ** Transfer *)
Lemma end_trip_total : forall c l v rest p w, Inv2 w p -> Cnt w -> l_vehs (L w l) = v :: rest -> exists w', end_trip c v w = Ok w'.
Proof.
  intros c l v rest p w [[T I] _] Ct E.
  assert (Hd : In v (Dq w p l)) by (unfold Dq; apply in_or_app; left; rewrite E; left; reflexivity).
  apply (s_D I) in Hd. destruct Hd as (Hv & Hr & Hl & _).
  destruct (s_link I Hv) as [K _]; [discriminate|]. destruct (K Hr) as (l' & K1 & K2). assert (l' = l) by congruence. subst l'. clear K K1.
  assert (H1 : In v (w_running w)) by (apply (s_running I); auto).
  assert (H2 : In v (w_living w)) by (apply (s_living I); split; [exact Hv|rewrite Hr; unfold alive; auto]).
  unfold end_trip. cbn zeta. rewrite V_at, Nat.eqb_refl. change (v_link (sv_state End_ (V w v))) with (v_link (V w v)). rewrite Hl. cbn [of_opt bind].
  change (L (modv ?a ?f w) l) with (L w l). destruct (@add_last_some (l_cd (L w l)) (c_deltan c)) as (cd & ->); [apply (Ct l K2)|]. cbn [of_opt bind].
  match goal with |- context [match v_follower (V ?W v) with _ => _ end] => set (w1 := W) end.
  match goal with |- context [l_vehs (L ?W l)] => set (w2 := W) end.
  assert (E1 : l_vehs (L w1 l) = v :: rest) by (unfold w1; rewrite !L_at, Nat.eqb_refl; exact E).
  assert (E2 : l_vehs (L w2 l) = v :: rest) by (unfold w2; destruct (v_follower (V w1 v)); exact E1).
  assert (E3 : w_running w2 = w_running w) by (unfold w2; destruct (v_follower (V w1 v)); reflexivity).
  assert (E4 : w_living w2 = w_living w) by (unfold w2; destruct (v_follower (V w1 v)); reflexivity).
  rewrite E2.
  match goal with |- context [mem v (w_running ?W)] => change (w_running W) with (w_running w2) end. rewrite E3.
  apply mem_iff in H1. rewrite H1. cbn [negb].
  match goal with |- context [mem v (w_living ?W)] => change (w_living W) with (w_living w2) end. rewrite E4.
  apply mem_iff in H2. rewrite H2. cbn [negb]. eauto.
Qed.
Lemma end_front_total : forall c l p w, Inv2 w p -> Cnt w -> exists b w', end_front c l w = Ok (b, w').
Proof.
  intros c l p w I Ct. unfold end_front. destruct (l_vehs (L w l)) as [|u rest] eqn:E; [eauto|].
  destruct (v_flag (V w u)); [|eauto]. destruct (end_trip_total c l u rest p w I Ct E) as (w' & ->). cbn. eauto.
Qed.

(** vehicles waiting at a node with outgoing links stand first or later on a link that ends there *)
Lemma waits : forall w n v, Good w None -> In v (n_incoming (N w n)) -> n_out (N w n) <> [] ->
  v < w_nv w /\ v_state (V w v) = Run /\ exists l, v_link (V w v) = Some l /\ l < w_nl w /\ In v (l_vehs (L w l)).
Proof.
  intros w n v Gd Hv Hn. destruct (g_incr _ _ Gd n v Hv) as (_ & _ & K). destruct (K Hn) as [_ Hr].
  destruct (ia_in _ _ (g_inc _ _ Gd) n v Hv) as (Hlt & _). destruct (g_inv _ _ Gd) as [[T I] _].
  destruct (s_link I Hlt) as [X _]; [discriminate|]. destruct (X Hr) as (l & X1 & X2).
  split; [exact Hlt|]. split; [exact Hr|]. exists l. split; [exact X1|]. split; [exact X2|].
  rewrite <- (Dq_none w l). apply (s_D I). split; [exact Hlt|]. split; [exact Hr|]. split; [exact X1|discriminate].
Qed.
Lemma candidate_total : forall c n out w v, Good w None -> In v (n_incoming (N w n)) -> n_out (N w n) <> [] ->
  exists b, candidate c n out w v = Ok b.
Proof.
  intros c n out w v Gd Hv Hn. destruct (waits w n v Gd Hv Hn) as (_ & _ & l & E1 & E2 & E3).
  unfold candidate. cbn zeta. rewrite E1. cbn [of_opt bind]. destruct (l_vehs (L w l)) as [|u r]; [destruct E3|].
  destruct (Nat.eqb u v); [|eauto]. destruct (g_incr _ _ Gd n v Hv) as (K & _).
  destruct (v_next (V w v)); [|congruence]. cbn [of_opt bind]. eauto.
Qed.
Lemma merge_total : forall c n w vs, Good w None -> n_out (N w n) <> [] -> vs <> [] -> (forall v, In v vs -> In v (n_incoming (N w n))) ->
  exists p, merge_choice c w vs = Ok p.
Proof.
  intros c n w vs Gd Hn Hne Hvs. unfold merge_choice.
  set (f := fun v => l <- of_opt AttributeError (v_link (V w v)) ;; Ok (l_prio (L w l))).
  assert (X : forall v, In v vs -> exists q, f v = Ok q /\ (0 <= q)%Q).
  { intros v Hv. destruct (waits w n v Gd (Hvs v Hv) Hn) as (_ & _ & l & E1 & E2 & _). unfold f. rewrite E1. cbn [of_opt bind].
    eexists. split; [reflexivity|]. apply (sf_links _ _ (g_safe _ _ Gd) l E2). }
  destruct (mapM_total _ _ f vs) as (ps & Ep); [intros v Hv; destruct (X v Hv) as (q & Q & _); eauto|]. rewrite Ep. cbn [bind]. cbn zeta.
  pose proof (mapM_len _ _ _ _ _ Ep) as Lp.
  assert (Fp : Forall (fun q => (0 <= q)%Q) ps).
  { eapply mapM_all; [|exact Ep]. intros v q Hv Q. destruct (X v Hv) as (q' & Q' & Z). congruence. }
  set (ps' := if qeq (qsum ps) 0 then map (fun _ => 1%Q) ps else ps).
  assert (Lp' : List.length ps' = List.length vs) by (unfold ps'; destruct (qeq _ _); [rewrite map_length|]; exact Lp).
  destruct (c_det c); [destruct (choice_max_total ps' vs Hne Lp') as (x & ->); cbn; eauto|].
  apply choice_p_total; [exact Lp'| |].
  - unfold ps'. destruct (qeq _ _); [|exact Fp]. apply Forall_forall. intros q Hq. apply in_map_iff in Hq. destruct Hq as (x & <- & _). lra.
  - unfold ps'. pose proof (qsum_nonneg ps Fp) as Z. destruct (qeq (qsum ps) 0) eqn:E.
    + destruct ps as [|q ps]; [cbn in Lp; destruct vs; [congruence|discriminate]|]. cbn [map].
      change (0 < 1 + qsum (map (fun _ => 1%Q) ps))%Q.
      assert (Y : (0 <= qsum (map (fun _ => 1%Q) ps))%Q).
      { apply qsum_nonneg. apply Forall_forall. intros x Hx. apply in_map_iff in Hx. destruct Hx as (z & <- & _). lra. }
      lra.
    + apply qeq_false in E. apply Qnot_le_lt. intro K. apply E. lra.
Qed.

Definition lcore (k : link) := (l_vehs k, l_lanes k, l_u k).
Lemma lcore_modl : forall l k f w, (forall a, lcore (f a) = lcore a) -> lcore (L (modl k f w) l) = lcore (L w l).
Proof. intros l k f w H. rewrite L_at. destruct (Nat.eqb l k) eqn:E; [apply Nat.eqb_eq in E; subst; apply H|reflexivity]. Qed.
Lemma lane_modv : forall u v f w, (forall a, v_lane (f a) = v_lane a) -> v_lane (V (modv v f w) u) = v_lane (V w u).
Proof. intros u v f w H. rewrite V_at. destruct (Nat.eqb u v) eqn:E; [apply Nat.eqb_eq in E; subst; apply H|reflexivity]. Qed.
Lemma fcap_L : forall A (o : option A) n f w l, L (match o with Some _ => modn n f w | None => w end) l = L w l.
Proof. intros A [a|] n f w l; reflexivity. Qed.
Lemma fcap_V : forall A (o : option A) n f w v, V (match o with Some _ => modn n f w | None => w end) v = V w v.
Proof. intros A [a|] n f w v; reflexivity. Qed.
Lemma fol_L : forall (o : option vid) v w l, L (match o with Some f => modv v (sv_follower None) (modv f (sv_leader None) w) | None => w end) l = L w l.
Proof. intros [a|] v w l; reflexivity. Qed.
Lemma fol_lane : forall (o : option vid) v w u, v_lane (V (match o with Some f => modv v (sv_follower None) (modv f (sv_leader None) w) | None => w end) u) = v_lane (V w u).
Proof. intros [f|] v w u; [|reflexivity]. rewrite !lane_modv by reflexivity. reflexivity. Qed.

Lemma shift_total : forall c n out v w, Good w None -> In v (n_incoming (N w n)) -> n_out (N w n) <> [] -> out < w_nl w ->
  candidate c n out w v = Ok true -> exists il w', transfer_shift c n out v w = Ok (il, w').
Proof.
  intros c n out v w Gd Hv Hn Ho Hc. destruct (waits w n v Gd Hv Hn) as (Hlt & Hr & il & E1 & E2 & E3).
  destruct (g_inv _ _ Gd) as [[T I] _]. pose proof (g_cnt _ _ Gd) as Ct.
  unfold candidate in Hc. cbn zeta in Hc. rewrite E1 in Hc. cbn [of_opt bind] in Hc.
  destruct (l_vehs (L w il)) as [|u rest] eqn:Ev; [destruct E3|].
  destruct (Nat.eqb u v) eqn:Eu; [|discriminate]. apply Nat.eqb_eq in Eu. subst u. clear Hc E3.
  unfold transfer_shift. rewrite E1. cbn [of_opt bind].
  destruct (@add_last_some (l_cd (L w il)) (c_deltan c)) as (cd & ->); [apply (Ct il E2)|]. cbn [of_opt bind]. cbn zeta.
  assert (Ec : l_ca (L (modl il (sl_cd cd) w) out) = l_ca (L w out)).
  { rewrite L_at. destruct (Nat.eqb out il) eqn:E; [apply Nat.eqb_eq in E; subst|]; reflexivity. }
  rewrite Ec. destruct (@add_last_some (l_ca (L w out)) (c_deltan c)) as (ca & ->); [apply (Ct out Ho)|]. cbn [of_opt bind].
  match goal with |- context [match n_fcap (N ?W n) with _ => _ end] => set (w1 := W) end.
  match goal with |- context [match l_vehs (L ?W il) with _ => _ end] => set (w2 := W) end.
  assert (A1 : forall l, lcore (L w2 l) = lcore (L w l)).
  { intro l. unfold w2. rewrite fcap_L. unfold w1. rewrite !lcore_modl by reflexivity. rewrite L_modv. rewrite !lcore_modl by reflexivity. reflexivity. }
  assert (A2 : forall u, v_lane (V w2 u) = v_lane (V w u)).
  { intro u. unfold w2. rewrite fcap_V. unfold w1. rewrite !V_modl. rewrite lane_modv by reflexivity. rewrite !V_modl. reflexivity. }
  generalize dependent w2. clear w1. intros w2 A1 A2.
  assert (B1 : l_vehs (L w2 il) = v :: rest) by (specialize (A1 il); unfold lcore in A1; congruence). rewrite B1.
  match goal with |- context [match v_follower (V ?W v) with _ => _ end] => set (w3 := W) end.
  match goal with |- context [attach v out ?W] => set (w4 := W) end.
  assert (A3 : forall l, l_vehs (L w4 l) = (if Nat.eqb l il then rest else l_vehs (L w l)) /\ l_lanes (L w4 l) = l_lanes (L w l) /\ l_u (L w4 l) = l_u (L w l)).
  { intro l. assert (Q : lcore (L w4 l) = lcore (L (modl il (sl_vehs rest) w2) l)).
    { unfold w4. rewrite fol_L. unfold w3. rewrite L_modv. apply lcore_modl. reflexivity. }
    specialize (A1 l). unfold lcore in A1, Q. injection A1 as X1 X2 X3.
    set (w5 := modl il (sl_vehs rest) w2) in Q.
    assert (Y1 : l_vehs (L w4 l) = l_vehs (L w5 l)) by congruence.
    assert (Y2 : l_lanes (L w4 l) = l_lanes (L w5 l)) by congruence.
    assert (Y3 : l_u (L w4 l) = l_u (L w5 l)) by congruence.
    rewrite Y1, Y2, Y3. unfold w5. rewrite L_at.
    destruct (Nat.eqb l il) eqn:Ei; [|auto]. apply Nat.eqb_eq in Ei. subst l. split; [reflexivity|]. split; [exact X2|exact X3]. }
  assert (A4 : forall u, v_lane (V w4 u) = v_lane (V w u)).
  { intro u. unfold w4. rewrite fol_lane. unfold w3. rewrite lane_modv by reflexivity. rewrite !V_modl. apply A2. }
  generalize dependent w4. clear w3. intros w4 A3 A4.
  assert (Ln : forall l, l < w_nl w -> laned w (l_lanes (L w l)) (l_vehs (L w l))).
  { intros l Hl i u Hi. rewrite <- (Dq_none w l) in Hi. destruct (s_lane I l i Hi) as [A B]. split; [exact A|].
    intros x Hx. apply B. rewrite Dq_none. exact Hx. }
  destruct (A3 out) as (C1 & C2 & C3).
  destruct (attach_total v out w4) as (w5 & E5).
  - rewrite C2. apply (t_lanes T). exact Ho.
  - rewrite C1, C2. intros i u Hi. destruct (Nat.eqb out il) eqn:E.
    + apply Nat.eqb_eq in E. subst il. destruct (Ln out Ho (S i) u) as [X Y]; [rewrite Ev; exact Hi|]. rewrite A4. split; [exact X|].
      intros x Hx. rewrite A4. apply Y. rewrite Ev. exact Hx.
    + destruct (Ln out Ho i u Hi) as [X Y]. rewrite A4. split; [exact X|]. intros x Hx. rewrite A4. apply Y. exact Hx.
  - rewrite C1. pose proof (s_D_nd I il) as Nd. rewrite Dq_none, Ev in Nd. inversion Nd as [|? ? Nv _]; subst.
    destruct (Nat.eqb out il) eqn:E; [exact Nv|]. apply Nat.eqb_neq in E. intro K. rewrite <- (Dq_none w out) in K.
    apply (s_D I) in K. destruct K as (_ & _ & K & _). congruence.
  - rewrite E5. cbn [bind]. unfold qdiv. rewrite (attach_links _ _ _ _ E5 il). destruct (A3 il) as (_ & _ & ->).
    destruct (qeq (l_u (L w il)) 0) eqn:E; [apply qeq_iff in E; pose proof (proj1 (sf_links _ _ (g_safe _ _ Gd) il E2)); lra|].
    cbn [bind]. eauto.
Qed.

Lemma trial_total : forall c n out w, good_weights c -> Good w None -> n < w_nn w -> In out (n_out (N w n)) -> exists w', transfer_trial c n out w = Ok w'.
Proof.
  intros c n out w G Gd Hn Ho. assert (Hne : n_out (N w n) <> []) by (intro K; rewrite K in Ho; destruct Ho).
  destruct (g_inv _ _ Gd) as [[T I] NI]. assert (Hl : out < w_nl w) by (apply (t_out T n out); exact Ho).
  unfold transfer_trial. destruct (has_space c w (L w out) && qle (dN c) (l_cinr (L w out)) && qle (dN c) (n_fcapr (N w n))) eqn:Eg; [|eauto].
  apply andb_true_iff in Eg. destruct Eg as [Eg Eg3]. apply andb_true_iff in Eg. destruct Eg as [Eg1 Eg2].
  destruct (filterM_total _ (candidate c n out w) (n_incoming (N w n))) as (vs & Ev); [intros v Hv; apply candidate_total; auto|].
  rewrite Ev. cbn [bind]. destruct vs as [|v0 vs]; [eauto|].
  destruct (merge_total c n w (v0 :: vs) Gd Hne) as ((v & w1) & Em); [discriminate|intros v Hv; apply (filterM_In _ _ _ Ev Hv)|].
  rewrite Em. cbn [bind]. apply merge_choice_w in Em. destruct Em as [Ew Hv]. destruct (filterM_In _ _ _ Ev Hv) as [Hi Hc].
  assert (R1 : run c (k_tr n) w w1) by (eapply draw_run; [exact Ew|reflexivity]).
  assert (G1 : Good w1 None).
  { eapply Good_run; [exact G| |exact R1|exact Gd]. intros e Ke; unfold k_mid; rewrite (k_tr_transfer _ _ Ke). apply orb_true_r. }
  assert (Hi1 : In v (n_incoming (N w1 n))) by (destruct Ew as [-> | ->]; exact Hi).
  assert (Hc1 : candidate c n out w1 v = Ok true) by (destruct Ew as [-> | ->]; exact Hc).
  destruct (shift_total c n out v w1 G1 Hi1) as (il & w2 & E2).
  { destruct Ew as [-> | ->]; exact Hne. }
  { destruct Ew as [-> | ->]; exact Hl. }
  { exact Hc1. }
  unfold transfer_move. rewrite E2. cbn [bind].
  assert (M : mstep c (VShift n out v il) w1 None w2 (Some (v, out))).
  { eapply m_shift; [| | | | | |exact E2]; try assumption; destruct Ew as [-> | ->]; assumption. }
  assert (G2 : Good w2 (Some (v, out))) by (apply (Good_step c (VShift n out v il) w1 None w2 (Some (v, out)) G eq_refl G1 M)).
  destruct (end_front_total c il (Some (v, out)) w2 (g_inv _ _ G2) (g_cnt _ _ G2)) as (b & w3 & ->). cbn [bind]. eauto.
Qed.

Lemma Good_tr : forall c n w w', good_weights c -> run c (k_tr n) w w' -> Good w None -> Good w' None.
Proof.
  intros c n w w' G R. apply Good_run with (K := k_tr n) (c := c); auto.
  intros e Ke; unfold k_mid; rewrite (k_tr_transfer _ _ Ke). apply orb_true_r.
Qed.
Lemma end_fronts_total : forall c (n : nid) l k w, good_weights c -> Good w None -> exists w', end_fronts c l k w = Ok w'.
Proof.
  intros c n l k; induction k as [|k IH]; intros w G Gd; cbn [end_fronts]; [eauto|].
  destruct (end_front_total c l None w (g_inv _ _ Gd) (g_cnt _ _ Gd)) as (b & w1 & E). rewrite E. cbn [bind].
  destruct b; [|eauto]. apply IH; [exact G|]. eapply (Good_tr c n); [exact G| |exact Gd]. exact (@end_front_trace c n l w true w1 None E).
Qed.
Lemma foldM_total : forall A (P : world -> Prop) (f : A -> world -> result world) xs,
  (forall x w, In x xs -> P w -> exists w', f x w = Ok w') -> (forall x w w', In x xs -> P w -> f x w = Ok w' -> P w') ->
  forall w, P w -> exists w', foldM f xs w = Ok w'.
Proof.
  intros A P f xs; induction xs as [|x xs IH]; intros H1 H2 w Hw; cbn [foldM]; [eauto|].
  destruct (H1 x w (or_introl eq_refl) Hw) as (w1 & E). rewrite E. cbn [bind]. apply IH.
  - intros; apply H1; auto. right; auto.
  - intros y a a' Hy. apply (H2 y a a'). right; auto.
  - eapply H2; eauto. left; auto.
Qed.

Lemma nodup_keep_In : forall l seen x, In x (nodup_keep seen l) -> In x l.
Proof.
  intros l; induction l as [|a l IH]; intros seen x H; cbn in H; [destruct H|]. destruct (mem a seen); [right; eauto|].
  destruct H as [->|H]; [left; reflexivity|right; eauto].
Qed.
Lemma mapM_In : forall A B (f : A -> result B) l ys y, mapM f l = Ok ys -> In y ys -> exists x, In x l /\ f x = Ok y.
Proof.
  intros A B f l; induction l as [|x l IH]; intros ys y H Hy; cbn in H; [injection H as <-; destruct Hy|].
  apply bind_ok in H. destruct H as (z & E & H). apply bind_ok in H. destruct H as (zs & E2 & H). injection H as <-.
  destruct Hy as [<-|Hy]; [exists x; split; [left; reflexivity|exact E]|]. destruct (IH _ _ E2 Hy) as (x' & A1 & A2). exists x'. split; [right; exact A1|exact A2].
Qed.

Lemma transfer_total : forall c n w, good_weights c -> Good w None -> n < w_nn w -> exists w', transfer c n w = Ok w'.
Proof.
  intros c n w G Gd Hn. unfold transfer.
  assert (X : exists cands, out_candidates w (n_incoming (N w n)) = Ok cands /\ forall o, In o cands -> In o (n_out (N w n))).
  { unfold out_candidates. destruct (mapM_total _ _ (fun v => of_opt AttributeError (v_next (V w v))) (n_incoming (N w n))) as (nx & E).
    { intros v Hv. destruct (g_incr _ _ Gd n v Hv) as (K & _). destruct (v_next (V w v)); [cbn; eauto|congruence]. }
    rewrite E. cbn [bind]. eexists. split; [reflexivity|]. intros o Ho. apply nodup_keep_In in Ho. apply in_flat_map in Ho.
    destruct Ho as (x & Hx & Ho). destruct x as [x|]; [|destruct Ho]. destruct Ho as [->|[]].
    destruct (mapM_In _ _ _ _ _ _ E Hx) as (v & Hv & Q). apply of_opt_ok in Q. destruct (g_incr _ _ Gd n v Hv) as (_ & K & _). apply K. exact Q. }
  destruct X as (cands & Ec & Hc). rewrite Ec. cbn [bind]. cbn zeta.
  set (outs0 := flat_map (fun l => repeat l (l_lanes (L w l))) cands).
  destruct (if c_det c then (outs0, w) else _) as [outs w1] eqn:Ew.
  assert (Hin : forall o, In o outs -> In o (n_out (N w n))).
  { assert (H0 : forall o, In o outs0 -> In o (n_out (N w n))).
    { intros o Ho. unfold outs0 in Ho. apply in_flat_map in Ho. destruct Ho as (x & Hx & Ho). apply repeat_spec in Ho. subst. auto. }
    intros o Ho. apply H0. destruct (c_det c); injection Ew as <- <-; [exact Ho|].
    eapply Permutation.Permutation_in; [|exact Ho]. apply Permutation.Permutation_sym, shuffle_perm. }
  assert (R1 : run c (k_tr n) w w1).
  { destruct (c_det c); injection Ew as <- <-; [apply run_refl|]. eapply draw_run; [right; reflexivity|reflexivity]. }
  assert (HP : forall x, fr w x -> n < w_nn x /\ forall o, In o outs -> In o (n_out (N x n))).
  { intros x F. rewrite (fr_w_nn F), (fr_n_out F n). auto. }
  destruct (foldM_total _ (fun x => Good x None /\ fr w x) (transfer_trial c n) outs) with (w := w1) as (w2 & E2).
  - intros o x Ho [Gx Fx]. destruct (HP x Fx). apply trial_total; auto.
  - intros o x x' Ho [Gx Fx] E. destruct (HP x Fx). apply transfer_trial_run in E; [|assumption]. split; [eapply Good_tr; eauto|].
    exact (fr_trans Fx (run_fr _ _ _ _ E)).
  - split; [eapply Good_tr; eauto|exact (run_fr _ _ _ _ R1)].
  - rewrite E2. cbn [bind].
    assert (G2 : Good w2 None).
    { eapply Good_tr; [exact G| |eapply Good_tr; [exact G|exact R1|exact Gd]].
      eapply foldM_run with (P := fun _ w => n < w_nn w); [| | |exact E2].
      - intros; eapply transfer_trial_run; eauto.
      - intros x y a a' _ _ _ Py E. apply transfer_trial_frs in E. rewrite (fr_w_nn (frs_fr E)); auto.
      - intros x _. destruct (HP w1 (run_fr _ _ _ _ R1)). assumption. }
    destruct (foldM_total _ (fun x => Good x None) (fun l w => end_fronts c l (l_lanes (L w l)) w) (n_in (N w2 n))) with (w := w2) as (w3 & E3).
    + intros l x _ Gx. eapply end_fronts_total; eauto.
    + intros l x x' _ Gx E. eapply (Good_tr c n); [exact G|eapply end_fronts_run; exact E|exact Gx].
    + exact G2.
    + rewrite E3. cbn [bind]. eauto.
Qed.

Lemma transfers_total : forall c w, good_weights c -> Good w None -> exists w', phase_transfer c w = Ok w'.
Proof.
  intros c w G Gd. unfold phase_transfer. apply (foldM_total _ (fun x => Good x None /\ fr w x)).
  - intros n x Hn [Gx Fx]. apply transfer_total; auto. rewrite (fr_w_nn Fx). apply in_seq in Hn. lia.
  - intros n x x' Hn [Gx Fx] E. apply transfer_run in E; [|rewrite (fr_w_nn Fx); apply in_seq in Hn; lia].
    split; [eapply Good_tr; eauto|exact (fr_trans Fx (run_fr _ _ _ _ E))].
  - split; [exact Gd|apply fr_refl].
Qed.

(** ** Car following *)
Lemma follow_total : forall c w, Inv2 w None -> exists w', phase_follow c w = Ok w'.
Proof.
  intros c w I0. unfold phase_follow.
  assert (X : forall v, In v (w_running w) -> v < w_nv w /\ v_state (V w v) = Run) by (intros v Hv; destruct I0 as [[T I] _]; apply (s_running I); exact Hv).
  apply (foldM_total _ (fun x => Inv2 x None /\ w_nv x = w_nv w /\ forall v, v_state (V x v) = v_state (V w v))).
  - intros v x Hv ([[T I] _] & En & Es). destruct (X v Hv) as [X1 X2]. rewrite <- En in X1. destruct (s_link I X1) as [K _]; [discriminate|].
    destruct K as (l & E & _); [rewrite Es; exact X2|]. unfold carfollow. cbn zeta. rewrite E. cbn [of_opt bind]. eauto.
  - intros v x x' Hv (I & En & Es) E. pose proof (m_follow _ _ _ E) as M. split; [eapply mstep_Inv2; eauto|].
    split; [rewrite (fr_w_nv (mstep_fr M)); exact En|]. intro u. rewrite <- Es.
    pose proof (mstep_eff c _ _ _ _ _ I M) as K. cbn [eff] in K. destruct K as (_ & _ & _ & _ & _ & _ & l & _ & K). rewrite K.
    destruct (Nat.eqb u v) eqn:Eu; [|reflexivity]. apply Nat.eqb_eq in Eu. subst. unfold followed. destruct (qlt _ _); reflexivity.
  - split; [exact I0|]. split; [reflexivity|auto].
Qed.

(** ** Vehicles *)
Record Car (w : world) (p : pend) : Prop := mkCar {
  a_inv : Inv2 w p;
  a_safe : Safe w p;
  a_cnt : Cnt w;
  a_shared : Shared w }.
Lemma Car_step : forall c e w p w' p', good_weights c -> not_link e = true -> no_rc e = true -> Car w p -> mstep c e w p w' p' -> Car w' p'.
Proof.
  intros c e w p w' p' G K2 K3 [A1 A2 A3 A4] M. constructor.
  - eapply mstep_Inv2; eauto.
  - eapply Safe_mstep; eauto.
  - eapply Cnt_step; eauto.
  - apply mstep_rc in M; [|exact K3]. unfold rcw in M. intros k l. replace (w_rcpref w') with (w_rcpref w) by congruence. apply A4.
Qed.
Lemma Car_run : forall c K w w', good_weights c -> (forall e, K e = true -> not_link e = true /\ no_rc e = true) -> run c K w w' -> Car w None -> Car w' None.
Proof.
  intros c K w w' G HK R H. eapply run_inv with (I := Car); [|exact R|exact H].
  intros e x p x' p' Ke Gx M. destruct (HK e Ke). eapply Car_step; eauto.
Qed.
Lemma k_veh_ok : forall u e, k_veh u e = true -> not_link e = true /\ no_rc e = true.
Proof. intros u [] H; try discriminate H; split; reflexivity. Qed.
Lemma Car_veh : forall c u w w', good_weights c -> run c (k_veh u) w w' -> Car w None -> Car w' None.
Proof. intros c u w w' G. apply Car_run; [exact G|apply k_veh_ok]. Qed.

Lemma pref_update_total : forall c v q w, Safe w None -> w_final w = true -> v < w_nv w -> alive (v_state (V w v)) ->
  exists w', route_pref_update c v q w = Ok w'.
Proof.
  intros c v q w Sf Hf Hv Ha. pose proof (sf_vehs _ _ Sf v Hv) as Vs. destruct (vs_dest _ _ Vs) as (d & Ed & _).
  pose proof (vs_pref _ _ Vs Ha) as P. unfold pref_safe in P. unfold route_pref_update. cbn zeta. rewrite Ed, Hf.
  destruct (v_princ (V w v)); [eauto|]. cbn [negb]. destruct (v_pref (V w v)) as [p|k|]; [|destruct P; congruence|destruct P].
  destruct P as (_ & _ & P).
  assert (E : forallb (fun lp => fst lp <? w_nl w) p = true).
  { apply forallb_forall. intros x Hx. rewrite Forall_forall in P. apply Nat.ltb_lt. apply P. exact Hx. }
  rewrite E. eauto.
Qed.

Lemma choice_fine : forall c v l w, Car w None -> v < w_nv w -> at_end w v l -> v_dest (V w v) <> Some (l_end (L w l)) ->
  (forall sp, v_spec (V w v) = Some sp -> nth_error sp (List.length (v_tlog (V w v)) - 1) <> None) ->
  fine c w (route_next_link_choice c v w).
Proof.
  intros c v l w Cr Hv (Hs & Hl & Hx) Hd Hi. destruct Cr as [[[T I] NI] Sf Ct Sh].
  assert (Hll : l < w_nl w) by (destruct (s_link I Hv) as [K _]; [discriminate|]; destruct (K Hs) as (l' & K1 & K2); congruence).
  set (n := l_end (L w l)).
  assert (Ch : chooses w v n (List.length (v_tlog (V w v)) - 1)).
  { split; [exact Hv|]. right. split; [exact Hs|]. split; [reflexivity|]. exists l. split; [exact Hl|]. split; [reflexivity|]. apply qeq_iff. exact Hx. }
  assert (Fa : route_fault w -> fault c w ValueError) by (intro K; split; [reflexivity|]; exists w; split; [apply run_refl|exact K]).
  assert (Ho : forall o, In o (n_out (N w n)) -> o < w_nl w) by (intros o K; apply (t_out T n o); exact K).
  assert (Ha : alive (v_state (V w v))) by (rewrite Hs; unfold alive; auto).
  pose proof (sf_vehs _ _ Sf v Hv) as Vs.
  unfold route_next_link_choice. cbn zeta. rewrite Hl. cbn [of_opt bind]. fold n.
  destruct (v_spec (V w v)) as [sp|] eqn:Es.
  - destruct (n_out (N w n)) as [|o outs] eqn:Eo; [apply fine_ok|]. rewrite <- Eo.
    destruct (nth_error sp (List.length (v_tlog (V w v)) - 1)) as [k|] eqn:En; [|elim (Hi sp eq_refl En)].
    destruct (mem k (n_out (N w n))) eqn:Em; [apply fine_ok|]. intros e E. injection E as <-. apply Fa.
    eapply rf_specified; [exact Ch|exact Es|exact En|]. intro K. apply mem_iff in K. congruence.
  - destruct (opt_eqb (v_dest (V w v)) (Some n)) eqn:Ed; [apply fine_ok|]. clear Ed.
    destruct (n_out (N w n)) as [|o outs] eqn:Eo; [apply fine_ok|]. rewrite <- Eo.
    assert (X : exists o2, (if c_nocyclic c && match v_mode (V w v) with Taxi => false | SingleTrip => true end then
                     tn <- traveled_nodes w (V w v) ;;
                     let o' := filter (fun l' => negb (mem (l_end (L w l')) tn)) (filter_links w (V w v) (n_out (N w n))) in
                     Ok (if is_nil o' then filter_links w (V w v) (n_out (N w n)) else o')
                   else Ok (filter_links w (V w v) (n_out (N w n)))) = Ok o2 /\
         (forall x, In x o2 -> In x (n_out (N w n))) /\ (o2 = [] -> filter_links w (V w v) (n_out (N w n)) = [])).
    { destruct (_ && _).
      - assert (Y : exists tn, traveled_nodes w (V w v) = Ok tn).
        { unfold traveled_nodes. apply mapM_total. intros x Hx'. destruct (vs_log _ _ Vs Ha) as [_ P]. destruct (P x Hx') as (k & ->). eauto. }
        destruct Y as (tn & ->). cbn [bind]. cbn zeta. set (f := fun l' => negb (mem (l_end (L w l')) tn)).
        eexists. split; [reflexivity|]. destruct (filter f (filter_links w (V w v) (n_out (N w n)))) as [|y ys] eqn:Ef; cbn [is_nil].
        + split; [intros x; apply filter_links_sub|auto].
        + split; [|discriminate]. intros x K. rewrite <- Ef in K. apply filter_In in K. destruct K as [K _]. eapply filter_links_sub; eauto.
      - eexists. split; [reflexivity|]. split; [intros x; apply filter_links_sub|auto]. }
    destruct X as (o2 & E2 & S2 & N2). cbn zeta in E2. rewrite E2. cbn [bind].
    destruct (prefs_total w v o2 Sf Sh Hv Ha) as (ps & Ep & Lp & Fp); [intros x K; apply Ho; rewrite <- Eo; apply S2, K|]. rewrite Ep. cbn [bind].
    destruct o2 as [|y ys].
    + intros e E. destruct (choose_pref c ps [] w) as [[x w1]|e'] eqn:Ec.
      * exfalso. apply choose_pref_w in Ec. destruct Ec as [_ []].
      * cbn [bind] in E. injection E as <-. rewrite (choose_pref_nil _ _ _ _ Ec). apply Fa.
        eapply rf_no_link; [exact Ch|exact Es|]. apply (no_admissible w). auto.
    + destruct (choose_pref_total c ps (y :: ys) w) as ((x & w1) & ->); [discriminate|exact Lp|exact Fp|]. cbn [bind]. apply fine_ok.
Qed.

(** the vehicle on link [k] has recorded its whole route only if it drives to its destination *)
Definition rows_ahead (a : vehicle) (k : lid) : nat := if opt_eqb (Some k) (v_linkold a) then 0 else 1.
Definition Idx (w : world) (a : vehicle) : Prop := v_state a = Run -> forall sp k, v_spec a = Some sp -> v_link a = Some k ->
  nth_error sp (List.length (v_tlog a) + rows_ahead a k - 1) = None -> v_dest a = Some (l_end (L w k)).
Lemma Idx_eq : forall w w' a b, fr w w' -> v_state b = v_state a -> v_spec b = v_spec a -> v_link b = v_link a ->
  v_tlog b = v_tlog a -> v_linkold b = v_linkold a -> v_dest b = v_dest a -> Idx w a -> Idx w' b.
Proof.
  intros w w' a b F E1 E2 E3 E4 E5 E6 H Hs sp k Hp Hk Hn. unfold rows_ahead in Hn. rewrite (fr_l_end F k), E6.
  rewrite E4, E5 in Hn. apply (H ltac:(congruence) sp k); [congruence|congruence|exact Hn].
Qed.

Lemma prepare_fine : forall c v l w, good_weights c -> Car w None -> at_end w v l -> v < w_nv w ->
  (v_dest (V w v) = Some (l_end (L w l)) /\ v_mode (V w v) = SingleTrip \/
     n_out (N w (l_end (L w l))) = [] /\ v_aborted (V w v) = true) ->
  exists w', prepare_end c v l w = Ok w'.
Proof.
  intros c v l w G Cr A Hv D. unfold prepare_end. cbn zeta.
  assert (M : mstep c (VFlag v l) w None (modv v (sv_flag true) w) None) by (constructor; auto).
  pose proof (Car_step c (VFlag v l) _ _ _ _ G eq_refl eq_refl Cr M) as Cr1.
  destruct A as (A1 & A2 & _).
  assert (Hin : In v (l_vehs (L (modv v (sv_flag true) w) l))).
  { change (In v (l_vehs (L w l))). destruct (a_inv _ _ Cr) as [[T I] _]. rewrite <- Dq_none. apply (s_D I). repeat split; auto. discriminate. }
  destruct (l_vehs (L (modv v (sv_flag true) w) l)) as [|u rest] eqn:E; [destruct Hin|].
  destruct (Nat.eqb u v) eqn:Eu; [|eauto]. apply Nat.eqb_eq in Eu. subst u.
  eapply end_trip_total; [exact (a_inv _ _ Cr1)|exact (a_cnt _ _ Cr1)|exact E].
Qed.

Lemma maybe_total : forall c v w, Safe w None -> w_final w = true -> v < w_nv w -> alive (v_state (V w v)) ->
  exists w', maybe_pref_update c v w = Ok w'.
Proof. intros c v w Sf Hf Hv Ha. unfold maybe_pref_update. destruct (c_gradual c); [apply pref_update_total; auto|eauto]. Qed.

Lemma at_link_end_fine : forall c v l w, good_weights c -> Car w None -> w_final w = true -> v < w_nv w -> at_end w v l ->
  (forall sp, v_spec (V w v) = Some sp -> nth_error sp (List.length (v_tlog (V w v)) - 1) = None -> v_dest (V w v) = Some (l_end (L w l))) ->
  fine c w (at_link_end c v l w).
Proof.
  intros c v l w G Cr Hf Hv A Hi. unfold at_link_end. cbn zeta. rewrite (sf_events _ _ (a_safe _ _ Cr)). cbn [dget bind].
  assert (Ha : alive (v_state (V w v))) by (destruct A as (-> & _); unfold alive; auto).
  destruct (maybe_total c v w (a_safe _ _ Cr) Hf Hv Ha) as (w2 & E2). rewrite E2. cbn [bind].
  pose proof (maybe_pref_run _ _ _ E2) as R2. pose proof (maybe_pref_update_soft _ _ _ E2) as S2.
  pose proof (Car_veh _ _ _ _ G R2 Cr) as Cr2. pose proof (run_fr _ _ _ _ R2) as F2.
  destruct (run_dest c _ _ _ (a_inv _ _ Cr) R2 v) as [Dm Dd].
  assert (Hv2 : v < w_nv w2) by (rewrite (fr_w_nv F2); exact Hv).
  pose proof (at_end_soft S2 A) as A2.
  specialize (Dd (vs_mode _ _ (sf_vehs _ _ (a_safe _ _ Cr) v Hv))).
  pose proof (so_v S2 v) as Vh. unfold vhard in Vh.
  assert (Hi2 : forall sp, v_spec (V w2 v) = Some sp -> nth_error sp (List.length (v_tlog (V w2 v)) - 1) = None -> v_dest (V w2 v) = Some (l_end (L w2 l))).
  { intros sp K1 K2. rewrite Dd, (so_l S2). apply (Hi sp); [congruence|]. replace (v_tlog (V w v)) with (v_tlog (V w2 v)) by congruence. exact K2. }
  rewrite <- (so_l S2 l). eapply fine_run; [exact R2|].
  clear Hi Vh Dd Dm F2 R2 E2 A Ha Hv Hf Cr S2 w.
  destruct (opt_eqb (Some (l_end (L w2 l))) (v_dest (V w2 v))) eqn:Ed.
  - apply opt_eqb_eq in Ed. symmetry in Ed. pose proof (vs_mode _ _ (sf_vehs _ _ (a_safe _ _ Cr2) v Hv2)) as Hm. rewrite Hm.
    apply fine_total. apply prepare_fine; auto.
  - assert (Ed0 : Some (l_end (L w2 l)) <> v_dest (V w2 v)) by (intro K; apply opt_eqb_eq in K; congruence). clear Ed.
    assert (Ed' : v_dest (V w2 v) <> Some (l_end (L w2 l))) by (intro K; apply Ed0; symmetry; exact K).
    destruct (is_nil (n_out (N w2 (l_end (L w2 l)))) && v_abortopt (V w2 v)) eqn:Eb.
    + apply andb_true_iff in Eb. destruct Eb as [Eb1 Eb2].
      assert (Eo : n_out (N w2 (l_end (L w2 l))) = []) by (destruct (n_out _); [auto|discriminate]).
      assert (M : mstep c (VAbort v) w2 None (modv v (fun a => sv_next (Some None) (sv_aborted true a)) w2) None) by (econstructor; eauto).
      pose proof (Car_step c (VAbort v) _ _ _ _ G eq_refl eq_refl Cr2 M) as Cr3.
      apply fine_total. apply prepare_fine; auto.
      * destruct A2 as (X & Y & Z). unfold at_end. rewrite V_modv_same. auto.
      * right. rewrite V_modv_same. split; auto.
    + unfold request_transfer. apply fine_bind; [|intros; apply fine_ok].
      apply (choice_fine c v l w2 Cr2 Hv2 A2 Ed'). intros sp K1 K2. apply Ed'. eapply Hi2; eauto.
Qed.

Lemma veh_fine : forall c v w, good_weights c -> Car w None -> w_final w = true -> In v (w_living w) -> Idx w (V w v) ->
  fine c w (veh_update c v w).
Proof.
  intros c v w G Cr Hf Hl Hi. unfold veh_update. cbn zeta.
  assert (M0 : mstep c (VLog v) w None (record_log c v false w) None) by (constructor; auto).
  pose proof (Car_step c (VLog v) _ _ _ _ G eq_refl eq_refl Cr M0) as Cr0. pose proof (mstep_fr M0) as F0.
  assert (R0 : run c (k_veh v) w (record_log c v false w)) by (eapply run_one with (e := VLog v); [apply Nat.eqb_refl|exact M0]).
  assert (Hv : v < w_nv w) by (apply (s_living (proj2 (proj1 (a_inv _ _ Cr)))) in Hl; tauto).
  pose proof (record_log_V c v false w v) as V0. rewrite Nat.eqb_refl in V0.
  assert (Es0 : v_state (V (record_log c v false w) v) = v_state (V w v)) by (rewrite V0; unfold logged; reflexivity).
  assert (El0 : v_link (V (record_log c v false w) v) = v_link (V w v)) by (rewrite V0; unfold logged; reflexivity).
  assert (Et0 : v_tlog (V (record_log c v false w) v) = v_tlog (V w v) ++ tlog_rows c w (V w v)) by (rewrite V0; unfold logged; reflexivity).
  pose proof (record_log_living c v false w) as P3. pose proof (run_dest c _ _ _ (a_inv _ _ Cr) R0 v) as [_ Dd].
  specialize (Dd (vs_mode _ _ (sf_vehs _ _ (a_safe _ _ Cr) v Hv))).
  eapply fine_run; [exact R0|]. pose proof (fr_v_spec F0 v) as Sp0. pose proof (fr_w_final F0) as Hf0. pose proof (fr_w_nv F0) as Nv0.
  pose proof (fun l => fr_l_end F0 l) as Le0.
  generalize dependent (record_log c v false w). intros w0 M0 Cr0 F0 R0 V0 Es0 El0 Et0 P3 Dd Sp0 Hf0 Nv0 Le0.
  assert (Hl0 : In v (w_living w0)) by (rewrite P3; exact Hl). assert (Hv0 : v < w_nv w0) by (rewrite Nv0; exact Hv).
  rewrite Hf in Hf0.
  assert (Ha : alive (v_state (V w v))) by (apply (s_living (proj2 (proj1 (a_inv _ _ Cr)))) in Hl; tauto).
  destruct (v_state (V w0 v)) eqn:Es.
  - (* Home *)
    destruct (Z.leb (v_dep (V w0 v)) (Z.of_nat (w_T w0))) eqn:Ed; [|rewrite Es; apply fine_ok].
    set (wd := modn _ _ _).
    assert (M : mstep c (VDepart v) w0 None wd None) by (constructor; auto).
    pose proof (Car_step c (VDepart v) _ _ _ _ G eq_refl eq_refl Cr0 M) as Crd. pose proof (mstep_fr M) as Fd.
    assert (Esd : v_state (V wd v) = Wait) by (unfold wd; rewrite V_modn, V_modv_same; reflexivity).
    rewrite Esd. apply fine_total, maybe_total; [exact (a_safe _ _ Crd)|rewrite (fr_w_final Fd); exact Hf0|rewrite (fr_w_nv Fd); exact Hv0|].
    rewrite Esd. unfold alive; auto.
  - rewrite Es. apply fine_total, maybe_total; [exact (a_safe _ _ Cr0)|exact Hf0|exact Hv0|rewrite Es; unfold alive; auto].
  - rewrite Es. unfold drive. cbn zeta. fold (driven c).
    change (fun a : vehicle => sv_dist (v_dist a + (v_xnext a - v_x a)) (sv_x (v_xnext a)
      (sv_xold (v_x a) (sv_v ((v_xnext a - v_x a) / dt c) a)))) with (driven c).
    assert (M : mstep c (VMove v) w0 None (modv v (driven c) w0) None) by (constructor; auto).
    pose proof (Car_step c (VMove v) _ _ _ _ G eq_refl eq_refl Cr0 M) as Cr1. pose proof (mstep_fr M) as F1.
    assert (V1 : V (modv v (driven c) w0) v = driven c (V w0 v)) by (rewrite V_modv_same; reflexivity).
    assert (E1 : forall a, v_link (driven c a) = v_link a /\ v_state (driven c a) = v_state a /\ v_tlog (driven c a) = v_tlog a /\ v_dest (driven c a) = v_dest a /\ v_spec (driven c a) = v_spec a) by (intro a; repeat split).
    destruct (E1 (V w0 v)) as (Z1 & Z2 & Z3 & Z4 & Z5). rewrite <- V1 in Z1, Z2, Z3, Z4, Z5. clear E1.
    eapply fine_run with (K := k_veh v); [eapply run_one with (e := VMove v); [apply Nat.eqb_refl|exact M]|].
    assert (Hl1 : L (modv v (driven c) w0) = L w0) by reflexivity.
    pose proof (fr_w_final F1) as Hf1. pose proof (fr_w_nv F1) as Nv1.
    generalize dependent (modv v (driven c) w0). intros w1 M1 Cr1 F1 V1 Z1 Z2 Z3 Z4 Z5 Hl1 Hf1 Nv1.
    assert (Hv1 : v < w_nv w1) by (rewrite Nv1; exact Hv0).
    destruct (s_link (proj2 (proj1 (a_inv _ _ Cr1))) Hv1) as [K _]; [discriminate|]. destruct (K ltac:(congruence)) as (l & El & Hll). clear K.
    rewrite El. cbn [of_opt bind]. destruct (qeq (v_x (V w1 v)) (l_len (L w1 l))) eqn:Eq; [|apply fine_ok].
    apply at_link_end_fine; auto; [congruence|unfold at_end; repeat split; congruence|].
    intros sp K1 K2. rewrite Z4, Dd, Hl1, Le0.
    apply (Hi ltac:(congruence) sp l); [congruence|congruence|].
    rewrite Z3, Et0, app_length in K2. unfold tlog_rows in K2. unfold rows_ahead.
    replace (v_link (V w v)) with (Some l) in K2 by congruence. replace (v_state (V w v)) with Run in K2 by congruence.
    destruct (opt_eqb (Some l) (v_linkold (V w v))); exact K2.
  - rewrite <- Es0 in Ha. unfold alive in Ha. intuition discriminate.
  - rewrite <- Es0 in Ha. unfold alive in Ha. intuition discriminate.
Qed.

Lemma vehicles_fine : forall c w, good_weights c -> Car w None -> w_final w = true -> (forall v, v < w_nv w -> Idx w (V w v)) ->
  fine c w (phase_vehicles c w).
Proof.
  intros c w G Cr Hf Hi. unfold phase_vehicles.
  apply (fine_foldM _ c (fun xs x => Car x None /\ fr w x /\ NoDup xs /\ forall v, In v xs -> In v (w_living x) /\ Idx x (V x v))).
  - intros v xs x (Cx & Fx & Nd & Hx). destruct (Hx v (or_introl eq_refl)) as [X1 X2]. unfold update_living.
    assert (Em : mem v (w_living x) = true) by (apply mem_iff; exact X1). rewrite Em.
    apply veh_fine; auto. rewrite (fr_w_final Fx). exact Hf.
  - intros v xs x x' (Cx & Fx & Nd & Hx) E. destruct (Hx v (or_introl eq_refl)) as [X1 X2]. unfold update_living in E.
    assert (Em : mem v (w_living x) = true) by (apply mem_iff; exact X1). rewrite Em in E.
    pose proof (veh_update_other c v x x' (a_inv _ _ Cx) X1 E) as Oth. pose proof (veh_update_run _ _ _ X1 E) as R.
    pose proof (run_fr _ _ _ _ R) as Fr. pose proof (Car_veh _ _ _ _ G R Cx) as Cx'.
    split; [eapply run_all; exact R|]. split; [exact Cx'|]. split; [exact (fr_trans Fx Fr)|].
    inversion Nd as [|? ? Nv Nd']; subst. split; [exact Nd'|]. intros u Hu.
    assert (Huv : u <> v) by (intros ->; auto). destruct (Hx u (or_intror Hu)) as [Y1 Y2].
    pose proof (Oth u Huv) as Eq. pose proof (run_dest c _ _ _ (a_inv _ _ Cx) R u) as [_ Dd].
    pose proof (proj1 (s_living (proj2 (proj1 (a_inv _ _ Cx))) u) Y1) as [Y3 Y4].
    specialize (Dd (vs_mode _ _ (sf_vehs _ _ (a_safe _ _ Cx) u Y3))). unfold vcalm in Eq. split.
    + apply (s_living (proj2 (proj1 (a_inv _ _ Cx')))). rewrite (fr_w_nv Fr). split; [exact Y3|].
      replace (v_state (V x' u)) with (v_state (V x u)) by congruence. exact Y4.
    + apply (Idx_eq x x' (V x u) (V x' u) Fr); [congruence|congruence|congruence|congruence|congruence|exact Dd|exact Y2].
  - split; [exact Cr|]. split; [apply fr_refl|]. split; [exact (s_living_nd (proj2 (proj1 (a_inv _ _ Cr))))|].
    intros v Hv. split; [exact Hv|]. apply Hi. apply (s_living (proj2 (proj1 (a_inv _ _ Cr)))) in Hv. tauto.
Qed.

(** ** Route choice *)
Lemma search_total : forall c w, Cnt w -> exists w', route_search_all c w = Ok w'.
Proof.
  intros c w Ct. unfold route_search_all.
  assert (X : forall xs acc, (forall l, In l xs -> l < w_nl w) -> exists r, foldM (fun l acc => adj_step c w (now c w) acc l) xs acc = Ok r).
  { intros xs; induction xs as [|l xs IH]; intros acc H; cbn [foldM]; [eauto|].
    assert (Y : exists r, adj_step c w (now c w) acc l = Ok r).
    { destruct acc as [[m cnt] dr]. unfold adj_step. cbn zeta. destruct (Ct l (H l (or_introl eq_refl))) as (_ & _ & Z).
      assert (Z' : exists q, last_opt (l_tti (L w l)) = Some q).
      { destruct (last_opt (l_tti (L w l))) as [q|] eqn:Eq; [eauto|]. exfalso. apply Z. apply last_opt_nil. exact Eq. }
      destruct Z' as (q & ->). cbn [of_opt bind]. destruct (if c_det c then _ else _). eauto. }
    destruct Y as (r & ->). cbn [bind]. apply IH. intros k Hk. apply H. right. exact Hk. }
  destruct (X (seq 0 (w_nl w)) (fun _ _ => Some 0%Q, fun _ _ => 0, w_draw w)) as ([[m cnt] dr] & ->).
  { intros l Hl. apply in_seq in Hl. lia. }
  cbn [bind]. destruct (c_dijkstra c (w_nn w) m). eauto.
Qed.

Lemma route_total : forall c w, good_weights c -> (c_gradual c = true -> ~ (c_duo_time c == 0)%Q) -> Inv2 w None -> Safe w None -> Cnt w ->
  w_final w = true -> exists w', route_phase c w = Ok w'.
Proof.
  intros c w G Hg I Sf Ct Hf. unfold route_phase. cbn zeta. destruct (search_total c w Ct) as (w1 & E1).
  destruct (c_gradual c).
  - assert (Eq : qeq (c_duo_time c) 0 = false) by (apply qeq_false; auto). rewrite Eq.
    destruct (Nat.eqb _ _); [rewrite E1|]; cbn [bind]; eauto.
  - destruct (Nat.eqb _ _); [|eauto]. rewrite E1. cbn [bind].
    set (w2 := homogeneous_DUO_update c w1).
    assert (M1 : mstep c VSearch w None w1 None) by (constructor; exact E1).
    assert (M2 : mstep c VDuo w1 None w2 None) by constructor.
    pose proof (mstep_Inv2 c _ _ _ _ _ I M1) as I1. pose proof (mstep_Inv2 c _ _ _ _ _ I1 M2) as I2.
    pose proof (Safe_mstep c G _ _ _ _ _ I Sf M1) as S1. pose proof (Safe_mstep c G _ _ _ _ _ I1 S1 M2) as S2.
    assert (F2 : fr w w2) by exact (fr_trans (mstep_fr M1) (mstep_fr M2)).
    assert (Hl : forall v, In v (w_living w2) -> v < w_nv w2 /\ alive (v_state (V w2 v))) by (intros v; apply (s_living (proj2 (proj1 I2)))).
    assert (Hf2 : w_final w2 = true) by (rewrite (fr_w_final F2); exact Hf).
    clearbody w2. clear M1 M2 I1 S1 F2 E1.
    apply (foldM_total _ (fun x => Inv2 x None /\ Safe x None /\ fr w2 x /\ forall v, v_state (V x v) = v_state (V w2 v))).
    + intros v x Hv (Ix & Sx & Fx & Ex). destruct (Hl v Hv) as [Y1 Y2]. apply pref_update_total; [exact Sx|rewrite (fr_w_final Fx); exact Hf2|rewrite (fr_w_nv Fx); exact Y1|rewrite Ex; exact Y2].
    + intros v x x' Hv (Ix & Sx & Fx & Ex) E.
      assert (M : mstep c (VPref v (c_duo_weight c)) x None x' None) by (constructor; auto).
      split; [eapply mstep_Inv2; eauto|]. split; [eapply Safe_mstep; eauto|]. split; [exact (fr_trans Fx (mstep_fr M))|].
      intro u. rewrite <- Ex. pose proof (so_v (route_pref_update_soft _ _ _ _ E) u) as K. unfold vhard in K. congruence.
    + split; [exact I2|]. split; [exact S2|]. split; [apply fr_refl|auto].
Qed.

(** ** The beginning of a timestep *)
Lemma start_IncR : forall w, IncB w -> Ends w None -> Safe w None -> IncR w.
Proof.
  intros w J En Sf n v Hi. destruct (ic_in _ _ (ib_ok _ J) n v Hi) as (Hv & _ & l & (A1 & A2 & A3) & El & Nx).
  pose proof (vs_mode _ _ (sf_vehs _ _ Sf v Hv)) as Hm. pose proof (ic_dest _ _ (ib_ok _ J) n v Hi Hm) as Hd.
  destruct Nx as [(N1 & N2)|[(out & N1 & N2)|N1]]; [| |congruence].
  - split; [congruence|]. split; [intros o K; congruence|]. intro K. congruence.
  - split; [congruence|]. split; [intros o K; congruence|]. intros Ho. split; [|exact A1].
    destruct (v_flag (V w v)) eqn:Ef; [|reflexivity]. exfalso. destruct (eo_flag _ _ (En v Hv) A1 Ef) as [K|(_ & l' & K1 & K2)].
    + destruct (eo_abort _ _ (En v Hv) A1 K) as (l' & K1 & K2 & K3). congruence.
    + congruence.
Qed.

Lemma links_good : forall c w w1, good_weights c -> reachP c well_formed w -> phase_links c w = Ok w1 -> Good w1 None.
Proof.
  intros c w w1 G R E. pose proof (reachP_reach _ _ _ R) as Rw. pose proof (reach_Inv2 _ _ Rw) as I.
  pose proof (reach_IncB _ _ Rw) as J. pose proof (reach_Ends _ _ Rw) as En. destruct (reach_SafeC _ _ G R) as [Sf _].
  pose proof (phase_links_run _ _ E) as Rl.
  assert (Kf : forall e, k_links e = true -> k_first e = true /\ no_rc e = true) by (intros [] K; try discriminate K; split; reflexivity).
  destruct (run_with c (fun x p => Safe x p /\ IncA x p /\ Ends x p /\ IncR x) k_links) with (w := w) (w' := w1) as (I1 & S1 & J1 & E1 & N1).
  - intros e x p x' p' Ke Ix (Sx & Jx & Ex & Nx) M. destruct (Kf e Ke) as [K1 K2].
    split; [eapply Safe_mstep; eauto|]. split; [eapply IncA_step; eauto|]. split; [eapply Ends_step; eauto|eapply IncR_step; eauto].
  - exact I.
  - split; [exact Sf|]. split; [exact (IncOK_A _ (ib_ok _ J))|]. split; [exact En|]. apply start_IncR; auto.
  - exact Rl.
  - constructor; auto; [eapply links_cnt; eauto|].
    intros k l. pose proof (run_rc c k_links w w1 (fun e Ke => proj2 (Kf e Ke)) Rl) as Er. unfold rcw in Er.
    replace (w_rcpref w1) with (w_rcpref w) by congruence. apply (duo_bounds_reach c w k l G Rw).
Qed.

Lemma prefix_len : forall a b, prefix a b -> nth_error b (List.length a) = None -> a = b.
Proof.
  intros a b (t & ->) H. rewrite nth_error_app2, Nat.sub_diag in H by lia. destruct t as [|y t]; [rewrite app_nil_r; reflexivity|discriminate].
Qed.

(** the route of a vehicle after the transfers *)
Lemma first_Idx : forall c w w3 v, good_weights c -> reachP c well_formed w -> run c k_first w w3 -> v < w_nv w -> Idx w3 (V w3 v).
Proof.
  intros c w w3 v G R R3 Hv Hr sp k Hp Hk Hn. pose proof (reachP_reach _ _ _ R) as Rw. pose proof (reach_Inv2 _ _ Rw) as I.
  pose proof (reach_IncB _ _ Rw) as J. pose proof (reach_Ends _ _ Rw) as En. destruct (reach_SafeC _ _ G R) as [Sf _].
  pose proof (run_fr _ _ _ _ R3) as F3.
  assert (Hp0 : v_spec (V w v) = Some sp) by (rewrite <- (fr_v_spec F3); exact Hp).
  destruct (reach_Routed _ _ G R v sp Hv Hp0) as ([A1 A2 A3] & l & r & Es & Hl & Hd).
  destruct (run_dest c _ _ _ I R3 v) as [_ Dd]. specialize (Dd (vs_mode _ _ (sf_vehs _ _ Sf v Hv))).
  rewrite Dd, Hd, (fr_l_end F3). do 2 f_equal.
  assert (X : exists ls q, ls = q ++ [k] /\ prefix ls sp /\ List.length (v_tlog (V w3 v)) + rows_ahead (V w3 v) k - 1 = List.length ls).
  { pose proof (first_cases c v w w3 Hv (first_view_run c v k_first w w3 (fun _ H => H) Hv R3 I (IncOK_A _ (ib_ok _ J)) En)) as FC.
    unfold rows_ahead. destruct FC as [E|out outs E1 E2 E3 E4 E5 E6|il out E1 E2 E3 E4 E5 E6 E7 E8|E1 E2 E3].
    - apply vride_rt in E. destruct E as (E1 & E2 & E3). unfold vrt in E1.
      destruct (run_recorded c w v k Rw Hv) as (Q1 & ls & Q2); [split; congruence|].
      replace (v_linkold (V w3 v)) with (Some k) by congruence. replace (v_tlog (V w3 v)) with (v_tlog (V w v)) by congruence.
      cbn [opt_eqb]. rewrite Nat.eqb_refl, Nat.add_0_r. exists (ls ++ [k]), ls. split; [reflexivity|]. rewrite <- Q2. split; [exact A2|].
      apply (log_length c w v Rw Hv). congruence.
    - unfold vrt in E6. assert (out = k) by congruence. subst out.
      destruct (reach_trip c w Rw v Hv) as (es & A). destruct (tp_home _ _ _ _ _ _ _ A (or_intror E1)) as (-> & Q1 & _).
      destruct (tp_log _ _ _ _ _ _ _ A) as (t0 & Q2).
      replace (v_linkold (V w3 v)) with (@None lid) by congruence. replace (v_tlog (V w3 v)) with (v_tlog (V w v)) by congruence.
      rewrite Q2. unfold end_row. rewrite E1. cbn [opt_eqb rows app map List.length].
      exists [k], []. split; [reflexivity|]. split; [|reflexivity].
      unfold gen_outlinks in E2. rewrite A1 in E2. destruct sp as [|x sp]; [discriminate|].
      cbn [nth_error of_opt bind] in E2. destruct (mem x _); [|discriminate]. injection E2 as <-. destruct E3 as [<-|[]]. exists sp. reflexivity.
    - unfold vrt in E8. assert (out = k) by congruence. subst out.
      destruct (run_recorded c w v il Rw Hv) as (Q1 & ls & Q2); [split; congruence|].
      replace (v_linkold (V w3 v)) with (Some il) by congruence. replace (v_tlog (V w3 v)) with (v_tlog (V w v)) by congruence.
      pose proof (log_length c w v Rw Hv E1) as LL. cbn [opt_eqb]. destruct (Nat.eqb k il) eqn:Ek.
      + apply Nat.eqb_eq in Ek. subst il. rewrite Nat.add_0_r. exists (ls ++ [k]), ls. split; [reflexivity|]. rewrite <- Q2. split; [exact A2|exact LL].
      + exists (links_of (v_tlog (V w v)) ++ [k]), (links_of (v_tlog (V w v))). split; [reflexivity|].
        split; [apply prefix_snoc; [exact A2|]; eapply A3; eauto|]. rewrite app_length. cbn [List.length]. rewrite <- LL.
        assert (0 < List.length (v_tlog (V w v))); [|lia]. destruct (v_tlog (V w v)) as [|e t] eqn:Et; [|cbn; lia].
        cbn in Q2. destruct ls; discriminate.
    - destruct E2; congruence. }
  destruct X as (ls & q & X1 & X2 & X3). rewrite X3 in Hn. pose proof (prefix_len _ _ X2 Hn) as X4.
  rewrite X1, Es in X4. apply app_inj_tail in X4. destruct X4 as [_ X4]. congruence.
Qed.

(** ** The timestep *)
Theorem tick_fine : forall c w, sane c -> reachP c well_formed w -> w_final w = true -> fine c w (tick c w).
Proof.
  intros c w (_ & Ht & Hg & G) R Hf. pose proof (reachP_reach _ _ _ R) as Rw. pose proof (reach_Inv2 _ _ Rw) as I.
  destruct (reach_SafeC _ _ G R) as [Sf _]. unfold tick. apply fine_bind; [|intros; apply fine_ok]. unfold body.
  destruct (links_total c w Ht Sf (reach_TInv _ _ Rw)) as (w1 & E1). rewrite E1. cbn [bind].
  pose proof (links_good c w w1 G R E1) as G1. pose proof (phase_links_run _ _ E1) as R1. eapply fine_run; [exact R1|].
  apply fine_bind; [apply nodes_fine; auto|]. intros w2 E2. pose proof (phase_nodes_run _ _ E2) as R2. eapply fine_run; [exact R2|].
  assert (G2 : Good w2 None) by (eapply Good_run; [exact G| |exact R2|exact G1]; intros e Ke; unfold k_mid; rewrite Ke; reflexivity).
  destruct (transfers_total c w2 G G2) as (w3 & E3). rewrite E3. cbn [bind]. pose proof (phase_transfer_run _ _ E3) as R3.
  eapply fine_run; [exact R3|].
  assert (G3 : Good w3 None) by (eapply Good_run; [exact G| |exact R3|exact G2]; intros e Ke; unfold k_mid; rewrite Ke; apply orb_true_r).
  assert (R13 : run c k_first w w3).
  { eapply run_trans; [|eapply run_trans]; eapply run_weaken; try eassumption; intros [] K; try discriminate K; reflexivity. }
  pose proof (run_fr _ _ _ _ R13) as F13.
  destruct (follow_total c w3 (g_inv _ _ G3)) as (w4 & E4). rewrite E4. cbn [bind].
  pose proof (phase_follow_run _ _ E4) as R4. pose proof (run_fr _ _ _ _ R4) as F4. eapply fine_run; [exact R4|].
  assert (C4 : Car w4 None).
  { eapply Car_run; [exact G| |exact R4|destruct G3; constructor; assumption]. intros [] K; try discriminate K; split; reflexivity. }
  assert (X4 : forall v, v < w_nv w4 -> Idx w4 (V w4 v)).
  { intros v Hv. rewrite (fr_w_nv F4), (fr_w_nv F13) in Hv. pose proof (first_Idx c w w3 v G R R13 Hv) as X3.
    unfold phase_follow in E4.
    destruct (follow_loop c _ _ _ (g_inv _ _ G3) (s_running_nd (proj2 (proj1 (g_inv _ _ G3)))) E4) as (_ & FV & FN).
    destruct (in_dec Nat.eq_dec v (w_running w3)) as [Hin|Hn].
    - destruct (FV v Hin) as (l & _ & Ev). eapply (Idx_eq w3 w4 (V w3 v)); [exact F4| | | | | | |exact X3]; rewrite Ev; unfold followed; destruct (qlt _ _); reflexivity.
    - rewrite (FN v Hn). eapply Idx_eq; [exact F4| | | | | | |exact X3]; reflexivity. }
  assert (Hf4 : w_final w4 = true) by (rewrite (fr_w_final F4), (fr_w_final F13); exact Hf).
  apply fine_bind; [apply vehicles_fine; auto|]. intros w5 E5.
  pose proof (phase_vehicles_run _ _ E5) as R5. pose proof (run_fr _ _ _ _ R5) as F5. eapply fine_run; [exact R5|].
  assert (C5 : Car w5 None).
  { eapply Car_run; [exact G| |exact R5|exact C4]. intros [] K; try discriminate K; split; reflexivity. }
  destruct C5 as [I5 S5 C5 _]. destruct (route_total c w5 G Hg I5 S5 C5) as (w6 & E6); [rewrite (fr_w_final F5); exact Hf4|].
  rewrite E6. cbn [bind]. apply fine_ok.
Qed.

(** ** The calls of exec_simulation *)
Theorem exec_fine : forall c e w x, sane c -> reachP c well_formed w -> w_final w = true -> exec_until c e w = Err x ->
  x = Exception_ \/ exists w', later c well_formed w w' /\ w_final w' = true /\ fault c w' x.
Proof.
  intros c e w x Sc R Hf H. unfold exec_until in H. cbn zeta in H.
  destruct (Z.eqb _ _ && Z.eqb _ _); [discriminate|]. destruct (Z.ltb _ _); [left; congruence|]. right.
  match type of H with bind (iterM _ ?K w) _ = _ => generalize dependent K end. intros k H.
  assert (X : forall k w, reachP c well_formed w -> w_final w = true -> iterM (tick c) k w = Err x ->
    exists w', later c well_formed w w' /\ w_final w' = true /\ fault c w' x).
  { clear -Sc. intro k; induction k as [|k IH]; intros w R Hf H; cbn [iterM] in H; [discriminate|].
    destruct (tick c w) as [w1|e1] eqn:E; cbn [bind] in H.
    - assert (St : step c well_formed w w1) by (apply st_tick; auto).
      destruct (IH w1) as (w' & A1 & A2 & A3); [eapply reachP_step; eauto|rewrite (tick_final _ _ _ E); exact Hf|exact H|].
      exists w'. split; [|auto]. eapply later_trans; [|exact A1]. eapply lt_step; [apply lt_refl|exact St].
    - injection H as <-. exists w. split; [apply lt_refl|]. split; [exact Hf|]. apply (tick_fine c w Sc R Hf). exact E. }
  destruct (iterM (tick c) k w) as [w1|e1] eqn:E; cbn [bind] in H; [discriminate|]. injection H as <-. apply (X k); auto.
Qed.

Theorem tick_errors_lemma : forall c w e, sane c -> reachP c well_formed w -> w_final w = true -> tick c w = Err e ->
  e = ValueError /\ exists w1, run c k_all w w1 /\ route_fault w1.
Proof. intros c w e Sc R Hf H. exact (tick_fine c w Sc R Hf e H). Qed.
Theorem exec_errors_lemma : forall c ts w e, sane c -> reachP c well_formed w -> w_final w = true -> exec_until c ts w = Err e ->
  e = Exception_ \/ e = ValueError /\ exists w' w1, later c well_formed w w' /\ run c k_all w' w1 /\ route_fault w1.
Proof.
  intros c ts w e Sc R Hf H. destruct (exec_fine c ts w e Sc R Hf H) as [A|(w' & A1 & _ & A2 & w1 & A3 & A4)]; [left; exact A|].
  right. split; [exact A2|]. exists w', w1. auto.
Qed.
