(** * Safe: what a well-formed scenario guarantees in every state, also inside a timestep. *)
From Verif Require Import Base Types Sim Build Heap Lists Inv FrameBase Tac Frame Eff Eff2 Trace InvStep Reach Steps Effects Phases Attr Life Incoming Vev Ride TripLog Route Signal Green Choice Enforce Counts LinkQueries FD NodeCap Origin Bucket Outflow Trials Motion Spacing Spec Distance Totals SpecDuo Prefs SpecSafe.
Local Open Scope nat_scope.

Definition pref_safe (w : world) (a : vehicle) : Prop :=
  match v_pref a with
  | PrefOwn d => full_prefs (w_nl w) d
  | PrefShared k => k < w_nn w /\ v_princ a = HomogeneousDUO
  | PrefNone => False
  end.
Definition plinks (a : vehicle) : Prop :=
  v_tlog a <> [] /\ forall e, In e (tl (v_tlog a)) -> exists l, snd e = PLink l.
Record vsafe (w : world) (a : vehicle) : Prop := mkVsafe {
  vs_mode : v_mode a = SingleTrip;
  vs_dest : exists d, v_dest a = Some d /\ d < w_nn w;
  vs_spec : v_spec a <> Some [];
  vs_pref : alive (v_state a) -> pref_safe w a;
  vs_log : alive (v_state a) -> plinks a }.
Record Safe (w : world) (p : pend) : Prop := mkSafe {
  sf_nodes : forall n, n < w_nn w -> n_phase (N w n) < List.length (n_signal (N w n)) /\ (n_fcap (N w n) <> None -> n_lanes (N w n) <> None);
  sf_links : forall l, l < w_nl w -> (0 < l_u (L w l))%Q /\ (0 <= l_prio (L w l))%Q;
  sf_events : forall v, v_events (V w v) = [];
  sf_vehs : forall v, v < w_nv w -> vsafe w (V w v) }.

(** ** Preservation by events *)
Lemma mstep_alive : forall c e w p w' p' v, Inv2 w p -> mstep c e w p w' p' -> alive (v_state (V w' v)) -> alive (v_state (V w v)).
Proof.
  intros c e w p w' p' v I M A. pose proof (mstep_vev c e w p w' p' I M v) as K.
  destruct K as [K|n out q K1 K2 K3 K4 K5 K6 K7 K8|n out il q ld ln K1 K2 K3 K4 K5 K6 K7 K8 K9 K10 K11|l tl lg K1 K2 K3 K4 K5 K6 K7 K8|l K1 K2 K3|K1 K2 K3|K1 K2 K3 K4 K5|K1 K2 K3 K4|l K1 K2 K3 K4|l K1 K2 K3 K4 K5 K6|l nx K1 K2 K3 K4 K5].
  - apply vride_state in K. rewrite <- K. exact A.
  - rewrite K4. unfold alive; auto.
  - rewrite K8. unfold alive; auto.
  - rewrite K4. unfold alive; auto.
  - rewrite K3 in A. unfold followed in A. destruct (qlt _ _) in A; exact A.
  - rewrite K3 in A. exact A.
  - rewrite K3. unfold alive; auto.
  - rewrite K3. unfold alive; auto.
  - rewrite K4 in A. exact A.
  - destruct K2 as (K2 & _). rewrite K2. unfold alive; auto.
  - destruct K2 as (K2 & _). rewrite K2. unfold alive; auto.
Qed.

Lemma plinks_eq : forall a b, v_tlog a = v_tlog b -> plinks a -> plinks b.
Proof. unfold plinks. intros a b E H. rewrite <- E. exact H. Qed.
Lemma vride_tlog : forall a b, vride a = vride b -> v_tlog a = v_tlog b.
Proof. unfold vride. intros. congruence. Qed.
Lemma tl_app : forall A (l m : list A), l <> [] -> tl (l ++ m) = tl l ++ m.
Proof. intros A [|x l] m H; [congruence|reflexivity]. Qed.
Lemma moved_tlog : forall c w out ld ln q a, v_tlog (moved c w out ld ln q a) = v_tlog a.
Proof. intros. unfold moved. destruct a; reflexivity. Qed.
Lemma gen_tlog : forall c w out a, v_tlog (gen_veh c w out a) = v_tlog a.
Proof. intros. unfold gen_veh. destruct a; reflexivity. Qed.

Lemma mstep_plinks : forall c e w p w' p' v, Inv2 w p -> mstep c e w p w' p' -> alive (v_state (V w' v)) -> plinks (V w v) -> plinks (V w' v).
Proof.
  intros c e w p w' p' v I M A P. pose proof (mstep_vev c e w p w' p' I M v) as K.
  destruct K as [K|n out q K1 K2 K3 K4 K5 K6 K7 K8|n out il q ld ln K1 K2 K3 K4 K5 K6 K7 K8 K9 K10 K11|l tl lg K1 K2 K3 K4 K5 K6 K7 K8|l K1 K2 K3|K1 K2 K3|K1 K2 K3 K4 K5|K1 K2 K3 K4|l K1 K2 K3 K4|l K1 K2 K3 K4 K5 K6|l nx K1 K2 K3 K4 K5].
  - eapply plinks_eq; [|exact P]. symmetry. apply vride_tlog. exact K.
  - rewrite K8. eapply plinks_eq; [symmetry; apply gen_tlog|exact P].
  - rewrite K11. eapply plinks_eq; [symmetry; apply moved_tlog|exact P].
  - exfalso. apply vride_state in K8. rewrite K8 in A. cbn [sv_linkold sv_tlog sv_log v_state] in A.
    assert (X := ended_dead c w (V w v)). destruct (ended c w (V w v)) eqn:E. cbn in A, X. unfold alive in A. destruct X as [-> | ->]; intuition discriminate.
  - rewrite K3. eapply plinks_eq; [|exact P]. unfold followed. destruct (qlt _ _); reflexivity.
  - rewrite K3. destruct P as [P1 P2]. unfold plinks, logged.
    change (v_tlog (sv_linkold (v_link (V w v)) (sv_tlog (v_tlog (V w v) ++ tlog_rows c w (V w v)) (sv_log (v_log (V w v) ++ log_rows c w v false) (V w v)))))
      with (v_tlog (V w v) ++ tlog_rows c w (V w v)).
    split; [destruct (v_tlog (V w v)); [congruence|discriminate]|]. rewrite tl_app by exact P1. intros x Hx. apply in_app_or in Hx. destruct Hx as [Hx|Hx]; [auto|].
    unfold tlog_rows in Hx. destruct (opt_eqb _ _) in Hx; [destruct Hx|]. rewrite K3 in A. change (v_state (logged c w v false)) with (v_state (V w v)) in A.
    destruct (v_state (V w v)); try (destruct Hx; fail); try (destruct A as [A|[A|A]]; discriminate A).
    destruct (v_link (V w v)); [|destruct Hx]. destruct Hx as [<-|[]]. eexists; reflexivity.
  - rewrite K5. exact P.
  - rewrite K4. exact P.
  - rewrite K4. exact P.
  - rewrite K6. exact P.
  - rewrite K5. exact P.
Qed.

Lemma full_zero : forall n, full_prefs n (zero_pref n).
Proof.
  intro n. split; [apply zero_unit|]. split.
  - intros l Hl. exists 0%Q. unfold zero_pref. assert (X : forall a m, a <= l -> l < a + m -> dget l (map (fun l => (l, 0%Q)) (seq a m)) = Some 0%Q).
    { intros a m; revert a. induction m as [|m IH]; intros a H1 H2; [lia|]. cbn. destruct (Nat.eqb l a) eqn:E; [reflexivity|]. apply Nat.eqb_neq in E. apply IH; lia. }
    apply X; lia.
  - apply Forall_forall. intros x H. apply in_map_iff in H. destruct H as (l & <- & H). apply in_seq in H. cbn. lia.
Qed.
Lemma full_mix : forall n d wt (f : lid -> Q), (0 <= wt)%Q -> (wt <= 1)%Q -> (forall l, f l = 1%Q \/ f l = 0%Q) -> full_prefs n d ->
  full_prefs n (map (fun lp => (fst lp, ((1 - wt) * snd lp + wt * f (fst lp))%Q)) d).
Proof.
  intros n d wt f H1 H2 Hf (U & G & K). split; [apply mix_unit; auto|]. split.
  - intros l Hl. destruct (G l Hl) as (q & E). clear - E. induction d as [|[k x] d IH]; [discriminate|]. cbn in *.
    destruct (Nat.eqb l k); [eexists; reflexivity|auto].
  - apply Forall_forall. intros x H. apply in_map_iff in H. destruct H as (y & <- & H). rewrite Forall_forall in K. cbn. auto.
Qed.
Lemma pref_step_safe : forall c w q a b, good_weights c -> (q = 1%Q \/ q = c_duo_weight c) -> pref_step c w q a b ->
  (exists k, v_dest b = Some k /\ k < w_nn w) -> v_princ b = v_princ a -> pref_safe w a -> pref_safe w b.
Proof.
  intros c w q a b (G1 & G2 & _) Hq [k E Ed Ef Ep|E Ed|d wt f Ea Hw Hf E] (k' & Hk & Hn) Hp P; unfold pref_safe in *; rewrite E.
  - split; [congruence|congruence].
  - congruence.
  - rewrite Ea in P. apply full_mix; auto; destruct Hw as [-> | ->]; destruct Hq as [-> | ->]; lra.
Qed.

Lemma mstep_events : forall c e w p w' p', Inv2 w p -> mstep c e w p w' p' -> (forall u, v_events (V w u) = []) ->
  forall u, v_events (V w' u) = v_events (V w u).
Proof.
  intros c e w p w' p' [I NI] H Ev u. destruct H; try reflexivity.
  - unfold link_update in H0. binv H0. reflexivity.
  - assert (Ho : In out (n_out (N w n))) by (eapply gen_outlinks_sub; eauto).
    destruct (@enter_eff c n v q out w w' I H H0 Ho H5) as (ca & A1 & A2 & A3 & A4 & A5 & A6 & A7 & A8 & A9 & A10).
    destruct (Nat.eq_dec u v) as [->|Hu].
    + rewrite A9. pose proof (Reach.gen_veh_vrt c w out (V w v)) as Q. unfold Reach.vrt in Q. congruence.
    + rewrite A10 by auto. destruct (opt_eqb (att_leader w out) (Some u)); reflexivity.
  - unfold node_update in H0. binv H0. reflexivity.
  - destruct (candidate_true _ _ _ _ _ H1) as (l & rest & K1 & K2 & K3 & _).
    destruct (@shift_eff c n out v il w w' I (NI _ _ K3) H1 H5) as
      (cd & ca & r & q & A1 & A2 & A3 & A4 & A5 & A6 & A7 & A8 & A9 & A10 & A11 & A12 & A13 & A14).
    destruct (Nat.eq_dec u v) as [->|Hu].
    + rewrite A13. match goal with |- v_events (moved ?c ?w ?o ?ld ?ln ?q ?a) = _ => pose proof (Reach.moved_vrt c w o ld ln q a) as Q end. unfold Reach.vrt in Q. congruence.
    + rewrite A14 by auto. cbv zeta. destruct (opt_eqb (v_follower (V w v)) (Some u));
      destruct (opt_eqb (t_leader w out (out_vehs w il out r)) (Some u)); reflexivity.
  - destruct (@end_eff c v l rest p w w' I H H1) as
      (cd & lg & tl & A1 & A2 & A3 & A4 & A5 & A6 & A7 & A8 & A9 & A10 & A11 & A12 & A13 & A14).
    destruct (Nat.eq_dec u v) as [->|Hu].
    + rewrite A14. match goal with |- v_events (let a := sv_linkold None (sv_tlog ?tl (sv_log ?lg ?b)) in _) = _ => pose proof (Reach.closed_vrt (c_delpref c) tl lg b) as Q end.
      pose proof (Reach.ended_vrt c w (V w v)) as Q2. unfold Reach.vrt', Reach.vrt in *. congruence.
    + rewrite A11 by auto. destruct (opt_eqb (v_follower (V w v)) (Some u)); reflexivity.
  - unfold carfollow in H. cbn zeta in H. binv H. rewrite V_at. destruct (Nat.eqb u v) eqn:Eu; [apply Nat.eqb_eq in Eu; subst|reflexivity].
    destruct (qlt _ _); reflexivity.
  - pose proof (Reach.record_log_vrt c v false w u) as Q. unfold Reach.vrt in Q. congruence.
  - hs. rewrite V_at. destruct (Nat.eqb u v) eqn:Eu; [apply Nat.eqb_eq in Eu; subst|]; reflexivity.
  - rewrite V_at. destruct (Nat.eqb u v) eqn:Eu; [apply Nat.eqb_eq in Eu; subst|]; reflexivity.
  - exfalso. rewrite Ev in H0. discriminate.
  - unfold route_pref_update in H. cbn zeta in H. binv H; (rewrite V_at; destruct (Nat.eqb u v) eqn:Eu; [apply Nat.eqb_eq in Eu; subst|]; reflexivity).
  - rewrite V_at. destruct (Nat.eqb u v) eqn:Eu; [apply Nat.eqb_eq in Eu; subst|]; reflexivity.
  - rewrite V_at. destruct (Nat.eqb u v) eqn:Eu; [apply Nat.eqb_eq in Eu; subst|]; [|reflexivity]. unfold next_dest. destruct (v_dests _); reflexivity.
  - rewrite V_at. destruct (Nat.eqb u v) eqn:Eu; [apply Nat.eqb_eq in Eu; subst|]; reflexivity.
  - destruct (choose_next _ _ _ _ H1) as [B0 (l' & B1 & B2)].
    destruct (Nat.eq_dec u v) as [->|Hu]; [|rewrite B0; auto].
    destruct B2 as [(-> & _)|[(-> & _)|(out & B2 & ->)]]; reflexivity.
  - unfold route_search_all in H. binv H. reflexivity.
Qed.

Definition nph (a : node) := (n_phase a, n_signal a).
Definition phased (a : node) : Prop := n_phase a < List.length (n_signal a).
Lemma phased_eq : forall a b, nph a = nph b -> phased b -> phased a.
Proof. unfold nph, phased. intros a b E H. injection E as -> ->. exact H. Qed.
Lemma flow_nph : forall c a b, flow_capacity_update c a = Ok b -> nph b = nph a.
Proof. intros c a b H. apply flow_capacity_nsig in H. apply nsig_eq in H. unfold nph. intuition congruence. Qed.
Lemma sig_phased : forall c a b, signal_control c a = Ok b -> phased b.
Proof.
  intros c a b H. apply signal_control_ok in H. destruct H as (H1 & H2 & H3 & _). unfold phased. rewrite H3.
  unfold sig_next in H2. destruct (qlt _ _); injection H2 as -> _; [|exact H1].
  unfold next_phase. destruct (List.length (n_signal a) <=? S (n_phase a)) eqn:E; [apply Nat.leb_le in E; lia|apply Nat.leb_gt in E; lia].
Qed.
Lemma mstep_phased : forall c e w p w' p', Inv2 w p -> mstep c e w p w' p' -> forall n, phased (N w n) -> phased (N w' n).
Proof.
  intros c e w p w' p' I M n P. pose proof (mstep_eff c e w p w' p' I M) as H.
  assert (S : sameN w w' -> phased (N w' n)) by (intro X; rewrite X; exact P).
  assert (S2 : soft w w' -> phased (N w' n)) by (intro X; destruct X; eapply phased_eq; [|exact P]; unfold nph; congruence).
  destruct e; cbn [eff] in H; try (apply S; intuition auto; fail); try (apply S2; intuition auto; fail).
  - destruct H as (_ & _ & q & ca & _ & _ & _ & _ & _ & _ & _ & _ & _ & H & _). rewrite H. destruct (Nat.eqb_spec n n0) as [->|]; exact P.
  - destruct H as (_ & _ & _ & _ & _ & _ & _ & n1 & n2 & H1 & H2 & H). rewrite H. destruct (Nat.eqb_spec n n0) as [->|]; [|exact P].
    eapply phased_eq; [eapply flow_nph; exact H2|]. eapply sig_phased; exact H1.
  - destruct H as (_ & _ & cd & ca & rest & q & M'). do 17 (destruct M' as [_ M']). destruct M' as (M' & _). rewrite M'.
    destruct (Nat.eqb_spec n n0) as [->|]; [|exact P]. unfold charge. destruct (n_fcap (N w n0)); exact P.
  - apply S. destruct H as (_ & rest & cd & lg & tl & _ & _ & _ & _ & _ & _ & _ & _ & H & _). exact H.
  - destruct H as (_ & _ & _ & _ & _ & _ & H & _). rewrite H. destruct (Nat.eqb n n0); exact P.
  - destruct H as (_ & _ & _ & _ & _ & _ & H). rewrite H. destruct (Nat.eqb n n0); exact P.
  - destruct H as (_ & _ & _ & _ & _ & _ & _ & _ & _ & H). rewrite H. destruct (Nat.eqb n (v_orig (V w v))); exact P.
  - destruct H as (_ & _ & _ & _ & _ & _ & _ & H). rewrite H. destruct (Nat.eqb n n0); exact P.
Qed.

Lemma pref_safe_eq : forall w w' a b, w_nl w' = w_nl w -> w_nn w' = w_nn w -> v_pref b = v_pref a -> v_princ b = v_princ a ->
  pref_safe w a -> pref_safe w' b.
Proof. unfold pref_safe. intros w w' a b -> -> -> ->. auto. Qed.
Lemma Safe_mstep : forall c, good_weights c -> forall e w p w' p', Inv2 w p -> Safe w p -> mstep c e w p w' p' -> Safe w' p'.
Proof.
  intros c G e w p w' p' I [S1 S2 S3 S4] M. pose proof (mstep_fr M) as F. pose proof (mstep_dest c e w p w' p' I M) as D. constructor.
  - intros n Hn. rewrite (fr_w_nn F) in Hn. destruct (S1 n Hn) as [A B]. split; [eapply mstep_phased; eauto|].
    rewrite (fr_n_fcap F), (fr_n_lanes F). exact B.
  - intros l Hl. rewrite (fr_w_nl F) in Hl. rewrite (fr_l_u F), (fr_l_prio F). auto.
  - intro v. rewrite (mstep_events c e w p w' p' I M S3). auto.
  - intros v Hv. rewrite (fr_w_nv F) in Hv. destruct (S4 v Hv) as [A1 A2 A3 A4 A5]. destruct (D v) as [D1 D2].
    assert (A2' : exists d, v_dest (V w' v) = Some d /\ d < w_nn w) by (rewrite D2 by exact A1; exact A2).
    constructor.
    + congruence.
    + rewrite (fr_w_nn F). exact A2'.
    + rewrite (fr_v_spec F). exact A3.
    + intro Al. assert (Al' := mstep_alive _ _ _ _ _ _ v I M Al). specialize (A4 Al').
      destruct (mstep_pref c e w p w' p' I M v) as [K|[[[K|K] _]|(q & Hq & K)]].
      * eapply pref_safe_eq; [| | | |exact A4]; auto using (fr_w_nl F), (fr_w_nn F), (fr_v_princ F).
      * exfalso. rewrite K in Al. destruct Al as [Al|[Al|Al]]; discriminate Al.
      * exfalso. rewrite K in Al. destruct Al as [Al|[Al|Al]]; discriminate Al.
      * eapply pref_safe_eq with (w := w); [| | | |eapply pref_step_safe; eauto]; auto using (fr_w_nl F), (fr_w_nn F). apply (fr_v_princ F).
    + intro Al. assert (Al' := mstep_alive _ _ _ _ _ _ v I M Al). eapply mstep_plinks; eauto.
Qed.

(** ** Preservation by operations *)
Definition capok (a : node) : Prop := n_fcap a <> None -> n_lanes a <> None.
Lemma finalize_capok : forall c tm w w' n, finalize c tm w = Ok w' -> capok (N w n) -> capok (N w' n).
Proof.
  intros c tm w w' n H P. unfold finalize in H. cbn zeta in H. apply bind_ok in H. destruct H as (w1 & E & H).
  assert (P1 : capok (N w1 n)).
  { apply (foldM_inv (fun x => capok (N x n))) in E; [exact E| |exact P].
    intros l x x' _ Hx K. unfold init_after_tmax_fix in K. cbn zeta in K. binv K; auto. }
  destruct (c_adjust c); [|injection H as <-; exact P1]. injection H as <-.
  match goal with |- capok (N (sw_final _ (sw_avgcnt _ (sw_avgspd _ (fold_left ?f ?xs ?x)))) n) =>
    enough (forall xs' x', capok (N x' n) -> capok (N (fold_left f xs' x') n)) as Hf by (apply Hf; exact P1) end.
  intros xs'; induction xs' as [|m xs' IH]; intros x' Hx; cbn [fold_left]; auto. apply IH.
  unfold adjust_node_capacity. destruct (n_fcap _) eqn:Ef; auto. destruct (map _ _); auto. destruct (map _ _); auto.
  cbn zeta. rewrite N_at. destruct (Nat.eqb n m); [|apply Hx]. unfold capok; cbn. intros _. destruct (n_lanes _); discriminate.
Qed.
Lemma new_node_capok : forall c a nd, new_node c a = Ok nd -> capok nd.
Proof.
  intros c a nd H. unfold new_node in H. cbv zeta in H. apply bind_ok in H. destruct H as ([ph t] & E & H). injection H as <-.
  unfold capok. cbn. destruct (na_fcap a); [|congruence]. destruct (na_lanes a); discriminate.
Qed.

(** the preferences of new vehicles are made for the links that exist *)
Definition Cached (w : world) : Prop :=
  (w_nv w = 0 -> w_prefveh w = None) /\ match w_prefveh w with Some n => n = w_nl w | None => True end.
Definition SafeC (w : world) : Prop := Safe w None /\ Cached w.
Definition vcore (a : vehicle) := (v_mode a, v_dest a, v_pref a, v_princ a, v_state a, v_tlog a, v_events a).

Lemma SafeC_ext : forall w w',
  (w_nn w', w_nl w', w_nv w', w_prefveh w') = (w_nn w, w_nl w, w_nv w, w_prefveh w) ->
  (forall n, n < w_nn w -> phased (N w' n) /\ capok (N w' n)) ->
  (forall l, l < w_nl w -> (0 < l_u (L w' l))%Q /\ (0 <= l_prio (L w' l))%Q) ->
  (forall v, vcore (V w' v) = vcore (V w v)) ->
  (forall v, v_spec (V w' v) = v_spec (V w v) \/ v_spec (V w' v) <> Some []) ->
  SafeC w -> SafeC w'.
Proof.
  intros w w' E A B C D [[S1 S2 S3 S4] [K1 K2]]. injection E as E1 E2 E3 E4. split; [constructor|split].
  - rewrite E1. exact A.
  - rewrite E2. exact B.
  - intro v. specialize (C v). unfold vcore in C. transitivity (v_events (V w v)); [congruence|apply S3].
  - rewrite E3. intros v Hv. specialize (C v). specialize (D v). destruct (S4 v Hv) as [V1 V2 V3 V4 V5]. unfold vcore in C. constructor.
    + congruence.
    + rewrite E1. replace (v_dest (V w' v)) with (v_dest (V w v)) by congruence. exact V2.
    + destruct D as [D|D]; congruence.
    + replace (v_state (V w' v)) with (v_state (V w v)) by congruence. intro Al. eapply pref_safe_eq; [| | | |exact (V4 Al)]; congruence.
    + replace (v_state (V w' v)) with (v_state (V w v)) by congruence. intro Al. eapply plinks_eq; [|exact (V5 Al)]. congruence.
  - rewrite E3, E4. exact K1.
  - rewrite E4, E2. exact K2.
Qed.

Lemma add_vehicle_SafeC : forall c a w w', va_mode a = SingleTrip -> va_dest a <> None ->
  match va_pref a with Some d => full_prefs (w_nl w) d | None => True end ->
  add_vehicle c a w = Ok w' -> SafeC w -> SafeC w'.
Proof.
  intros c a w w' H1 H2 H3 H [[S1 S2 S3 S4] [K1 K2]]. unfold add_vehicle in H. cbn zeta in H.
  destruct (negb _) eqn:En; [discriminate|]. destruct (smem _ _); [discriminate|]. injection H as <-.
  apply negb_false_iff, andb_prop in En. destruct En as [En _]. apply andb_prop in En. destruct En as [_ En].
  assert (Nl : match w_prefveh w with Some n => n | None => w_nl w end = w_nl w) by (destruct (w_prefveh w); [congruence|reflexivity]).
  split; [constructor|split].
  - exact S1.
  - exact S2.
  - intro v. unfold V; cbn. unfold upd. destruct (Nat.eqb v (w_nv w)); [reflexivity|apply S3].
  - intros v Hv. cbn in Hv. unfold V; cbn. unfold upd. destruct (Nat.eqb v (w_nv w)) eqn:Ev.
    + constructor.
      * exact H1.
      * cbn. destruct (va_dest a) as [d|]; [|congruence]. exists d. split; [reflexivity|]. cbn in En. apply Nat.ltb_lt in En. exact En.
      * cbn. discriminate.
      * intros _. unfold pref_safe. cbn. rewrite Nl. destruct (va_pref a); [exact H3|apply full_zero].
      * intros _. split; cbn; [discriminate|intros e []].
    + apply Nat.eqb_neq in Ev. assert (Hv' : v < w_nv w) by lia. destruct (S4 v Hv') as [V1 V2 V3 V4 V5]. constructor; auto.
  - cbn. lia.
  - cbn. destruct (va_pref a); [exact K2|]. exact Nl.
Qed.

Lemma op_SafeC : forall c o w w', op_ok o w -> well_formed o w -> (forall a, o <> OExec a) -> apply_op c o w = Ok w' -> SafeC w -> SafeC w'.
Proof.
  intros c o w w' Ho Wf Hx H Sw.
  assert (Nd : forall n, n < w_nn w -> phased (N w n) /\ capok (N w n)) by (intros n Hn; apply (sf_nodes _ _ (proj1 Sw) n Hn)).
  assert (Lk : forall l, l < w_nl w -> (0 < l_u (L w l))%Q /\ (0 <= l_prio (L w l))%Q) by exact (sf_links _ _ (proj1 Sw)).
  destruct o; cbn [apply_op well_formed op_ok] in *.
  - (* node *) unfold add_node in H. apply bind_ok in H. destruct H as (nd & E & H). destruct (smem _ _); [discriminate|]. injection H as <-.
    destruct Sw as [[S1 S2 S3 S4] K]. split; [constructor|exact K].
    + intros n Hn. cbn in Hn. unfold N; cbn. unfold upd. destruct (Nat.eqb n (w_nn w)) eqn:En.
      * split; [eapply new_node_phase; eauto|eapply new_node_capok; eauto].
      * apply Nat.eqb_neq in En. apply S1. lia.
    + exact S2.
    + exact S3.
    + intros v Hv. destruct (S4 v Hv) as [V1 (d & V2 & V2') V3 V4 V5]. constructor; auto.
      * exists d. cbn. auto.
      * intro Al. specialize (V4 Al). unfold pref_safe in *. change (V (sw_nn (S (w_nn w)) (sw_nodes (upd (w_nodes w) (w_nn w) nd) w)) v) with (V w v).
        destruct (v_pref (V w v)); cbn; intuition lia.
  - (* link *) destruct Wf as (W1 & W2 & W3). unfold add_link in H. cbn zeta in H. destruct (negb _); [discriminate|].
    apply bind_ok in H. destruct H as (k & E & H). destruct (smem _ _); [discriminate|]. injection H as <-.
    destruct Sw as [[S1 S2 S3 S4] [K1 K2]]. split; [constructor|split].
    + intros n Hn. cbn in Hn. destruct (S1 n Hn) as [A B]. rewrite N_at. 
      destruct (Nat.eqb n (la_end a)); rewrite N_at; destruct (Nat.eqb n (la_start a)); split; assumption.
    + intros l Hl. cbn in Hl. unfold L; cbn. unfold upd. destruct (Nat.eqb l (w_nl w)) eqn:El.
      * unfold new_link in E. cbn zeta in E. repeat (apply bind_ok in E; destruct E as (? & _ & E)). injection E as <-. cbn. auto.
      * apply Nat.eqb_neq in El. apply S2. lia.
    + exact S3.
    + intros v Hv. cbn in Hv. lia.
    + exact K1.
    + cbn. rewrite (K1 W1). exact Logic.I.
  - destruct Wf as (W1 & W2 & W3). eapply add_vehicle_SafeC; eauto.
  - apply (adddemand_inv SafeC) in H; auto. intros t x y Sx E. eapply add_vehicle_SafeC; [..|exact E|exact Sx]; cbn; auto; discriminate.
  - pose proof (finalize_ok _ _ _ _ H) as F. pose proof (fz_cnt _ _ _ F) as Q. injection Q; intros. eapply (SafeC_ext w); [..|exact Sw].
    + congruence.
    + intros n Hn. destruct (Nd n Hn) as [A B]. split; [|eapply finalize_capok; eauto].
      destruct (fz_N _ _ _ F n) as [-> | (x & y & z & ->)]; exact A.
    + intros l Hl. destruct (fz_L _ _ _ F l) as (q & ->). apply Lk. exact Hl.
    + intro v. unfold V. rewrite (fz_V _ _ _ F). reflexivity.
    + intro v. left. unfold V. rewrite (fz_V _ _ _ F). reflexivity.
  - exfalso; eapply Hx; reflexivity.
  - exfalso. unfold add_dest in H. rewrite (vs_mode _ _ (sf_vehs _ _ (proj1 Sw) v (proj1 Ho))) in H. discriminate.
  - destruct Wf as (_ & l & r' & -> & _). unfold enforce_route in H. destruct (negb _); [discriminate|]. injection H as <-.
    eapply (SafeC_ext w); [reflexivity|exact Nd|exact Lk| | |exact Sw].
    + intro u. rewrite V_at. destruct (Nat.eqb_spec u v) as [-> |]; [|reflexivity]. destruct set_avoid; reflexivity.
    + intro u. rewrite V_at. destruct (Nat.eqb_spec u v) as [-> |]; [|left; reflexivity]. right.
      assert (X : r' ++ [l] <> []) by (destruct r'; discriminate). destruct set_avoid; cbn; congruence.
  - injection H as <-. eapply (SafeC_ext w); [reflexivity|exact Nd|exact Lk| | |exact Sw];
    intro u; rewrite V_at; destruct (Nat.eqb_spec u v) as [-> |]; auto.
  - injection H as <-. eapply (SafeC_ext w); [reflexivity|exact Nd|exact Lk| | |exact Sw];
    intro u; rewrite V_at; destruct (Nat.eqb_spec u v) as [-> |]; auto.
  - pose proof (override_V _ _ _ _ _ _ _ H) as EV. eapply (SafeC_ext w); [..|exact Sw].
    + assert (O : (forall a, OOverrideSignal n sig groups offset reset <> OAddLink a)) by discriminate.
      rewrite (override_nn _ _ _ _ _ _ _ H), (op_nl_same c _ w w' Hx H Ho O), (op_nv_same c _ w w' Hx H Ho ltac:(discriminate) ltac:(discriminate)).
      f_equal. unfold override_signal in H. cbn zeta in H. destruct groups as [l0|]; [|injection H as <-; reflexivity].
      destruct (negb _); [discriminate|]. destruct (negb _); [discriminate|]. injection H as <-.
      assert (P : forall ls x, w_prefveh (fold_left (fun w l => if existsb (mem l) l0 then modl l (sl_group (groups_of l l0)) w else w) ls x) = w_prefveh x).
      { induction ls as [|z ls IH]; intro x; [reflexivity|]. cbn [fold_left]. rewrite IH. destruct (existsb _ _); reflexivity. }
      rewrite P. reflexivity.
    + intros k Hk. destruct (Nd k Hk) as [A B]. rewrite (override_N _ _ _ _ _ _ _ H). destruct (Nat.eqb_spec k n) as [-> |]; [|auto].
      cbn zeta. destruct Wf as [W1 W2]. destruct reset; (split; [|exact B]); unfold phased; cbn; [exact W1|]. destruct W2 as [W2|W2]; [discriminate|exact W2].
    + intros l Hl. destruct (override_L _ _ _ _ _ _ _ H l) as (g & ->). apply Lk. exact Hl.
    + intro v. unfold V. rewrite EV. reflexivity.
    + intro v. left. unfold V. rewrite EV. reflexivity.
  - unfold change_free_flow_speed in H. cbn zeta in H. destruct (qlt q 0); [injection H as <-; exact Sw|].
    repeat (apply bind_ok in H; destruct H as (? & _ & H)). injection H as <-.
    eapply (SafeC_ext w); [reflexivity|exact Nd| |intro; reflexivity|intro; left; reflexivity|exact Sw].
    intros k Hk. rewrite L_at. destruct (Nat.eqb_spec k l) as [-> |]; [|auto]. cbn. split; [exact Wf|apply Lk; exact Hk].
  - unfold change_jam_density in H. cbn zeta in H. destruct (qlt q 0); [injection H as <-; exact Sw|].
    repeat (apply bind_ok in H; destruct H as (? & _ & H)). injection H as <-.
    eapply (SafeC_ext w); [reflexivity|exact Nd| |intro; reflexivity|intro; left; reflexivity|exact Sw].
    intros k Hk. rewrite L_at. destruct (Nat.eqb_spec k l) as [-> |]; [|auto]. cbn. apply Lk; exact Hk.
  - injection H as <-. eapply (SafeC_ext w); [reflexivity|exact Nd| |intro; reflexivity|intro; left; reflexivity|exact Sw].
    intros k Hk. rewrite L_at. destruct (Nat.eqb_spec k l) as [-> |]; [|auto]. cbn. apply Lk; exact Hk.
  - injection H as <-. eapply (SafeC_ext w); [reflexivity|exact Nd| |intro; reflexivity|intro; left; reflexivity|exact Sw].
    intros k Hk. rewrite L_at. destruct (Nat.eqb_spec k l) as [-> |]; [|auto]. cbn. apply Lk; exact Hk.
  - injection H as <-. eapply (SafeC_ext w); [reflexivity|exact Nd| |intro; reflexivity|intro; left; reflexivity|exact Sw].
    intros k Hk. rewrite L_at. destruct (Nat.eqb_spec k l) as [-> |]; [|auto]. cbn. apply Lk; exact Hk.
  - unfold add_trip_request in H. destruct (negb _); [discriminate|]. injection H as <-.
    eapply (SafeC_ext w); [reflexivity|exact Nd|exact Lk|intro; reflexivity|intro; left; reflexivity|exact Sw].
  - exfalso. unfold assign_taxi in H. destruct (negb _); [discriminate|]. apply bind_ok in H. destruct H as (w1 & E & H).
    unfold add_dest in E. rewrite (vs_mode _ _ (sf_vehs _ _ (proj1 Sw) v Ho)) in E. discriminate.
Qed.

Lemma empty_Safe : forall tm, SafeC (empty_world tm).
Proof.
  intro tm. split; [constructor|split]; cbn; try (intros; lia); auto.
Qed.
Theorem reach_SafeC : forall c w, good_weights c -> reachP c well_formed w -> SafeC w.
Proof.
  intros c w G R. pose (A := fun (x : world) (p : pend) => Safe x p /\ Cached x).
  assert (H : A w None); [|exact H].
  assert (M : forall e x p x' p', Inv2 x p -> A x p -> mstep c e x p x' p' -> A x' p').
  { intros e x p x' p' I [S [K1 K2]] M. split; [eapply Safe_mstep; eauto|]. pose proof (mstep_fr M) as F.
    unfold Cached. rewrite (fr_w_nv F), (fr_w_prefveh F), (fr_w_nl F). auto. }
  apply (reachP_phase c A A A) with (P := well_formed); [intros ? ? ? ? ? _; apply M|auto| | | | | | |exact R].
  - intros ? ? ? ? ? _; apply M.
  - auto.
  - intros ? ? ? ? ? _; apply M.
  - exact empty_Safe.
  - intros x Hf I [[S1 S2 S3 S4] K]. split; [constructor; auto|exact K].
    intros v Hv. destruct (S4 v Hv). constructor; assumption.
  - intros o x x' Rx I Sx Ho Wf Hx H. exact (op_SafeC c o x x' Ho Wf Hx H Sx).
Qed.

Lemma op_newspec : forall c o w w' v, op_ok o w -> (forall a, o <> OExec a) -> apply_op c o w = Ok w' -> w_nv w <= v -> v < w_nv w' ->
  v_spec (V w' v) = None.
Proof.
  intros c o w w' v Ho Hx H H1 H2.
  assert (Add : forall a x y, (forall z, w_nv w <= z -> z < w_nv x -> v_spec (V x z) = None) -> add_vehicle c a x = Ok y ->
    forall z, w_nv w <= z -> z < w_nv y -> v_spec (V y z) = None).
  { intros a x y Sx E z Hz1 Hz. unfold add_vehicle in E. cbn zeta in E. destruct (negb _); [discriminate|]. destruct (smem _ _); [discriminate|].
    injection E as <-. unfold V. cbn. cbn in Hz. unfold upd. destruct (Nat.eqb z (w_nv x)) eqn:Ez; [reflexivity|].
    apply Nat.eqb_neq in Ez. apply Sx; lia. }
  destruct o; try (exfalso; pose proof (op_nv_same c _ w w' Hx H Ho ltac:(discriminate) ltac:(discriminate)) as Z; lia); cbn [apply_op] in H.
  - eapply Add; eauto. intros; lia.
  - revert v H1 H2. refine (adddemand_inv (fun x => forall z, w_nv w <= z -> z < w_nv x -> v_spec (V x z) = None) c _ _ _ _ _ _ _ w w' _ H).
    + intros t x y Sx E. eapply Add; eauto.
    + intros; lia.
Qed.
Lemma op_dest : forall c o w w' v, op_ok o w -> (forall a, o <> OExec a) -> apply_op c o w = Ok w' -> v < w_nv w ->
  v_mode (V w v) = SingleTrip -> v_dest (V w' v) = v_dest (V w v).
Proof.
  intros c o w w' v Ho Hx H Hv Hm. pose proof (apply_op_osteps _ _ _ _ Ho Hx H) as O. clear - O Hv Hm.
  induction O as [w|a b d O1 O IH]; [reflexivity|].
  destruct (osteps_keep c a b v (osteps_one _ _ _ O1) Hv) as (K1 & K2 & _).
  transitivity (v_dest (V b v)); [apply IH; [lia|]; unfold vkeep in K1; congruence|]. clear IH O.
  destruct O1; try reflexivity.
  - unfold V; cbn; rewrite upd_other by lia; reflexivity.
  - apply finalize_ok in H0. unfold V. rewrite (fz_V _ _ _ H0). reflexivity.
  - auto.
  - unfold V. rewrite H. reflexivity.
Qed.

(** vehicles with a specified route follow it, and it ends at their destination *)
Definition Routed (w : world) : Prop := forall v sp, v < w_nv w -> v_spec (V w v) = Some sp ->
  Follows sp w v /\ exists l r, sp = r ++ [l] /\ l < w_nl w /\ v_dest (V w v) = Some (l_end (L w l)).
Theorem reach_Routed : forall c w, good_weights c -> reachP c well_formed w -> Routed w.
Proof.
  intros c w G R. apply (reachP_ind' c well_formed Routed); [| |exact R].
  - intros tm v sp Hv. cbn in Hv. lia.
  - clear w R. intros w w' R IH St v sp Hv Hs. pose proof (reachP_reach _ _ _ R) as Rw. pose proof (reach_Inv2 _ _ Rw) as I.
    destruct (reach_SafeC _ _ G R) as [Sw _]. destruct St as [w o w' Ho Wf Hx H|w w' Hf H|w].
    + destruct (Nat.lt_ge_cases v (w_nv w)) as [Hv'|Hv']; [|rewrite (op_newspec c o w w' v Ho Hx H Hv' Hv) in Hs; discriminate].
      pose proof (op_dest c o w w' v Ho Hx H Hv' (vs_mode _ _ (sf_vehs _ _ Sw v Hv'))) as Ed.
      destruct (op_nl c o w w' Hx H Ho) as (Enl & _).
      assert (D : (exists r b, o = OEnforceRoute v r b) \/ keeps_route v o w).
      { destruct o; try (right; intros ? ?; discriminate). destruct (Nat.eq_dec v v0) as [-> |Hn]; [left; eauto|right; intros r b E; congruence]. }
      destruct D as [(r & b & ->)|D].
      * cbn [well_formed] in Wf. destruct Wf as (W1 & l & r' & -> & W2). assert (Hr := H). cbn [apply_op] in H. unfold enforce_route in H.
        destruct (negb _) eqn:En; [discriminate|]. apply negb_false_iff in En. rewrite forallb_forall in En.
        destruct (op_keep c _ w w' v Ho Hx Hr Hv') as (K1 & _). unfold vkeep in K1.
        assert (Esp : v_spec (V w' v) = Some (r' ++ [l])). { injection H as <-. rewrite V_at, Nat.eqb_refl. destruct b; reflexivity. }
        assert (sp = r' ++ [l]) by congruence. subst sp. split.
        -- eapply follows_start; [eapply rc_op; eauto|exact Hv| |exact Hs]. replace (v_state (V w' v)) with (v_state (V w v)) by congruence. exact W1.
        -- assert (Hl : l < w_nl w) by (apply Nat.ltb_lt; apply En; apply in_or_app; right; left; reflexivity).
           exists l, r'. split; [reflexivity|]. split; [lia|]. rewrite (proj2 (op_net c _ w w' l Ho Hx Hr Hl)). congruence.
      * assert (Es : v_spec (V w v) = Some sp) by (rewrite <- (op_spec c o w w' v Ho D Hx H Hv'); exact Hs).
        destruct (IH v sp Hv' Es) as (F & l & r & E & Hl & E2). split; [eapply follows_op; eauto|].
        exists l, r. split; [exact E|]. split; [lia|]. rewrite (proj2 (op_net c _ w w' l Ho Hx H Hl)). congruence.
    + assert (L1 : later c (keeps_route v) w w') by (eapply lt_step; [constructor|]; apply st_tick; auto).
      pose proof (tick_fr _ _ _ H) as (w1 & Hb & E'). pose proof (body_fr _ _ Hb) as F.
      assert (Hv' : v < w_nv w) by (rewrite <- (fr_w_nv F); subst w'; exact Hv).
      assert (Es : v_spec (V w v) = Some sp). { rewrite <- (fr_v_spec F). subst w'. exact Hs. }
      destruct (IH v sp Hv' Es) as (Fo & l & r & E & Hl & E2). split; [apply (follows_later c w w' v sp Rw L1 Hv' Fo)|].
      pose proof (body_run _ _ Hb) as Br. pose proof (run_dest _ _ _ _ I Br v) as [_ D].
      exists l, r. split; [exact E|]. subst w'. change (w_nl (sw_T (S (w_T w)) w1)) with (w_nl w1). change (L (sw_T (S (w_T w)) w1) l) with (L w1 l). change (V (sw_T (S (w_T w)) w1) v) with (V w1 v).
      rewrite (fr_w_nl F), (fr_l_end F). split; [exact Hl|]. rewrite D; [exact E2|]. exact (vs_mode _ _ (sf_vehs _ _ Sw v Hv')).
    + destruct (IH v sp Hv Hs) as ([F1 F2 F3] & K). split; [constructor; assumption|exact K].
Qed.
