(** * Origin: the generation queue of a node (C36). *)
From Verif Require Import Base Types Sim Build Heap Lists Inv FrameBase Tac Frame Eff Eff2 Trace InvStep Reach Steps Effects Phases Attr Life Incoming Vev Ride TripLog Route Green Choice Counts Spec.
Local Open Scope nat_scope.

(** ** Order *)
Definition qord (w : world) (w' : world) : Prop :=
  w_nn w <= w_nn w' /\ forall n, n < w_nn w -> exists k new, n_queue (N w' n) = skipn k (n_queue (N w n) ++ new) /\
    k <= List.length (n_queue (N w n) ++ new).

Lemma qord_refl : forall w, qord w w.
Proof. intro w. split; auto. intros n _. exists 0, []. rewrite app_nil_r. split; [reflexivity|lia]. Qed.
Lemma qord_same : forall w w', w_nn w <= w_nn w' -> (forall n, n < w_nn w -> n_queue (N w' n) = n_queue (N w n)) -> qord w w'.
Proof. intros w w' E H. split; auto. intros n Hn. exists 0, []. rewrite app_nil_r, H; auto. split; [reflexivity|lia]. Qed.
Lemma qord_trans : forall a b d, qord a b -> qord b d -> qord a d.
Proof.
  intros a b d [N1 H1] [N2 H2]. split; [lia|]. intros n Hn.
  destruct (H1 n Hn) as (k1 & l1 & E1 & K1). destruct (H2 n ltac:(lia)) as (k2 & l2 & E2 & K2).
  exists (k1 + k2), (l1 ++ l2). rewrite E1 in *.
  assert (skipn k1 (n_queue (N a n) ++ l1) ++ l2 = skipn k1 (n_queue (N a n) ++ l1 ++ l2)) as Ek.
  { rewrite (app_assoc _ l1 l2), (skipn_app k1 (n_queue (N a n) ++ l1) l2).
    replace (k1 - List.length (n_queue (N a n) ++ l1)) with 0 by lia. reflexivity. }
  rewrite Ek in *. rewrite skipn_length in K2. split.
  - rewrite E2, skipn_add. reflexivity.
  - rewrite !app_length in *. lia.
Qed.

Lemma signal_queue : forall c a b, signal_control c a = Ok b -> n_queue b = n_queue a.
Proof.
  intros c a b H. unfold signal_control in H. cbv zeta in H. binv H. destruct (qlt _ _); reflexivity.
Qed.
Lemma fcap_queue : forall c a b, flow_capacity_update c a = Ok b -> n_queue b = n_queue a.
Proof. intros c a b H. unfold flow_capacity_update in H. binv H; auto. destruct (qlt _ _); reflexivity. Qed.
Lemma charge_queue : forall c a, n_queue (charge c a) = n_queue a.
Proof. intros c a. unfold charge. destruct (n_fcap a); reflexivity. Qed.

Lemma mstep_q : forall c e w p w' p', Inv2 w p -> mstep c e w p w' p' -> forall m,
  match e with
  | VEnter n v _ => if Nat.eqb m n then n_queue (N w m) = v :: n_queue (N w' m) else n_queue (N w' m) = n_queue (N w m)
  | VDepart v => n_queue (N w' m) = n_queue (N w m) ++ (if Nat.eqb m (v_orig (V w v)) then [v] else [])
  | _ => n_queue (N w' m) = n_queue (N w m)
  end.
Proof.
  intros c e w p w' p' I M m. apply mstep_eff in M; auto.
  destruct e; cbn [eff] in M.
  1: { destruct M as (_ & _ & _ & _ & S & _). rewrite S; auto. }
  1: { destruct M as (_ & _ & _ & _ & S & _). rewrite S; auto. }
  1: { destruct M as (_ & _ & q & ca & _ & Hq & _ & _ & _ & _ & _ & _ & _ & S & _).
       rewrite S. destruct (Nat.eqb m n) eqn:E; auto. apply Nat.eqb_eq in E; subst m. exact Hq. }
  1: { destruct M as (_ & _ & _ & _ & _ & _ & _ & n1 & n2 & E1 & E2 & S). rewrite S.
       destruct (Nat.eqb m n) eqn:E; auto. apply Nat.eqb_eq in E; subst m.
       rewrite (fcap_queue _ _ _ E2). eapply signal_queue; eauto. }
  1: { destruct M as (_ & _ & M). destruct M as (cd & ca & rest & q & M). do 17 (destruct M as (_ & M)). destruct M as (S & _).
       rewrite S. destruct (Nat.eqb m n) eqn:E; auto. apply Nat.eqb_eq in E; subst m. apply charge_queue. }
  1: { destruct M as (_ & rest & cd & lg & tl & _ & _ & _ & _ & _ & _ & _ & _ & S & _). rewrite S; auto. }
  1: { destruct M as (_ & _ & _ & _ & _ & _ & S & _). rewrite S. destruct (Nat.eqb m n); auto. }
  1: { destruct M as (_ & _ & _ & _ & _ & _ & S). rewrite S. destruct (Nat.eqb m n); auto. }
  1: { destruct M as (_ & _ & _ & S & _). rewrite S; auto. }
  1: { destruct M as (_ & _ & _ & _ & S & _). rewrite S; auto. }
  1: { destruct M as (_ & _ & _ & _ & _ & _ & _ & _ & _ & S). rewrite S.
       destruct (Nat.eqb m _); auto. rewrite app_nil_r; auto. }
  1: { destruct M as (_ & _ & _ & _ & _ & S & _). rewrite S; auto. }
  1: { destruct M as (_ & _ & S & _). rewrite (so_n S); auto. }
  1: { destruct M as (_ & _ & S & _). rewrite (so_n S); auto. }
  1: { destruct M as (_ & _ & _ & _ & _ & S & _). rewrite S; auto. }
  1: { destruct M as (_ & _ & _ & _ & _ & S & _). rewrite S; auto. }
  1: { destruct M as (_ & _ & _ & _ & _ & S & _). rewrite S; auto. }
  1: { destruct M as (_ & _ & S & _). rewrite (so_n S); auto. }
  1: { destruct M as (_ & _ & _ & _ & _ & _ & _ & S). rewrite S. destruct (Nat.eqb m n); auto. }
  1: { destruct M as (_ & _ & _ & _ & S & _). rewrite S; auto. }
  1: { destruct M as (_ & _ & _ & _ & S & _). rewrite S; auto. }
  1: { destruct M as (_ & _ & _ & _ & S & _). rewrite S; auto. }
Qed.
Lemma mstep_queue : forall c e w p w' p', Inv2 w p -> mstep c e w p w' p' -> qord w w'.
Proof.
  intros c e w p w' p' I M. pose proof (fr_w_nn (mstep_fr M)) as En. split; [lia|]. intros m _.
  apply (mstep_q _ _ _ _ _ _ I) with (m := m) in M.
  destruct e; try (exists 0, []; rewrite app_nil_r; split; [exact M|lia]).
  - destruct (Nat.eqb m n); [|exists 0, []; rewrite app_nil_r; split; [exact M|lia]].
    exists 1, []. rewrite app_nil_r, M. cbn. split; [reflexivity|lia].
  - eexists 0, _. split; [exact M|lia].
Qed.
Definition no_enter (e : ev) : bool := match e with VEnter _ _ _ => false | _ => true end.
Lemma mstep_grow : forall c e w p w' p' m, Inv2 w p -> mstep c e w p w' p' -> no_enter e = true ->
  exists new, n_queue (N w' m) = n_queue (N w m) ++ new.
Proof.
  intros c e w p w' p' m I M K. apply (mstep_q _ _ _ _ _ _ I) with (m := m) in M.
  destruct e; try discriminate K; try (exists []; rewrite app_nil_r; exact M). eexists; exact M.
Qed.

Lemma ostep_queue : forall c w w', ostep c w w' -> qord w w'.
Proof.
  intros c w w' H. destruct H.
  - apply qord_same; [cbn; lia|]. intros n Hn. unfold added_node, N. cbn. unfold upd.
    replace (Nat.eqb n (w_nn w)) with false by (symmetry; apply Nat.eqb_neq; lia). reflexivity.
  - apply qord_same; [cbn; lia|]. intros n Hn. unfold added_link. rewrite !N_at.
    destruct (Nat.eqb n (la_end a)), (Nat.eqb n (la_start a)); reflexivity.
  - apply qord_same; [cbn; lia|]. intros; reflexivity.
  - apply finalize_ok in H0. destruct H0 as [_ _ Hn _ E _ _ _].
    apply qord_same; [injection E; intros; lia|]. intros n _. destruct (Hn n) as [-> | (x & y & z & ->)]; reflexivity.
  - apply qord_same; [unfold wkeep in *; injection H2; intros; lia|]. intros n _. unfold N. rewrite H1. reflexivity.
  - apply qord_same; [unfold wkeep in *; injection H2; intros; lia|]. intros n _. specialize (H1 n). unfold nkeep in H1. congruence.
Qed.

Theorem later_queue : forall c P w w', reach c w -> later c P w w' -> qord w w'.
Proof.
  intros c P. apply (later_relp c (fun a _ b _ => qord a b)).
  - intros; apply qord_refl.
  - intros a _ b _ d _. apply qord_trans.
  - intros e w p w' p'. apply mstep_queue.
  - intros w. apply qord_same; [cbn; lia|reflexivity].
  - intros w w' _. apply ostep_queue.
Qed.

(** ** Why vehicles stay *)
Definition k_gen (n : nid) (e : ev) : bool :=
  match e with VDraw | VNode _ => true | VEnter m _ _ => negb (Nat.eqb m n) | _ => false end.

Definition k_oth (n : nid) (e : ev) : bool :=
  match e with VDraw => true | VNode m | VEnter m _ _ => negb (Nat.eqb m n) | _ => false end.
Lemma k_oth_gen : forall c n w w', run c (k_oth n) w w' -> run c (k_gen n) w w'.
Proof. intros c n w w'. apply run_weaken. intros [] H; try discriminate H; auto. Qed.

Definition k_ent (n : nid) (e : ev) : bool := match e with VDraw => true | VEnter m _ _ => Nat.eqb m n | _ => false end.
Lemma gen_loop_ent : forall c m k w w', m < w_nn w -> gen_loop c m k w = Ok w' -> run c (k_ent m) w w'.
Proof.
  intros c m k; induction k; intros w w' Hn H; cbn [gen_loop] in H.
  - injection H as <-. apply run_refl.
  - destruct (n_queue (N w m)) as [|v q] eqn:Eq; [injection H as <-; apply run_refl|].
    apply bind_ok in H. destruct H as (outs & E1 & H).
    apply bind_ok in H. destruct H as (ps & E2 & H).
    apply bind_ok in H. destruct H as ([out w1] & E3 & H).
    apply choose_pref_w in E3. destruct E3 as [Ew Hout].
    assert (D : run c (k_ent m) w w1).
    { destruct Ew as [-> | ->]; [apply run_refl|]. eapply run_one with (e := VDraw); [reflexivity|constructor]. }
    destruct (has_space c w1 (L w1 out) && qle (dN c) (l_cinr (L w1 out))) eqn:Eg.
    + apply andb_true_iff in Eg. destruct Eg as [Eg1 Eg2].
      apply bind_ok in H. destruct H as (w2 & E4 & H).
      eapply run_trans; [exact D|].
      assert (w_nn w1 = w_nn w) by (destruct Ew as [-> | ->]; reflexivity).
      eapply run_trans.
      * eapply run_one with (e := VEnter m v out).
        { cbn. apply Nat.eqb_refl. }
        eapply m_enter with (q := q) (outs := outs); eauto; try lia.
        -- destruct Ew as [-> | ->]; exact Eq.
        -- destruct Ew as [-> | ->]; exact E1.
      * eapply IHk; eauto. apply gen_enter_frs in E4. rewrite (fr_w_nn (frs_fr E4)). lia.
    + injection H as <-. exact D.
Qed.

Lemma gen_loop_run' : forall c n m k w w', m <> n -> m < w_nn w -> gen_loop c m k w = Ok w' -> run c (k_oth n) w w'.
Proof.
  intros c n m k w w' Hm Hn H. apply gen_loop_ent in H; auto. revert H. apply run_weaken. intros [] H; try discriminate H; auto.
  cbn in *. apply Nat.eqb_eq in H. subst. apply negb_true_iff, Nat.eqb_neq; auto.
Qed.

Definition gen_upd (c : cfg) (n : nid) (w : world) : result world := w1 <- generate c n w ;; node_update c n w1.
Lemma gen_upd_fr : forall c n w w', gen_upd c n w = Ok w' -> fr w w'.
Proof.
  intros c n w w' H. apply bind_ok in H. destruct H as (b & E1 & E2).
  apply generate_frs in E1. apply node_update_fr in E2. eapply fr_trans; [apply (frs_fr E1)|exact E2].
Qed.
Lemma gen_upd_run : forall c n m w w', m <> n -> m < w_nn w -> gen_upd c m w = Ok w' -> run c (k_oth n) w w'.
Proof.
  intros c n m w w' Hm Hn H. apply bind_ok in H. destruct H as (b & E1 & E2).
  eapply run_trans; [eapply gen_loop_run'; eauto|]. eapply run_one with (e := VNode m); [cbn; apply negb_true_iff, Nat.eqb_neq; auto|].
  constructor; auto. apply generate_frs in E1. rewrite (fr_w_nn (frs_fr E1)). auto.
Qed.

Lemma gen_split : forall c n xs w w', foldM (gen_upd c) xs w = Ok w' -> NoDup xs -> (forall m, In m xs -> m < w_nn w) ->
  (~ In n xs -> run c (k_oth n) w w') /\
  (In n xs -> exists a b, run c (k_oth n) w a /\ gen_upd c n a = Ok b /\ run c (k_oth n) b w').
Proof.
  intros c n xs; induction xs as [|m xs IH]; intros w w' H Nd Hx; cbn [foldM] in H.
  - injection H as <-. split; [intros; apply run_refl|intros []].
  - apply bind_ok in H. destruct H as (w1 & E & H). inversion Nd as [|? ? Nm Nd']; subst.
    pose proof (gen_upd_fr _ _ _ _ E) as F.
    destruct (IH w1 w' H Nd') as [J1 J2]. { intros k Hk. rewrite (fr_w_nn F). apply Hx; right; auto. }
    split.
    + intro Hn. assert (m <> n) by (intro; subst; apply Hn; left; auto).
      eapply run_trans; [eapply gen_upd_run; eauto; apply Hx; left; auto|]. apply J1. intro; apply Hn; right; auto.
    + intros Hn. destruct (Nat.eq_dec m n) as [->|Hm].
      * exists w, w1. split; [apply run_refl|]. split; [auto|]. apply J1; auto.
      * destruct Hn as [Hn|Hn]; [congruence|]. destruct (J2 Hn) as (a & b & Ra & Eb & Rb).
        exists a, b. split; [|auto]. eapply run_trans; [eapply gen_upd_run; eauto; apply Hx; left; auto|auto].
Qed.

(** what the other nodes leave alone *)
Record apart (n : nid) (w w' : world) : Prop := mkApart {
  ap_queue : n_queue (N w' n) = n_queue (N w n);
  ap_fr : fr w w';
  ap_pref : w_rcpref w' = w_rcpref w;
  ap_V : forall v, In v (n_queue (N w n)) -> V w' v = V w v;
  ap_L : forall l, In l (n_out (N w n)) -> L w' l = L w l;
  ap_x : forall l v, In l (n_out (N w n)) -> In v (l_vehs (L w l)) -> v_x (V w' v) = v_x (V w v) }.
Lemma apart_trans : forall n a b d, apart n a b -> apart n b d -> apart n a d.
Proof.
  intros n a b d [] []. constructor; try congruence.
  - eapply fr_trans; eauto.
  - intros v Hv. rewrite ap_V1, ap_V0; auto. rewrite ap_queue0; auto.
  - intros l Hl. rewrite ap_L1, ap_L0; auto. rewrite (fr_n_out ap_fr0); auto.
  - intros l v Hl Hv. rewrite (ap_x1 l), (ap_x0 l); auto; rewrite ?(fr_n_out ap_fr0); auto. rewrite ap_L0; auto.
Qed.

Lemma gen_enter_pref : forall c n v out w w', gen_enter c n v out w = Ok w' -> w_rcpref w' = w_rcpref w.
Proof.
  intros c n v out w w' H. unfold gen_enter in H. cbn zeta in H. apply bind_ok in H. destruct H as (w2 & E1 & H).
  apply bind_ok in H. destruct H as (ca & _ & H). injection H as <-. change (w_rcpref w2 = w_rcpref w).
  with_strategy transparent [attach] unfold attach in E1. cbn zeta in E1. binv E1; reflexivity.
Qed.
Lemma att_leader_In : forall w out u, 1 <= l_lanes (L w out) -> att_leader w out = Some u -> In u (l_vehs (L w out)).
Proof.
  intros w out u Hl H. unfold att_leader in H.
  destruct (_ <=? _) eqn:E; [|discriminate]. unfold from_end in H. rewrite E in H. apply nth_error_In in H; auto.
Qed.

Lemma apart_step : forall c n e w w', Inv2 w None -> k_gen n e = true -> mstep c e w None w' None -> apart n w w'.
Proof.
  intros c n e w w' I K M. pose proof (mstep_fr M) as F.
  assert (P : w_rcpref w' = w_rcpref w).
  { destruct e; try discriminate K; inversion M; subst; try reflexivity.
    - eapply gen_enter_pref; eauto.
    - match goal with H : node_update _ _ _ = Ok _ |- _ => unfold node_update in H; binv H end. reflexivity. }
  apply mstep_eff in M; auto. destruct e; try discriminate K; cbn [eff] in M.
  - destruct M as (_ & _ & SV & SL & SN & _). constructor; auto; intros; rewrite ?SV, ?SL, ?SN; auto.
  - cbn in K. apply negb_true_iff, Nat.eqb_neq in K.
    destruct M as (_ & _ & q & ca & Hn & Hq & Ho & Hol & _ & _ & _ & _ & SL & SN & _ & _ & _ & _ & SV & SO).
    pose proof (proj2 (proj1 I)) as SI. pose proof (proj1 (proj1 I)) as TI. cbn in SI.
    assert (Hv : In v (n_queue (N w n0))) by (rewrite Hq; left; auto).
    pose proof (proj1 (s_queue SI n0 v) Hv) as (Hv1 & Hv2 & Hv3).
    assert (Hout : forall l, In l (n_out (N w n)) -> l <> out).
    { intros l Hl ->. apply (t_out TI) in Hl, Ho. destruct Hl, Ho. congruence. }
    constructor; auto.
    + rewrite SN. replace (Nat.eqb n n0) with false by (symmetry; apply Nat.eqb_neq; auto). reflexivity.
    + intros u Hu. assert (u <> v).
      { intros ->. apply (s_queue SI) in Hu. destruct Hu as (_ & _ & Hu). congruence. }
      rewrite SO by auto. destruct (opt_eqb (att_leader w out) (Some u)) eqn:El; auto.
      apply opt_eqb_eq in El. apply att_leader_In in El; [|apply (t_lanes TI); auto].
      rewrite <- Dq_none in El. apply (s_D SI) in El. apply (s_queue SI) in Hu. destruct El as (_ & El & _), Hu as (_ & Hu & _). congruence.
    + intros l Hl. rewrite SL. replace (Nat.eqb l out) with false by (symmetry; apply Nat.eqb_neq; auto). reflexivity.
    + intros l u Hl Hu. assert (u <> v).
      { intros ->. rewrite <- Dq_none in Hu. apply (s_D SI) in Hu. destruct Hu as (_ & Hu & _). congruence. }
      rewrite SO by auto. destruct (opt_eqb (att_leader w out) (Some u)); reflexivity.
  - destruct M as (_ & _ & _ & SV & SL & _ & _ & n1 & n2 & E1 & E2 & SN). constructor; auto; intros; rewrite ?SV, ?SL; auto.
    rewrite SN. destruct (Nat.eqb n n0) eqn:E; auto. apply Nat.eqb_eq in E; subst n0.
    rewrite (fcap_queue _ _ _ E2). eapply signal_queue; eauto.
Qed.

Lemma k_gen_none : forall c n es w p w' p', trace c es w p w' p' -> Forall (fun e => k_gen n e = true) es -> p = None ->
  Inv2 w None -> p' = None /\ Inv2 w' None /\ apart n w w'.
Proof.
  intros c n es w p w' p' T; induction T; intros F Hp I; subst.
  - split; [auto|]. split; [auto|]. constructor; auto. apply fr_refl.
  - inversion F; subst. assert (p1 = None) as ->.
    { destruct e; try discriminate; inversion H; auto. }
    pose proof (mstep_Inv2 _ _ _ _ _ _ I H) as I1. destruct (IHT H3 eq_refl I1) as (-> & I2 & A).
    split; [auto|]. split; [auto|]. eapply apart_trans; [eapply apart_step; eauto|auto].
Qed.
Lemma apart_run : forall c n w w', Inv2 w None -> run c (k_gen n) w w' -> Inv2 w' None /\ apart n w w'.
Proof.
  intros c n w w' I (es & F & T). destruct (k_gen_none _ _ _ _ _ _ _ T F eq_refl I) as (_ & J). exact J.
Qed.

Lemma filter_links_fr : forall w w' a outs, fr w w' -> filter_links w' a outs = filter_links w a outs.
Proof.
  intros w w' a outs F.
  assert (B : forall ls, by_name w' ls = by_name w ls).
  { intro ls. unfold by_name. apply sort_ext. intros x y. rewrite !(fr_l_name F). reflexivity. }
  unfold filter_links. rewrite !B. reflexivity.
Qed.
Lemma gen_outlinks_fr : forall w w' a outs, fr w w' -> gen_outlinks w' a outs = gen_outlinks w a outs.
Proof. intros w w' a outs F. unfold gen_outlinks. destruct (v_spec a); auto. rewrite (filter_links_fr w w'); auto. Qed.
Lemma mapM_same : forall A B (f g : A -> result B) xs, (forall x, f x = g x) -> mapM f xs = mapM g xs.
Proof. intros A B f g xs H; induction xs as [|x xs IH]; cbn; auto. rewrite H, IH; auto. Qed.

Lemma choose_other : forall c ps xs w w' x w1, choose_pref c ps xs w = Ok (x, w1) -> w_draw w' = w_draw w ->
  exists w2, choose_pref c ps xs w' = Ok (x, w2).
Proof.
  intros c ps xs w w' x w1 H E. unfold choose_pref, choice_p, choice_uniform, draw in *. rewrite E.
  destruct (c_det c). { binv H. rewrite E0. eexists; reflexivity. }
  destruct (qlt 0 (qsum ps)).
  - destruct (qeq _ _); [discriminate|]. destruct (existsb _ _); [discriminate|].
    destruct (nth_error _ _) eqn:En in H; [|discriminate]. injection H as <- <-. rewrite En. eexists; reflexivity.
  - destruct (nth_error _ _) eqn:En in H; [|discriminate]. injection H as <- <-. rewrite En. eexists; reflexivity.
Qed.

Lemma picks_apart : forall c n w w' v out, apart n w w' -> In v (n_queue (N w n)) -> picks c w n v out -> picks c w' n v out.
Proof.
  intros c n w w' v out A Hv (outs & ps & d & w1 & E1 & E2 & E3). pose proof (ap_fr _ _ _ A) as F.
  destruct (choose_other _ _ _ _ (sw_draw d w') _ _ E3 eq_refl) as (w2 & E4).
  exists outs, ps, d, w2. rewrite (ap_V _ _ _ A v Hv), (fr_n_out F), (gen_outlinks_fr w w'); auto. split; [auto|]. split; [|auto].
  rewrite <- E2. apply mapM_same. intro l. unfold pref_of. rewrite (ap_pref _ _ _ A), (fr_w_nn F), (fr_w_nl F). reflexivity.
Qed.

Lemma has_space_room : forall c w l, 1 <= l_lanes (L w l) -> (has_space c w (L w l) = true <-> room c w l).
Proof.
  intros c w l Hl. unfold has_space, room. rewrite orb_true_iff, Nat.ltb_lt. split; intros [H|H]; auto.
  - unfold from_end in H. destruct (_ <=? _) eqn:E; [|discriminate].
    destruct (nth_error _ _) as [u|] eqn:Eu; [|discriminate]. right. exists u. split; auto. apply qlt_iff; auto.
  - destruct H as (u & Eu & H). destruct (Nat.lt_ge_cases (List.length (l_vehs (L w l))) (l_lanes (L w l))); auto.
    right. rewrite from_end_nth by lia. rewrite Eu. apply qlt_iff; auto.
Qed.

Lemma held_apart : forall c n w w' k, Inv2 w None -> apart n w w' -> held_back c w n k -> held_back c w' n k.
Proof.
  intros c n w w' k I A H. pose proof (ap_fr _ _ _ A) as F. unfold held_back in *.
  rewrite (ap_queue _ _ _ A), (fr_n_out F).
  destruct H as [H|[H|(v & q & out & Hq & Hp & H)]]; auto.
  - right; left. rewrite H. f_equal. apply map_ext. intro l. rewrite (fr_l_lanes F). reflexivity.
  - right; right. exists v, q, out. split; [auto|]. split; [eapply picks_apart; eauto; rewrite Hq; left; auto|].
    assert (Ho : In out (n_out (N w n))).
    { destruct Hp as (outs & ps & d & w1 & E1 & _ & E3). apply choose_pref_w in E3. destruct E3 as [_ Hx].
      eapply gen_outlinks_sub; eauto. }
    unfold room in *. rewrite (ap_L _ _ _ A out Ho). destruct H as [H|H]; auto. left. intros [K|(u & Eu & K)]; apply H; auto.
    right. exists u. split; auto. rewrite (ap_x _ _ _ A out u) in K; auto. eapply nth_error_In; eauto.
Qed.

Lemma room_dec : forall c w l, 1 <= l_lanes (L w l) -> has_space c w (L w l) = false -> ~ room c w l.
Proof. intros c w l Hl H R. apply has_space_room in R; auto. congruence. Qed.

(** ** One call of [generate] *)
Lemma gen_loop_spec : forall c n k w w', Inv2 w None -> n < w_nn w -> gen_loop c n k w = Ok w' ->
  Inv2 w' None /\ fr w w' /\ exists j, j <= k /\ n_queue (N w' n) = skipn j (n_queue (N w n)) /\ j <= List.length (n_queue (N w n)) /\
    (n_queue (N w' n) = [] \/ j = k \/
     exists v q out, n_queue (N w' n) = v :: q /\ picks c w' n v out /\ (~ room c w' out \/ (l_cinr (L w' out) < dN c)%Q)).
Proof.
  intros c n k; induction k; intros w w' I Hn H; cbn [gen_loop] in H.
  - injection H as <-. split; [auto|]. split; [apply fr_refl|]. exists 0. cbn. split; [lia|]. auto with arith.
  - destruct (n_queue (N w n)) as [|v q] eqn:Eq.
    { injection H as <-. split; [auto|]. split; [apply fr_refl|]. exists 0. rewrite Eq. cbn. split; [lia|]. auto. }
    apply bind_ok in H. destruct H as (outs & E1 & H).
    apply bind_ok in H. destruct H as (ps & E2 & H).
    apply bind_ok in H. destruct H as ([out w1] & E3 & H).
    pose proof E3 as E3'. apply choose_pref_w in E3. destruct E3 as [Ew Hout].
    assert (I1 : Inv2 w1 None).
    { destruct Ew as [-> | ->]; [exact I|]. eapply (mstep_Inv2 c VDraw w None); eauto. constructor. }
    assert (F1 : fr w w1) by (destruct Ew as [-> | ->]; constructor; reflexivity).
    assert (Hol : In out (n_out (N w n))) by (eapply gen_outlinks_sub; eauto).
    assert (Ho : 1 <= l_lanes (L w1 out)).
    { rewrite (fr_l_lanes F1). apply (t_lanes (proj1 (proj1 I))). apply (t_out (proj1 (proj1 I))) in Hol. apply Hol. }
    destruct (has_space c w1 (L w1 out) && qle (dN c) (l_cinr (L w1 out))) eqn:Eg.
    + apply andb_true_iff in Eg. destruct Eg as [Eg1 Eg2].
      apply bind_ok in H. destruct H as (w2 & E4 & H).
      assert (Q1 : n_queue (N w1 n) = v :: q) by (destruct Ew as [-> | ->]; exact Eq).
      assert (M : mstep c (VEnter n v out) w1 None w2 None).
      { eapply m_enter with (q := q) (outs := outs); eauto; [rewrite (fr_w_nn F1); lia|destruct Ew as [-> | ->]; exact E1]. }
      pose proof (mstep_Inv2 _ _ _ _ _ _ I1 M) as I2. pose proof (mstep_fr M) as F2.
      apply mstep_eff in M; auto. cbn [eff] in M.
      destruct M as (_ & _ & q' & ca & _ & Hq' & _ & _ & _ & _ & _ & _ & _ & S & _).
      rewrite Q1 in Hq'. injection Hq' as <-.
      destruct (IHk w2 w' I2) as (I' & F' & j & Hj & Q & Hl & Hr); auto.
      { rewrite (fr_w_nn F2), (fr_w_nn F1). lia. }
      split; [auto|]. split; [eapply fr_trans; [exact F1|eapply fr_trans; eauto]|].
      specialize (S n). rewrite Nat.eqb_refl in S. rewrite S in Q, Hl. clear S. exists (S j). cbn in Q, Hl. split; [lia|]. split; [exact Q|]. split; [cbn; lia|]. intuition lia.
    + injection H as <-. split; [auto|]. split; [auto|]. exists 0. cbn [skipn]. split; [lia|].
      assert (Q1 : n_queue (N w1 n) = v :: q) by (destruct Ew as [-> | ->]; exact Eq).
      split; [rewrite Q1; auto|]. split; [lia|]. right; right. exists v, q, out. split; [auto|]. split.
      * assert (E : sw_draw (w_draw w) w1 = w).
        { destruct Ew as [-> | ->]; destruct w; reflexivity. }
        exists outs, ps, (w_draw w), w1. split; [|split].
        -- destruct Ew as [-> | ->]; exact E1.
        -- destruct Ew as [-> | ->]; exact E2.
        -- rewrite E. exact E3'.
      * apply andb_false_iff in Eg. destruct Eg as [Eg|Eg].
        -- left. apply room_dec; auto.
        -- right. apply qle_false; auto.
Qed.

Lemma generate_lemma : forall c n w w', Inv2 w None -> n < w_nn w -> generate c n w = Ok w' ->
  Inv2 w' None /\ fr w w' /\ exists j, n_queue (N w' n) = skipn j (n_queue (N w n)) /\ j <= List.length (n_queue (N w n)) /\
    held_back c w' n j.
Proof.
  intros c n w w' I Hn H. apply gen_loop_spec in H; auto. destruct H as (I' & F & j & Hj & Q & Hl & Hr).
  split; [auto|]. split; [auto|]. exists j. split; [auto|]. split; [auto|].
  unfold held_back. destruct Hr as [Hr|[Hr|Hr]]; auto. right; left. rewrite Hr, (fr_n_out F). unfold nsum. f_equal.
  apply map_ext. intro l. rewrite (fr_l_lanes F). reflexivity.
Qed.

Lemma links_queue : forall c es w p w' p', trace c es w p w' p' -> Forall (fun e => k_links e = true) es -> Inv2 w p ->
  forall n, n_queue (N w' n) = n_queue (N w n).
Proof.
  intros c es w p w' p' T; induction T; intros F I n; auto. inversion F; subst.
  rewrite IHT; auto; [|eapply mstep_Inv2; eauto]. apply mstep_eff in H; auto. destruct e; try discriminate.
  cbn [eff] in H. destruct H as (_ & _ & _ & _ & S & _). rewrite S; auto.
Qed.

(** ** One timestep *)
Theorem origin_lemma : forall c w w', reach c w -> body c w = Ok w' ->
  exists w1 w2, phase_links c w = Ok w1 /\ phase_nodes c w1 = Ok w2 /\
  forall n, n < w_nn w -> exists k new,
    n_queue (N w2 n) = skipn k (n_queue (N w n)) /\ k <= List.length (n_queue (N w n)) /\
    held_back c w2 n k /\ n_queue (N w' n) = n_queue (N w2 n) ++ new.
Proof.
  intros c w w' R H. pose proof (reach_Inv2 _ _ R) as I. apply body_runs in H.
  destruct H as (w1 & w2 & w3 & w4 & w5 & w6 & E1 & E2 & E3 & E4 & E5 & E6 & ->).
  exists w1, w2. split; [auto|]. split; [auto|]. intros n Hn.
  assert (R1 : run c k_links w w1) by (apply phase_links_run; exact E1). pose proof (run_Inv2' _ _ _ _ I R1) as I1.
  assert (Q1 : n_queue (N w1 n) = n_queue (N w n)).
  { destruct R1 as (es & F & T). eapply links_queue; eauto. }
  pose proof (run_fr _ _ _ _ R1) as F1.
  destruct (gen_split c n (seq 0 (w_nn w1)) w1 w2 E2) as [_ K].
  { apply seq_NoDup. } { intros m Hm. apply in_seq in Hm. lia. }
  destruct K as (a & b & Ra & Eb & Rb). { apply in_seq. rewrite (fr_w_nn F1). lia. }
  apply k_oth_gen in Ra. apply k_oth_gen in Rb.
  destruct (apart_run _ _ _ _ I1 Ra) as [Ia Aa].
  apply bind_ok in Eb. destruct Eb as (b1 & G & U).
  assert (Hna : n < w_nn a). { rewrite (fr_w_nn (ap_fr _ _ _ Aa)), (fr_w_nn F1). lia. }
  destruct (generate_lemma _ _ _ _ Ia Hna G) as (Ib1 & Fb & j & Q & Hl & Hh).
  assert (M : mstep c (VNode n) b1 None b None). { constructor; auto. rewrite (fr_w_nn Fb); auto. }
  assert (Rb1 : run c (k_gen n) b1 w2).
  { eapply run_trans; [|exact Rb]. eapply run_one with (e := VNode n); [reflexivity|exact M]. }
  destruct (apart_run _ _ _ _ Ib1 Rb1) as [I2 A2].
  rewrite (ap_queue _ _ _ Aa), Q1 in *.
  assert (Q2 : n_queue (N w2 n) = skipn j (n_queue (N w n))) by (rewrite (ap_queue _ _ _ A2); auto).
  assert (exists new, n_queue (N (sw_TIME (now c w6) w6) n) = n_queue (N w2 n) ++ new) as (new & Hnew).
  { apply phase_transfer_run in E3. apply phase_follow_run in E4. apply phase_vehicles_run in E5. apply route_phase_run in E6.
    change (N (sw_TIME (now c w6) w6) n) with (N w6 n).
    assert (R6 : run c no_enter w2 w6).
    { eapply run_trans; [|eapply run_trans; [|eapply run_trans]]; eapply run_weaken; try eassumption;
      intros [] X; try discriminate X; reflexivity. }
    eapply (@run_inv c (fun x p => Inv2 x p /\ exists new, n_queue (N x n) = n_queue (N w2 n) ++ new)) in R6.
    - destruct R6 as [_ R6]. exact R6.
    - intros e x p x' p' Ke [Ix (nw & Hx)] Mx. split; [eapply mstep_Inv2; eauto|].
      eapply mstep_grow in Mx; eauto. destruct Mx as (m & ->). rewrite Hx. exists (nw ++ m). rewrite app_assoc; auto.
    - split; auto. exists []. rewrite app_nil_r; auto. }
  exists j, new. split; [auto|]. split; [auto|]. split; [|exact Hnew]. exact (held_apart _ _ _ _ _ Ib1 A2 Hh).
Qed.
