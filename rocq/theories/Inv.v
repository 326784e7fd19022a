(** * Inv: the structural invariant of the object graph.

    [SInv D lim w]: the vehicles, links, nodes and containers of [w] agree.  [D l] is the
    sequence of vehicles of link [l]; at rest it is the deque [l_vehs], inside a transfer
    it already contains the vehicle that is about to be appended.  [lim] is a vehicle in
    flight (taken off a link or queue and not yet attached). *)
From Verif Require Import Base Types Sim Heap FrameBase Tac Frame Lists.
Set Implicit Arguments.

Definition alive (s : vstate) : Prop := s = Home \/ s = Wait \/ s = Run.

(** The network as an incidence structure. *)
Record topo (w : world) : Prop := mkTopo {
  t_out : forall n l, In l (n_out (N w n)) <-> l < w_nl w /\ l_start (L w l) = n;
  t_in : forall n l, In l (n_in (N w n)) <-> l < w_nl w /\ l_end (L w l) = n;
  t_out_nd : forall n, NoDup (n_out (N w n));
  t_in_nd : forall n, NoDup (n_in (N w n));
  t_ends : forall l, l < w_nl w -> l_start (L w l) < w_nn w /\ l_end (L w l) < w_nn w;
  t_lanes : forall l, l < w_nl w -> 1 <= l_lanes (L w l) }.

Lemma topo_fr : forall w w', fr w w' -> topo w -> topo w'.
Proof.
  intros w w' F [A B C D E G]. constructor; intros; fr_rw F; auto.
  all: fr_rw_in F H; auto.
Qed.

Record SInv (D : nat -> list nat) (lim : option nat) (w : world) : Prop := mkSInv {
  s_living : forall v, In v (w_living w) <-> v < w_nv w /\ alive (v_state (V w v));
  s_living_nd : NoDup (w_living w);
  s_running : forall v, In v (w_running w) <-> v < w_nv w /\ v_state (V w v) = Run;
  s_running_nd : NoDup (w_running w);
  s_D : forall l v, In v (D l) <->
          v < w_nv w /\ v_state (V w v) = Run /\ v_link (V w v) = Some l /\ lim <> Some v;
  s_D_nd : forall l, NoDup (D l);
  s_link : forall v, v < w_nv w -> lim <> Some v ->
          (v_state (V w v) = Run -> exists l, v_link (V w v) = Some l /\ l < w_nl w) /\
          (v_state (V w v) <> Run -> v_link (V w v) = None);
  s_queue : forall n v, In v (n_queue (N w n)) <->
          v < w_nv w /\ v_state (V w v) = Wait /\ v_orig (V w v) = n;
  s_queue_nd : forall n, NoDup (n_queue (N w n));
  s_orig : forall v, v < w_nv w -> v_orig (V w v) < w_nn w;
  s_fresh : forall v, v < w_nv w -> v_state (V w v) = Home \/ v_state (V w v) = Wait ->
          v_follower (V w v) = None;
  s_lane : forall l i v, nth_error (D l) i = Some v ->
          v_lane (V w v) < l_lanes (L w l) /\
          (forall u, nth_error (D l) (S i) = Some u ->
             v_lane (V w u) = Nat.modulo (v_lane (V w v) + 1) (l_lanes (L w l)));
  s_leader : forall l i v, nth_error (D l) i = Some v ->
          v_leader (V w v) =
          if i <? l_lanes (L w l) then None else nth_error (D l) (i - l_lanes (L w l));
  s_follower : forall l i v, nth_error (D l) i = Some v ->
          v_follower (V w v) = nth_error (D l) (i + l_lanes (L w l));
  s_lim : forall v, lim = Some v -> v < w_nv w /\ v_state (V w v) = Run }.

(** ** Frame for the invariant *)

Definition vcore (a : vehicle) :=
  (v_state a, v_link a, v_lane a, v_leader a, v_follower a, v_orig a).
Definition wcore (w : world) := (w_nv w, w_nl w, w_nn w, w_living w, w_running w).

(** [ceq w w']: same core structure (not the cumulative curves) *)
Record ceq (w w' : world) : Prop := mkCeq {
  ce_w : wcore w' = wcore w;
  ce_v : forall v, vcore (V w' v) = vcore (V w v);
  ce_vehs : forall l, l_vehs (L w' l) = l_vehs (L w l);
  ce_lanes : forall l, l_lanes (L w' l) = l_lanes (L w l);
  ce_n : forall n, n_queue (N w' n) = n_queue (N w n) }.

(** same cumulative curves *)
Definition qeqc (w w' : world) : Prop :=
  forall l, l_ca (L w' l) = l_ca (L w l) /\ l_cd (L w' l) = l_cd (L w l).

Lemma ceq_refl : forall w, ceq w w.
Proof. intros; constructor; reflexivity. Qed.
Lemma ceq_trans : forall a b c, ceq a b -> ceq b c -> ceq a c.
Proof. intros a b c [] []; constructor; intros; etransitivity; eauto. Qed.

Lemma SInv_core : forall D lim w w',
  wcore w' = wcore w -> (forall v, vcore (V w' v) = vcore (V w v)) ->
  (forall l, l_lanes (L w' l) = l_lanes (L w l)) ->
  (forall n, n_queue (N w' n) = n_queue (N w n)) ->
  SInv D lim w -> SInv D lim w'.
Proof.
  intros D lim w w' CW CV CL CN I.
  assert (W1 : w_nv w' = w_nv w) by (unfold wcore in CW; congruence).
  assert (W2 : w_nl w' = w_nl w) by (unfold wcore in CW; congruence).
  assert (W3 : w_nn w' = w_nn w) by (unfold wcore in CW; congruence).
  assert (W4 : w_living w' = w_living w) by (unfold wcore in CW; congruence).
  assert (W5 : w_running w' = w_running w) by (unfold wcore in CW; congruence).
  assert (V1 : forall v, v_state (V w' v) = v_state (V w v))
    by (intro v; specialize (CV v); unfold vcore in CV; congruence).
  assert (V2 : forall v, v_link (V w' v) = v_link (V w v))
    by (intro v; specialize (CV v); unfold vcore in CV; congruence).
  assert (V3 : forall v, v_lane (V w' v) = v_lane (V w v))
    by (intro v; specialize (CV v); unfold vcore in CV; congruence).
  assert (V4 : forall v, v_leader (V w' v) = v_leader (V w v))
    by (intro v; specialize (CV v); unfold vcore in CV; congruence).
  assert (V5 : forall v, v_follower (V w' v) = v_follower (V w v))
    by (intro v; specialize (CV v); unfold vcore in CV; congruence).
  assert (V6 : forall v, v_orig (V w' v) = v_orig (V w v))
    by (intro v; specialize (CV v); unfold vcore in CV; congruence).
  destruct I. constructor; intros;
    rewrite ?W1, ?W2, ?W3, ?W4, ?W5, ?V1, ?V2, ?V3, ?V4, ?V5, ?V6, ?CL, ?CN in *; auto.
  - specialize (s_lane0 _ _ _ H). destruct s_lane0 as [A B]. split; auto.
    intros u Hu. rewrite V3. auto.
Qed.

Lemma SInv_ceq : forall D lim w w', ceq w w' -> SInv D lim w -> SInv D lim w'.
Proof. intros D lim w w' [] H. eapply SInv_core; eauto. Qed.

Lemma SInv_ext : forall D D' lim w, (forall l, D l = D' l) -> SInv D lim w -> SInv D' lim w.
Proof.
  intros D D' lim w E []. constructor; intros; rewrite <- ?E in *; eauto.
Qed.

(** ** Detaching the first vehicle of a link *)

Lemma SInv_detach : forall D w w' l v rest,
  SInv D None w -> D l = v :: rest -> 1 <= l_lanes (L w l) ->
  wcore w' = wcore w ->
  (forall k, l_lanes (L w' k) = l_lanes (L w k)) ->
  (forall n, n_queue (N w' n) = n_queue (N w n)) ->
  (forall u, v_state (V w' u) = v_state (V w u)) ->
  (forall u, v_orig (V w' u) = v_orig (V w u)) ->
  (forall u, u <> v -> v_link (V w' u) = v_link (V w u)) ->
  (forall u, u <> v -> v_lane (V w' u) = v_lane (V w u)) ->
  (forall u, u <> v -> v_follower (V w' u) = v_follower (V w u)) ->
  (forall u, u <> v -> v_leader (V w' u) =
     if opt_eqb (v_follower (V w v)) (Some u) then None else v_leader (V w u)) ->
  SInv (upd D l rest) (Some v) w'.
Proof.
  intros D w w' l v rest I ED Hn CW CL CN Cst Cor Clk Cla Cfo Cle.
  assert (W1 : w_nv w' = w_nv w) by (unfold wcore in CW; congruence).
  assert (W2 : w_nl w' = w_nl w) by (unfold wcore in CW; congruence).
  assert (W3 : w_nn w' = w_nn w) by (unfold wcore in CW; congruence).
  assert (W4 : w_living w' = w_living w) by (unfold wcore in CW; congruence).
  assert (W5 : w_running w' = w_running w) by (unfold wcore in CW; congruence).
  assert (Hv : In v (D l)) by (rewrite ED; left; auto).
  pose proof (proj1 (s_D I l v) Hv) as (Hv1 & Hv2 & Hv3 & _).
  pose proof (s_D_nd I l) as Nd. rewrite ED in Nd. inversion Nd as [|? ? Nv Nr]; subst.
  assert (Hfol : v_follower (V w v) = nth_error (v :: rest) (l_lanes (L w l))).
  { rewrite <- ED. apply (s_follower I l 0). rewrite ED; auto. }
  assert (Hne : forall k u, In u (upd D l rest k) -> u <> v).
  { intros k u Hu. unfold upd in Hu. destruct (Nat.eqb k l) eqn:E.
    - intro; subst; auto.
    - apply Nat.eqb_neq in E. intro; subst u. apply (s_D I) in Hu. destruct Hu as (_ & _ & K & _).
      congruence. }
  constructor; intros; rewrite ?W1, ?W2, ?W3, ?W4, ?W5, ?Cst, ?Cor, ?CL, ?CN.
  - apply (s_living I).
  - apply (s_living_nd I).
  - apply (s_running I).
  - apply (s_running_nd I).
  - (* s_D *)
    split.
    + intros H. assert (v0 <> v) by eauto. rewrite Clk by auto.
      unfold upd in H. destruct (Nat.eqb l0 l) eqn:E.
      * apply Nat.eqb_eq in E; subst. assert (In v0 (D l)) by (rewrite ED; right; auto).
        apply (s_D I) in H1. intuition congruence.
      * apply (s_D I) in H. intuition congruence.
    + intros (A & B & C & E). assert (v0 <> v) by congruence. rewrite Clk in C by auto.
      assert (In v0 (D l0)) as K by (apply (s_D I); intuition discriminate).
      unfold upd. destruct (Nat.eqb l0 l) eqn:E0; auto. apply Nat.eqb_eq in E0; subst.
      rewrite ED in K. destruct K; auto. congruence.
  - unfold upd. destruct (Nat.eqb l0 l); auto. apply (s_D_nd I).
  - assert (v0 <> v) by congruence. rewrite Clk by auto. rewrite W1 in *.
    apply (s_link I); auto. discriminate.
  - apply (s_queue I).
  - apply (s_queue_nd I).
  - apply (s_orig I). congruence.
  - assert (v0 <> v). { intro; subst. rewrite Cst in *. destruct H0; congruence. }
    rewrite Cfo by auto. rewrite Cst, W1 in *. apply (s_fresh I); auto.
  - (* s_lane *)
    assert (v0 <> v) by (eapply Hne; eapply nth_error_In; eauto).
    assert (forall u, nth_error (upd D l rest l0) (S i) = Some u -> u <> v)
      by (intros; eapply Hne; eapply nth_error_In; eauto).
    rewrite Cla by auto.
    unfold upd in H, H1 |- *. destruct (Nat.eqb l0 l) eqn:E.
    + apply Nat.eqb_eq in E; subst.
      destruct (s_lane I l (S i)) with (v := v0) as [A B]; [rewrite ED; auto|].
      split; auto. intros u Hu. rewrite Cla by auto. apply B. rewrite ED. auto.
    + destruct (s_lane I l0 i H) as [A B]. split; auto. intros u Hu. rewrite Cla by auto. auto.
  - (* s_leader *)
    assert (v0 <> v) by (eapply Hne; eapply nth_error_In; eauto).
    rewrite Cle by auto. rewrite Hfol.
    unfold upd in H |- *. destruct (Nat.eqb l0 l) eqn:E.
    + apply Nat.eqb_eq in E; subst.
      assert (H' : nth_error (D l) (S i) = Some v0) by (rewrite ED; auto).
      rewrite (s_leader I _ _ H').
      set (m := l_lanes (L w l)) in *.
      destruct (opt_eqb (nth_error (v :: rest) m) (Some v0)) eqn:Eo.
      * apply opt_eqb_eq in Eo.
        assert (S i = m). { rewrite ED in H'. pose proof (s_D_nd I l) as Nd'. rewrite ED in Nd'. exact (NoDup_nth_inj _ _ Nd' H' Eo). }
        destruct (i <? m) eqn:El; auto. apply Nat.ltb_ge in El. lia.
      * destruct (S i <? m) eqn:Es.
        -- apply Nat.ltb_lt in Es. destruct (i <? m) eqn:El; auto. apply Nat.ltb_ge in El. lia.
        -- apply Nat.ltb_ge in Es.
           assert (S i <> m).
           { intro; subst m. rewrite <- H1 in Eo. cbn [nth_error] in Eo. rewrite H in Eo.
             assert (opt_eqb (Some v0) (Some v0) = true) by (apply opt_eqb_eq; auto). congruence. }
           destruct (i <? m) eqn:El; [apply Nat.ltb_lt in El; lia|].
           rewrite ED. replace (S i - m) with (S (i - m)) by (apply Nat.ltb_ge in El; lia). reflexivity.
    + rewrite (s_leader I _ _ H).
      destruct (opt_eqb (nth_error (v :: rest) (l_lanes (L w l))) (Some v0)) eqn:Eo; auto.
      apply opt_eqb_eq in Eo. exfalso.
      assert (In v0 (D l)) by (rewrite ED; eapply nth_error_In; eauto).
      assert (In v0 (D l0)) by (eapply nth_error_In; eauto).
      apply (s_D I) in H1. apply (s_D I) in H2. apply Nat.eqb_neq in E.
      destruct H1 as (_ & _ & H1 & _). destruct H2 as (_ & _ & H2 & _). congruence.
  - (* s_follower *)
    assert (v0 <> v) by (eapply Hne; eapply nth_error_In; eauto).
    rewrite Cfo by auto.
    unfold upd in H |- *. destruct (Nat.eqb l0 l) eqn:E.
    + apply Nat.eqb_eq in E; subst.
      rewrite (s_follower I l (S i)) by (rewrite ED; auto). rewrite ED. reflexivity.
    + apply (s_follower I); auto.
  - injection H as H; subst. auto.
Qed.

(** ** Attaching a vehicle in flight to the back of a link *)

Lemma lane_shift : forall D lim w l i j v u, SInv D lim w -> 1 <= l_lanes (L w l) ->
  nth_error (D l) i = Some v -> nth_error (D l) (i + j) = Some u ->
  v_lane (V w u) = Nat.modulo (v_lane (V w v) + j) (l_lanes (L w l)).
Proof.
  intros D lim w l i j v u I Hn Hv. revert u. induction j; intros u Hu.
  - rewrite Nat.add_0_r in *. assert (u = v) by congruence. subst.
    symmetry. apply Nat.mod_small. apply (s_lane I _ _ Hv).
  - rewrite Nat.add_succ_r in Hu.
    destruct (nth_error (D l) (i + j)) eqn:E.
    + destruct (s_lane I _ _ E) as [_ K]. rewrite (K _ Hu). rewrite (IHj _ eq_refl).
      rewrite Nat.add_mod_idemp_l by lia. f_equal. lia.
    + apply nth_error_None in E. apply nth_error_lt in Hu. lia.
Qed.

(** What [attach] changes. *)
Definition aeq (w w' : world) : Prop :=
  (forall u, exists a b c, V w' u = sv_lane a (sv_leader b (sv_follower c (V w u)))) /\
  (forall l, L w' l = L w l) /\ (forall n, N w' n = N w n) /\
  w_T w' = w_T w /\ wcore w' = wcore w.

Lemma veh_eta : forall a : vehicle, sv_lane (v_lane a) (sv_leader (v_leader a) (sv_follower (v_follower a) a)) = a.
Proof. intros []; reflexivity. Qed.

Lemma SInv_attach : forall D w l v,
  SInv D (Some v) w -> l < w_nl w -> 1 <= l_lanes (L w l) ->
  v_link (V w v) = Some l -> v_follower (V w v) = None ->
  l_vehs (L w l) = D l ->
  exists w', attach v l w = Ok w' /\
    SInv (upd D l (D l ++ [v])) None w' /\ aeq w w'.
Proof.
  intros D w l v I Hl Hn Hlk Hfo ED.
  destruct (s_lim I eq_refl) as [Hv Hst].
  assert (Hnv : forall k, ~ In v (D k)).
  { intros k K. apply (s_D I) in K. intuition congruence. }
  unfold attach. rewrite ED. cbn zeta.
  set (m := l_lanes (L w l)) in *.
  set (lane := match last_opt (D l) with Some u => (v_lane (V w u) + 1) mod m | None => 0 end).
  set (w1 := modv v (fun a => sv_leader None (sv_lane lane a)) w).
  assert (Hlane : lane < m).
  { unfold lane. destruct (last_opt (D l)); [apply Nat.mod_upper_bound; lia | lia]. }
  destruct (m <=? List.length (D l)) eqn:Em.
  - apply Nat.leb_le in Em.
    destruct (@from_end_some _ (D l) m) as (u & Eu); [lia|].
    rewrite Eu.
    rewrite from_end_nth in Eu by lia.
    assert (Huv : u <> v) by (intro; subst; apply (Hnv l); eapply nth_error_In; eauto).
    set (w2 := modv v (sv_leader (Some u)) w1).
    set (w3 := modv u (sv_follower (Some v)) w2).
    assert (V3u : forall x, x <> v -> x <> u -> V w3 x = V w x).
    { intros x A B. unfold w3, w2, w1. rewrite !V_modv_other by auto. reflexivity. }
    assert (V3v : V w3 v = sv_leader (Some u) (sv_leader None (sv_lane lane (V w v)))).
    { unfold w3, w2, w1. rewrite V_modv_other by auto. rewrite !V_modv_same. reflexivity. }
    assert (V3uu : V w3 u = sv_follower (Some v) (V w u)).
    { unfold w3, w2, w1. rewrite V_modv_same, !V_modv_other by auto. reflexivity. }
    assert (Elane : v_lane (V w u) = lane).
    { (* the leader is [m] places ahead *)
      unfold lane. rewrite last_opt_nth.
      destruct (nth_error (D l) (List.length (D l) - 1)) as [z|] eqn:Ez.
      - pose proof (@lane_shift D (Some v) w l (List.length (D l) - m) (m - 1) u z I) as K.
        rewrite K; auto.
        + fold m. rewrite Nat.add_mod_idemp_l by lia.
          replace (v_lane (V w u) + (m - 1) + 1) with (v_lane (V w u) + 1 * m) by lia.
          rewrite Nat.mod_add by lia. rewrite Nat.mod_small; auto. apply (s_lane I _ _ Eu).
        + replace (List.length (D l) - m + (m - 1)) with (List.length (D l) - 1) by lia. auto.
      - apply nth_error_None in Ez. lia. }
    exists w3. rewrite V3v, V3uu. rs. rewrite Elane, Nat.eqb_refl. split; [reflexivity|].
    assert (A3 : aeq w w3).
    { split; [|repeat split].
      intro x. destruct (Nat.eq_dec x v) as [->|A]; [|destruct (Nat.eq_dec x u) as [->|B]].
      - exists lane, (Some u), (v_follower (V w v)). rewrite V3v. destruct (V w v); reflexivity.
      - exists (v_lane (V w u)), (v_leader (V w u)), (Some v). rewrite V3uu. destruct (V w u); reflexivity.
      - exists (v_lane (V w x)), (v_leader (V w x)), (v_follower (V w x)).
        rewrite V3u by auto. symmetry. apply veh_eta. }
    split; [|exact A3].
    assert (Ev : forall x, v_state (V w3 x) = v_state (V w x) /\ v_link (V w3 x) = v_link (V w x)
                        /\ v_orig (V w3 x) = v_orig (V w x)).
    { intro x. destruct A3 as [A3 _]. destruct (A3 x) as (a & b & d & E). rewrite E. auto. }
    assert (Ela : forall x, x <> v -> v_lane (V w3 x) = v_lane (V w x)).
    { intros x A. destruct (Nat.eq_dec x u) as [->|B]; [rewrite V3uu|rewrite V3u by auto]; reflexivity. }
    assert (Ele : forall x, x <> v -> v_leader (V w3 x) = v_leader (V w x)).
    { intros x A. destruct (Nat.eq_dec x u) as [->|B]; [rewrite V3uu|rewrite V3u by auto]; reflexivity. }
    destruct I. constructor; intros;
      repeat match goal with |- context [V w3 ?x] =>
        rewrite ?(proj1 (Ev x)), ?(proj1 (proj2 (Ev x))), ?(proj2 (proj2 (Ev x))) end;
      repeat match goal with H : context [V w3 ?x] |- _ =>
        rewrite ?(proj1 (Ev x)), ?(proj1 (proj2 (Ev x))), ?(proj2 (proj2 (Ev x))) in H end;
      try solve [auto | apply s_queue0 | apply s_queue_nd0 | apply s_living0 | apply s_running0].
    + (* s_D *) unfold upd. destruct (Nat.eqb l0 l) eqn:E.
      * apply Nat.eqb_eq in E; subst. rewrite in_app_iff. cbn. rewrite s_D0.
        change (w_nv w3) with (w_nv w). split.
        -- intros [K|[K|[]]]; [intuition discriminate|]. subst. intuition discriminate.
        -- intros (A & B & C & _). destruct (Nat.eq_dec v0 v); [subst; auto|].
           left. intuition congruence.
      * rewrite s_D0. change (w_nv w3) with (w_nv w). apply Nat.eqb_neq in E.
        split; [intuition discriminate|]. intros (A & B & C & _).
        repeat split; auto. intro K; injection K as K; subst. congruence.
    + unfold upd. destruct (Nat.eqb l0 l) eqn:E; auto.
      apply NoDup_app_last; auto.
    + (* s_link *) destruct (Nat.eq_dec v0 v) as [->|A].
      * split; [intros _; exists l; auto | congruence].
      * apply s_link0; auto. congruence.
    + assert (v0 <> v) by (intro; subst; destruct H0; congruence).
      destruct (Nat.eq_dec v0 u) as [->|B].
      * exfalso. apply nth_error_In in Eu. apply s_D0 in Eu. destruct Eu as (_ & K & _). destruct H0; congruence.
      * rewrite V3u by auto. auto.
    + (* s_lane *) change (l_lanes (L w3 l0)) with (l_lanes (L w l0)).
      unfold upd in H |- *. destruct (Nat.eqb l0 l) eqn:E.
      * apply Nat.eqb_eq in E; subst. fold m.
        apply nth_error_app_last in H. destruct H as [[Hi H]|[Hi H]].
        -- assert (v0 <> v) by (intro; subst; apply (Hnv l); eapply nth_error_In; eauto).
           rewrite Ela by auto. destruct (s_lane0 _ _ _ H) as [A B]. split; auto.
           intros x Hx. apply nth_error_app_last in Hx. destruct Hx as [[Hj Hx]|[Hj Hx]].
           ++ rewrite Ela; auto. intro; subst; apply (Hnv l); eapply nth_error_In; eauto.
           ++ subst x. rewrite V3v. rs. unfold lane. rewrite last_opt_nth.
              replace (List.length (D l) - 1) with i by lia. rewrite H. reflexivity.
        -- subst v0. rewrite V3v. rs. split; auto. intros x Hx. apply nth_error_lt in Hx.
           rewrite app_length in Hx. cbn in Hx. lia.
      * assert (v0 <> v) by (intro; subst; apply (Hnv l0); eapply nth_error_In; eauto).
        rewrite Ela by auto. destruct (s_lane0 _ _ _ H) as [A B]. split; auto.
        intros x Hx. rewrite Ela; auto. intro; subst; apply (Hnv l0); eapply nth_error_In; eauto.
    + (* s_leader *) change (l_lanes (L w3 l0)) with (l_lanes (L w l0)).
      unfold upd in H |- *. destruct (Nat.eqb l0 l) eqn:E.
      * apply Nat.eqb_eq in E; subst. fold m.
        apply nth_error_app_last in H. destruct H as [[Hi H]|[Hi H]].
        -- assert (v0 <> v) by (intro; subst; apply (Hnv l); eapply nth_error_In; eauto).
           rewrite Ele by auto. rewrite (s_leader0 _ _ _ H). fold m.
           destruct (i <? m) eqn:Ei; auto. rewrite nth_error_app1 by lia. reflexivity.
        -- subst v0 i. rewrite V3v. rs. destruct (_ <? m) eqn:Ei; [apply Nat.ltb_lt in Ei; lia|].
           rewrite nth_error_app1 by lia. auto.
      * assert (v0 <> v) by (intro; subst; apply (Hnv l0); eapply nth_error_In; eauto).
        rewrite Ele by auto. apply s_leader0; auto.
    + (* s_follower *) change (l_lanes (L w3 l0)) with (l_lanes (L w l0)).
      unfold upd in H |- *. destruct (Nat.eqb l0 l) eqn:E.
      * apply Nat.eqb_eq in E; subst. fold m.
        apply nth_error_app_last in H. destruct H as [[Hi H]|[Hi H]].
        -- assert (v0 <> v) by (intro; subst; apply (Hnv l); eapply nth_error_In; eauto).
           destruct (Nat.eq_dec v0 u) as [->|B].
           ++ rewrite V3uu. rs.
              assert (i = List.length (D l) - m) by exact (NoDup_nth_inj _ _ (s_D_nd0 l) H Eu). subst i.
              rewrite nth_error_app2 by lia.
              replace (_ - _) with 0 by lia. reflexivity.
           ++ rewrite V3u by auto. rewrite (s_follower0 _ _ _ H). fold m.
              destruct (Nat.lt_ge_cases (i + m) (List.length (D l))).
              ** rewrite nth_error_app1 by auto. reflexivity.
              ** replace (nth_error (D l) (i + m)) with (@None nat) by (symmetry; apply nth_error_None; auto).
                 destruct (Nat.eq_dec (i + m) (List.length (D l))) as [Q|Q].
                 --- exfalso. apply B. assert (i = List.length (D l) - m) by lia. subst i. congruence.
                 --- symmetry. apply nth_error_None. rewrite app_length. cbn. lia.
        -- subst v0 i. rewrite V3v. rs. rewrite Hfo. symmetry. apply nth_error_None.
           rewrite app_length. cbn. lia.
      * assert (v0 <> v) by (intro; subst; apply (Hnv l0); eapply nth_error_In; eauto).
        assert (v0 <> u).
        { intro; subst. apply nth_error_In in Eu. apply nth_error_In in H.
          apply s_D0 in Eu. apply s_D0 in H. apply Nat.eqb_neq in E.
          destruct Eu as (_ & _ & K1 & _), H as (_ & _ & K2 & _). congruence. }
        rewrite V3u by auto. apply s_follower0; auto.
    + discriminate.
  - apply Nat.leb_gt in Em.
    exists w1. split; [reflexivity|].
    assert (V1u : forall x, x <> v -> V w1 x = V w x).
    { intros x A. unfold w1. rewrite !V_modv_other by auto. reflexivity. }
    assert (V1v : V w1 v = sv_leader None (sv_lane lane (V w v))).
    { unfold w1. rewrite V_modv_same. reflexivity. }
    assert (A3 : aeq w w1).
    { split; [|repeat split].
      intro x. destruct (Nat.eq_dec x v) as [->|A].
      - exists lane, None, (v_follower (V w v)). rewrite V1v. destruct (V w v); reflexivity.
      - exists (v_lane (V w x)), (v_leader (V w x)), (v_follower (V w x)).
        rewrite V1u by auto. symmetry. apply veh_eta. }
    split; [|exact A3].
    assert (Ev : forall x, v_state (V w1 x) = v_state (V w x) /\ v_link (V w1 x) = v_link (V w x)
                        /\ v_orig (V w1 x) = v_orig (V w x) /\ v_follower (V w1 x) = v_follower (V w x)).
    { intro x. destruct (Nat.eq_dec x v) as [->|A]; [rewrite V1v|rewrite V1u by auto]; auto. }
    destruct I. constructor; intros;
      repeat match goal with |- context [V w1 ?x] =>
        rewrite ?(proj1 (Ev x)), ?(proj1 (proj2 (Ev x))), ?(proj1 (proj2 (proj2 (Ev x)))), ?(proj2 (proj2 (proj2 (Ev x)))) end;
      repeat match goal with H : context [V w1 ?x] |- _ =>
        rewrite ?(proj1 (Ev x)), ?(proj1 (proj2 (Ev x))), ?(proj1 (proj2 (proj2 (Ev x)))), ?(proj2 (proj2 (proj2 (Ev x)))) in H end;
      try solve [auto | apply s_queue0 | apply s_queue_nd0 | apply s_living0 | apply s_running0].
    + unfold upd. destruct (Nat.eqb l0 l) eqn:E.
      * apply Nat.eqb_eq in E; subst. rewrite in_app_iff. cbn. rewrite s_D0.
        change (w_nv w1) with (w_nv w). split.
        -- intros [K|[K|[]]]; [intuition discriminate|]. subst. intuition discriminate.
        -- intros (A & B & C & _). destruct (Nat.eq_dec v0 v); [subst; auto|].
           left. intuition congruence.
      * rewrite s_D0. change (w_nv w1) with (w_nv w). apply Nat.eqb_neq in E.
        split; [intuition discriminate|]. intros (A & B & C & _).
        repeat split; auto. intro K; injection K as K; subst. congruence.
    + unfold upd. destruct (Nat.eqb l0 l) eqn:E; auto.
      apply NoDup_app_last; auto.
    + destruct (Nat.eq_dec v0 v) as [->|A].
      * split; [intros _; exists l; auto | congruence].
      * apply s_link0; auto. congruence.
    + change (l_lanes (L w1 l0)) with (l_lanes (L w l0)).
      unfold upd in H |- *. destruct (Nat.eqb l0 l) eqn:E.
      * apply Nat.eqb_eq in E; subst. fold m.
        apply nth_error_app_last in H. destruct H as [[Hi H]|[Hi H]].
        -- assert (v0 <> v) by (intro; subst; apply (Hnv l); eapply nth_error_In; eauto).
           rewrite V1u by auto. destruct (s_lane0 _ _ _ H) as [A B]. split; auto.
           intros x Hx. apply nth_error_app_last in Hx. destruct Hx as [[Hj Hx]|[Hj Hx]].
           ++ rewrite V1u; auto. intro; subst; apply (Hnv l); eapply nth_error_In; eauto.
           ++ subst x. rewrite V1v. rs. unfold lane. rewrite last_opt_nth.
              replace (List.length (D l) - 1) with i by lia. rewrite H. reflexivity.
        -- subst v0. rewrite V1v. rs. split; auto. intros x Hx. apply nth_error_lt in Hx.
           rewrite app_length in Hx. cbn in Hx. lia.
      * assert (v0 <> v) by (intro; subst; apply (Hnv l0); eapply nth_error_In; eauto).
        rewrite V1u by auto. destruct (s_lane0 _ _ _ H) as [A B]. split; auto.
        intros x Hx. rewrite V1u; auto. intro; subst; apply (Hnv l0); eapply nth_error_In; eauto.
    + change (l_lanes (L w1 l0)) with (l_lanes (L w l0)).
      unfold upd in H |- *. destruct (Nat.eqb l0 l) eqn:E.
      * apply Nat.eqb_eq in E; subst. fold m.
        apply nth_error_app_last in H. destruct H as [[Hi H]|[Hi H]].
        -- assert (v0 <> v) by (intro; subst; apply (Hnv l); eapply nth_error_In; eauto).
           rewrite V1u by auto. rewrite (s_leader0 _ _ _ H). fold m.
           destruct (i <? m) eqn:Ei; auto. rewrite nth_error_app1 by lia. reflexivity.
        -- subst v0 i. rewrite V1v. rs. destruct (_ <? m) eqn:Ei; auto. apply Nat.ltb_ge in Ei; lia.
      * assert (v0 <> v) by (intro; subst; apply (Hnv l0); eapply nth_error_In; eauto).
        rewrite V1u by auto. apply s_leader0; auto.
    + change (l_lanes (L w1 l0)) with (l_lanes (L w l0)).
      unfold upd in H |- *. destruct (Nat.eqb l0 l) eqn:E.
      * apply Nat.eqb_eq in E; subst. fold m.
        apply nth_error_app_last in H. destruct H as [[Hi H]|[Hi H]].
        -- rewrite (s_follower0 _ _ _ H). fold m.
           replace (nth_error (D l) (i + m)) with (@None nat) by (symmetry; apply nth_error_None; lia).
           symmetry. apply nth_error_None. rewrite app_length. cbn. lia.
        -- subst v0 i. rewrite Hfo. symmetry. apply nth_error_None. rewrite app_length. cbn. lia.
      * apply s_follower0; auto.
    + discriminate.
Qed.
