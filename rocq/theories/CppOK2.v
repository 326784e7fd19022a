(** * CppOK2: travel time records, route preferences, departures and waiting lists of the compiled engine (property C65). *)
From Coq Require Import Bool Sorted.
From Verif Require Import Base Types Sim Build Heap Lists Inv FrameBase Tac Frame Eff Eff2 Trace InvStep Reach Steps Effects Phases Attr Life Incoming Spec Demand AreaStats Cpp SpecCpp.
Local Open Scope nat_scope.

(** ** Realised travel times *)
Lemma nth_set_from : forall (a : list Q) s v i d, i < List.length a -> nth i (set_from a s v) d = if s <=? i then v else nth i a d.
Proof.
  intros a s v i d Hi. unfold set_from. destruct (s <=? i) eqn:E.
  - apply Nat.leb_le in E. rewrite app_nth2 by (rewrite firstn_length; lia). rewrite firstn_length.
    assert (K : forall n j, j < n -> nth j (repeat v n) d = v).
    { induction n as [|n IH]; intros [|j] Hj; try lia; cbn; [reflexivity|apply IH; lia]. }
    apply K. lia.
  - apply Nat.leb_gt in E. rewrite app_nth1 by (rewrite firstn_length; lia). clear -E. revert i a E. induction s as [|s IH]; intros i a E; [lia|].
    destruct a as [|x a]; [destruct i; reflexivity|]. destruct i as [|i]; [reflexivity|]. cbn. apply IH. lia.
Qed.
Lemma eager_length : forall evs a, List.length (eager evs a) = List.length a.
Proof. induction evs as [|e evs IH]; intro a; [reflexivity|]. change (eager (e :: evs) a) with (eager evs (set_from a (fst e) (snd e))). rewrite IH. apply set_from_length. Qed.
Lemma eager_at : forall evs a i d, i < List.length a -> nth i (eager evs a) d = last_before evs i (nth i a d).
Proof.
  induction evs as [|[s x] evs IH]; intros a i d Hi; [reflexivity|]. change (eager ((s, x) :: evs) a) with (eager evs (set_from a s x)).
  rewrite IH by (rewrite set_from_length; exact Hi). rewrite nth_set_from by exact Hi. reflexivity.
Qed.

Lemma fill_length : forall s e v a, List.length (fill s e v a) = List.length a.
Proof. intros. unfold fill. rewrite map_length, combine_length, seq_length. lia. Qed.
Lemma nth_fill : forall s e v a i d, i < List.length a -> nth i (fill s e v a) d = if (s <=? i) && (i <? e) then v else nth i a d.
Proof.
  intros s e v a i d Hi. unfold fill.
  set (g := fun ix : nat * Q => if (s <=? fst ix) && (fst ix <? e) then v else snd ix).
  rewrite nth_indep with (d' := g (0, d)) by (rewrite map_length, combine_length, seq_length; lia).
  rewrite map_nth with (f := g). rewrite combine_nth by apply seq_length. rewrite seq_nth by exact Hi. reflexivity.
Qed.
Lemma replay_length : forall evs a, List.length (replay evs a) = List.length a.
Proof. induction evs as [|[s x] evs IH]; intro a; [reflexivity|]. cbn [replay]. cbn zeta. rewrite IH. apply fill_length. Qed.
Lemma replay_at : forall evs a i d, i < List.length a -> nth i (replay evs a) d = last_before evs i (nth i a d).
Proof.
  induction evs as [|[s x] evs IH]; intros a i d Hi; [reflexivity|]. cbn [replay]. cbn zeta. rewrite IH by (rewrite fill_length; exact Hi).
  rewrite nth_fill by exact Hi. cbn [last_before]. destruct evs as [|[s' x'] evs].
  - cbn [last_before]. assert (K : i <? List.length a = true) by (apply Nat.ltb_lt; exact Hi). rewrite K, andb_true_r. reflexivity.
  - cbn [last_before]. destruct (s' <=? i) eqn:E; [reflexivity|]. apply Nat.leb_gt in E.
    replace (i <? (if s' <? List.length a then s' else List.length a)) with true; [rewrite andb_true_r; reflexivity|].
    symmetry. apply Nat.ltb_lt. destruct (s' <? List.length a); lia.
Qed.
Theorem replay_eager : forall evs a, replay evs a = eager evs a.
Proof.
  intros evs a. apply nth_ext with (d := 0%Q) (d' := 0%Q); [rewrite replay_length, eager_length; reflexivity|].
  intros i Hi. rewrite replay_length in Hi. rewrite replay_at, eager_at by exact Hi. reflexivity.
Qed.
Theorem reads_agree : forall chunks a, reads chunks a = eager_reads chunks a.
Proof. induction chunks as [|evs chunks IH]; intro a; [reflexivity|]. cbn. rewrite replay_eager, IH. reflexivity. Qed.
Theorem record_value : forall evs a i, i < List.length a -> nth_error (eager evs a) i = Some (last_before evs i (nth i a 0%Q)).
Proof.
  intros evs a i Hi. rewrite <- eager_at by exact Hi. apply nth_error_nth'. rewrite eager_length. exact Hi.
Qed.

(** ** Route preferences *)
Fixpoint rounds_cpp (nl : nat) (wt : Q) (ms : list (lid -> bool)) (s : (lid -> Q) * bool) : (lid -> Q) * bool :=
  match ms with [] => s | m :: ms => rounds_cpp nl wt ms (cpp_duo nl wt m s) end.
Fixpoint rounds_py (nl : nat) (wt : Q) (ms : list (lid -> bool)) (p : lid -> Q) : lid -> Q :=
  match ms with [] => p | m :: ms => rounds_py nl wt ms (py_duo nl wt m p) end.

Lemma py_duo_is : forall c w k l,
  w_rcpref (homogeneous_DUO_update c w) k l =
  py_duo (w_nl w) (duo_weight0 c) (fun l => opt_eqb (Some (l_end (L w l))) (w_rcnext w (l_start (L w l)) k)) (w_rcpref w k) l.
Proof. reflexivity. Qed.

Lemma qsum_zero : forall A (f : A -> Q) l, (forall x, In x l -> (f x == 0)%Q) -> (qsum (map f l) == 0)%Q.
Proof.
  intros A f l H. induction l as [|a l IH]; [reflexivity|]. cbn [map qsum fold_right]. fold (qsum (map f l)).
  rewrite IH by (intros; apply H; right; assumption). rewrite (H a) by (left; reflexivity). reflexivity.
Qed.
Lemma qsum_some : forall A (f : A -> Q) l x, (forall y, In y l -> (0 <= f y)%Q) -> In x l -> (0 < f x)%Q -> (0 < qsum (map f l))%Q.
Proof.
  intros A f l x H Hx P. induction l as [|a l IH]; [destruct Hx|]. cbn [map qsum fold_right]. fold (qsum (map f l)).
  assert (K : (0 <= qsum (map f l))%Q) by (apply qsum_nonneg'; intros; apply H; right; assumption).
  destruct Hx as [->|Hx]; [lra|]. assert (0 <= f a)%Q by (apply H; left; reflexivity). assert (0 < qsum (map f l))%Q by (apply IH; auto; intros; apply H; right; assumption). lra.
Qed.
Lemma qsum_nil : forall A (f : A -> Q) l, (forall y, In y l -> (0 <= f y)%Q) -> (qsum (map f l) == 0)%Q -> forall x, In x l -> (f x == 0)%Q.
Proof.
  intros A f l H E x Hx. destruct (Qlt_le_dec 0 (f x)) as [K|K].
  - pose proof (qsum_some A f l x H Hx K). lra.
  - specialize (H x Hx). lra.
Qed.

(** the two states agree: the flag is set when some preference is positive, or when it no longer matters *)
Record agree (nl : nat) (wt : Q) (s : (lid -> Q) * bool) (p : lid -> Q) : Prop := mkAgree {
  ag_same : forall l, l < nl -> (fst s l == p l)%Q;
  ag_pos : forall l, l < nl -> (0 <= p l)%Q;
  ag_off : snd s = false -> forall l, l < nl -> (p l == 0)%Q;
  ag_on : snd s = true -> (exists l, l < nl /\ (0 < p l)%Q) \/ (wt == 1)%Q }.

Lemma agree_step : forall nl wt m s p, (0 <= wt)%Q -> (wt <= 1)%Q -> agree nl wt s p -> agree nl wt (cpp_duo nl wt m s) (py_duo nl wt m p).
Proof.
  intros nl wt m [f act] p W0 W1 [A1 A2 A3 A4]. cbn [fst snd] in *.
  assert (X : exists x y, cpp_duo nl wt m (f, act) = (fun l => if m l then ((1 - x) * f l + x)%Q else ((1 - x) * f l)%Q, act || existsb m (seq 0 nl)) /\
     (forall l, py_duo nl wt m p l = ((1 - y) * p l + (if m l then y else 0))%Q) /\ (x == y)%Q /\ (0 <= y)%Q /\ (y <= 1)%Q /\
     (act = false -> (y == 1)%Q) /\ (act = true -> (y == wt)%Q)).
  { exists (if act then wt else 1%Q). eexists. split; [reflexivity|]. split; [intro l; unfold py_duo; reflexivity|]. destruct act.
    - destruct (A4 eq_refl) as [(l & Hl & P)|E].
      + assert (Z : qeq (qsum (map p (seq 0 nl))) 0 = false).
        { destruct (qeq _ 0) eqn:E; [|reflexivity]. apply qeq_iff in E. assert (0 < qsum (map p (seq 0 nl)))%Q; [|lra].
          apply qsum_some with (x := l); [intros y Hy; apply in_seq in Hy; apply A2; lia|apply in_seq; lia|exact P]. }
        rewrite Z. repeat split; auto; try lra; discriminate.
      + destruct (qeq _ 0); repeat split; auto; try lra; discriminate.
    - assert (Z : qeq (qsum (map p (seq 0 nl))) 0 = true).
      { apply qeq_iff. apply qsum_zero. intros y Hy. apply in_seq in Hy. apply A3; [reflexivity|lia]. }
      rewrite Z. repeat split; try lra; discriminate. }
  destruct X as (x & y & -> & Hpy & Exy & Y0 & Y1 & Yoff & Yon).
  constructor; cbn [fst snd].
  - intros l Hl. rewrite Hpy. pose proof (A1 l Hl) as K. destruct (m l); rewrite K, Exy; ring.
  - intros l Hl. rewrite Hpy. pose proof (A2 l Hl). destruct (m l); nra.
  - intros E l Hl. apply orb_false_iff in E. destruct E as [E1 E2]. rewrite Hpy. pose proof (A3 E1 l Hl) as K.
    assert (m l = false).
    { destruct (m l) eqn:Em; [|reflexivity]. assert (existsb m (seq 0 nl) = true) by (apply existsb_exists; exists l; split; [apply in_seq; lia|exact Em]). congruence. }
    rewrite H, K. ring.
  - intro E. destruct (Qeq_dec wt 1) as [E1|E1]; [right; exact E1|left].
    destruct (existsb m (seq 0 nl)) eqn:Ex.
    + apply existsb_exists in Ex. destruct Ex as (l & Hl & Em). apply in_seq in Hl. destruct act.
      * destruct (A4 eq_refl) as [(l0 & Hl0 & P)|K]; [|contradiction]. exists l0. split; [exact Hl0|]. rewrite Hpy. specialize (Yon eq_refl).
        assert (wt < 1)%Q by (destruct (Qlt_le_dec wt 1); [assumption|elim E1; lra]). destruct (m l0); nra.
      * exists l. split; [lia|]. rewrite Hpy, Em. specialize (Yoff eq_refl). rewrite Yoff. lra.
    + rewrite orb_false_r in E. subst act. destruct (A4 eq_refl) as [(l0 & Hl0 & P)|K]; [|contradiction]. exists l0. split; [exact Hl0|]. rewrite Hpy. specialize (Yon eq_refl).
      assert (wt < 1)%Q by (destruct (Qlt_le_dec wt 1); [assumption|elim E1; lra]). destruct (m l0); nra.
Qed.
Theorem duo_agrees : forall nl wt ms l, (0 <= wt <= 1)%Q -> l < nl ->
  (fst (rounds_cpp nl wt ms (fun _ => 0%Q, false)) l == rounds_py nl wt ms (fun _ => 0%Q) l)%Q.
Proof.
  intros nl wt ms l [W0 W1] Hl.
  assert (X : forall s p, agree nl wt s p -> agree nl wt (rounds_cpp nl wt ms s) (rounds_py nl wt ms p)).
  { induction ms as [|m ms IH]; intros s p A; [exact A|]. cbn. apply IH. apply agree_step; assumption. }
  apply (ag_same _ _ _ _ (X (fun _ => 0%Q, false) (fun _ => 0%Q) ltac:(constructor; cbn; [reflexivity|intros; lra|reflexivity|discriminate])) l Hl).
Qed.

(** ** Departures *)
Theorem cpp_departure_first : forall c t, (0 < dt c)%Q -> (0 <= t)%Q -> exists ts, cpp_departure c t = Some ts /\
  (t <= inject_Z ts * dt c)%Q /\ (forall z, (t <= inject_Z z * dt c)%Q -> (ts <= z)%Z) /\ (py_departure c t <= ts <= py_departure c t + 1)%Z /\
  (ts = py_departure c t <-> (t == inject_Z ts * dt c)%Q).
Proof.
  intros c t Hd Ht. unfold cpp_departure, py_departure.
  assert (Hq : (0 <= t / dt c)%Q) by (apply Qle_shift_div_l; lra). rewrite qtrunc_floor by exact Hq.
  set (q := (t / dt c)%Q) in *. assert (Et : (t == q * dt c)%Q) by (unfold q; field; lra).
  pose proof (Qfloor_le q) as F1. pose proof (Qlt_floor q) as F2. set (z := Qfloor q) in *.
  rewrite inject_Z_plus in F2. change (inject_Z 1) with 1%Q in F2.
  assert (U : forall y, (t <= inject_Z y * dt c)%Q <-> (q <= inject_Z y)%Q).
  { intro y. rewrite Et. apply Qmult_le_r. exact Hd. }
  cbn [cpp_up]. destruct (qlt (inject_Z z * dt c) t) eqn:E1.
  - apply qlt_iff in E1. assert (K : (inject_Z z < q)%Q). { destruct (Qlt_le_dec (inject_Z z) q); [assumption|]. apply U in q0. lra. }
    assert (K2 : qlt (inject_Z (z + 1) * dt c) t = false). { apply qlt_false. apply U. rewrite inject_Z_plus. change (inject_Z 1) with 1%Q. lra. }
    rewrite K2. exists (z + 1)%Z. split; [reflexivity|]. apply qlt_false in K2. split; [exact K2|]. split.
    { intros y Hy. apply U in Hy. assert (inject_Z z < inject_Z y)%Q by lra. rewrite <- Zlt_Qlt in H. lia. }
    split; [lia|]. split; [lia|]. intro E. exfalso. rewrite E in Et. assert (inject_Z (z + 1) == q)%Q by (apply (Qmult_inj_r _ _ (dt c)); lra).
    rewrite inject_Z_plus in H. change (inject_Z 1) with 1%Q in H. lra.
  - apply qlt_false in E1. exists z. split; [reflexivity|]. split; [exact E1|]. split.
    { intros y Hy. apply U in Hy. assert (inject_Z z <= inject_Z y)%Q by lra. rewrite <- Zle_Qle in H. exact H. }
    split; [lia|]. split; [intros _|reflexivity]. apply Qle_antisym; [exact E1|]. rewrite Et. apply Qmult_le_r; assumption.
Qed.

(** ** The waiting lists are in the order of the vehicles *)
Lemma sorted_remove : forall x l, StronglySorted lt l -> StronglySorted lt (remove_first x l).
Proof.
  intros x l H. induction H as [|a l H IH F]; [constructor|]. cbn. destruct (Nat.eqb a x) eqn:E.
  - rewrite ?E. try exact H. all: destruct (Nat.eqb x a) eqn:E'; try exact H; constructor; auto. all: rewrite Forall_forall in *; intros y Hy; apply F; eapply remove_first_sub; eauto.
  - destruct (Nat.eqb x a) eqn:E'; [exact H|constructor; [exact IH|]]. rewrite Forall_forall in *. intros y Hy. apply F. eapply remove_first_sub; eauto.
Qed.
Lemma sorted_snoc : forall v l, StronglySorted lt l -> (forall u, In u l -> u < v) -> StronglySorted lt (l ++ [v]).
Proof.
  intros v l H K. induction H as [|a l H IH F]; [repeat constructor|]. cbn. constructor; [apply IH; intros; apply K; right; assumption|].
  rewrite Forall_forall in *. intros y Hy. apply in_app_iff in Hy. destruct Hy as [Hy|[<-|[]]]; [apply F; exact Hy|apply K; left; reflexivity].
Qed.
Lemma sort_sorted : forall l, StronglySorted lt l -> sort_ids l = l.
Proof.
  intros l H. induction H as [|a l H IH F]; [reflexivity|]. cbn [sort_ids fold_right]. fold (sort_ids l). rewrite IH. destruct l as [|b l]; [reflexivity|].
  cbn. inversion F; subst. assert (a <=? b = true) by (apply Nat.leb_le; lia). rewrite H0. reflexivity.
Qed.

Lemma living_step : forall c e w p w' p', Inv2 w p -> mstep c e w p w' p' -> StronglySorted lt (w_living w) -> StronglySorted lt (w_living w').
Proof.
  intros c e w p w' p' I M J. pose proof (mstep_eff c e w p w' p' I M) as H.
  assert (K : w_living w' = w_living w \/ exists v, w_living w' = remove_first v (w_living w)).
  { clear J M I. destruct e; cbn [eff] in H; repeat match goal with K : _ /\ _ |- _ => destruct K | K : exists _, _ |- _ => destruct K end;
    match goal with
    | K : w_living _ = remove_first ?v _ |- _ => right; exists v; exact K
    | K : w_living _ = w_living _ |- _ => left; exact K
    | K : sameB _ _ |- _ => left; exact (proj1 K)
    | K : soft _ _ |- _ => left; exact (so_living K)
    end. }
  destruct K as [->|(v & ->)]; [exact J|apply sorted_remove; exact J].
Qed.
Lemma living_run : forall c K w w', Inv2 w None -> run c K w w' -> StronglySorted lt (w_living w) -> StronglySorted lt (w_living w').
Proof.
  intros c K w w' I R J. destruct (run_with c (fun x _ => StronglySorted lt (w_living x)) K) with (w := w) (w' := w') as [_ X]; auto.
  intros e x p x' p' _ Ix Jx M. eapply living_step; eauto.
Qed.
Theorem living_sorted : forall c w, reach c w -> StronglySorted lt (w_living w).
Proof.
  intros c. apply (reach_inv c (fun w _ => StronglySorted lt (w_living w))).
  - intro tm. constructor.
  - intros e w p w' p' I J M. eapply living_step; eauto.
  - intros w J. exact J.
  - intros w w' I J O0. destruct O0.
    + exact J.
    + exact J.
    + cbn. apply sorted_snoc; [exact J|]. intros u Hu. destruct I as [[T I] _]. apply (s_living I) in Hu. tauto.
    + destruct (finalize_ok _ _ _ _ H0) as []. congruence.
    + unfold wkeep in H2. replace (w_living w') with (w_living w) by congruence. exact J.
    + unfold wkeep in H2. replace (w_living w') with (w_living w) by congruence. exact J.
Qed.

Lemma loop_sorted : forall c n vs w w', Inv2 w None -> StronglySorted lt vs -> StronglySorted lt (n_incoming (N w n)) ->
  (forall u v, In u (n_incoming (N w n)) -> In v vs -> u < v) -> foldM (update_living c) vs w = Ok w' -> StronglySorted lt (n_incoming (N w' n)).
Proof.
  intros c n vs. induction vs as [|v vs IH]; intros w w' I Sv Si Hl H; cbn [foldM] in H; [injection H as <-; exact Si|].
  apply bind_ok in H. destruct H as (w1 & E & H). unfold update_living in E.
  destruct (mem v (w_living w)) eqn:Em; [|discriminate]. apply mem_iff in Em.
  pose proof (veh_update_inc c v w w1 I Em E) as Inc. apply veh_update_run in E; auto. pose proof (run_Inv2' _ _ _ _ I E) as I1.
  inversion Sv as [|? ? S1 S2]; subst. rewrite Forall_forall in S2.
  assert (K : n_incoming (N w1 n) = n_incoming (N w n) \/ n_incoming (N w1 n) = n_incoming (N w n) ++ [v]).
  { destruct Inc as [S|(m & P & _)]; [left; apply S|]. rewrite P. destruct (Nat.eqb n m); auto. }
  apply (IH w1 w'); auto.
  - destruct K as [-> | ->]; [exact Si|]. apply sorted_snoc; [exact Si|]. intros u Hu. apply Hl; [exact Hu|left; reflexivity].
  - intros u z Hu Hz. destruct K as [K|K]; rewrite K in Hu; [apply Hl; [exact Hu|right; exact Hz]|].
    apply in_app_iff in Hu. destruct Hu as [Hu|[<-|[]]]; [apply Hl; [exact Hu|right; exact Hz]|apply S2; exact Hz].
Qed.

Lemma end_same : forall c w w' n, Inv2 w None -> run c k_end w w' -> n_incoming (N w' n) = n_incoming (N w n).
Proof.
  intros c w w' n I R. destruct (run_with c (fun x _ => n_incoming (N x n) = n_incoming (N w n)) k_end) with (w := w) (w' := w') as [_ K]; auto.
  clear - c. intros e x p x' p' Ke Ix J M. rewrite <- J. pose proof (mstep_eff c e x p x' p' Ix M) as H. destruct e; try discriminate Ke; cbn [eff] in H.
  - destruct H as (_ & _ & S & _). rewrite (so_n S). reflexivity.
  - destruct H as (_ & _ & _ & _ & H & _). rewrite H. reflexivity.
  - destruct H as (_ & _ & _ & _ & H & _). rewrite H. reflexivity.
  - destruct H as (_ & _ & _ & _ & H & _). rewrite H. reflexivity.
Qed.

Lemma body_sorted : forall c w w' n, Inv2 w None -> StronglySorted lt (w_living w) -> n < w_nn w -> body c w = Ok w' ->
  StronglySorted lt (n_incoming (N w' n)).
Proof.
  intros c w w' n I Sl Hn H. apply body_runs in H.
  destruct H as (w1 & w2 & w3 & w4 & w5 & w6 & E1 & E2 & E3 & E4 & E5 & E6 & ->).
  pose proof (phase_links_frs _ _ E1) as F1. pose proof (phase_nodes_fr _ _ E2) as F2.
  apply phase_links_run in E1. apply phase_nodes_run in E2.
  pose proof (run_Inv2' _ _ _ _ I E1) as I1. pose proof (run_Inv2' _ _ _ _ I1 E2) as I2.
  pose proof (living_run _ _ _ _ I E1 Sl) as Sl1. pose proof (living_run _ _ _ _ I1 E2 Sl1) as Sl2.
  pose proof E3 as E3'. unfold phase_transfer in E3'. destruct (transfers_clear c (seq 0 (w_nn w2)) w2 w3 I2) as (I3 & C1 & _); auto.
  { intros m Hm. apply in_seq in Hm. lia. }
  apply phase_transfer_run in E3. pose proof (living_run _ _ _ _ I2 E3 Sl2) as Sl3.
  apply phase_follow_run in E4. pose proof (run_Inv2' _ _ _ _ I3 E4) as I4. pose proof (living_run _ _ _ _ I3 E4 Sl3) as Sl4.
  assert (C4 : n_incoming (N w4 n) = []).
  { rewrite (follow_inc _ _ _ I3 E4). apply C1. apply in_seq. rewrite (fr_w_nn F2), (fr_w_nn (frs_fr F1)). lia. }
  pose proof E5 as E5'. apply phase_vehicles_run in E5'. pose proof (run_Inv2' _ _ _ _ I4 E5') as I5.
  rewrite (end_same c w5 (sw_TIME (now c w6) w6) n I5).
  - eapply loop_sorted; [exact I4|exact Sl4| | |exact E5]; rewrite C4; [constructor|intros u v []].
  - eapply run_trans; [eapply run_weaken; [|eapply route_phase_run; exact E6]|].
    + intros [] K; try discriminate K; reflexivity.
    + eapply run_one with (e := VTime); [reflexivity|constructor].
Qed.

Theorem incoming_sorted : forall c w, reach c w -> forall n, StronglySorted lt (n_incoming (N w n)).
Proof.
  intros c w H. induction H as [tm|w o w' H IH Hok Hx E|w w' H IH Hf E|w H IH].
  - intro n. constructor.
  - pose proof (reach_Inv2 _ _ H) as I. pose proof (reach_IncB _ _ H) as J. apply apply_op_osteps in E; auto. clear - E IH I J. induction E; auto.
    pose proof (ostep_IncB _ _ _ I J H) as J'. apply IHE; [|eapply ostep_Inv2; eauto|exact J'].
    destruct H.
    + intro n. rewrite (ib_start _ J'); [constructor|exact H].
    + intro n. rewrite (ib_start _ J'); [constructor|exact H].
    + exact IH.
    + intro n. apply finalize_ok in H0. destruct (fz_N _ _ _ H0 n) as [-> |(x & y & z & ->)]; apply IH.
    + intro n. unfold N. rewrite H1. apply IH.
    + intro n. specialize (H1 n). unfold nkeep in H1. replace (n_incoming (N w' n)) with (n_incoming (N w n)) by congruence. apply IH.
  - pose proof (reach_IncB c w' (rc_tick c w w' H Hf E)) as J'. pose proof E as E'.
    apply tick_fr in E'. destruct E' as (w1 & E' & ->). intro n.
    pose proof (fr_w_nn (body_fr _ _ E')) as En. change (N (sw_T (S (w_T w)) w1) n) with (N w1 n).
    destruct (Nat.lt_ge_cases n (w_nn w)) as [K|K].
    + eapply body_sorted; [eapply reach_Inv2; eauto|eapply living_sorted; eauto|exact K|exact E'].
    + destruct J' as [[J1 _ _ _] _]. assert (X : n_incoming (N w1 n) = []) by (apply (J1 n); change (w_nn (sw_T (S (w_T w)) w1)) with (w_nn w1); lia). rewrite X. constructor.
  - exact IH.
Qed.
Theorem cpp_sort_same : forall c w n, reach c w -> sort_ids (n_incoming (N w n)) = n_incoming (N w n).
Proof. intros c w n R. apply sort_sorted. eapply incoming_sorted; eauto. Qed.
