(** * Merge: which vehicle a trial of [Node.transfer] moves (C38). *)
From Verif Require Import Base Types Sim Build Heap Lists Inv FrameBase Tac Frame Eff Eff2 Trace InvStep Reach Steps Effects Phases Attr Spec.
Local Open Scope nat_scope.

Lemma filterM_ok : forall A (f : A -> result bool) xs ys, filterM f xs = Ok ys ->
  forall x, In x ys <-> In x xs /\ f x = Ok true.
Proof.
  intros A f xs; induction xs as [|a xs IH]; intros ys H x; cbn [filterM] in H.
  - injection H as <-. cbn. tauto.
  - apply bind_ok in H. destruct H as (b & E & H). apply bind_ok in H. destruct H as (zs & E2 & H). injection H as <-.
    specialize (IH zs E2 x). destruct b; cbn [In].
    + rewrite IH. split; [intros [-> |[]]; auto|]. intros [[-> |H] K]; auto.
    + rewrite IH. split; [intros []; auto|]. intros [[-> |H] K]; auto. congruence.
Qed.
Lemma mapM_ok : forall A B (f : A -> result B) xs ys, mapM f xs = Ok ys ->
  List.length ys = List.length xs /\ forall x y, In (y, x) (combine ys xs) -> f x = Ok y.
Proof.
  intros A B f xs; induction xs as [|a xs IH]; intros ys H; cbn [mapM] in H.
  - injection H as <-. split; auto. intros x y [].
  - apply bind_ok in H. destruct H as (b & E & H). apply bind_ok in H. destruct H as (zs & E2 & H). injection H as <-.
    destruct (IH zs E2) as [El Hc]. split; [cbn; lia|]. cbn. intros x y [K|K]; auto. injection K as <- <-; auto.
Qed.
Lemma combine_find : forall A B (ys : list B) (xs : list A), List.length ys = List.length xs ->
  forall x, In x xs -> exists y, In (y, x) (combine ys xs).
Proof.
  intros A B ys; induction ys as [|y ys IH]; intros [|x xs] E z Hz; cbn in *; try lia; try easy.
  destruct Hz as [<-|Hz]; [eauto|]. destruct (IH xs ltac:(lia) z Hz) as (y' & H). eauto.
Qed.

Lemma max_first_spec : forall A (l : list (Q * A)) b, exists p, In (p, max_first b l) (b :: l) /\
  (forall q x, In (q, x) (b :: l) -> (q <= p)%Q).
Proof.
  intros A l; induction l as [|[p x] l IH]; intros [q y]; cbn [max_first].
  - exists q. split; [left; reflexivity|]. intros q' x' [H|[]]. injection H as <- <-. apply Qle_refl.
  - cbn [fst]. destruct (qlt q p) eqn:E.
    + apply qlt_iff in E. destruct (IH (p, x)) as (r & H1 & H2). exists r. split.
      * cbn [In] in *. tauto.
      * intros q' x' [H|H]; [|apply (H2 q' x'); auto]. injection H as <- <-.
        pose proof (H2 p x ltac:(left; auto)). lra.
    + apply qlt_false in E. destruct (IH (q, y)) as (r & H1 & H2). exists r. split.
      * cbn [In] in *. tauto.
      * intros q' x' [H|[H|H]].
        -- apply (H2 q' x'). left; auto.
        -- injection H as <- <-. pose proof (H2 q y ltac:(left; auto)). lra.
        -- apply (H2 q' x'). right; auto.
Qed.
Lemma choice_max_spec : forall ps xs x, choice_max ps xs = Ok x ->
  exists p, In (p, x) (combine ps xs) /\ forall q y, In (q, y) (combine ps xs) -> (q <= p)%Q.
Proof.
  intros ps xs x H. unfold choice_max in H. destruct (combine ps xs) as [|b l] eqn:E; [discriminate|].
  injection H as <-. apply max_first_spec.
Qed.

Lemma qsum_nonneg : forall ps, (forall p, In p ps -> 0 <= p)%Q -> (0 <= qsum ps)%Q.
Proof.
  intros ps; induction ps as [|p ps IH]; intros H; cbn.
  - apply Qle_refl.
  - pose proof (H p (or_introl eq_refl)). assert (0 <= qsum ps)%Q by (apply IH; intros; apply H; right; auto). unfold qsum in *. lra.
Qed.
Lemma qsum_zero : forall ps, (forall p, In p ps -> 0 <= p)%Q -> (qsum ps == 0)%Q -> forall p, In p ps -> (p == 0)%Q.
Proof.
  intros ps; induction ps as [|q ps IH]; intros H E p Hp; [destruct Hp|].
  assert (0 <= q)%Q by (apply H; left; auto).
  assert (0 <= qsum ps)%Q by (apply qsum_nonneg; intros; apply H; right; auto).
  assert (q + qsum ps == 0)%Q by exact E.
  destruct Hp as [<-|Hp]; [lra|]. apply IH; auto; [|lra]. intros; apply H; right; auto.
Qed.

Lemma choice_p_spec : forall c ps xs w x w', choice_p c ps xs w = Ok (x, w') -> (forall p, In p ps -> 0 <= p)%Q ->
  exists p, In (p, x) (combine ps xs) /\ (0 < p)%Q.
Proof.
  intros c ps xs w x w' H Hp. unfold choice_p in H. cbv zeta in H.
  destruct (qeq (qsum ps) 0) eqn:E; [discriminate|]. apply qeq_false in E.
  destruct (existsb _ _); [discriminate|]. apply choice_uniform_w in H. destruct H as [_ H].
  apply in_map_iff in H. destruct H as ([p y] & Ey & H). cbn in Ey; subst y. apply filter_In in H. destruct H as [H K].
  exists p. split; auto. cbn [fst] in K. apply qlt_iff in K.
  pose proof (qsum_nonneg ps Hp). assert (0 < qsum ps)%Q.
  { apply Qle_lteq in H0. destruct H0; auto. symmetry in H0. contradiction. }
  destruct (Qlt_le_dec 0 p) as [|Hle]; auto. exfalso.
  apply (Qlt_not_le _ _ K). unfold Qdiv. setoid_replace 0%Q with (0 * / qsum ps)%Q by ring.
  apply Qmult_le_compat_r; auto. apply Qlt_le_weak, Qinv_lt_0_compat; auto.
Qed.

Lemma candidate_spec : forall c n out w v, In v (n_incoming (N w n)) ->
  (candidate c n out w v = Ok true <-> exists l, merge_candidate c w n out v l).
Proof.
  intros c n out w v Hi. unfold candidate, merge_candidate. split.
  - intro H. apply bind_ok in H. destruct H as (l & El & H).
    destruct (v_link (V w v)) as [l'|]; [|discriminate]. injection El as ->.
    exists l. destruct (l_vehs (L w l)) as [|u q]; [discriminate|].
    destruct (Nat.eqb u v) eqn:E; [|discriminate]. apply Nat.eqb_eq in E; subst u.
    apply bind_ok in H. destruct H as (nx & En & H). injection H as H.
    apply andb_true_iff in H. destruct H as [H H3]. apply andb_true_iff in H. destruct H as [H1 H2].
    split; [auto|]. split; [auto|]. split; [auto|]. split.
    { destruct (v_next (V w v)); [|discriminate]. injection En as ->. apply opt_eqb_eq in H1. subst; auto. }
    split; [|apply qle_iff; auto]. apply orb_true_iff in H2. rewrite mem_iff, Nat.leb_le in H2. auto.
  - intros (l & _ & El & Eh & En & Hs & Hc). rewrite El. cbn [of_opt bind].
    destruct (l_vehs (L w l)) as [|u q]; [discriminate|]. injection Eh as ->. rewrite Nat.eqb_refl, En. cbn [of_opt bind].
    f_equal. rewrite !andb_true_iff, orb_true_iff, mem_iff, Nat.leb_le, qle_iff. split; [split|]; auto.
    apply opt_eqb_eq; auto.
Qed.

Definition prio_of (w : world) (v : vid) : result Q := l <- of_opt AttributeError (v_link (V w v)) ;; Ok (l_prio (L w l)).

Lemma combine_map_ones : forall A (ps : list Q) (vs : list A) p v, In (p, v) (combine (map (fun _ => 1%Q) ps) vs) ->
  p = 1%Q /\ exists q, In (q, v) (combine ps vs).
Proof.
  intros A ps; induction ps as [|a ps IH]; intros [|u vs] p v H; cbn in *; try easy.
  destruct H as [H|H]; [injection H as <- <-; eauto|]. destruct (IH _ _ _ H) as (-> & q & K); eauto.
Qed.

(** The choice among the candidates *)
Lemma merge_choice_spec : forall c w vs v w1, merge_choice c w vs = Ok (v, w1) ->
  (forall u l, In u vs -> v_link (V w u) = Some l -> (0 <= l_prio (L w l))%Q) ->
  (w1 = w \/ w1 = sw_draw (S (w_draw w)) w) /\ In v vs /\ exists l, v_link (V w v) = Some l /\
  (c_det c = true -> forall u k, In u vs -> v_link (V w u) = Some k -> (l_prio (L w k) <= l_prio (L w l))%Q) /\
  (forall u k, In u vs -> v_link (V w u) = Some k -> (0 < l_prio (L w k))%Q -> (0 < l_prio (L w l))%Q).
Proof.
  intros c w vs v w1 H Hp. unfold merge_choice in H. fold (prio_of w) in H.
  change (fun v => l <- of_opt AttributeError (v_link (V w v)) ;; Ok (l_prio (L w l))) with (prio_of w) in H.
  apply bind_ok in H. destruct H as (ps & E & H). destruct (mapM_ok _ _ _ _ _ E) as [El Hc].
  assert (Hc' : forall x y, In (y, x) (combine ps vs) -> exists l, v_link (V w x) = Some l /\ y = l_prio (L w l)).
  { intros x y K. apply Hc in K. unfold prio_of in K. destruct (v_link (V w x)) as [l|]; [|discriminate].
    injection K as <-. eauto. }
  assert (Pn : forall p, In p ps -> (0 <= p)%Q).
  { intros p Hin. destruct (combine_find _ _ vs ps (eq_sym El) p Hin) as (u & Hu).
    assert (In (p, u) (combine ps vs)).
    { clear - Hu El. revert vs El Hu. induction ps as [|a ps IH]; intros [|b vs] El Hu; cbn in *; try easy.
      destruct Hu as [Hu|Hu]; [injection Hu as <- <-; auto|]. right. apply IH; auto. }
    destruct (Hc' u p H0) as (l & E1 & ->). eapply Hp; eauto. eapply in_combine_r; eauto. }
  assert (Fin : forall u k, In u vs -> v_link (V w u) = Some k -> In (l_prio (L w k), u) (combine ps vs)).
  { intros u k Hu Ek. destruct (combine_find _ _ ps vs El u Hu) as (y & Hy).
    destruct (Hc' u y Hy) as (l & E1 & ->). congruence. }
  cbv zeta in H. destruct (qeq (qsum ps) 0) eqn:Eq.
  - apply qeq_iff in Eq. pose proof (qsum_zero ps Pn Eq) as Z.
    assert (Hv : (w1 = w \/ w1 = sw_draw (S (w_draw w)) w) /\ exists q, In (q, v) (combine ps vs)).
    { destruct (c_det c).
      - apply bind_ok in H. destruct H as (x & Ex & H). injection H as -> <-. split; [auto|].
        apply choice_max_spec in Ex. destruct Ex as (p & Hp1 & _). apply combine_map_ones in Hp1. apply Hp1.
      - split; [right; apply choice_p_w in H; tauto|]. apply choice_p_spec in H.
        + destruct H as (p & Hp1 & _). apply combine_map_ones in Hp1. apply Hp1.
        + intros p Hin. apply in_map_iff in Hin. destruct Hin as (z & <- & _). discriminate. }
    destruct Hv as [Hw (q & Hq)]. split; [auto|]. split; [eapply in_combine_r; eauto|].
    destruct (Hc' _ _ Hq) as (l & E1 & ->). exists l. split; [auto|].
    assert (Zl : forall u k, In u vs -> v_link (V w u) = Some k -> (l_prio (L w k) == 0)%Q).
    { intros u k Hu Ek. apply Z. pose proof (Fin u k Hu Ek) as K. eapply in_combine_l; eauto. }
    assert (Z0 : (l_prio (L w l) == 0)%Q) by (apply Z; eapply in_combine_l; eauto).
    split; [intros _|]; intros u k Hu Ek; rewrite (Zl u k Hu Ek), Z0; [apply Qle_refl|auto].
  - destruct (c_det c).
    + apply bind_ok in H. destruct H as (x & Ex & H). injection H as -> <-. split; [auto|].
      apply choice_max_spec in Ex. destruct Ex as (p & Hp1 & Hp2).
      split; [eapply in_combine_r; eauto|]. destruct (Hc' _ _ Hp1) as (l & E1 & ->). exists l. split; [auto|].
      split; [intros _; intros u k Hu Ek; apply (Hp2 _ u); auto|].
      intros u k Hu Ek K. pose proof (Hp2 _ _ (Fin u k Hu Ek)). lra.
    + split; [right; apply choice_p_w in H; tauto|]. apply choice_p_spec in H; auto.
      destruct H as (p & Hp1 & Hp2). split; [eapply in_combine_r; eauto|].
      destruct (Hc' _ _ Hp1) as (l & E1 & ->). exists l. split; [auto|]. split; [discriminate|]. auto.
Qed.

Theorem merge_lemma : forall c n out w w', transfer_trial c n out w = Ok w' ->
  (forall u l, merge_candidate c w n out u l -> (0 <= l_prio (L w l))%Q) ->
  w' = w \/
  exists v l w1, merge_candidate c w n out v l /\ (w1 = w \/ w1 = sw_draw (S (w_draw w)) w) /\ transfer_move c n out v w1 = Ok w' /\
    (c_det c = true -> forall u k, merge_candidate c w n out u k -> (l_prio (L w k) <= l_prio (L w l))%Q) /\
    (forall u k, merge_candidate c w n out u k -> (0 < l_prio (L w k))%Q -> (0 < l_prio (L w l))%Q).
Proof.
  intros c n out w w' H Hp. unfold transfer_trial in H. destruct (_ && _) eqn:Eg in H; [|injection H as <-; auto].
  apply bind_ok in H. destruct H as (vs & E & H). pose proof (filterM_ok _ _ _ _ E) as Hf. cbv beta in Hf.
  assert (Hc : forall u l, merge_candidate c w n out u l <-> In u vs /\ v_link (V w u) = Some l).
  { intros u l. rewrite Hf. split.
    - intros K. pose proof K as (Hi & El & _). split; [split; [auto|]|auto]. apply candidate_spec; eauto.
    - intros [[Hi Hk] El]. apply candidate_spec in Hk; auto. destruct Hk as (l' & Hk).
      pose proof Hk as (_ & El' & _). assert (l' = l) by congruence. subst; auto. }
  destruct vs as [|v0 vs0]; [injection H as <-; auto|]. revert E Hf Hc H. generalize (v0 :: vs0). clear v0 vs0.
  intros vs E Hf Hc H. right.
  apply bind_ok in H. destruct H as ([v w1] & E1 & H).
  apply merge_choice_spec in E1. 2: { intros u l Hu El. apply (Hp u l). apply Hc; auto. }
  destruct E1 as (Hw & Hv & l & El & H1 & H2). exists v, l, w1. split; [apply Hc; auto|]. split; [auto|]. split; [auto|].
  split; [intros D u k Hk|intros u k Hk]; apply Hc in Hk; destruct Hk; eauto.
Qed.

(** whoever is moved ends up last on [out] *)
Lemma move_last : forall c n out v w w', transfer_move c n out v w = Ok w' -> exists q, l_vehs (L w' out) = q ++ [v].
Proof.
  intros c n out v w w' H. unfold transfer_move in H. apply bind_ok in H. destruct H as ([from w1] & _ & H).
  apply bind_ok in H. destruct H as ([b w2] & _ & H). injection H as <-.
  exists (l_vehs (L w2 out)). unfold L. cbn. unfold upd. rewrite Nat.eqb_refl. reflexivity.
Qed.
(** if there is a candidate and room, one is moved *)
Theorem moves_lemma : forall c n out w w', transfer_trial c n out w = Ok w' -> 1 <= l_lanes (L w out) ->
  room c w out -> (dN c <= l_cinr (L w out))%Q -> (dN c <= n_fcapr (N w n))%Q ->
  (exists v l, merge_candidate c w n out v l) ->
  exists v l w1, merge_candidate c w n out v l /\ transfer_move c n out v w1 = Ok w' /\ (w1 = w \/ w1 = sw_draw (S (w_draw w)) w).
Proof.
  intros c n out w w' H Hl Hr Hi Hf (v & l & Hv). unfold transfer_trial in H.
  assert (has_space c w (L w out) = true) as Es.
  { unfold has_space. apply orb_true_iff. rewrite Nat.ltb_lt. destruct Hr as [Hr|(u & Eu & Hr)]; auto.
    destruct (Nat.lt_ge_cases (List.length (l_vehs (L w out))) (l_lanes (L w out))); auto.
    right. rewrite from_end_nth by lia. rewrite Eu. apply qlt_iff; auto. }
  apply qle_iff in Hi, Hf. rewrite Es, Hi, Hf in H. cbn [andb] in H.
  apply bind_ok in H. destruct H as (vs & E & H). pose proof (filterM_ok _ _ _ _ E) as Hs. cbv beta in Hs.
  assert (In v vs). { apply Hs. destruct Hv as (Hi' & Hv). split; auto. apply candidate_spec; auto. exists l. split; auto. }
  destruct vs as [|v0 vs0]; [easy|].
  apply bind_ok in H. destruct H as ([x w1] & E1 & H).
  assert (In x (v0 :: vs0) /\ (w1 = w \/ w1 = sw_draw (S (w_draw w)) w)) as [Hx Hw].
  { unfold merge_choice in E1. apply bind_ok in E1. destruct E1 as (ps & _ & E1). cbv zeta in E1. destruct (c_det c).
    - apply bind_ok in E1. destruct E1 as (y & Ey & E1). injection E1 as <- <-. split; [eapply choice_max_In; eauto|auto].
    - apply choice_p_w in E1. tauto. }
  apply Hs in Hx. destruct Hx as [Hx1 Hx2]. apply candidate_spec in Hx2; auto. destruct Hx2 as (k & Hk).
  exists x, k, w1. auto.
Qed.
