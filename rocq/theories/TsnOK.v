(** * TsnOK: proofs about the time-space network (property C61). *)
From Verif Require Import Base Types Sim Build Heap Lists Inv FrameBase Tac Frame Eff Eff2 Trace InvStep Reach Steps Effects Phases Attr Life Incoming Vev Ride TripLog Route Spec LinkQueries Outflow SpecTT TTActual Demand Dso NodeDistances SpecDuo SpecRoutes Mfd Tsn SpecTsn.
Local Open Scope nat_scope.

(** ** Times *)
Lemma times_in : forall tmax d t, (0 < d)%Z -> In t (tsn_times tmax d) <-> exists k, (0 <= k)%Z /\ t = (k * d)%Z /\ (t < tmax)%Z.
Proof.
  intros tmax d t Hd. unfold tsn_times. rewrite (proj2 (Z.ltb_lt 0 d) Hd). rewrite in_map_iff. split.
  - intros (i & <- & Hi). apply in_seq in Hi. exists (Z.of_nat i). split; [lia|]. split; [reflexivity|].
    assert (K : (Z.of_nat i < (tmax + d - 1) / d)%Z) by lia.
    assert (K2 : (d * ((tmax + d - 1) / d) <= tmax + d - 1)%Z) by (apply Z.mul_div_le; exact Hd). nia.
  - intros (k & Hk & -> & Ht). exists (Z.to_nat k). split; [rewrite Z2Nat.id; lia|]. apply in_seq. split; [lia|].
    assert (K : (k < (tmax + d - 1) / d)%Z). { apply Z.lt_le_trans with (k + 1)%Z; [lia|]. apply Z.div_le_lower_bound; [exact Hd|]. nia. }
    lia.
Qed.
Lemma existsb_Z : forall t ts, existsb (Z.eqb t) ts = true <-> In t ts.
Proof.
  intros t ts. rewrite existsb_exists. split; [intros (x & Hx & E); apply Z.eqb_eq in E; subst; exact Hx|intro H; exists t; split; [exact H|apply Z.eqb_refl]].
Qed.
Lemma gn_eqb_eq : forall a b, gn_eqb a b = true <-> a = b.
Proof.
  intros [a x] [b y]. unfold gn_eqb. cbn [fst snd]. rewrite andb_true_iff, Nat.eqb_eq. destruct x, y; cbn [oz_eqb]; [rewrite Z.eqb_eq| | |]; split; intuition congruence.
Qed.

(** ** The dict of edges *)
Definition key (e : gedge) : gnode * gnode := fst e.
Lemma eset_in : forall e es x, In x (eset e es) -> x = e \/ In x es.
Proof.
  intros e es x. induction es as [|y es IH]; cbn [eset In]; [intros [H|[]]; auto|]. destruct (_ && _); cbn [In]; [intros [H|H]; auto|].
  intros [H|H]; [auto|]. destruct (IH H); auto.
Qed.
Lemma eset_has : forall e es, In e (eset e es).
Proof. intros e es. induction es as [|y es IH]; cbn [eset]; [left; reflexivity|]. destruct (_ && _); [left; reflexivity|right; exact IH]. Qed.
Lemma eset_keys : forall e es k, In k (map key es) -> In k (map key (eset e es)).
Proof.
  intros e es k. induction es as [|y es IH]; cbn [eset map In]; [intros []|].
  destruct (gn_eqb (fst (fst y)) (fst (fst e)) && gn_eqb (snd (fst y)) (snd (fst e))) eqn:E; cbn [map In].
  - apply andb_true_iff in E. destruct E as [E1 E2]. apply gn_eqb_eq in E1, E2.
    assert (K : key y = key e) by (unfold key; destruct y as [[a b] q], e as [[a' b'] q']; cbn in *; congruence). rewrite K. tauto.
  - intros [H|H]; auto.
Qed.

Lemma foldM_inv : forall A S (f : A -> S -> result S) (P : S -> Prop) xs s s', (forall x s s', In x xs -> P s -> f x s = Ok s' -> P s') ->
  P s -> foldM f xs s = Ok s' -> P s'.
Proof.
  intros A S f P xs; induction xs as [|x xs IH]; intros s s' K H E; cbn [foldM] in E; [injection E as <-; exact H|].
  apply bind_ok in E. destruct E as (s1 & E1 & E). apply (IH s1 s'); [intros y a b Hy; apply K; right; exact Hy| |exact E].
  apply (K x s s1 (or_introl eq_refl) H E1).
Qed.
(** [K] is established by [x] and kept by all *)
Lemma foldM_get : forall A S (f : A -> S -> result S) (K : S -> Prop) xs x s s', In x xs -> (forall y s s', K s -> f y s = Ok s' -> K s') ->
  (forall s s', f x s = Ok s' -> K s') -> foldM f xs s = Ok s' -> K s'.
Proof.
  intros A S f K xs x; induction xs as [|y xs IH]; intros s s' Hx M G E; [destruct Hx|]. cbn [foldM] in E. apply bind_ok in E. destruct E as (s1 & E1 & E).
  destruct Hx as [->|Hx]; [|apply (IH s1 s' Hx M G E)]. apply (foldM_inv A S f K xs s1 s'); [intros z a b _ Ha Eb; exact (M z a b Ha Eb)|apply (G s s1 E1)|exact E].
Qed.
Lemma foldM_total : forall A S (f : A -> S -> result S) xs s, (forall x s, In x xs -> exists s', f x s = Ok s') -> exists s', foldM f xs s = Ok s'.
Proof.
  intros A S f xs; induction xs as [|x xs IH]; intros s K; cbn [foldM]; [exists s; reflexivity|]. destruct (K x s (or_introl eq_refl)) as (s1 & E). rewrite E. cbn [bind].
  apply IH. intros y a Hy. apply K. right. exact Hy.
Qed.

Section World.
Variables (c : cfg) (w : world) (darg : option Z) (tm : Q).
Let d := tsn_dt c darg.
Let ts := tsn_times (qtrunc tm) d.

(** what an edge between two times means *)
Definition is_move (n : nid) (t : Z) (n' : nid) (t' : Z) (q : Q) : Prop :=
  n < w_nn w /\ In t ts /\ exists l, In l (n_out (N w n)) /\ l_end (L w l) = n' /\ time_at c w l t = Some q /\ t' = arrive d t q /\ In t' ts /\ (inject_Z t' < tm)%Q.
Definition sound_edge (e : gedge) : Prop :=
  exists n t n' t' q, e = ((n, Some t), (n', Some t'), q) /\ is_move n t n' t' q.

Hypothesis Htm : w_tmax w = Some tm.
Hypothesis Hd : (0 < d)%Z.

Lemma tsn_eq : forall es, tsn c w darg = Ok es -> exists ms,
  foldM (fun t es => foldM (fun n es => foldM (add_move c w d tm ts n t) (n_out (N w n)) es) (seq 0 (w_nn w)) es) ts [] = Ok ms /\
  es = ms ++ flat_map (fun t => map (fun n => ((n, Some t), (n, None), 0%Q)) (seq 0 (w_nn w))) ts.
Proof.
  intros es H. unfold tsn in H. cbv zeta in H. rewrite Htm in H. cbn [of_opt bind] in H. fold d in H. fold ts in H.
  destruct (Z.eqb_spec d 0) as [E|_]; [lia|]. apply bind_ok in H. destruct H as (ms & E & H). injection H as <-. exists ms. auto.
Qed.

Lemma moves_sound : forall ms, foldM (fun t es => foldM (fun n es => foldM (add_move c w d tm ts n t) (n_out (N w n)) es) (seq 0 (w_nn w)) es) ts [] = Ok ms ->
  forall e, In e ms -> sound_edge e.
Proof.
  intros ms H. pattern ms. revert H. apply foldM_inv; [|intros e []]. intros t s s' Ht P H. revert P. pattern s'. 
  assert (G : forall e, In e s' -> In e s \/ sound_edge e).
  2:{ intros P e He. destruct (G e He) as [K|K]; auto. }
  refine (foldM_inv _ _ _ (fun z => forall e, In e z -> In e s \/ sound_edge e) _ _ _ _ _ H); [|auto].
  intros n z z' Hn P Hz. apply in_seq in Hn.
  refine (foldM_inv _ _ _ (fun z => forall e, In e z -> In e s \/ sound_edge e) _ _ _ _ _ Hz); [|exact P].
  intros l y y' Hl Py Hy e He. unfold add_move in Hy. apply bind_ok in Hy. destruct Hy as (tt & Et & Hy). cbv zeta in Hy. injection Hy as <-.
  destruct (qlt (inject_Z (qtrunc ((inject_Z t + tt) / inject_Z d) * d)) tm && existsb (Z.eqb (qtrunc ((inject_Z t + tt) / inject_Z d) * d)) ts) eqn:Eb; [|apply Py; exact He].
  apply eset_in in He. destruct He as [->|He]; [|apply Py; exact He]. right. apply andb_true_iff in Eb. destruct Eb as (E1 & E2). apply existsb_Z in E2.
  exists n, t, (l_end (L w l)), (arrive d t tt), tt. split; [reflexivity|]. split; [lia|]. split; [exact Ht|]. exists l. split; [exact Hl|]. split; [reflexivity|].
  split. { unfold time_at. destruct (nth_error (l_tta (L w l)) _) as [x|]; [|discriminate Et]. cbn in Et. congruence. }
  split; [reflexivity|]. split; [exact E2|]. apply qlt_iff. exact E1.
Qed.
Lemma moves_keys : forall (k : gnode * gnode) n t l y y', add_move c w d tm ts n t l y = Ok y' -> In k (map key y) -> In k (map key y').
Proof.
  intros k n t l y y' H K. unfold add_move in H. apply bind_ok in H. destruct H as (tt & Et & H). cbv zeta in H. injection H as <-.
  destruct (_ && _); [apply eset_keys; exact K|exact K].
Qed.
Lemma moves_complete : forall ms, foldM (fun t es => foldM (fun n es => foldM (add_move c w d tm ts n t) (n_out (N w n)) es) (seq 0 (w_nn w)) es) ts [] = Ok ms ->
  forall n t l, n < w_nn w -> In t ts -> In l (n_out (N w n)) -> exists q, time_at c w l t = Some q /\
    (In (arrive d t q) ts -> (inject_Z (arrive d t q) < tm)%Q -> In ((n, Some t), (l_end (L w l), Some (arrive d t q))) (map key ms)).
Proof.
  intros ms H n t l Hn Ht Hl.
  set (K := fun z : list gedge => exists q, time_at c w l t = Some q /\
    (In (arrive d t q) ts -> (inject_Z (arrive d t q) < tm)%Q -> In ((n, Some t), (l_end (L w l), Some (arrive d t q))) (map key z))).
  assert (M1 : forall m u x y y', K y -> add_move c w d tm ts m u x y = Ok y' -> K y').
  { intros m u x y y' (q & A & B) E. exists q. split; [exact A|]. intros C1 C2. apply (moves_keys _ _ _ _ _ _ E). apply B; assumption. }
  assert (M2 : forall u m y y', K y -> foldM (add_move c w d tm ts m u) (n_out (N w m)) y = Ok y' -> K y').
  { intros u m y y' Ky E. refine (foldM_inv _ _ _ K _ _ _ _ Ky E). intros x a b _ Ka Eb. exact (M1 _ _ _ _ _ Ka Eb). }
  assert (M3 : forall u y y', K y -> foldM (fun n es => foldM (add_move c w d tm ts n u) (n_out (N w n)) es) (seq 0 (w_nn w)) y = Ok y' -> K y').
  { intros u y y' Ky E. refine (foldM_inv _ _ _ K _ _ _ _ Ky E). intros x a b _ Ka Eb. exact (M2 _ _ _ _ Ka Eb). }
  refine (foldM_get _ _ _ K ts t [] ms Ht _ _ H); [intros u a b Ka Eb; exact (M3 u a b Ka Eb)|]. intros s s' E.
  refine (foldM_get _ _ _ K (seq 0 (w_nn w)) n s s' _ _ _ E); [apply in_seq; lia|intros m a b Ka Eb; exact (M2 t m a b Ka Eb)|]. intros a b Ea.
  refine (foldM_get _ _ _ K (n_out (N w n)) l a b Hl _ _ Ea); [intros m x y Kx Ey; exact (M1 n t m x y Kx Ey)|]. intros x y Ey.
  unfold add_move in Ey. apply bind_ok in Ey. destruct Ey as (q & Eq & Ey). cbv zeta in Ey. injection Ey as <-.
  exists q. split. { unfold time_at. destruct (nth_error (l_tta (L w l)) _) as [x0|]; [|discriminate Eq]. cbn in Eq. congruence. }
  intros C1 C2. apply existsb_Z in C1. apply qlt_iff in C2. unfold arrive in C1, C2. rewrite C1, C2. cbn [andb].
  apply (in_map key _ _ (eset_has ((n, Some t), (l_end (L w l), Some (arrive d t q)), q) x)).
Qed.

(** the edges of the graph *)
Theorem edges_lemma : forall es, tsn c w darg = Ok es ->
  (forall u v q, In (u, v, q) es ->
     (exists n t, u = (n, Some t) /\ v = (n, None) /\ q = 0%Q /\ n < w_nn w /\ In t ts) \/
     (exists n t n' t', u = (n, Some t) /\ v = (n', Some t') /\ is_move n t n' t' q)) /\
  (forall n t, n < w_nn w -> In t ts -> In ((n, Some t), (n, None), 0%Q) es) /\
  (forall n t l, n < w_nn w -> In t ts -> In l (n_out (N w n)) -> exists q, time_at c w l t = Some q /\
     (In (arrive d t q) ts -> (inject_Z (arrive d t q) < tm)%Q -> exists q', In ((n, Some t), (l_end (L w l), Some (arrive d t q)), q') es)).
Proof.
  intros es H. destruct (tsn_eq es H) as (ms & E & ->). split; [|split].
  - intros u v q Hi. apply in_app_or in Hi. destruct Hi as [Hi|Hi].
    + right. destruct (moves_sound ms E _ Hi) as (n & t & n' & t' & q' & Ee & M). injection Ee as -> -> ->. exists n, t, n', t'. auto.
    + left. apply in_flat_map in Hi. destruct Hi as (t & Ht & Hi). apply in_map_iff in Hi. destruct Hi as (n & En & Hn). injection En as <- <- <-.
      apply in_seq in Hn. exists n, t. repeat (split; [reflexivity|]). split; [lia|exact Ht].
  - intros n t Hn Ht. apply in_or_app. right. apply in_flat_map. exists t. split; [exact Ht|]. apply in_map_iff. exists n. split; [reflexivity|]. apply in_seq. lia.
  - intros n t l Hn Ht Hl. destruct (moves_complete ms E n t l Hn Ht Hl) as (q & A & B). exists q. split; [exact A|]. intros C1 C2.
    specialize (B C1 C2). apply in_map_iff in B. destruct B as ([k q'] & Ek & B). unfold key in Ek. cbn in Ek. subst k. exists q'. apply in_or_app. left. exact B.
Qed.
End World.

(** ** Rounding *)
Lemma inj_pos : forall d, (0 < d)%Z -> (0 < inject_Z d)%Q. Proof. intros d H. change 0%Q with (inject_Z 0). rewrite <- Zlt_Qlt. exact H. Qed.
Lemma inj_nn : forall d, (0 <= d)%Z -> (0 <= inject_Z d)%Q. Proof. intros d H. change 0%Q with (inject_Z 0). rewrite <- Zle_Qle. exact H. Qed.
Lemma arrive_bounds : forall d t x, (0 < d)%Z -> (0 <= t)%Z -> (0 <= x)%Q ->
  (inject_Z (arrive d t x) <= inject_Z t + x)%Q /\ (inject_Z t + x < inject_Z (arrive d t x) + inject_Z d)%Q /\ exists k, (0 <= k)%Z /\ arrive d t x = (k * d)%Z.
Proof.
  intros d t x Hd Ht Hx. pose proof (inj_pos d Hd) as D. pose proof (inj_nn t Ht) as T.
  assert (A : (0 <= (inject_Z t + x) / inject_Z d)%Q) by (apply Qle_shift_div_l; [exact D|lra]).
  unfold arrive. rewrite (qtrunc_floor _ A). set (z := ((inject_Z t + x) / inject_Z d)%Q) in *.
  assert (E : (inject_Z t + x == z * inject_Z d)%Q) by (unfold z; field; lra).
  pose proof (Qfloor_le z) as F1. pose proof (Qlt_floor z) as F2. rewrite inject_Z_plus in F2. change (inject_Z 1) with 1%Q in F2. rewrite inject_Z_mult. split; [|split].
  - rewrite E. apply Qmult_le_compat_r; lra.
  - rewrite E. setoid_replace (inject_Z (Qfloor z) * inject_Z d + inject_Z d)%Q with ((inject_Z (Qfloor z) + 1) * inject_Z d)%Q by ring. apply Qmult_lt_compat_r; lra.
  - exists (Qfloor z). split; [|reflexivity]. change 0%Z with (Qfloor 0). apply Qfloor_resp_le. exact A.
Qed.
Lemma trunc_le : forall q, (0 <= q)%Q -> (inject_Z (qtrunc q) <= q)%Q.
Proof. intros q H. rewrite (qtrunc_floor q H). apply Qfloor_le. Qed.

(** ** Walks and routes *)
Section Walks.
Variables (c : cfg) (w : world) (darg : option Z) (tm : Q) (es : list gedge).
Let d := tsn_dt c darg.
Let ts := tsn_times (qtrunc tm) d.
Let tmax := qtrunc tm.
Hypothesis R : reach c w.
Hypothesis Htm : w_tmax w = Some tm.
Hypothesis Hd : (0 < d)%Z.
Hypothesis S0 : sane_times w.
Hypothesis E : tsn c w darg = Ok es.

Lemma ts_in : forall t, In t ts <-> (exists k, (0 <= k)%Z /\ t = (k * d)%Z) /\ (t < tmax)%Z.
Proof. intro t. unfold ts. rewrite (times_in (qtrunc tm) d t Hd). fold tmax. split; [intros (k & A & B & C)|intros ((k & A & B) & C)]; eauto. Qed.
Lemma ts_nn : forall t, In t ts -> (0 <= t)%Z.
Proof. intros t H. apply ts_in in H. destruct H as ((k & A & ->) & _). nia. Qed.
Lemma ts_tm : forall t, In t ts -> (inject_Z t < tm)%Q.
Proof.
  intros t H. pose proof (ts_nn t H) as N0. apply ts_in in H. destruct H as (_ & H).
  assert (P : (0 <= tm)%Q).
  { destruct (Qlt_le_dec tm 0) as [K|K]; [|exact K]. exfalso. unfold tmax, qtrunc in H. destruct tm as [a b]. unfold Qlt in K. cbn in K. cbn [Qnum Qden] in H.
    assert (X : (a ÷ Z.pos b <= 0)%Z); [|lia]. destruct (Z.eq_dec a 0) as [->|Na]; [rewrite Z.quot_0_l; lia|].
    replace a with (- (- a))%Z by lia. rewrite Z.quot_opp_l by lia. assert (0 <= (- a) ÷ Z.pos b)%Z by (apply Z.quot_pos; lia). lia. }
  eapply Qlt_le_trans; [|apply (trunc_le tm P)]. rewrite <- Zlt_Qlt. exact H.
Qed.
Lemma out_link : forall n l, In l (n_out (N w n)) <-> exists_link w l /\ l_start (L w l) = n.
Proof. intros n l. destruct (reach_Inv2 _ _ R) as [[T _] _]. apply (t_out T). Qed.
Lemma ends_nn : forall l, exists_link w l -> l_start (L w l) < w_nn w /\ l_end (L w l) < w_nn w.
Proof. intros l H. destruct (reach_Inv2 _ _ R) as [[T _] _]. apply (t_ends T). exact H. Qed.
Lemma time_sane : forall l t x, exists_link w l -> time_at c w l t = Some x -> (0 <= x)%Q.
Proof. intros l t x Hl H. apply (S0 l x Hl). unfold time_at in H. apply nth_error_In in H. exact H. Qed.

(** an edge between two times, and what is in the graph *)
Lemma edge_move : forall n t v q, In ((n, Some t), v, q) es -> In t ts /\
  ((v = (n, None) /\ q = 0%Q) \/ exists l, exists_link w l /\ l_start (L w l) = n /\ time_at c w l t = Some q /\ v = (l_end (L w l), Some (arrive d t q)) /\ In (arrive d t q) ts).
Proof.
  intros n t v q H. destruct (edges_lemma c w darg tm Htm Hd es E) as (A & _ & _). destruct (A _ _ _ H) as [(n0 & t0 & E1 & E2 & E3 & _ & Ht)|(n0 & t0 & n' & t' & E1 & E2 & M)].
  - injection E1 as <- <-. split; [exact Ht|]. left. auto.
  - injection E1 as <- <-. destruct M as (_ & Ht & l & Hl & He & Hq & Ha & Ha2 & _). split; [exact Ht|]. right. exists l. apply out_link in Hl. destruct Hl as (L1 & L2).
    fold d in Ha, Ha2. fold ts in Ha2. rewrite Ha in E2, Ha2. rewrite <- He in E2. repeat (split; [assumption|]). assumption.
Qed.
Lemma move_edge : forall n t l x, In t ts -> exists_link w l -> l_start (L w l) = n -> time_at c w l t = Some x -> In (arrive d t x) ts ->
  exists x', In ((n, Some t), (l_end (L w l), Some (arrive d t x)), x') es.
Proof.
  intros n t l x Ht Hl Hs Hx Ha. destruct (edges_lemma c w darg tm Htm Hd es E) as (_ & _ & C).
  destruct (C n t l) as (q & Q1 & Q2); [rewrite <- Hs; apply ends_nn; exact Hl|exact Ht|apply out_link; auto|]. rewrite Hx in Q1. injection Q1 as <-.
  apply Q2; [exact Ha|apply ts_tm; exact Ha].
Qed.
Lemma time_there : forall t l, In t ts -> exists_link w l -> exists x, time_at c w l t = Some x.
Proof.
  intros t l Ht Hl. destruct (edges_lemma c w darg tm Htm Hd es E) as (_ & _ & C).
  destruct (C (l_start (L w l)) t l) as (q & Q1 & _); [apply ends_nn; exact Hl|exact Ht|apply out_link; auto|]. eauto.
Qed.
Lemma end_edge : forall n t, n < w_nn w -> In t ts -> In ((n, Some t), (n, None), 0%Q) es.
Proof. intros n t Hn Ht. destruct (edges_lemma c w darg tm Htm Hd es E) as (_ & B & _). apply B; assumption. Qed.
Lemma none_out : forall n v q, ~ In ((n, None), v, q) es.
Proof.
  intros n v q H. destruct (edges_lemma c w darg tm Htm Hd es E) as (A & _ & _). destruct (A _ _ _ H) as [(n0 & t0 & E1 & _)|(n0 & t0 & n' & t' & E1 & _)]; discriminate E1.
Qed.
Lemma walk_none : forall n v q, twalk es (n, None) v q -> v = (n, None) /\ (q == 0)%Q.
Proof. intros n v q H. inversion H as [|u v0 x q0 r Hi _]; subst; [split; reflexivity|]. destruct (none_out _ _ _ Hi). Qed.

(** every walk follows a route *)
Lemma walk_drive : forall u v q, twalk es u v q -> forall n t, u = (n, Some t) -> In t ts ->
  exists r q' t', leads w n (fst v) r /\ drive c w d tmax r t q' t' /\ (q == q')%Q /\ In t' ts /\ (snd v = Some t' \/ snd v = None).
Proof.
  intros u v q H. induction H as [u|u v x q r Hi Hw IH]; intros n t -> Ht.
  - exists [], 0%Q, t. split; [reflexivity|]. split; [constructor|]. split; [reflexivity|]. split; [exact Ht|]. left. reflexivity.
  - destruct (edge_move n t v q Hi) as (_ & [(-> & ->)|(l & Hl & Hs & Hq & -> & Ha)]).
    + apply walk_none in Hw. destruct Hw as (-> & Eq). exists [], 0%Q, t. split; [reflexivity|]. split; [constructor|]. split; [rewrite Eq; reflexivity|]. split; [exact Ht|]. right. reflexivity.
    + destruct (IH _ _ eq_refl Ha) as (r' & q' & t' & L1 & D1 & Q1 & T1 & T2). exists (l :: r'), (q + q')%Q, t'. split; [split; [exact Hl|split; [exact Hs|exact L1]]|].
      split; [apply dr_link; [exact Hq| |exact D1]; apply ts_in in Ha; apply Ha|]. split; [rewrite Q1; reflexivity|]. auto.
Qed.
Lemma drive_ts : forall r t q t', drive c w d tmax r t q t' -> forall n m, leads w n m r -> In t ts -> In t' ts.
Proof.
  intros r t q t' H. induction H as [t|l r t x q t' Hx Ha Hr IH]; intros n m K Ht; [exact Ht|]. destruct K as (Hl & _ & K). apply (IH _ _ K). apply ts_in. split; [|exact Ha].
  apply (arrive_bounds d t x Hd (ts_nn t Ht) (time_sane l t x Hl Hx)).
Qed.
Lemma drive_bounds : forall r t q t', drive c w d tmax r t q t' -> forall n m, leads w n m r -> In t ts ->
  (inject_Z t' - inject_Z t <= q)%Q /\ (r <> [] -> (q < inject_Z t' - inject_Z t + Qof_nat (List.length r) * inject_Z d)%Q).
Proof.
  intros r t q t' H. induction H as [t|l r t x q t' Hx Ha Hr IH]; intros n m K Ht; [split; [lra|congruence]|]. destruct K as (Hl & _ & K).
  destruct (arrive_bounds d t x Hd (ts_nn t Ht) (time_sane l t x Hl Hx)) as (B1 & B2 & B3).
  assert (Hat : In (arrive d t x) ts) by (apply ts_in; auto). destruct (IH _ _ K Hat) as (C1 & C2). split; [lra|]. intros _.
  pose proof (inj_pos d Hd) as D. cbn [List.length]. destruct r as [|l2 r].
  - inversion Hr; subst. change (Qof_nat 1) with 1%Q. cbn [List.length]. change (Qof_nat 1) with 1%Q. lra.
  - specialize (C2 ltac:(discriminate)). 
    assert (P : (Qof_nat (S (List.length (l2 :: r))) == Qof_nat (List.length (l2 :: r)) + 1)%Q) by (unfold Qof_nat; rewrite Nat2Z.inj_succ, <- Z.add_1_r, inject_Z_plus; reflexivity).
    rewrite P. nra.
Qed.
(** every route is followed by a walk that arrives at the same time *)
Lemma drive_walk : forall r t q t', drive c w d tmax r t q t' -> forall n m, leads w n m r -> In t ts ->
  exists q', twalk es (n, Some t) (m, Some t') q'.
Proof.
  intros r t q t' H. induction H as [t|l r t x q t' Hx Ha Hr IH]; intros n m K Ht; [cbn in K; subst; exists 0%Q; constructor|]. destruct K as (Hl & Hs & K).
  assert (Hat : In (arrive d t x) ts) by (apply ts_in; split; [apply (arrive_bounds d t x Hd (ts_nn t Ht) (time_sane l t x Hl Hx))|exact Ha]).
  destruct (IH _ _ K Hat) as (q1 & W). destruct (move_edge n t l x Ht Hl Hs Hx Hat) as (x' & Hi). exists (x' + q1)%Q. eapply tw_edge; eassumption.
Qed.
(** ... and with the same cost if there are no parallel links *)
Lemma single_eq : forall l l', single_links w -> exists_link w l -> exists_link w l' -> l_start (L w l) = l_start (L w l') -> l_end (L w l) = l_end (L w l') -> l = l'.
Proof.
  intros l l' SL Hl Hl' E1 E2. pose proof (SL (l_start (L w l)) (l_end (L w l))) as K. unfold links_between in K.
  assert (A : forall k, exists_link w k -> l_start (L w k) = l_start (L w l) -> l_end (L w k) = l_end (L w l) -> In k (filter (joins w (l_start (L w l)) (l_end (L w l))) (seq 0 (w_nl w)))).
  { intros k Hk K1 K2. apply filter_In. split; [apply in_seq; unfold exists_link in Hk; lia|]. unfold joins. rewrite K1, K2, !Nat.eqb_refl. reflexivity. }
  pose proof (A l Hl eq_refl eq_refl) as I1. pose proof (A l' Hl' (eq_sym E1) (eq_sym E2)) as I2.
  destruct (filter _ _) as [|a [|b tl]]; cbn in K; [destruct I1| |lia]. destruct I1 as [I1|[]], I2 as [I2|[]]. congruence.
Qed.
Lemma drive_walk_single : forall r t q t', single_links w -> drive c w d tmax r t q t' -> forall n m, leads w n m r -> In t ts ->
  twalk es (n, Some t) (m, Some t') q.
Proof.
  intros r t q t' SL H. induction H as [t|l r t x q t' Hx Ha Hr IH]; intros n m K Ht; [cbn in K; subst; constructor|]. destruct K as (Hl & Hs & K).
  assert (Hat : In (arrive d t x) ts) by (apply ts_in; split; [apply (arrive_bounds d t x Hd (ts_nn t Ht) (time_sane l t x Hl Hx))|exact Ha]).
  pose proof (IH _ _ K Hat) as W. destruct (move_edge n t l x Ht Hl Hs Hx Hat) as (x' & Hi).
  destruct (edge_move _ _ _ _ Hi) as (_ & [(X & _)|(l' & Hl' & Hs' & Hq' & X & _)]); [discriminate X|]. injection X as X1 X2.
  assert (l = l') by (apply (single_eq l l' SL Hl Hl'); congruence). subst l'. rewrite Hx in Hq'. injection Hq' as <-. eapply tw_edge; eassumption.
Qed.

(** Walks: in the graph one can go from node [n] at time [t] to node [m] at time [t'] exactly if some route from [n] to [m] is
    driven in that time, with times at nodes rounded down; the cost is the sum of the travel times of the links. *)
Theorem walks_lemma : forall n t m t' , In t ts ->
  (forall q, twalk es (n, Some t) (m, Some t') q -> exists r q', leads w n m r /\ drive c w d tmax r t q' t' /\ (q == q')%Q /\
     (inject_Z t' - inject_Z t <= q)%Q /\ (r <> [] -> (q < inject_Z t' - inject_Z t + Qof_nat (List.length r) * inject_Z d)%Q)) /\
  (forall r q, leads w n m r -> drive c w d tmax r t q t' -> exists q', twalk es (n, Some t) (m, Some t') q').
Proof.
  intros n t m t' Ht. split.
  - intros q H. destruct (walk_drive _ _ _ H n t eq_refl Ht) as (r & q' & t2 & L1 & D1 & Q1 & T1 & T2). cbn [fst snd] in *. destruct T2 as [T2|T2]; [|discriminate T2]. injection T2 as <-.
    exists r, q'. destruct (drive_bounds _ _ _ _ D1 _ _ L1 Ht) as (B1 & B2). split; [exact L1|]. split; [exact D1|]. split; [exact Q1|]. rewrite Q1. auto.
  - intros r q L1 D1. exact (drive_walk _ _ _ _ D1 _ _ L1 Ht).
Qed.

(** the costs to the end nodes *)
Lemma walk_end : forall n t m q, twalk es (n, Some t) (m, None) q -> In t ts -> exists r q' t', leads w n m r /\ drive c w d tmax r t q' t' /\ (q == q')%Q /\ In t' ts.
Proof. intros n t m q H Ht. destruct (walk_drive _ _ _ H n t eq_refl Ht) as (r & q' & t2 & L1 & D1 & Q1 & T1 & _). exists r, q', t2. auto. Qed.
Lemma walk_app : forall u v x q r, twalk es u v q -> twalk es v x r -> exists y, twalk es u x y /\ (y == q + r)%Q.
Proof.
  intros u v x q r H K. induction H as [u|u v x0 q r0 Hi Hw IH]; [exists r; split; [exact K|ring]|]. destruct (IH K) as (y & Y1 & Y2). exists (q + y)%Q. split; [eapply tw_edge; eassumption|rewrite Y2; ring].
Qed.
Lemma leads_nn : forall r n m, leads w n m r -> n < w_nn w -> m < w_nn w.
Proof. induction r as [|l r IH]; intros n m H Hn; [cbn in H; congruence|]. destruct H as (Hl & _ & H). apply (IH _ _ H). apply ends_nn. exact Hl. Qed.
Lemma to_end : forall n t m t' q, twalk es (n, Some t) (m, Some t') q -> m < w_nn w -> In t' ts -> exists y, twalk es (n, Some t) (m, None) y /\ (y == q)%Q.
Proof.
  intros n t m t' q H Hm Ht'. destruct (walk_app _ _ (m, None) q (0 + 0)%Q H) as (y & Y1 & Y2).
  - eapply tw_edge; [apply end_edge; eassumption|constructor].
  - exists y. split; [exact Y1|]. rewrite Y2. ring.
Qed.
Theorem costs_lemma : forall n t m f, single_links w -> n < w_nn w -> In t ts -> least_costs es (n, Some t) f ->
  match f (m, None) with
  | Some q => (exists r q' t', leads w n m r /\ drive c w d tmax r t q' t' /\ (q' == q)%Q) /\
              forall r q' t', leads w n m r -> drive c w d tmax r t q' t' -> (q <= q')%Q
  | None => forall r q' t', leads w n m r -> ~ drive c w d tmax r t q' t'
  end.
Proof.
  intros n t m f SL Hn Ht F. specialize (F (m, None)).
  assert (A : forall r q' t', leads w n m r -> drive c w d tmax r t q' t' -> exists y, twalk es (n, Some t) (m, None) y /\ (y == q')%Q).
  { intros r q' t' L1 D1. apply (to_end n t m t' q'); [exact (drive_walk_single _ _ _ _ SL D1 _ _ L1 Ht)|exact (leads_nn r n m L1 Hn)|exact (drive_ts _ _ _ _ D1 _ _ L1 Ht)]. }
  destruct (f (m, None)) as [q|].
  - destruct F as ((y & W & Ey) & Fm). split.
    + destruct (walk_end n t m y W Ht) as (r & q' & t' & L1 & D1 & Q1 & _). exists r, q', t'. split; [exact L1|]. split; [exact D1|]. rewrite <- Q1. exact Ey.
    + intros r q' t' L1 D1. destruct (A r q' t' L1 D1) as (z & Z1 & Z2). rewrite <- Z2. apply Fm. exact Z1.
  - intros r q' t' L1 D1. destruct (A r q' t' L1 D1) as (z & Z1 & _). exact (F z Z1).
Qed.

(** ** Travel times that are multiples of the timestep *)
Hypothesis WT : whole_times c w.
Hypothesis DD : (dt c == inject_Z d)%Q.

Lemma div_d : forall k, (inject_Z (k * d) / inject_Z d == inject_Z k)%Q.
Proof. intro k. rewrite inject_Z_mult. pose proof (inj_pos d Hd). field. lra. Qed.
Lemma arrive_exact : forall l t x, exists_link w l -> In t ts -> time_at c w l t = Some x -> (inject_Z (arrive d t x) == inject_Z t + x)%Q.
Proof.
  intros l t x Hl Ht Hx. apply ts_in in Ht. destruct Ht as ((k & Hk & ->) & _). destruct (WT l x Hl) as (j & Ej); [unfold time_at in Hx; eapply nth_error_In; exact Hx|].
  rewrite DD in Ej. unfold Qof_nat in Ej. rewrite <- inject_Z_mult in Ej.
  assert (A : (inject_Z (k * d) + x == inject_Z ((k + Z.of_nat j) * d))%Q) by (rewrite Ej, <- inject_Z_plus; apply inject_Z_injective; ring).
  unfold arrive. assert (B : ((inject_Z (k * d) + x) / inject_Z d == inject_Z (k + Z.of_nat j))%Q) by (rewrite A; apply div_d).
  rewrite (qtrunc_Z _ _ B). symmetry. exact A.
Qed.
Lemma actual_at : forall l t x, In t ts -> time_at c w l t = Some x -> forall t', (t' == inject_Z t)%Q -> actual_travel_time c (L w l) t' = Ok x.
Proof.
  intros l t x Ht Hx t' Et. unfold actual_travel_time. 
  assert (S1 : slot c t' = qtrunc (inject_Z t / dt c)).
  { unfold slot. rewrite Et. symmetry. apply qtrunc_floor. apply Qle_shift_div_l; [rewrite DD; apply inj_pos; exact Hd|]. pose proof (inj_nn t (ts_nn t Ht)). lra. }
  rewrite S1. unfold time_at in Hx. unfold clamp_get.
  assert (P : (0 <= qtrunc (inject_Z t / dt c))%Z).
  { apply qtrunc_nonneg. apply Qle_shift_div_l; [rewrite DD; apply inj_pos; exact Hd|]. pose proof (inj_nn t (ts_nn t Ht)). lra. }
  assert (K : Z.to_nat (qtrunc (inject_Z t / dt c)) < List.length (l_tta (L w l))) by (apply nth_error_Some; congruence).
  destruct (Z.leb_spec (Z.of_nat (List.length (l_tta (L w l)))) (qtrunc (inject_Z t / dt c))) as [X|_]; [lia|].
  destruct (Z.ltb_spec (qtrunc (inject_Z t / dt c)) 0) as [X|_]; [lia|]. rewrite Hx. reflexivity.
Qed.
(** driving with rounded times is driving *)
Lemma drive_exact : forall r t q t', drive c w d tmax r t q t' -> forall n m, leads w n m r -> In t ts ->
  (inject_Z t' == inject_Z t + q)%Q /\ forall t0 a, (t0 == inject_Z t)%Q -> in_time c w r t0 (inject_Z tmax) /\ exists y, route_time_from c w r t0 a = Ok y /\ (y == a + q)%Q.
Proof.
  intros r t q t' H. induction H as [t|l r t x q t' Hx Ha Hr IH]; intros n m K Ht.
  - split; [ring|]. intros t0 a _. split; [exact I|]. exists a. split; [reflexivity|ring].
  - destruct K as (Hl & _ & K). pose proof (arrive_exact l t x Hl Ht Hx) as Ex.
    assert (Hat : In (arrive d t x) ts) by (apply ts_in; split; [apply (arrive_bounds d t x Hd (ts_nn t Ht) (time_sane l t x Hl Hx))|exact Ha]).
    destruct (IH _ _ K Hat) as (C1 & C2). split; [rewrite C1, Ex; ring|]. intros t0 a Et.
    destruct (C2 (t0 + x)%Q (a + x)%Q) as (D1 & y & D2 & D3); [rewrite Ex, Et; reflexivity|]. pose proof (actual_at l t x Ht Hx t0 Et) as At. split.
    + cbn [in_time]. exists x. split; [exact At|]. split; [|exact D1]. rewrite Et, <- Ex. rewrite <- Zlt_Qlt. exact Ha.
    + exists y. split; [cbn [route_time_from]; rewrite At; cbn [bind]; exact D2|]. rewrite D3. ring.
Qed.
Lemma exact_drive : forall r n m t t0, leads w n m r -> In t ts -> (t0 == inject_Z t)%Q -> in_time c w r t0 (inject_Z tmax) -> exists q t', drive c w d tmax r t q t'.
Proof.
  induction r as [|l r IH]; intros n m t t0 K Ht Et H; [exists 0%Q, t; constructor|]. destruct K as (Hl & _ & K). destruct H as (x & Hx & Hlt & H).
  destruct (time_there t l Ht Hl) as (x' & Hx'). pose proof (actual_at l t x' Ht Hx' t0 Et) as At. rewrite Hx in At. injection At as ->.
  pose proof (arrive_exact l t x' Hl Ht Hx') as Ex.
  assert (Ha : (arrive d t x' < tmax)%Z) by (rewrite Zlt_Qlt, Ex, <- Et; exact Hlt).
  assert (Hat : In (arrive d t x') ts) by (apply ts_in; split; [apply (arrive_bounds d t x' Hd (ts_nn t Ht) (time_sane l t x' Hl Hx'))|exact Ha]).
  destruct (IH _ _ (arrive d t x') (t0 + x')%Q K Hat ltac:(rewrite Ex, Et; reflexivity) H) as (q & t' & D1). exists (x' + q)%Q, t'. apply dr_link; assumption.
Qed.
Theorem exact_lemma : forall n t m f, n < w_nn w -> In t ts -> least_costs es (n, Some t) f ->
  match f (m, None) with
  | Some q => (exists r x, leads w n m r /\ in_time c w r (inject_Z t) (inject_Z tmax) /\ route_time c w r (inject_Z t) = Ok x /\ (x == q)%Q) /\
              forall r x, leads w n m r -> in_time c w r (inject_Z t) (inject_Z tmax) -> route_time c w r (inject_Z t) = Ok x -> (q <= x)%Q
  | None => forall r, leads w n m r -> ~ in_time c w r (inject_Z t) (inject_Z tmax)
  end.
Proof.
  intros n t m f Hn Ht F. specialize (F (m, None)).
  assert (A : forall r, leads w n m r -> in_time c w r (inject_Z t) (inject_Z tmax) -> exists y, twalk es (n, Some t) (m, None) y /\ exists x, route_time c w r (inject_Z t) = Ok x /\ (y == x)%Q).
  { intros r L1 T1. destruct (exact_drive r n m t _ L1 Ht (Qeq_refl _) T1) as (q & t' & D1). destruct (drive_walk _ _ _ _ D1 _ _ L1 Ht) as (q1 & W).
    pose proof (drive_ts _ _ _ _ D1 _ _ L1 Ht) as Ht'. destruct (to_end n t m t' q1 W (leads_nn r n m L1 Hn) Ht') as (y & Y1 & Y2). exists y. split; [exact Y1|].
    destruct (drive_exact _ _ _ _ D1 _ _ L1 Ht) as (C1 & C2). destruct (C2 (inject_Z t) 0%Q (Qeq_refl _)) as (_ & x & X1 & X2). exists x. split; [exact X1|].
    destruct (walk_drive _ _ _ W n t eq_refl Ht) as (r2 & q2 & t2 & L2 & D2 & Q2 & _ & T2). cbn [fst snd] in *. destruct T2 as [T2|T2]; [|discriminate T2]. injection T2 as <-.
    destruct (drive_exact _ _ _ _ D2 _ _ L2 Ht) as (C3 & _). rewrite Y2, Q2, X2. lra. }
  destruct (f (m, None)) as [q|].
  - destruct F as ((y & W & Ey) & Fm). split.
    + destruct (walk_end n t m y W Ht) as (r & q' & t' & L1 & D1 & Q1 & _). destruct (drive_exact _ _ _ _ D1 _ _ L1 Ht) as (C1 & C2).
      destruct (C2 (inject_Z t) 0%Q (Qeq_refl _)) as (T1 & x & X1 & X2). exists r, x. repeat (split; [assumption|]). rewrite X2, <- Ey, Q1. ring.
    + intros r x L1 T1 X1. destruct (A r L1 T1) as (z & Z1 & x' & X2 & Z2). unfold route_time in *. rewrite X1 in X2. injection X2 as <-. rewrite <- Z2. apply Fm. exact Z1.
  - intros r L1 T1. destruct (A r L1 T1) as (z & Z1 & _). exact (F z Z1).
Qed.
End Walks.

(** ** After a simulation *)
Lemma later_nl : forall c P w0 w, w_final w0 = true -> later c P w0 w -> w_nl w = w_nl w0.
Proof.
  intros c P w0 w F0 K. induction K as [|a b K IH S]; [reflexivity|]. rewrite <- IH.
  destruct (later_tsize c P w0 a F0 K) as (Fa & _). destruct S as [a o b Ho Hp Hx E|a b Hf E|a].
  - apply (op_nl_same c o); auto; intros x ->; cbn in Ho; congruence.
  - apply tick_fr in E. destruct E as (w1 & E & ->). pose proof (body_fr _ _ E) as F. cbn. rewrite (fr_w_nl F). reflexivity.
  - reflexivity.
Qed.
Lemma set_from_in : forall (tt : list Q) i x y, In y (set_from tt i x) -> y = x \/ In y tt.
Proof.
  intros tt i x y H. apply In_nth_error in H. destruct H as (j & H). rewrite nth_error_set_from in H. destruct (j <? i); [right; eapply nth_error_In; exact H|].
  destruct (j <? List.length tt); [injection H as <-; left; reflexivity|discriminate H].
Qed.

(** how long vehicles that left a link were on it *)
Lemma exits_spent : forall c P w0 w l g, reach c w0 -> exits c P l w0 w g -> reach c w /\ Forall (fun x => exists k : nat, (spent x == Qof_nat k * dt c)%Q) g.
Proof.
  intros c P w0 w l g R H. induction H as [|w1 w2 g g2 H IH Hf E (new & G1 & G2 & G3)|w1 w2 g H IH S E1 E2].
  - split; [exact R|constructor].
  - destruct IH as [R1 IH]. split; [eapply step_reach; [exact R1|apply st_tick with (P := P); eauto]|]. apply Forall_app. split; [exact IH|].
    apply Forall_forall. intros x Hx.
    assert (X : In (fst x) (SpecTT.on_link w1 l ++ map (fun v => (v, now c w1)) new)) by (rewrite G1; apply in_or_app; left; apply in_map; exact Hx).
    assert (Y : exists t, t <= w_T w1 /\ entered x = (Qof_nat t * dt c)%Q).
    { apply in_app_or in X. destruct X as [X|X]; apply in_map_iff in X; destruct X as (v & X & Hv).
      + pose proof (reach_Inv2 _ _ R1) as [[_ J] _]. rewrite <- Dq_none in Hv. apply (s_D J) in Hv. destruct Hv as (V1 & V2 & V3 & _).
        destruct (reach_arrived c w1 R1 v V1) as (t & Lt & Et); [congruence|]. exists t. split; [lia|]. unfold entered. rewrite <- X. exact Et.
      + exists (w_T w1). split; [lia|]. unfold entered. rewrite <- X. reflexivity. }
    destruct Y as (t & Lt & Et). rewrite Forall_forall in G3. destruct (G3 x Hx) as [(Le & _)|(Le & _)]; unfold spent; rewrite Le, Et.
    + exists (w_T w1 - t). unfold now, Qof_nat. rewrite Nat2Z.inj_sub by lia. unfold Z.sub. rewrite inject_Z_plus, inject_Z_opp. ring.
    + exists (S (w_T w1) - t). unfold Qof_nat. rewrite Nat2Z.inj_sub by lia. unfold Z.sub. rewrite inject_Z_plus, inject_Z_opp. ring.
  - destruct IH as [R1 IH]. split; [eapply step_reach; eauto|exact IH].
Qed.
Lemma put_in : forall c g tt y, In y (fold_left (put c) g tt) -> In y tt \/ exists x, In x g /\ y = spent x.
Proof.
  intros c g. induction g as [|x g IH]; intros tt y H; [left; exact H|]. cbn [fold_left] in H. destruct (IH _ _ H) as [K|(z & Z1 & Z2)].
  - unfold put in K. apply set_from_in in K. destruct K as [->|K]; [right; exists x; split; [left; reflexivity|reflexivity]|left; exact K].
  - right. exists z. split; [right; exact Z1|exact Z2].
Qed.

(** After finalize_scenario and any part of the simulation: the network can be constructed if TMAX is a multiple of the timestep;
    no travel time is negative; all are multiples of the timestep if the free-flow travel times are. *)
Theorem ready_lemma : forall c P targ w0 w1 w darg tm n, reach c w0 -> w_final w0 = false -> finalize c targ w0 = Ok w1 -> later c P w1 w ->
  (0 < dt c)%Q -> w_tmax w = Some tm -> (tm == Qof_nat n * dt c)%Q -> (0 < tsn_dt c darg)%Z ->
  (forall l, exists_link w0 l -> (0 <= l_len (L w0 l) / l_u (L w0 l))%Q) ->
  (exists es, tsn c w darg = Ok es) /\ sane_times w /\
  ((forall l, exists_link w0 l -> exists k : nat, (l_len (L w0 l) / l_u (L w0 l) == Qof_nat k * dt c)%Q) -> whole_times c w).
Proof.
  intros c P targ w0 w1 w darg tm n R F0 Ez K Dp Ht Etm Hd Hff.
  assert (R1 : reach c w1) by (eapply rc_op with (o := OFinalize targ); [exact R|exact F0|intros a; discriminate|exact Ez]).
  assert (F1 : w_final w1 = true) by (exact (fz_final _ _ _ (finalize_ok _ _ _ _ Ez))).
  destruct (later_tsize c P w1 w F1 K) as (Fw & _ & Tw). pose proof (later_reach c P w1 w R1 K) as Rw.
  assert (Nl : w_nl w = w_nl w0).
  { rewrite (later_nl c P w1 w F1 K). apply (op_nl_same c (OFinalize targ)); [intros a; discriminate|exact Ez|exact F0|intros a; discriminate]. }
  assert (Tn : Z.to_nat (qtrunc (tm / dt c)) = n).
  { rewrite (qtrunc_Z (tm / dt c) (Z.of_nat n)); [apply Nat2Z.id|]. rewrite Etm. unfold Qof_nat. field. lra. }
  assert (G : forall l, exists_link w l -> List.length (l_tta (L w l)) = n /\ forall q, In q (l_tta (L w l)) ->
    (exists k : nat, (q == Qof_nat k * dt c)%Q) \/ q = (l_len (L w0 l) / l_u (L w0 l))%Q).
  { intros l Hl. unfold exists_link in Hl. rewrite Nl in Hl. destruct (finalize_tta c targ w0 w1 l Ez Hl) as (m & ff & E1 & E2 & _ & E3).
    rewrite <- Tw, Ht, Tn in E2. subst m. destruct (later_exits c P w1 w l R1 F1 K) as (g & G1 & G2 & _).
    destruct (exits_spent c P w1 w l g R1 G1) as (_ & G3). rewrite Forall_forall in G3. split; [rewrite G2, put_length, E1, repeat_length; reflexivity|].
    intros q Hq. rewrite G2 in Hq. apply put_in in Hq. destruct Hq as [Hq|(x & X1 & ->)]; [|left; apply G3; exact X1]. rewrite E1 in Hq. right.
    assert (0 < n) by (destruct n; [destruct Hq|lia]). apply repeat_spec in Hq. destruct (E3 H) as (_ & E4). congruence. }
  assert (S0 : sane_times w).
  { intros l q Hl Hq. destruct (G l Hl) as (_ & G2). destruct (G2 q Hq) as [(k & Ek)|Ek].
    - rewrite Ek. apply Qmult_le_0_compat; [unfold Qof_nat; apply inj_nn; lia|lra].
    - rewrite Ek. apply Hff. unfold exists_link in *. lia. }
  split; [|split; [exact S0|]].
  - unfold tsn. cbv zeta. rewrite Ht. cbn [of_opt bind]. destruct (Z.eqb_spec (tsn_dt c darg) 0) as [X|_]; [lia|].
    match goal with |- exists es, (bind ?m _) = _ => assert (Y : exists ms, m = Ok ms) end.
    2:{ destruct Y as (ms & Y). rewrite Y. cbn [bind]. eexists. reflexivity. }
    apply foldM_total. intros t s Ht'. apply foldM_total. intros nd s1 Hn. apply foldM_total. intros l s2 Hl. unfold add_move.
    apply (times_in (qtrunc tm) (tsn_dt c darg) t Hd) in Ht'. destruct Ht' as (k & Hk & -> & Hlt).
    destruct (reach_Inv2 _ _ Rw) as [[T _] _]. apply (t_out T) in Hl. destruct Hl as (Hl & _). destruct (G l Hl) as (G1 & _).
    assert (N0 : (0 <= k * tsn_dt c darg)%Z) by nia. pose proof (inj_nn _ N0) as N1.
    assert (A : (0 <= tm)%Q). { rewrite Etm. apply Qmult_le_0_compat; [unfold Qof_nat; apply inj_nn; lia|lra]. }
    assert (B : (inject_Z (k * tsn_dt c darg) < tm)%Q) by (eapply Qlt_le_trans; [|apply (trunc_le tm A)]; rewrite <- Zlt_Qlt; exact Hlt).
    assert (C : (0 <= inject_Z (k * tsn_dt c darg) / dt c)%Q) by (apply Qle_shift_div_l; [exact Dp|lra]).
    assert (D : (inject_Z (k * tsn_dt c darg) / dt c < inject_Z (Z.of_nat n))%Q) by (apply Qlt_shift_div_r; [exact Dp|]; rewrite Etm in B; exact B).
    assert (Z1 : (qtrunc (inject_Z (k * tsn_dt c darg) / dt c) < Z.of_nat n)%Z).
    { rewrite Zlt_Qlt. eapply Qle_lt_trans; [apply trunc_le; exact C|exact D]. }
    assert (Z0 : (0 <= qtrunc (inject_Z (k * tsn_dt c darg) / dt c))%Z) by (apply qtrunc_nonneg; exact C).
    destruct (nth_error (l_tta (L w l)) (Z.to_nat (qtrunc (inject_Z (k * tsn_dt c darg) / dt c)))) as [x|] eqn:Ex; [cbn [of_opt bind]; eexists; reflexivity|].
    apply nth_error_None in Ex. lia.
  - intros Hw l q Hl Hq. destruct (G l Hl) as (_ & G2). destruct (G2 q Hq) as [Y|Y]; [exact Y|]. rewrite Y. apply Hw. unfold exists_link in *. lia.
Qed.

(** the nodes from which costs are computed: the origins of the vehicles at their departures, as far as these were given in timesteps *)
Theorem sources_lemma : forall c w darg tm ss, w_tmax w = Some tm -> (0 < tsn_dt c darg)%Z -> (dt c == inject_Z (tsn_dt c darg))%Q -> tsn_sources c w darg = Ok ss ->
  (forall v, v < w_nv w -> (v_depsec (V w v) == inject_Z (v_dep (V w v)) * dt c)%Q) ->
  forall u, In u ss <-> exists v, v < w_nv w /\ u = (v_orig (V w v), Some (v_dep (V w v) * tsn_dt c darg)%Z) /\ In (v_dep (V w v) * tsn_dt c darg)%Z (tsn_times (qtrunc tm) (tsn_dt c darg)).
Proof.
  intros c w darg tm ss Ht Hd Dd H Hs u. unfold tsn_sources in H. cbv zeta in H. rewrite Ht in H. cbn [of_opt bind] in H. destruct (Z.eqb_spec (tsn_dt c darg) 0) as [X|_]; [lia|].
  injection H as <-. rewrite in_flat_map.
  assert (E : forall v, v < w_nv w -> (qtrunc (v_depsec (V w v) / inject_Z (tsn_dt c darg)) * tsn_dt c darg = v_dep (V w v) * tsn_dt c darg)%Z).
  { intros v Hv. f_equal. apply qtrunc_Z. rewrite (Hs v Hv), Dd. pose proof (inj_pos _ Hd). field. lra. }
  split.
  - intros (v & Hv & Hu). apply in_seq in Hv. exists v. split; [lia|]. rewrite (E v) in Hu by lia. destruct (existsb _ _) eqn:Ex; [|destruct Hu].
    destruct Hu as [<-|[]]. split; [reflexivity|]. apply existsb_Z. exact Ex.
  - intros (v & Hv & -> & Hin). exists v. split; [apply in_seq; lia|]. rewrite (E v Hv). apply existsb_Z in Hin. rewrite Hin. left. reflexivity.
Qed.

(** ** The statements without sections *)
(** the set-up of the theorems: a state with TMAX, a time step of the network, and the network *)
Theorem tsn_edges : forall c w darg tm es, w_tmax w = Some tm -> (0 < tsn_dt c darg)%Z -> reach c w -> tsn c w darg = Ok es ->
  let d := tsn_dt c darg in let ts := tsn_times (qtrunc tm) d in
  (forall t, In t ts <-> (exists k, (0 <= k)%Z /\ t = (k * d)%Z) /\ (t < qtrunc tm)%Z) /\
  (forall u v q, In (u, v, q) es ->
     (exists n t, u = (n, Some t) /\ v = (n, None) /\ q = 0%Q /\ n < w_nn w /\ In t ts) \/
     (exists l t, exists_link w l /\ In t ts /\ time_at c w l t = Some q /\ In (arrive d t q) ts /\ u = (l_start (L w l), Some t) /\ v = (l_end (L w l), Some (arrive d t q)))) /\
  (forall n t, n < w_nn w -> In t ts -> In ((n, Some t), (n, None), 0%Q) es) /\
  (forall l t, exists_link w l -> In t ts -> exists q, time_at c w l t = Some q /\
     (In (arrive d t q) ts -> exists q', In ((l_start (L w l), Some t), (l_end (L w l), Some (arrive d t q)), q') es)).
Proof.
  intros c w darg tm es Ht Hd R E d ts. destruct (edges_lemma c w darg tm Ht Hd es E) as (A & B & C). split; [exact (ts_in c darg tm Hd)|]. split; [|split; [exact B|]].
  - intros u v q H. destruct (A u v q H) as [K|(n & t & n' & t' & -> & -> & M)]; [left; exact K|]. right. destruct M as (_ & Ht' & l & Hl & <- & Hq & -> & Ha & _).
    apply (out_link c w R) in Hl. destruct Hl as (L1 & <-). exists l, t. repeat (split; [assumption|]). split; reflexivity.
  - intros l t Hl Ht'. destruct (C (l_start (L w l)) t l) as (q & Q1 & Q2); [apply (ends_nn c w R l Hl)|exact Ht'|apply (out_link c w R); auto|]. exists q. split; [exact Q1|].
    intro Ha. apply Q2; [exact Ha|]. exact (ts_tm c w darg tm Ht Hd _ Ha).
Qed.
Theorem tsn_walks : forall c w darg tm es n t m t', w_tmax w = Some tm -> (0 < tsn_dt c darg)%Z -> reach c w -> sane_times w -> tsn c w darg = Ok es ->
  let d := tsn_dt c darg in In t (tsn_times (qtrunc tm) d) ->
  (forall q, twalk es (n, Some t) (m, Some t') q -> exists r q', leads w n m r /\ drive c w d (qtrunc tm) r t q' t' /\ (q == q')%Q /\
     (inject_Z t' - inject_Z t <= q)%Q /\ (r <> [] -> (q < inject_Z t' - inject_Z t + Qof_nat (List.length r) * inject_Z d)%Q)) /\
  (forall r q, leads w n m r -> drive c w d (qtrunc tm) r t q t' -> exists q', twalk es (n, Some t) (m, Some t') q').
Proof. intros c w darg tm es n t m t' Ht Hd R S0 E d Hin. exact (walks_lemma c w darg tm es R Ht Hd S0 E n t m t' Hin). Qed.
Theorem tsn_costs : forall c w darg tm es n t m f, w_tmax w = Some tm -> (0 < tsn_dt c darg)%Z -> reach c w -> sane_times w -> tsn c w darg = Ok es ->
  let d := tsn_dt c darg in single_links w -> n < w_nn w -> In t (tsn_times (qtrunc tm) d) -> least_costs es (n, Some t) f ->
  match f (m, None) with
  | Some q => (exists r q' t', leads w n m r /\ drive c w d (qtrunc tm) r t q' t' /\ (q' == q)%Q) /\
              forall r q' t', leads w n m r -> drive c w d (qtrunc tm) r t q' t' -> (q <= q')%Q
  | None => forall r q' t', leads w n m r -> ~ drive c w d (qtrunc tm) r t q' t'
  end.
Proof. intros c w darg tm es n t m f Ht Hd R S0 E d SL Hn Hin F. exact (costs_lemma c w darg tm es R Ht Hd S0 E n t m f SL Hn Hin F). Qed.
Theorem tsn_exact : forall c w darg tm es n t m f, w_tmax w = Some tm -> (0 < tsn_dt c darg)%Z -> reach c w -> sane_times w -> tsn c w darg = Ok es ->
  let d := tsn_dt c darg in let tmax := inject_Z (qtrunc tm) in let t0 := inject_Z t in
  whole_times c w -> (dt c == inject_Z d)%Q -> n < w_nn w -> In t (tsn_times (qtrunc tm) d) -> least_costs es (n, Some t) f ->
  match f (m, None) with
  | Some q => (exists r x, leads w n m r /\ in_time c w r t0 tmax /\ route_time c w r t0 = Ok x /\ (x == q)%Q) /\
              forall r x, leads w n m r -> in_time c w r t0 tmax -> route_time c w r t0 = Ok x -> (q <= x)%Q
  | None => forall r, leads w n m r -> ~ in_time c w r t0 tmax
  end.
Proof. intros c w darg tm es n t m f Ht Hd R S0 E d tmax t0 WT DD Hn Hin F. exact (exact_lemma c w darg tm es R Ht Hd S0 E WT DD n t m f Hn Hin F). Qed.
