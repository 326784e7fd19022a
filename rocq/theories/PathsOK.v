(** * PathsOK: the executable routine of Paths.v computes least-cost paths, so that the
    hypothesis [correct_routine] can be met. *)
From Coq Require Import Lia Lqa.
From Verif Require Import Base Types Sim Build Spec Paths SpecDuo Lists LinkQueries.
Local Open Scope nat_scope.

Lemma nth_map_seq : forall A (f : nat -> A) d n i, i < n -> nth i (map f (seq 0 n)) d = f i.
Proof.
  intros A f d n i H. rewrite (nth_indep _ d (f 0)) by (rewrite map_length, seq_length; exact H).
  rewrite map_nth. rewrite seq_nth by exact H. reflexivity.
Qed.
Lemma mget_mtab : forall A (d : A) n f i j, i < n -> j < n -> mget d (mtab n f) i j = f i j.
Proof. intros A d n f i j Hi Hj. unfold mget, mtab. rewrite nth_map_seq by exact Hi. apply nth_map_seq. exact Hj. Qed.
Lemma mget_out : forall A (d : A) n f i j, n <= i \/ n <= j -> mget d (mtab n f) i j = d.
Proof.
  intros A d n f i j H. unfold mget, mtab. destruct (le_lt_dec n i).
  - rewrite (nth_overflow _ []) by (rewrite map_length, seq_length; exact l). destruct j; reflexivity.
  - rewrite nth_map_seq by exact l. apply nth_overflow. rewrite map_length, seq_length. lia.
Qed.

(** ** Minimum of a list *)
Lemma omin_cases : forall a b, omin a b = a \/ omin a b = b.
Proof. intros [x|] [y|]; cbn; auto. destruct (qle x y); auto. Qed.
Lemma omin_le : forall a b, (forall x, a = Some x -> exists z, omin a b = Some z /\ (z <= x)%Q) /\ (forall x, b = Some x -> exists z, omin a b = Some z /\ (z <= x)%Q).
Proof.
  intros [x|] [y|]; cbn; split; intros z E; try discriminate; injection E as <-.
  - destruct (qle x y) eqn:Eq; [exists x; split; [auto|lra]|]. apply qle_false in Eq. exists y. split; auto. lra.
  - destruct (qle x y) eqn:Eq; [apply qle_iff in Eq; exists x; split; auto|exists y; split; [auto|lra]].
  - exists x. split; [auto|lra].
  - exists y. split; [auto|lra].
Qed.
Lemma fold_omin : forall (g : nat -> option Q) js b,
  let r := fold_left (fun best j => omin best (g j)) js b in
  (r = b \/ exists j, In j js /\ r = g j) /\
  (forall x, b = Some x -> exists z, r = Some z /\ (z <= x)%Q) /\
  (forall j x, In j js -> g j = Some x -> exists z, r = Some z /\ (z <= x)%Q).
Proof.
  intros g js. induction js as [|a js IH]; intro b; cbn [fold_left]; cbn zeta.
  - split; [auto|]. split; [intros x ->; exists x; split; [auto|lra]|intros j x []].
  - destruct (IH (omin b (g a))) as (A & B & C). destruct (omin_le b (g a)) as [O1 O2]. split; [|split].
    + destruct A as [A | (j & Hj & A)].
      * rewrite A. destruct (omin_cases b (g a)) as [E|E]; rewrite E; [auto|]. right. exists a. split; [left; auto|auto].
      * right. exists j. split; [right; auto|auto].
    + intros x E. destruct (O1 x E) as (z & Ez & Hz). destruct (B z Ez) as (z' & Ez' & Hz'). exists z'. split; auto. lra.
    + intros j x [<- | Hj] E.
      * destruct (O2 x E) as (z & Ez & Hz). destruct (B z Ez) as (z' & Ez' & Hz'). exists z'. split; auto. lra.
      * exact (C j x Hj E).
Qed.

Lemma edge_some : forall m i j q, edge m i j = Some q <-> m i j = Some q /\ ~ (q == 0)%Q.
Proof.
  intros m i j q. unfold edge. destruct (m i j) as [p|]; [|split; [discriminate|intros [K _]; discriminate]].
  destruct (qeq p 0) eqn:E.
  - apply qeq_iff in E. split; [discriminate|]. intros [K K']. injection K as <-. contradiction.
  - apply qeq_false in E. split; [intro K; injection K as <-; auto|intros [K _]; exact K].
Qed.

(** ** Simple paths *)
Inductive spath (n : nat) (m : nid -> nid -> option Q) : nid -> nid -> list nid -> Q -> Prop :=
| sp_here : forall i, i < n -> spath n m i i [i] 0%Q
| sp_edge : forall i j k q r ns, i < n -> m i j = Some q -> ~ (q == 0)%Q -> spath n m j k ns r -> spath n m i k (i :: ns) (q + r)%Q.

Lemma spath_bounds : forall n m i k ns y, spath n m i k ns y -> i < n /\ (forall x, In x ns -> x < n) /\ path n m i k y.
Proof.
  intros n m i k ns y H. induction H as [i Hi|i j k q r ns Hi Hm Hq H (IH1 & IH2 & IH3)].
  - split; [exact Hi|]. split; [intros x [<- | []]; exact Hi|]. constructor. exact Hi.
  - split; [exact Hi|]. split; [intros x [<- | Hx]; auto|]. econstructor; eauto.
Qed.
Lemma path_bounds : forall n m i k y, path n m i k y -> i < n /\ k < n.
Proof. intros n m i k y H. induction H as [i Hi|i j k q r Hi Hm Hq H [IH1 IH2]]; auto. Qed.
Lemma path_nonneg : forall n m i k y, no_negative n m -> path n m i k y -> (0 <= y)%Q.
Proof.
  intros n m i k y N H. induction H as [i Hi|i j k q r Hi Hm Hq H IH]; [lra|].
  assert (0 <= q)%Q by (apply (N i j q Hi); [exact (proj1 (path_bounds _ _ _ _ _ H))|exact Hm]). lra.
Qed.
Lemma suffix : forall n m j k ns r i, no_negative n m -> spath n m j k ns r -> In i ns ->
  exists ns' r', spath n m i k ns' r' /\ (r' <= r)%Q /\ (NoDup ns -> NoDup ns').
Proof.
  intros n m j k ns r i N H. induction H as [j Hj|j j' k q r ns Hj Hm Hq H IH]; intro Hi.
  - destruct Hi as [<- | []]. exists [j], 0%Q. split; [constructor; exact Hj|]. split; [lra|auto].
  - destruct Hi as [<- | Hi].
    + exists (j :: ns), (q + r)%Q. split; [econstructor; eauto|]. split; [lra|auto].
    + destruct (IH Hi) as (ns' & r' & H1 & H2 & H3). exists ns', r'. split; [exact H1|]. split.
      * assert (0 <= q)%Q by (apply (N j j' q Hj); [exact (proj1 (spath_bounds _ _ _ _ _ _ H))|exact Hm]). lra.
      * intro Nd. inversion Nd; auto.
Qed.
Lemma simple : forall n m i k y, no_negative n m -> path n m i k y -> exists ns y', spath n m i k ns y' /\ NoDup ns /\ (y' <= y)%Q.
Proof.
  intros n m i k y N H. induction H as [i Hi|i j k q r Hi Hm Hq H (ns & r' & H1 & H2 & H3)].
  - exists [i], 0%Q. split; [constructor; exact Hi|]. split; [repeat constructor; intros []|lra].
  - destruct (in_dec Nat.eq_dec i ns) as [Hin|Hin].
    + destruct (suffix _ _ _ _ _ _ i N H1 Hin) as (ns' & r'' & S1 & S2 & S3). exists ns', r''. split; [exact S1|]. split; [auto|].
      assert (0 <= q)%Q by (apply (N i j q Hi); [exact (proj1 (path_bounds _ _ _ _ _ H))|exact Hm]). lra.
    + exists (i :: ns), (q + r')%Q. split; [econstructor; eauto|]. split; [constructor; auto|lra].
Qed.
Lemma simple_length : forall n m i k ns y, spath n m i k ns y -> NoDup ns -> List.length ns <= n.
Proof.
  intros n m i k ns y H Nd. destruct (spath_bounds _ _ _ _ _ _ H) as (_ & B & _).
  rewrite <- (seq_length n 0). apply NoDup_incl_length; [exact Nd|]. intros x Hx. apply in_seq. specialize (B x Hx). lia.
Qed.

(** ** The distance matrix *)
Definition dist_t (n : nat) (m : nid -> nid -> option Q) (t : nat) : matrix (option Q) := iter t (relax n m) (dist0 n).
Lemma iter_S : forall A (f : A -> A) t a, iter (S t) f a = f (iter t f a).
Proof. intros A f t. induction t as [|t IH]; intro a; [reflexivity|]. cbn [iter]. cbn [iter] in IH. rewrite <- IH. reflexivity. Qed.

Lemma oadd_some : forall a b z, oadd a b = Some z -> exists x y, a = Some x /\ b = Some y /\ (z == x + y)%Q.
Proof. intros [x|] [y|] z H; try discriminate. cbn [oadd] in H. assert (E : z = Qred (x + y)) by congruence. subst z. exists x, y. split; [reflexivity|]. split; [reflexivity|]. apply Qred_correct. Qed.

Lemma dist_sound : forall n m t i k x, i < n -> k < n -> mget None (dist_t n m t) i k = Some x -> exists y, path n m i k y /\ (y == x)%Q.
Proof.
  intros n m t. induction t as [|t IH]; intros i k x Hi Hk H; unfold dist_t in *.
  - cbn [iter] in H. unfold dist0 in H. rewrite mget_mtab in H by auto. destruct (Nat.eqb i k) eqn:E; [|discriminate].
    apply Nat.eqb_eq in E. subst k. injection H as <-. exists 0%Q. split; [constructor; auto|reflexivity].
  - rewrite iter_S in H. unfold relax at 1 in H. rewrite mget_mtab in H by auto.
    destruct (fold_omin (fun j => oadd (edge m i j) (mget None (iter t (relax n m) (dist0 n)) j k)) (seq 0 n) (mget None (iter t (relax n m) (dist0 n)) i k)) as ([A | (j & Hj & A)] & _ & _).
    + rewrite A in H. apply (IH i k x Hi Hk H).
    + rewrite A in H. apply oadd_some in H. destruct H as (q & y & E1 & E2 & E3). apply edge_some in E1. destruct E1 as [E1 E1'].
      apply in_seq in Hj. destruct (IH j k y ltac:(lia) Hk E2) as (y' & P & Ey). exists (q + y')%Q. split; [econstructor; eauto|]. rewrite Ey, E3. reflexivity.
Qed.

Lemma dist_complete : forall n m t i k ns y, spath n m i k ns y -> List.length ns <= S t -> exists x, mget None (dist_t n m t) i k = Some x /\ (x <= y)%Q.
Proof.
  intros n m t. induction t as [|t IH]; intros i k ns y H Hl; unfold dist_t in *.
  - cbn [iter]. unfold dist0. inversion H as [i' Hi|i' j k' q r ns' Hi Hm Hq H']; subst.
    + exists 0%Q. rewrite mget_mtab by auto. rewrite Nat.eqb_refl. split; [auto|lra].
    + cbn in Hl. inversion H'; subst; cbn in Hl; lia.
  - rewrite iter_S. unfold relax at 1.
    assert (Hk : k < n) by (exact (proj2 (path_bounds _ _ _ _ _ (proj2 (proj2 (spath_bounds _ _ _ _ _ _ H)))))).
    assert (Hi0 : i < n) by (exact (proj1 (spath_bounds _ _ _ _ _ _ H))).
    rewrite mget_mtab by auto.
    destruct (fold_omin (fun j => oadd (edge m i j) (mget None (iter t (relax n m) (dist0 n)) j k)) (seq 0 n) (mget None (iter t (relax n m) (dist0 n)) i k)) as (_ & B & C).
    inversion H as [i' Hi|i' j k' q r ns' Hi Hm Hq H']; subst.
    + destruct (IH k k [k] 0%Q H) as (x & Ex & Hx); [cbn; lia|]. destruct (B x Ex) as (z & Ez & Hz). exists z. split; [exact Ez|lra].
    + cbn [List.length] in Hl. destruct (IH j k ns' r H') as (x & Ex & Hx); [lia|].
      assert (Eg : oadd (edge m i j) (mget None (iter t (relax n m) (dist0 n)) j k) = Some (Qred (q + x))).
      { rewrite (proj2 (edge_some m i j q) (conj Hm Hq)), Ex. reflexivity. }
      destruct (C j (Qred (q + x))) as (z & Ez & Hz); [apply in_seq; pose proof (proj1 (spath_bounds _ _ _ _ _ _ H')); lia|exact Eg|].
      exists z. split; [exact Ez|]. rewrite Qred_correct in Hz. lra.
Qed.

Lemma dists_least : forall n m i k, no_negative n m -> i < n -> k < n ->
  (forall x, mget None (dists n m) i k = Some x -> least n m i k x) /\
  (mget None (dists n m) i k = None -> forall y, ~ path n m i k y).
Proof.
  intros n m i k N Hi Hk. change (dists n m) with (dist_t n m n).
  assert (C : forall y, path n m i k y -> exists x, mget None (dist_t n m n) i k = Some x /\ (x <= y)%Q).
  { intros y P. destruct (simple _ _ _ _ _ N P) as (ns & y' & S1 & S2 & S3).
    destruct (dist_complete n m n i k ns y' S1) as (x & Ex & Hx); [pose proof (simple_length _ _ _ _ _ _ S1 S2); lia|].
    exists x. split; [exact Ex|lra]. }
  split.
  - intros x E. split; [exact (dist_sound _ _ _ _ _ _ Hi Hk E)|]. intros y P. destruct (C y P) as (x' & E' & Hx). rewrite E' in E. injection E as <-. exact Hx.
  - intros E y P. destruct (C y P) as (x & E' & _). congruence.
Qed.

Lemma path_ext : forall n m m' i k y, (forall i j, i < n -> j < n -> m i j = m' i j) -> path n m i k y -> path n m' i k y.
Proof.
  intros n m m' i k y E H. induction H as [i Hi|i j k q r Hi Hm Hq H IH]; [constructor; auto|].
  econstructor; [exact Hi| |exact Hq|exact IH]. rewrite <- E; auto. exact (proj1 (path_bounds _ _ _ _ _ H)).
Qed.

Theorem shortest_paths_ok : forall n m d nx, shortest_paths n m = (d, nx) -> no_negative n m -> paths_ok n m d nx.
Proof.
  intros n m d nx H N. unfold shortest_paths in H. cbn zeta in H. set (m' := mget None (mtab n m)) in *.
  assert (E : forall i j, i < n -> j < n -> m' i j = m i j) by (intros; subst m'; apply mget_mtab; auto).
  assert (N' : no_negative n m') by (intros i j q Hi Hj; rewrite E by auto; apply N; auto).
  injection H as <- <-.
  constructor.
  - intros i k x Hi Hk Hd. destruct (proj1 (dists_least n m' i k N' Hi Hk) x Hd) as ((y & P & Ey) & Hm). split.
    + exists y. split; [apply (path_ext n m'); auto|exact Ey].
    + intros z Pz. apply Hm. apply (path_ext n m); auto. intros a b Ha Hb. symmetry. auto.
  - intros i k x Hi Hk Hd P. apply (proj2 (dists_least n m' i k N' Hi Hk) Hd x). apply (path_ext n m); auto. intros a b Ha Hb. symmetry. auto.
  - intros i k x Hi Hk Hik Hd.
    destruct (proj1 (dists_least n m' i k N' Hi Hk) x Hd) as ((y & P & Ey) & Hm).
    inversion P as [|i' j k' q r Hi' Hq1 Hq2 P']; subst; [congruence|].
    assert (Hj : j < n) by (exact (proj1 (path_bounds _ _ _ _ _ P'))).
    assert (Ex : exists z, mget None (dists n m') j k = Some z /\ (x == q + z)%Q).
    { destruct (mget None (dists n m') j k) as [z|] eqn:Ez; [|exfalso; exact (proj2 (dists_least n m' j k N' Hj Hk) Ez r P')].
      exists z. split; [reflexivity|]. destruct (proj1 (dists_least n m' j k N' Hj Hk) z Ez) as ((z' & Pz & Ez') & Hz).
      specialize (Hz r P'). assert (Hx := Hm (q + z')%Q (p_edge n m' i j k q z' Hi Hq1 Hq2 Pz)). lra. }
    destruct Ex as (z & Ez & Hz).
    destruct (find (fun j0 => match oadd (edge m' i j0) (mget None (dists n m') j0 k) with Some y0 => qeq y0 x | None => false end) (seq 0 n)) as [j0|] eqn:Ef.
    + pose proof Ef as Ef'. apply find_some in Ef. destruct Ef as [Hj0 Ef]. apply in_seq in Hj0.
      destruct (oadd (edge m' i j0) (mget None (dists n m') j0 k)) as [y0|] eqn:Eo; [|discriminate].
      apply qeq_iff in Ef. apply oadd_some in Eo. destruct Eo as (q0 & z0 & E1 & E2 & E3). apply edge_some in E1. destruct E1 as [E1 E1'].
      exists j0, q0, z0. split.
      { rewrite mget_mtab by auto. unfold next_of. rewrite (proj2 (Nat.eqb_neq _ _) Hik), Hd.
        exact Ef'. }
      split; [lia|]. split; [rewrite <- E by lia; exact E1|]. split; [exact E1'|]. split; [exact E2|]. rewrite <- E3, Ef. reflexivity.
    + exfalso. assert (K := find_none _ _ Ef j). cbn beta in K. rewrite (proj2 (edge_some m' i j q) (conj Hq1 Hq2)), Ez in K. cbn [oadd] in K.
      assert (X : qeq (Qred (q + z)) x = true) by (apply qeq_iff; rewrite Qred_correct, Hz; reflexivity).
      rewrite X in K. discriminate K. apply in_seq. lia.
  - intros i k Hi Hk [-> | Hd]; rewrite mget_mtab by auto; unfold next_of.
    + rewrite Nat.eqb_refl. reflexivity.
    + destruct (Nat.eqb i k); [reflexivity|]. rewrite Hd. reflexivity.
Qed.
