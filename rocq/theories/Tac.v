(** * Tac: reasoning about results and loops. *)
From Verif Require Import Base Types Sim.
Set Implicit Arguments.

Lemma bind_ok : forall A B (r : result A) (f : A -> result B) b,
  bind r f = Ok b -> exists a, r = Ok a /\ f a = Ok b.
Proof. intros A B [a|e] f b H; cbn in H; [eauto|discriminate]. Qed.

Lemma of_opt_ok : forall A e (o : option A) a, of_opt e o = Ok a -> o = Some a.
Proof. intros A e [x|] a H; cbn in H; congruence. Qed.

(** invert one monadic layer of [H : ... = Ok _] *)
Ltac binv1 H :=
  lazymatch type of H with
  | bind ?r ?f = Ok _ =>
      let a := fresh "a" in let E := fresh "E" in
      apply bind_ok in H; destruct H as (a & E & H);
      lazymatch type of E with
      | of_opt _ _ = Ok _ => apply of_opt_ok in E
      | _ => idtac
      end
  | (let '(_, _) := ?p in _) = Ok _ => destruct p eqn:?
  | (match ?x with _ => _ end) = Ok _ => destruct x eqn:?; try discriminate H
  | Ok _ = Ok _ => injection H as H; try subst
  | Err _ = Ok _ => discriminate H
  end.
Ltac binv H := repeat (binv1 H).

(** weakest preconditions: [P] of a normal result, [E] of a raised exception *)
Definition okp {A} (P : A -> Prop) (E : exn -> Prop) (r : result A) : Prop :=
  match r with Ok a => P a | Err e => E e end.

Lemma okp_bind : forall A B (P : B -> Prop) E (r : result A) (f : A -> result B),
  okp (fun a => okp P E (f a)) E r -> okp P E (bind r f).
Proof. intros A B P E [a|e] f H; exact H. Qed.

Lemma okp_weaken : forall A (P Q : A -> Prop) (E F : exn -> Prop) r,
  okp P E r -> (forall a, P a -> Q a) -> (forall e, E e -> F e) -> okp Q F r.
Proof. intros A P Q E F [a|e] H HP HE; cbn in *; auto. Qed.

Lemma okp_ok : forall A (P : A -> Prop) E r a, okp P E r -> r = Ok a -> P a.
Proof. intros; subst; auto. Qed.

Lemma okp_err : forall A (P : A -> Prop) E r e, okp P E r -> r = Err e -> E e.
Proof. intros; subst; auto. Qed.

Lemma okp_and : forall A (P Q : A -> Prop) E r,
  okp P E r -> (forall a, r = Ok a -> Q a) -> okp (fun a => P a /\ Q a) E r.
Proof. intros A P Q E [a|e] H K; cbn in *; auto. Qed.

Lemma okp_foldM : forall A S (I : S -> Prop) E (f : A -> S -> result S) xs s,
  I s -> (forall x s, In x xs -> I s -> okp I E (f x s)) -> okp I E (foldM f xs s).
Proof.
  intros A S I E f xs; induction xs as [|x xs IH]; cbn; intros s HI H; auto.
  apply okp_bind. eapply okp_weaken; [apply H; auto| |auto].
  intros a Ha. cbn. apply IH; auto.
Qed.

Lemma okp_iterM : forall S (I : S -> Prop) E (f : S -> result S) k s,
  I s -> (forall s, I s -> okp I E (f s)) -> okp I E (iterM f k s).
Proof.
  intros S I E f k; induction k; cbn; intros s HI H; auto.
  apply okp_bind. eapply okp_weaken; [apply H; auto| |auto].
  intros a Ha. cbn. apply IHk; auto.
Qed.

(** invariants and relations through loops, partial correctness *)
Lemma foldM_rel : forall A S (Rel : S -> S -> Prop) (f : A -> S -> result S) xs,
  (forall s, Rel s s) -> (forall a b c, Rel a b -> Rel b c -> Rel a c) ->
  (forall x s s', In x xs -> f x s = Ok s' -> Rel s s') ->
  forall s s', foldM f xs s = Ok s' -> Rel s s'.
Proof.
  intros A S Rel f xs Hr Ht; induction xs as [|x xs IH]; intros Hf s s' H; cbn in H.
  - injection H as H; subst; auto.
  - apply bind_ok in H. destruct H as (a & E & H).
    eapply Ht; [eapply Hf; eauto; left; auto|]. eapply IH; eauto.
    intros; eapply Hf; eauto. right; auto.
Qed.

Lemma iterM_rel : forall S (Rel : S -> S -> Prop) (f : S -> result S),
  (forall s, Rel s s) -> (forall a b c, Rel a b -> Rel b c -> Rel a c) ->
  (forall s s', f s = Ok s' -> Rel s s') ->
  forall k s s', iterM f k s = Ok s' -> Rel s s'.
Proof.
  intros S Rel f Hr Ht Hf k; induction k; intros s s' H; cbn in H.
  - injection H as H; subst; auto.
  - apply bind_ok in H. destruct H as (a & E & H). eauto.
Qed.

Lemma foldM_inv : forall A S (I : S -> Prop) (f : A -> S -> result S) xs,
  (forall x s s', In x xs -> I s -> f x s = Ok s' -> I s') ->
  forall s s', I s -> foldM f xs s = Ok s' -> I s'.
Proof.
  intros A S I f xs; induction xs as [|x xs IH]; intros Hf s s' HI H; cbn in H.
  - injection H as H; subst; auto.
  - apply bind_ok in H. destruct H as (a & E & H). eapply IH; [| |exact H].
    + intros; eapply Hf; eauto; right; auto.
    + eapply Hf; eauto. left; auto.
Qed.

Lemma iterM_inv : forall S (I : S -> Prop) (f : S -> result S),
  (forall s s', I s -> f s = Ok s' -> I s') ->
  forall k s s', I s -> iterM f k s = Ok s' -> I s'.
Proof.
  intros S I f Hf k; induction k; intros s s' HI H; cbn in H.
  - injection H as H; subst; auto.
  - apply bind_ok in H. destruct H as (a & E & H). eauto.
Qed.

Lemma iterM_app : forall S (f : S -> result S) j k s,
  iterM f (j + k) s = bind (iterM f j s) (iterM f k).
Proof.
  intros S f j; induction j; intros k s; cbn; auto.
  destruct (f s); cbn; auto.
Qed.

Lemma foldM_app : forall A S (f : A -> S -> result S) xs ys s,
  foldM f (xs ++ ys) s = bind (foldM f xs s) (foldM f ys).
Proof.
  intros A S f xs; induction xs as [|x xs IH]; intros ys s; cbn; auto.
  destruct (f x s); cbn; auto.
Qed.

Lemma mapM_length : forall A B (f : A -> result B) xs ys,
  mapM f xs = Ok ys -> List.length ys = List.length xs.
Proof.
  intros A B f xs; induction xs as [|x xs IH]; intros ys H; cbn in H; binv H; cbn; auto.
Qed.

Lemma okp_mapM : forall A B (E : exn -> Prop) (f : A -> result B) (Q : B -> Prop) xs,
  (forall x, In x xs -> okp Q E (f x)) -> okp (Forall Q) E (mapM f xs).
Proof.
  intros A B E f Q xs; induction xs as [|x xs IH]; intros H; cbn.
  - constructor.
  - apply okp_bind. eapply okp_weaken; [apply H; left; auto| |auto].
    intros b Hb; cbn. apply okp_bind. eapply okp_weaken; [apply IH; intros; apply H; right; auto| |auto].
    intros ys Hys; cbn. constructor; auto.
Qed.
