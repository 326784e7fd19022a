(** * Base: results with Python exceptions, lists, boolean order on Q.

    Python exceptions are values, Python floats are exact rationals, Python
    [int(a/b)] is truncation towards zero. *)
From Coq Require Export List ZArith QArith Qround Bool Lia Lqa String PeanoNat.
From Coq Require Import Permutation.
Export ListNotations.
Open Scope nat_scope.

Set Implicit Arguments.

(** ** Exceptions and results *)

Inductive exn : Set :=
| AssertionError | IndexError | KeyError | AttributeError
| ValueError | ZeroDivisionError | TypeError | Exception_
| Nontermination  (* not an exception: the Python loop does not terminate *).

Inductive result (A : Type) : Type :=
| Ok (a : A)
| Err (e : exn).
Arguments Ok {A} a.
Arguments Err {A} e.

Definition bind {A B} (r : result A) (f : A -> result B) : result B :=
  match r with Ok a => f a | Err e => Err e end.

Notation "x <- r ;; k" := (bind r (fun x => k))
  (at level 61, r at next level, right associativity).
Notation "' p <- r ;; k" := (bind r (fun p => k))
  (at level 61, p strict pattern, r at next level, right associativity).

Definition of_opt {A} (e : exn) (o : option A) : result A :=
  match o with Some a => Ok a | None => Err e end.

(** A Python [for x in xs: ...] whose body may raise. *)
Fixpoint foldM {A S} (f : A -> S -> result S) (xs : list A) (s : S) : result S :=
  match xs with
  | [] => Ok s
  | x :: tl => s' <- f x s ;; foldM f tl s'
  end.

(** [k] repetitions. *)
Fixpoint iterM {S} (f : S -> result S) (k : nat) (s : S) : result S :=
  match k with
  | O => Ok s
  | S k' => s' <- f s ;; iterM f k' s'
  end.

(** ** Boolean order on Q *)

Definition qle (a b : Q) : bool := Qle_bool a b.
Definition qlt (a b : Q) : bool := negb (Qle_bool b a).
Definition qeq (a b : Q) : bool := Qeq_bool a b.
Definition qmin (a b : Q) : Q := if qle a b then a else b.
Definition qmax (a b : Q) : Q := if qle a b then b else a.

(** Division as Python does it: by zero raises. *)
Definition qdiv (a b : Q) : result Q :=
  if qeq b 0 then Err ZeroDivisionError else Ok (a / b)%Q.

(** [int(q)]: truncation towards zero. *)
Definition qtrunc (q : Q) : Z := Z.quot (Qnum q) (Zpos (Qden q)).

(** [math.ceil]. *)
Definition qceil (q : Q) : Z := Qceiling q.

Definition Qof_nat (n : nat) : Q := inject_Z (Z.of_nat n).

Fixpoint qsum (l : list Q) : Q :=
  match l with [] => 0%Q | x :: tl => (x + qsum tl)%Q end.

Lemma qle_iff : forall a b, qle a b = true <-> (a <= b)%Q.
Proof. intros; unfold qle; apply Qle_bool_iff. Qed.

Lemma qle_false : forall a b, qle a b = false <-> (b < a)%Q.
Proof.
  intros a b; unfold qle; split; intro H.
  - apply Qnot_le_lt. intro K. apply Qle_bool_iff in K. congruence.
  - destruct (Qle_bool a b) eqn:E; auto. apply Qle_bool_iff in E. lra.
Qed.

Lemma qlt_iff : forall a b, qlt a b = true <-> (a < b)%Q.
Proof.
  intros a b; unfold qlt. rewrite negb_true_iff. apply qle_false.
Qed.

Lemma qlt_false : forall a b, qlt a b = false <-> (b <= a)%Q.
Proof.
  intros a b; unfold qlt. rewrite negb_false_iff. apply qle_iff.
Qed.

Lemma qeq_iff : forall a b, qeq a b = true <-> (a == b)%Q.
Proof. intros; unfold qeq; apply Qeq_bool_iff. Qed.

Lemma qeq_false : forall a b, qeq a b = false <-> ~ (a == b)%Q.
Proof.
  intros a b. unfold qeq. split; intro H.
  - intro K. apply Qeq_bool_iff in K. congruence.
  - destruct (Qeq_bool a b) eqn:E; auto. apply Qeq_bool_iff in E. tauto.
Qed.

(** Turn boolean comparisons in the context into propositions. *)
Ltac qb :=
  repeat match goal with
  | H : qle _ _ = true |- _ => apply qle_iff in H
  | H : qle _ _ = false |- _ => apply qle_false in H
  | H : qlt _ _ = true |- _ => apply qlt_iff in H
  | H : qlt _ _ = false |- _ => apply qlt_false in H
  | H : qeq _ _ = true |- _ => apply qeq_iff in H
  | H : qeq _ _ = false |- _ => apply qeq_false in H
  | H : _ && _ = true |- _ => apply andb_true_iff in H; destruct H
  end.

(** ** Heaps: total functions on object numbers *)

Definition upd {A} (f : nat -> A) (i : nat) (a : A) : nat -> A :=
  fun j => if Nat.eqb j i then a else f j.

Lemma upd_same : forall A (f : nat -> A) i a, upd f i a i = a.
Proof. intros; unfold upd; now rewrite Nat.eqb_refl. Qed.

Lemma upd_other : forall A (f : nat -> A) i j a, j <> i -> upd f i a j = f j.
Proof. intros A f i j a H; unfold upd. apply Nat.eqb_neq in H. now rewrite H. Qed.

(** ** Lists *)

Definition mem (x : nat) (l : list nat) : bool := existsb (Nat.eqb x) l.

Lemma mem_iff : forall x l, mem x l = true <-> In x l.
Proof.
  intros x l; unfold mem; rewrite existsb_exists; split.
  - intros (y & Hy & E). apply Nat.eqb_eq in E. now subst.
  - intro H. exists x. split; auto. apply Nat.eqb_refl.
Qed.

Lemma mem_false : forall x l, mem x l = false <-> ~ In x l.
Proof.
  intros x l. rewrite <- mem_iff. destruct (mem x l); split; intros; congruence.
Qed.

Fixpoint last_opt {A} (l : list A) : option A :=
  match l with
  | [] => None
  | [x] => Some x
  | _ :: tl => last_opt tl
  end.

(** Python [xs[-k]] for [k >= 1]. *)
Definition from_end {A} (l : list A) (k : nat) : option A :=
  if k <=? List.length l then nth_error l (List.length l - k) else None.

(** Python [xs.remove(x)]: first occurrence. *)
Fixpoint remove_first (x : nat) (l : list nat) : list nat :=
  match l with
  | [] => []
  | y :: tl => if Nat.eqb x y then tl else y :: remove_first x tl
  end.

(** Python [xs[-1] += d]. *)
Fixpoint add_last (l : list Z) (d : Z) : option (list Z) :=
  match l with
  | [] => None
  | [x] => Some [(x + d)%Z]
  | x :: tl => match add_last tl d with
               | Some tl' => Some (x :: tl')
               | None => None
               end
  end.

(** numpy [a[i:] = v]. *)
Definition set_from {A} (l : list A) (i : nat) (v : A) : list A :=
  firstn i l ++ repeat v (List.length l - i).

(** dict as association list: [d[k] = v], [d[k]], [del d[k]]. *)
Fixpoint dget {A} (k : nat) (d : list (nat * A)) : option A :=
  match d with
  | [] => None
  | (k', v) :: tl => if Nat.eqb k k' then Some v else dget k tl
  end.

Fixpoint dset {A} (k : nat) (v : A) (d : list (nat * A)) : list (nat * A) :=
  match d with
  | [] => [(k, v)]
  | (k', v') :: tl => if Nat.eqb k k' then (k, v) :: tl else (k', v') :: dset k v tl
  end.

Fixpoint ddel {A} (k : nat) (d : list (nat * A)) : option (list (nat * A)) :=
  match d with
  | [] => None
  | (k', v') :: tl =>
      if Nat.eqb k k' then Some tl
      else match ddel k tl with Some tl' => Some ((k', v') :: tl') | None => None end
  end.

(** Python [max(zip(ps, xs), key=first)]: the first element of largest key. *)
Fixpoint max_first {A} (best : Q * A) (l : list (Q * A)) : A :=
  match l with
  | [] => snd best
  | (p, x) :: tl => if qlt (fst best) p then max_first (p, x) tl else max_first best tl
  end.

(** Python [sorted(xs, key)] with a boolean "strictly less" (stable insertion). *)
Section Sort.
  Variable A : Type.
  Variable ltb : A -> A -> bool.
  Fixpoint insert (x : A) (l : list A) : list A :=
    match l with
    | [] => [x]
    | y :: tl => if ltb x y then x :: l else y :: insert x tl
    end.
  Fixpoint sort (l : list A) : list A :=
    match l with
    | [] => []
    | x :: tl => insert x (sort tl)
    end.
End Sort.

(** Lexicographic order on names, as Python compares strings (code points). *)
Fixpoint string_ltb (a b : string) : bool :=
  match a, b with
  | EmptyString, EmptyString => false
  | EmptyString, String _ _ => true
  | String _ _, EmptyString => false
  | String x a', String y b' =>
      let i := Ascii.nat_of_ascii x in
      let j := Ascii.nat_of_ascii y in
      if i <? j then true else if j <? i then false else string_ltb a' b'
  end.

(** Picking with an oracle. *)
Fixpoint remove_nth {A} (i : nat) (l : list A) : list A :=
  match l, i with
  | [], _ => []
  | _ :: tl, O => tl
  | x :: tl, S i' => x :: remove_nth i' tl
  end.

(** [rng.shuffle]: the oracle [orc], read from position [k], drives a
    selection-based permutation; every permutation is the result for some oracle. *)
Fixpoint shuffle_n {A} (orc : nat -> nat) (k : nat) (fuel : nat) (l : list A) : list A :=
  match fuel with
  | O => l
  | S fuel' =>
      let i := Nat.modulo (orc k) (List.length l) in
      match nth_error l i with
      | None => l
      | Some x => x :: shuffle_n orc (S k) fuel' (remove_nth i l)
      end
  end.
