(** * Paths: an executable all-pairs shortest path routine.

    Stands for [scipy.sparse.csgraph.dijkstra] as used by RouteChoice.route_search_all
    (/repo/uxsim/uxsim.py 1624-1627): the cost matrix has [None] for infinity, and an entry
    0 is "no edge" (csr_matrix drops zeros).  The result is the distance matrix and, for each
    node [i] and target [k], the node that follows [i] on a least-cost path to [k]. *)
From Verif Require Import Base.

Definition matrix (A : Type) := list (list A).
Definition mget {A} (d : A) (m : matrix A) (i j : nat) : A := nth j (nth i m []) d.
Definition mtab {A} (n : nat) (f : nat -> nat -> A) : matrix A :=
  map (fun i => map (f i) (seq 0 n)) (seq 0 n).

Definition omin (a b : option Q) : option Q :=
  match a, b with
  | Some x, Some y => if qle x y then Some x else Some y
  | Some x, None => Some x
  | None, y => y
  end.
Definition oadd (a b : option Q) : option Q :=
  match a, b with Some x, Some y => Some (Qred (x + y)) | _, _ => None end.

(** an edge of the graph: finite, nonzero *)
Definition edge (m : nat -> nat -> option Q) (i j : nat) : option Q :=
  match m i j with Some q => if qeq q 0 then None else Some q | None => None end.

(** distance by at most one more edge *)
Definition relax (n : nat) (m : nat -> nat -> option Q) (d : matrix (option Q)) : matrix (option Q) :=
  mtab n (fun i k => fold_left (fun best j => omin best (oadd (edge m i j) (mget None d j k)))
                       (seq 0 n) (mget None d i k)).

Definition dist0 (n : nat) : matrix (option Q) :=
  mtab n (fun i k => if Nat.eqb i k then Some 0%Q else None).

Fixpoint iter {A} (k : nat) (f : A -> A) (a : A) : A :=
  match k with O => a | S k' => iter k' f (f a) end.

Definition dists (n : nat) (m : nat -> nat -> option Q) : matrix (option Q) :=
  iter n (relax n m) (dist0 n).

(** the first [j] with [m i j + d j k = d i k] *)
Definition next_of (n : nat) (m : nat -> nat -> option Q) (d : matrix (option Q)) (i k : nat) : option nat :=
  if Nat.eqb i k then None
  else match mget None d i k with
       | None => None
       | Some x => find (fun j => match oadd (edge m i j) (mget None d j k) with
                                  | Some y => qeq y x
                                  | None => false
                                  end) (seq 0 n)
       end.

Definition shortest_paths (n : nat) (m : nat -> nat -> option Q)
  : (nat -> nat -> option Q) * (nat -> nat -> option nat) :=
  let mt := mtab n m in
  let m' := mget None mt in
  let d := dists n m' in
  let nx := mtab n (next_of n m' d) in
  (mget None d, mget None nx).
