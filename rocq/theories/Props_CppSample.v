(** * Props_CppSample: candidates of a day of the compiled system-optimum solver (C78). *)
From Coq Require Import Permutation.
From Verif Require Import Base Types Sim Build Lists Tac Reach Steps Spec Registry LinkQueries Route SpecDue Due SpecDso Dso CppExt CppDta Paths Demo MotionDemo DueDemo DsoDemo CppDtaDemo CppSample CppSampleDemo.
Local Open Scope nat_scope.

(** C78: with a given number there are exactly that many candidates, or all vehicles if there are fewer *)
Theorem C78_size : forall nv k perm below, Permutation perm (seq 0 nv) -> (0 <= k)%Z -> Z.of_nat (List.length (candidates nv (cpp_candidate nv k perm below))) = Z.min k (Z.of_nat nv).
Proof. exact sample_size. Qed.
Print Assumptions C78_size.

(** C78: whenever the Python solver can draw its sample, the candidates are the sample *)
Theorem C78_same : forall nv k perm below s, py_sample nv k perm = Ok s -> forall v, cpp_candidate nv k perm below v = mem v s.
Proof. exact sample_same. Qed.
Print Assumptions C78_same.

(** C78: every vehicle gets an entry; only candidates swap; another vehicle that arrived keeps the route it took, or gets the first of a given set that does not contain it *)
Theorem C78_kept : forall c w altg owng store forced flag tr u, (0 <= c_deltan c)%Z -> cpp_swap c w altg owng store forced flag tr = Ok u ->
  List.length (s_spec u) = w_nv w /\ (0 <= s_nswap u <= c_deltan c * Z.of_nat (List.length (candidates (w_nv w) flag)))%Z /\
  forall v, v < w_nv w -> flag v = false -> exists r, nth_error (s_spec u) v = Some r /\ entry_ok w store forced (fst (tr v)) v r.
Proof. exact swap_candidates. Qed.
Print Assumptions C78_kept.

(** C78: at most the given number of vehicles swap in a day *)
Theorem C78_bound : forall c w altg owng store forced below perm k tr u, (0 <= c_deltan c)%Z -> (0 <= k)%Z -> Permutation perm (seq 0 (w_nv w)) ->
  cpp_swap c w altg owng store forced (cpp_candidate (w_nv w) k perm below) tr = Ok u -> (0 <= s_nswap u <= c_deltan c * Z.min k (Z.of_nat (w_nv w)))%Z.
Proof. exact swap_bound. Qed.
Print Assumptions C78_bound.

(** two of four vehicles by number, one by draws *)
Example C78_example : map (cpp_candidate 4 2 [3; 0; 2; 1] (fun _ => false)) (seq 0 4) = [true; false; false; true] /\ map (cpp_candidate 4 (-1) [3; 0; 2; 1] (Nat.eqb 2)) (seq 0 4) = [false; false; true; false].
Proof. exact sample_example. Qed.

(** one candidate of two vehicles: vehicle 0 swaps if it is drawn *)
Example C78_day_example : exists w, reachable cfg_det w /\
  (Nat.eqb (w_nv w) 2 && swap_b (sample_day w 1 [0; 1]) [[0; 2]; [0; 2]] 5 && swap_b (sample_day w 1 [1; 0]) [[0; 1]; [0; 2]] 0 && swap_b (sample_day w 7 [1; 0]) [[0; 2]; [0; 2]] 5)%bool = true.
Proof. exact sample_day_example. Qed.

(** C78: more candidates than vehicles, or a negative number: the Python solver raises, the compiled one goes on *)
Theorem C78_raises_refuted : exists nv k k' perm below, Permutation perm (seq 0 nv) /\ py_sample nv k perm = Err ValueError /\ candidates nv (cpp_candidate nv k perm below) = [0; 1] /\
  py_sample nv k' perm = Err ValueError /\ candidates nv (cpp_candidate nv k' perm below) = [0].
Proof. exact sample_refuted. Qed.
Print Assumptions C78_raises_refuted.
