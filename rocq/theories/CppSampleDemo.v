(** * CppSampleDemo: a day of the compiled system-optimum solver with a fixed number of candidates. *)
From Verif Require Import Base Types Sim Build Tac Reach Steps Spec Registry LinkQueries Route SpecDue Due SpecDso Dso CppExt CppDta Paths Demo MotionDemo DueDemo DsoDemo CppDtaDemo CppSample.
Local Open Scope string_scope.
Local Open Scope nat_scope.

Definition sample_day (w : world) (k : Z) (perm : list vid) : result cswap :=
  cpp_swap cfg_det w (cpp_dso_cost cfg_det w) (cpp_dso_own cfg_det w) both_ids false (cpp_candidate (w_nv w) k perm (fun _ => false)) (tr_of w).
(** one candidate of two vehicles: vehicle 0 swaps if it is drawn *)
Lemma sample_day_example : exists w, reachable cfg_det w /\
  (Nat.eqb (w_nv w) 2 && swap_b (sample_day w 1 [0; 1]) [[0; 2]; [0; 2]] 5 && swap_b (sample_day w 1 [1; 0]) [[0; 1]; [0; 2]] 0 && swap_b (sample_day w 7 [1; 0]) [[0; 2]; [0; 2]] 5)%bool = true.
Proof. apply (play_witness cfg_det (due_net ++ [OEnforceRoute 0 [0; 1] false; OEnforceRoute 1 [0;2] false; OExec (UntilT 150)])%list (Some 200%Q)). vm_compute. reflexivity. Qed.
