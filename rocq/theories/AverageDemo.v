(** * AverageDemo: the average speed with and without waiting vehicles. *)
From Verif Require Import Base Types Sim Build Tac Reach Steps Spec SpecAvg Paths Demo MotionDemo.
Local Open Scope string_scope.
Local Open Scope nat_scope.

(** One vehicle, never recorded waiting, on a fast and a slow link. *)
Definition slow_net : list op :=
  [ node_ "a"; node_ "b"; node_ "c"; link_ "ab" 0 1 520; OAddLink (mkLinkArgs (Some "bc") 1 2 500 10 (2#10) None 1 1 [0] None None None None); veh_ 0 2 0 ].
Lemma average_example : exists w, reachable cfg_det w /\
  (Nat.eqb (all_waits w) 0 && Nat.eqb (List.length (all_speeds w)) 16 && Qeq_bool (mean_speed w) (w_avgspd w) && Qeq_bool (w_avgspd w) (111 # 8))%bool = true.
Proof. apply (play_witness cfg_det (slow_net ++ [OExec (UntilT 100)])%list (Some 200%Q)). vm_compute. reflexivity. Qed.

(** Three vehicles depart together: two wait. The result is neither of the two averages: 19.58 instead of 17.92 or 19.55. *)
Lemma average_refuted : exists w, reachable cfg_det w /\
  (Nat.eqb (all_waits w) 3 && Qeq_bool (mean_speed w) (215 # 12) && Qeq_bool (mean_run_speed w) (215 # 11) && Qeq_bool (w_avgspd w) (235 # 12))%bool = true.
Proof. apply (play_witness cfg_det (row_net ++ [veh_ 0 2 0; veh_ 0 2 0; OExec (UntilT 80)])%list (Some 200%Q)). vm_compute. reflexivity. Qed.
