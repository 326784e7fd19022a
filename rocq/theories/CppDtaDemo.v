(** * CppDtaDemo: route swaps of the compiled solvers on concrete days. *)
From Verif Require Import Base Types Sim Build Tac Reach Steps Spec Registry LinkQueries Route SpecDue Due SpecDso Dso CppExt CppDta Paths Demo MotionDemo DueDemo DsoDemo.
Local Open Scope string_scope.
Local Open Scope nat_scope.

Definition routes_eqb (a b : list (list lid)) : bool := if list_eq_dec (list_eq_dec Nat.eq_dec) a b then true else false.
Definition swap_b (r : result cswap) (spec : list (list lid)) (n : Z) : bool := match r with Ok u => routes_eqb (s_spec u) spec && Z.eqb (s_nswap u) n | Err _ => false end.
Definition both_ids (o d : nid) : option (list (list lid)) := Some [[0; 1]; [0; 2]].
Definition due_cpp (c : cfg) (w : world) store (forced : bool) (flag : vid -> bool) : result cswap :=
  cpp_swap c w (cpp_due_cost c (w_tsize w) w) (cpp_due_own c (w_tsize w) w) store forced flag (tr_of w).
(** the day of C42_example: vehicle 0 swaps *)
Lemma cpp_due_example : exists w, reachable cfg_det w /\
  (day_b (due_day cfg_det w both false (fun _ => true)) [(0, [0; 2]); (1, [0; 2])] 5 && swap_b (due_cpp cfg_det w both_ids false (fun _ => true)) [[0; 2]; [0; 2]] 5 &&
   swap_b (due_cpp cfg_det w both_ids false (fun _ => false)) [[0; 1]; [0; 2]] 0)%bool = true.
Proof. apply (play_witness cfg_det (due_net ++ [OEnforceRoute 0 [0; 1] false; OEnforceRoute 1 [0;2] false; OExec (UntilT 150)])%list (Some 200%Q)). vm_compute. reflexivity. Qed.
Lemma cpp_dso_example : exists w, reachable cfg_det w /\
  (day_b (dso_day cfg_det w both false (fun _ => true)) [(0, [0; 2]); (1, [0; 2])] 5 &&
   swap_b (cpp_swap cfg_det w (cpp_dso_cost cfg_det w) (cpp_dso_own cfg_det w) both_ids false (fun _ => true) (tr_of w)) [[0; 2]; [0; 2]] 5)%bool = true.
Proof. apply (play_witness cfg_det (due_net ++ [OEnforceRoute 0 [0; 1] false; OEnforceRoute 1 [0;2] false; OExec (UntilT 150)])%list (Some 200%Q)). vm_compute. reflexivity. Qed.
(** a toll that falls in the middle of a timestep *)
Definition toll_net : list op :=
  [ node_ "o"; node_ "a"; node_ "d"; link_ "in" 0 1 110; link_ "out" 1 2 110; link_ "by" 0 2 1000; veh_ 0 2 0;
    OSetToll 1 (Some (fun t => if qle t 10 then 100%Q else 0%Q)); OEnforceRoute 0 [2] false; OExec (UntilT 150) ].
Lemma toll_refuted : exists w u r, reachable cfg_det w /\ due_day cfg_det w (fun _ _ => Some [[KName "in"; KName "out"]; [KName "by"]]) false (fun _ => true) = Ok u /\ u_spec u = [(0, [0; 1])] /\
  due_cpp cfg_det w (fun _ _ => Some [[0; 1]; [2]]) false (fun _ => true) = Ok r /\ s_spec r = [[2]].
Proof.
  destruct (play_witness cfg_det toll_net (Some 200%Q)
    (fun w => day_b (due_day cfg_det w (fun _ _ => Some [[KName "in"; KName "out"]; [KName "by"]]) false (fun _ => true)) [(0, [0; 1])] 5 &&
              swap_b (due_cpp cfg_det w (fun _ _ => Some [[0; 1]; [2]]) false (fun _ => true)) [[2]] 0)%bool) as (w & R & H). { vm_compute. reflexivity. }
  apply andb_prop in H. destruct H as [H1 H2]. apply day_b_ok in H1. destruct H1 as (u & A & B & _). unfold swap_b in H2. destruct (due_cpp _ _ _ _ _) as [r|] eqn:E; [|discriminate].
  apply andb_prop in H2. destruct H2 as [H2 _]. unfold routes_eqb in H2. destruct (list_eq_dec _ _ _) as [E'|]; [|discriminate]. exists w, u, r. auto.
Qed.
