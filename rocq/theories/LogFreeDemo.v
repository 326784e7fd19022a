(** * LogFreeDemo: one scenario with three logging intervals (property C59). *)
From Verif Require Import Base Types Sim Build Inv Reach Steps Spec Paths Demo MotionDemo LogsDemo SpecInterval.
Local Open Scope string_scope.
Local Open Scope nat_scope.

Lemma ok_bool : forall (r1 r2 : result world) (t : world -> world -> bool),
  match r1, r2 with Ok a, Ok b => t a b | _, _ => false end = true -> exists a b, r1 = Ok a /\ r2 = Ok b /\ t a b = true.
Proof. intros [a|] [b|] t H; try discriminate H. exists a, b. auto. Qed.

Definition short_run : list op := (row_net ++ [OExec (UntilT 80)])%list.
Lemma third_example : exists a b, calls cfg_det short_run (empty_world (Some 200%Q)) = Ok a /\ calls (logging 3 cfg_det) short_run (empty_world (Some 200%Q)) = Ok b /\
  (Z.eqb (c_logint cfg_det) 1 && Nat.eqb (List.length (v_log (V a 0))) 13 && state_eqb (v_state (V b 0)) End_ &&
   rows_are [(0, Home, None); (15, Run, Some (0%nat, 200)); (30, Run, Some (0%nat, 500)); (45, Run, Some (1%nat, 280)); (55, End_, None)]%Q (v_log (V b 0)))%bool = true.
Proof. apply ok_bool. vm_compute. reflexivity. Qed.

Definition queue_run : list op := (row_net ++ [OAddDemand 0 2 0 60 2 (-1)] ++ [OExec (UntilT 80)])%list.
Lemma average_refuted : exists a b, calls cfg_det queue_run (empty_world (Some 200%Q)) = Ok a /\ calls (logging 3 cfg_det) queue_run (empty_world (Some 200%Q)) = Ok b /\
  ~ (w_avgspd a == w_avgspd b)%Q.
Proof.
  destruct (ok_bool (calls cfg_det queue_run (empty_world (Some 200%Q))) (calls (logging 3 cfg_det) queue_run (empty_world (Some 200%Q)))
    (fun a b => negb (Qeq_bool (w_avgspd a) (w_avgspd b)))) as (a & b & Ea & Eb & H).
  { vm_compute. reflexivity. }
  exists a, b. split; [exact Ea|]. split; [exact Eb|]. intro E. apply Qeq_eq_bool in E. rewrite E in H. discriminate H.
Qed.
