(** * Props_Interval: runs with different logging intervals (C59). *)
From Verif Require Import Base Types Sim Build Inv Reach Steps Spec Demo MotionDemo LogsDemo SpecInterval LogFree LogFreeDemo.
Local Open Scope nat_scope.

(** C59: with another logging interval every sequence of public calls raises the same exception or ends in the same world, except for the logs, which lack the rows of the other timesteps *)
Theorem C59_interval : forall c j tm os, c_logint c = 1%Z -> j <> 0%Z -> (0 < dt c)%Q ->
  match calls c os (empty_world tm), calls (logging j c) os (empty_world tm) with
  | Ok a, Ok b => same_traffic a b /\ forall v, thinned (kept c j) (v_log (V a v)) (v_log (V b v))
  | Err e, Err f => f = e
  | _, _ => False
  end.
Proof. exact interval_free. Qed.
Print Assumptions C59_interval.

(** C59: any two intervals give the same traffic *)
Theorem C59_two : forall c i j tm os, i <> 0%Z -> j <> 0%Z -> (0 < dt c)%Q ->
  match calls (logging i c) os (empty_world tm), calls (logging j c) os (empty_world tm) with
  | Ok a, Ok b => same_traffic a b
  | Err e, Err f => f = e
  | _, _ => False
  end.
Proof. exact intervals_agree. Qed.
Print Assumptions C59_two.

(** C59: the rows that remain are those of the timesteps divisible by the interval and the last rows of finished trips *)
Theorem C59_rows : forall c j tm os a b, c_logint c = 1%Z -> j <> 0%Z -> (0 < dt c)%Q ->
  calls c os (empty_world tm) = Ok a -> calls (logging j c) os (empty_world tm) = Ok b ->
  forall v r, In r (v_log (V b v)) <-> In r (v_log (V a v)) /\ kept c j r.
Proof. exact rows_kept. Qed.
Print Assumptions C59_rows.

(** every third timestep *)
Example C59_rows_example : exists a b, calls cfg_det short_run (empty_world (Some 200%Q)) = Ok a /\ calls (logging 3 cfg_det) short_run (empty_world (Some 200%Q)) = Ok b /\
  (Z.eqb (c_logint cfg_det) 1 && Nat.eqb (List.length (v_log (V a 0))) 13 && state_eqb (v_state (V b 0)) End_ &&
   rows_are [(0, Home, None); (15, Run, Some (0%nat, 200)); (30, Run, Some (0%nat, 500)); (45, Run, Some (1%nat, 280)); (55, End_, None)]%Q (v_log (V b 0)))%bool = true.
Proof. exact third_example. Qed.

(** C59: with interval -1 all logs are empty *)
Theorem C59_none : forall c tm os w, (0 < dt c)%Q -> calls (logging (-1) c) os (empty_world tm) = Ok w -> forall v, v_log (V w v) = [].
Proof. exact no_logging. Qed.
Print Assumptions C59_none.

(** C59: the average speed of the Analyzer does depend on the interval *)
Theorem C59_average_refuted : exists a b, calls cfg_det queue_run (empty_world (Some 200%Q)) = Ok a /\ calls (logging 3 cfg_det) queue_run (empty_world (Some 200%Q)) = Ok b /\
  ~ (w_avgspd a == w_avgspd b)%Q.
Proof. exact average_refuted. Qed.
Print Assumptions C59_average_refuted.
