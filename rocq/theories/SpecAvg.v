(** * SpecAvg: the recorded speeds of all vehicles. *)
From Verif Require Import Base Types Sim.
Local Open Scope nat_scope.

(** the speeds recorded while driving, in one log *)
Definition run_speeds (rows : list logrow) : list Q :=
  flat_map (fun r => match g_state r, g_v r with Run, Some q => [q] | _, _ => [] end) rows.
(** the number of rows recorded while waiting at the origin, in one log *)
Definition wait_rows (rows : list logrow) : nat :=
  List.length (filter (fun r => match g_state r with Wait => true | _ => false end) rows).

Definition all_speeds (w : world) : list Q := flat_map (fun v => run_speeds (v_log (V w v))) (seq 0 (w_nv w)).
Definition all_waits (w : world) : nat := list_sum (map (fun v => wait_rows (v_log (V w v))) (seq 0 (w_nv w))).

(** the average over all vehicle-timesteps, waiting counted as speed 0 *)
Definition mean_speed (w : world) : Q := (qsum (all_speeds w) / Qof_nat (List.length (all_speeds w) + all_waits w))%Q.
(** the average over the driving vehicle-timesteps *)
Definition mean_run_speed (w : world) : Q := (qsum (all_speeds w) / Qof_nat (List.length (all_speeds w)))%Q.
