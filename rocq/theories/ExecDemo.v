(** * ExecDemo: witnesses for Props_Exec. *)
From Verif Require Import Base Types Sim Build Reach Steps Spec Demo.
Local Open Scope nat_scope.

(** two ways of simulating 13 timesteps *)
Definition two_ways_test (w : world) : bool :=
  match calls cfg0 (map OExec [UntilT 20; DurationT2 20; UntilT 60]) w, calls cfg0 (map OExec [UntilT 60]) w with
  | Ok w1, Ok w2 => negb (w_final w) && (w_T w1 =? 13) && (w_T w2 =? 13) && negb (count_state End_ w1 =? 0) && negb (count_state Run w1 =? 0)
  | _, _ => false
  end.
Lemma two_ways : exists w, reachable cfg0 w /\ two_ways_test w = true.
Proof. apply (play_witness cfg0 merge_net (Some 200%Q)). vm_compute. reflexivity. Qed.

(** a request picked up in the first timestep of a second call: TIME is one timestep later than without
    the split *)
Definition taxi_net : list op :=
  [ node_ "A"; node_ "B"; node_ "C"; link_ "AB" 0 1 100; link_ "BC" 1 2 100; link_ "CA" 2 0 100;
    taxi_ 0 None 0; OAddRequest 1 2 0; OFinalize None; OAssignTaxi 0 0 ].
(** the time at which the passenger got on *)
Definition pickup (args : list exec_arg) (w : world) : option Q :=
  match calls cfg0 (map OExec args) w with Ok w1 => r_geton (R w1 0) | Err _ => None end.
Lemma pickup_differs : exists w, reachable cfg0 w /\
  match pickup [UntilT 100] w, pickup [UntilT 0; UntilT 100] w with
  | Some a, Some b => qeq a 0 && qeq b 5
  | _, _ => false
  end = true.
Proof. apply (play_witness cfg0 taxi_net (Some 200%Q)). vm_compute. reflexivity. Qed.

Definition loop_test (w : world) : bool :=
  match run_loop cfg0 12 41 w with Ok w1 => w_final w && (w_T w1 =? 40) && (w_tsize w1 =? 40) | Err _ => false end.
Lemma loop_runs : exists w, reachable cfg0 w /\ loop_test w = true.
Proof. apply (play_witness cfg0 (merge_net ++ [OFinalize None]) (Some 200%Q)). vm_compute. reflexivity. Qed.

(** the same run with two generators; the second one always draws 0 *)
Definition seeds_test (w : world) : bool :=
  match calls (reseed (fun _ => 0) (fun _ => 0%Q) cfg_det) [OExec (UntilT 60)] w with
  | Ok w1 => negb (count_state End_ w1 =? 0) && negb (count_state Run w1 =? 0) | Err _ => false end.
Lemma seeds_run : exists w, reachable cfg_det w /\ seeds_test w = true.
Proof. apply (play_witness cfg_det merge_net (Some 200%Q)). vm_compute. reflexivity. Qed.
