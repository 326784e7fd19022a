(** * QueriesDemo: average travel times of links. *)
From Verif Require Import Base Types Sim Build Tac Reach Steps Spec Paths LinkQueries Demo MotionDemo LogsDemo DueDemo.
Local Open Scope string_scope.
Local Open Scope nat_scope.

Definition avg_is (c : cfg) (w : world) (l : lid) (t0 t1 q : Q) : bool :=
  match average_travel_time_between c (L w l) t0 t1 with Ok x => Qeq_bool x q | Err _ => false end.
(** the entry of the log [log_t_link] of vehicle [v] with number [i] says that it entered link [l] at [t] *)
Definition entry_is (w : world) (v : vid) (i : nat) (t : Q) (l : lid) : bool :=
  match nth_error (v_tlog (V w v)) i with Some (x, PLink k) => Qeq_bool x t && Nat.eqb k l | _ => false end.

(** One vehicle after the other, with the outflow of link 0 limited: 30 s and 40 s, on average 35 s. Nobody entered in [20 s, 30 s): the free flow travel time, 26 s. *)
Lemma average_example : exists w, reachable cfg_det w /\
  (entry_is w 0 1 5 0 && entry_is w 0 2 35 1 && entry_is w 1 1 15 0 && entry_is w 1 2 55 1 && avg_is cfg_det w 0 0 100 35 && avg_is cfg_det w 0 15 16 40 && avg_is cfg_det w 0 20 30 26)%bool = true.
Proof. apply (play_witness cfg_det (row_net ++ [veh_ 0 2 2; OSetCapOut 0 (1 # 8); OExec (UntilT 150)])%list (Some 200%Q)). vm_compute. reflexivity. Qed.

(** Two vehicles enter link 0 in the same timestep, on two lanes, and need 30 s and 35 s: the result is 35 s. *)
Lemma together_refuted : exists w, reachable cfg_det w /\
  (entry_is w 0 1 5 0 && entry_is w 0 2 35 1 && entry_is w 1 1 5 0 && entry_is w 1 2 40 1 && avg_is cfg_det w 0 0 100 35 && Nat.eqb (List.length (l_vehs (L w 0))) 0)%bool = true.
Proof. apply (play_witness cfg_det (lanes_net ++ [OExec (UntilT 150)])%list (Some 200%Q)). vm_compute. reflexivity. Qed.

(** The only vehicle that entered link 0 in [10 s, 40 s) is still on it: the result is the time of the vehicle before. *)
Lemma underway_refuted : exists w, reachable cfg_det w /\
  (entry_is w 0 1 5 0 && entry_is w 0 2 35 1 && entry_is w 1 1 15 0 && match l_vehs (L w 0) with [v] => Nat.eqb v 1 | _ => false end && avg_is cfg_det w 0 10 40 30)%bool = true.
Proof. apply (play_witness cfg_det (row_net ++ [veh_ 0 2 2; OExec (UntilT 40)])%list (Some 200%Q)). vm_compute. reflexivity. Qed.
