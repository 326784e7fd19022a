(** * CppLoopDemo: calls of [exec_simulation] with the compiled engine. *)
From Coq Require Import Bool.
From Verif Require Import Base Types Sim Build Tac Reach Steps Spec Demo MotionDemo Cpp CppLoop CppLog CppLogDemo.
Local Open Scope string_scope.
Local Open Scope nat_scope.

Definition lands (r : result (Z * world)) (z : Z) (t : nat) : bool := match r with Ok (y, w) => Z.eqb y z && Nat.eqb (w_T w) t | Err _ => false end.
Lemma lands_ok : forall r z t, lands r z t = true -> exists w, r = Ok (z, w) /\ w_T w = t.
Proof. intros [[y w]|e] z t H; [|discriminate]. cbn in H. apply andb_true_iff in H. destruct H as [H1 H2]. apply Z.eqb_eq in H1. apply Nat.eqb_eq in H2. subst y. eauto. Qed.
(** 20 timesteps of 5 s, of which 5 have run: until 42 s (4 more), for 30 s (6 and 7 more), to the end *)
Lemma exec_example : exists w, reachable cfg_det w /\ w_T w = 5 /\ w_tsize w = 20 /\
  (exists x, cpp_exec (cpp_tick cfg_det) cfg_det 20 (UntilT 42) w = Ok (0%Z, x) /\ w_T x = 9) /\
  (exists x, cpp_exec (cpp_tick cfg_det) cfg_det 20 (DurationT2 30) w = Ok (0%Z, x) /\ w_T x = 11) /\
  (exists x, cpp_exec (cpp_tick cfg_det) cfg_det 20 (DurationT 30) w = Ok (0%Z, x) /\ w_T x = 12) /\
  (exists x, cpp_exec (cpp_tick cfg_det) cfg_det 20 ToEnd w = Ok (1%Z, x) /\ w_T x = 20).
Proof.
  destruct (play_witness cfg_det (log_net ++ [veh_ 0 2 2; OExec (UntilT 20)])%list (Some 100%Q) (fun w => (Nat.eqb (w_T w) 5 && Nat.eqb (w_tsize w) 20) &&
    lands (cpp_exec (cpp_tick cfg_det) cfg_det 20 (UntilT 42) w) 0 9 && (lands (cpp_exec (cpp_tick cfg_det) cfg_det 20 (DurationT2 30) w) 0 11 && lands (cpp_exec (cpp_tick cfg_det) cfg_det 20 (DurationT 30) w) 0 12) &&
    lands (cpp_exec (cpp_tick cfg_det) cfg_det 20 ToEnd w) 1 20)) as (w & R & H).
  { vm_compute. reflexivity. }
  apply and4 in H. destruct H as (H1 & H2 & H3 & H4). apply andb_true_iff in H1, H3. destruct H1 as [A1 A2], H3 as [B1 B2]. apply Nat.eqb_eq in A1, A2. apply lands_ok in H2, B1, B2, H4.
  exists w. repeat (split; [assumption|]). assumption.
Qed.
(** The durations of [main_loop] itself are counted from the last timestep run: the first call of 100 s runs 21 timesteps, the second one 20. *)
Lemma duration_refuted : exists c total d, (0 < dt c)%Q /\ main_end c total 0 d (-1) = Ok 21%Z /\ main_steps 0 21 = 21 /\
  main_end c total (Qof_nat 20 * dt c) d (-1) = Ok 41%Z /\ main_steps 21 41 = 20.
Proof. exists cfg_det, 100, 100%Q. repeat split; vm_compute; reflexivity. Qed.
(** departures at 0, 7, 12 and 3 s in a call that starts in timestep 1 *)
Lemma bucket_example : map (bucket cfg_det 1 20 [(0, 0%Q); (1, 7%Q); (2, 12%Q); (3, 3%Q)]) (seq 1 4) = [[0; 3]; [1]; [2]; []] /\
  still cfg_det 1 2 [(0, 0%Q); (1, 7%Q); (2, 12%Q); (3, 3%Q)] = [(2, 12%Q)].
Proof. split; vm_compute; reflexivity. Qed.
(** A vehicle added after its departure time departs in the first timestep of the next call, in both engines. *)
Lemma past_due_example : bucket cfg_det 7 20 [(4, 3%Q)] 7 = [4] /\ bucket cfg_det 7 20 [(4, 3%Q)] 8 = [].
Proof. split; vm_compute; reflexivity. Qed.
