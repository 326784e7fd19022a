(** * CppLogDemo: logs of the compiled engine. *)
From Coq Require Import Bool.
From Verif Require Import Base Types Sim Build Tac Reach Steps Spec SpecLogs Demo MotionDemo CppLog.
Local Open Scope string_scope.
Local Open Scope nat_scope.

Definition q_is (x y : Q) : bool := Z.eqb (Qnum x) (Qnum y) && Pos.eqb (Qden x) (Qden y).
Lemma q_is_ok : forall x y, q_is x y = true -> x = y.
Proof. intros [a b] [d e] H. unfold q_is in H. cbn in H. apply andb_true_iff in H. destruct H as [H1 H2]. apply Z.eqb_eq in H1. apply Pos.eqb_eq in H2. congruence. Qed.
Fixpoint qs_are (xs ys : list Q) : bool :=
  match xs, ys with [], [] => true | x :: xs, y :: ys => q_is x y && qs_are xs ys | _, _ => false end.
Lemma qs_are_ok : forall xs ys, qs_are xs ys = true -> xs = ys.
Proof. induction xs as [|x xs IH]; intros [|y ys] H; try discriminate; [reflexivity|]. cbn in H. apply andb_true_iff in H. destruct H as [H1 H2]. apply q_is_ok in H1. apply IH in H2. congruence. Qed.
(** state and link of a row as a number *)
Definition code (r : logrow) : nat :=
  match g_state r with Home => 0 | Wait => 1 | Run => 10 + match g_link r with Some l => l | None => 9 end | End_ => 2 | Abort => 3 end.
Definition is_home (s : vstate) : bool := match s with Home => true | _ => false end.
Lemma is_home_ok : forall s, is_home s = true -> s = Home. Proof. intros [] H; try discriminate; reflexivity. Qed.
Lemma not_home_ok : forall s, negb (is_home s) = true -> s <> Home. Proof. intros [] H; try discriminate. Qed.
Fixpoint ns_are (xs ys : list nat) : bool :=
  match xs, ys with [], [] => true | x :: xs, y :: ys => Nat.eqb x y && ns_are xs ys | _, _ => false end.
Lemma ns_are_ok : forall xs ys, ns_are xs ys = true -> xs = ys.
Proof. induction xs as [|x xs IH]; intros [|y ys] H; try discriminate; [reflexivity|]. cbn in H. apply andb_true_iff in H. destruct H as [H1 H2]. apply Nat.eqb_eq in H1. apply IH in H2. congruence. Qed.
Lemma and4 : forall a b c d : bool, (a && b && c && d)%bool = true -> a = true /\ b = true /\ c = true /\ d = true.
Proof. intros [] [] [] [] H; try discriminate; auto. Qed.

Definition log_net : list op := [node_ "A"; node_ "B"; node_ "C"; link_ "AB" 0 1 200; link_ "BC" 1 2 200].
Definition cpp_of (w : world) (v : vid) (ts : list nat) : list logrow := cpp_log cfg_det (noted (combine ts (stored_rows (V w v)))) (v_state (V w v)).
Definition timed (w : world) (v : vid) (ts : list nat) : bool := qs_are (map (at_step cfg_det) ts) (map g_t (stored_rows (V w v))).

Definition log_run : list op := (log_net ++ [veh_ 0 2 2; veh_ 0 2 15; OExec (UntilT 20); veh_ 0 2 6; OExec (UntilT 60)])%list.
(** a vehicle created before the simulation: three rows at home, four on the two links, one at the end, in both *)
Lemma log_same_example : exists w ts, reachable cfg_det w /\ map (at_step cfg_det) ts = map g_t (stored_rows (V w 0)) /\
  ts = [2; 3; 4; 5; 6; 6] /\ map code (v_log (V w 0)) = [0; 0; 0; 10; 10; 11; 11; 2] /\ map code (cpp_of w 0 ts) = [0; 0; 0; 10; 10; 11; 11; 2].
Proof.
  destruct (play_witness cfg_det log_run (Some 100%Q) (fun w => timed w 0 [2; 3; 4; 5; 6; 6] && ns_are (map code (v_log (V w 0))) [0; 0; 0; 10; 10; 11; 11; 2] && ns_are (map code (cpp_of w 0 [2; 3; 4; 5; 6; 6])) [0; 0; 0; 10; 10; 11; 11; 2] && true)) as (w & R & H).
  { vm_compute. reflexivity. }
  apply and4 in H. destruct H as (H1 & H2 & H3 & _). apply qs_are_ok in H1. apply ns_are_ok in H2, H3. exists w, [2; 3; 4; 5; 6; 6]. split; [exact R|]. split; [exact H1|]. split; [reflexivity|]. split; assumption.
Qed.
(** A vehicle still at home has a row per timestep in the Python engine and none in the compiled one. *)
Lemma log_home_refuted : exists w, reachable cfg_det w /\ v_state (V w 1) = Home /\ List.length (v_log (V w 1)) = 13 /\ stored_rows (V w 1) = [] /\ cpp_of w 1 [] = [].
Proof.
  destruct (play_witness cfg_det log_run (Some 100%Q) (fun w => is_home (v_state (V w 1)) && Nat.eqb (List.length (v_log (V w 1))) 13 && true && true)) as (w & R & H).
  { vm_compute. reflexivity. }
  apply and4 in H. destruct H as (H1 & H2 & _). apply is_home_ok in H1. apply Nat.eqb_eq in H2. exists w. split; [exact R|]. split; [exact H1|]. split; [exact H2|]. unfold stored_rows. rewrite H1. split; [reflexivity|].
  unfold cpp_of, stored_rows. rewrite H1. reflexivity.
Qed.
(** A vehicle added in timestep 5: the compiled engine shows it at home in the timesteps 0 to 4, when it did not exist. *)
Lemma log_late_refuted : exists w ts, reachable cfg_det w /\ map (at_step cfg_det) ts = map g_t (stored_rows (V w 2)) /\
  map code (v_log (V w 2)) = [0; 0; 10; 10; 11; 11; 2] /\ map code (cpp_of w 2 ts) = [0; 0; 0; 0; 0; 0; 0; 10; 10; 11; 11; 2].
Proof.
  destruct (play_witness cfg_det log_run (Some 100%Q) (fun w => timed w 2 [6; 7; 8; 9; 10; 10] && ns_are (map code (v_log (V w 2))) [0; 0; 10; 10; 11; 11; 2] && ns_are (map code (cpp_of w 2 [6; 7; 8; 9; 10; 10])) [0; 0; 0; 0; 0; 0; 0; 10; 10; 11; 11; 2] && true)) as (w & R & H).
  { vm_compute. reflexivity. }
  apply and4 in H. destruct H as (H1 & H2 & H3 & _). apply qs_are_ok in H1. apply ns_are_ok in H2, H3. exists w, [6; 7; 8; 9; 10; 10]. split; [exact R|]. split; [exact H1|]. split; assumption.
Qed.
(** the links entered *)
Lemma log_links_example : exists w t0 ts, reachable cfg_det w /\ v_state (V w 0) = End_ /\ map (at_step cfg_det) ts = map g_t (stored_rows (V w 0)) /\
  cpp_log_t_link t0 (inject_Z (v_arr (V w 0)) * dt cfg_det) End_ (cpp_rows cfg_det (noted (combine ts (stored_rows (V w 0)))) End_) = v_tlog (V w 0) /\
  Spec.links_of (v_tlog (V w 0)) = [0; 1].
Proof.
  destruct (play_witness cfg_det log_run (Some 100%Q) (fun w => match v_state (V w 0) with End_ => true | _ => false end && ns_are (Spec.links_of (v_tlog (V w 0))) [0; 1] && Nat.eqb (w_nv w) 3 && true)) as (w & R & H).
  { vm_compute. reflexivity. }
  apply and4 in H. destruct H as (H1 & H2 & H3 & _). assert (E : v_state (V w 0) = End_) by (destruct (v_state (V w 0)); try discriminate; reflexivity). apply ns_are_ok in H2. apply Nat.eqb_eq in H3.
  assert (Hd : (0 < dt cfg_det)%Q) by (vm_compute; reflexivity). assert (H0 : 0 < w_nv w) by (rewrite H3; apply Nat.lt_0_succ).
  destruct (cpp_entered cfg_det w 0 Hd eq_refl (reachable_reach _ _ R) H0) as (t0 & ts & A & B). exists w, t0, ts. rewrite E in B. repeat (split; [assumption|]). assumption.
Qed.
