(** * CppExtDemo: externalities of the compiled engine. *)
From Coq Require Import Bool.
From Verif Require Import Base Types Sim Build Tac Reach Steps Spec Registry LinkQueries Route SpecDue Due SpecDso Dso Paths Demo MotionDemo DueDemo DsoDemo CppExt.
Local Open Scope string_scope.
Local Open Scope nat_scope.

Definition ext_net_run (ts : list Z) (q : Q) : list op :=
  (dso_net ++ map (veh_ 0 2) ts ++ map by_right (seq 0 (List.length ts)) ++ [OExec (UntilT q)])%list.
Definition is_err {A} (r : result A) : bool := match r with Ok _ => false | Err _ => true end.
Definition is_q (r : result Q) (x : Q) : bool := match r with Ok y => qeq y x | Err _ => false end.
Lemma is_q_ok : forall r x, is_q r x = true -> exists y, r = Ok y /\ (y == x)%Q.
Proof. intros [y|e] x H; [|discriminate]. exists y. split; [reflexivity|apply qeq_iff; exact H]. Qed.
Lemma is_err_ok : forall A (r : result A), is_err r = true -> exists e, r = Err e.
Proof. intros A [y|e] H; [discriminate|eauto]. Qed.

Definition complete_b (k : link) : bool :=
  Nat.eqb (List.length (l_ca k)) (List.length (l_tta k)) && Nat.eqb (List.length (l_cd k)) (List.length (l_tta k)) && forallb (qle 0) (l_tta k).
Lemma complete_b_ok : forall k, complete_b k = true -> complete k.
Proof.
  intros k H. unfold complete_b in H. apply andb_true_iff in H. destruct H as [H H3]. apply andb_true_iff in H. destruct H as [H1 H2].
  apply Nat.eqb_eq in H1, H2. split; [exact H1|]. split; [exact H2|]. apply Forall_forall. intros x Hx. rewrite forallb_forall in H3. apply qle_iff. apply H3. exact Hx.
Qed.
Lemma and4 : forall a b c d : bool, (a && b && c && d)%bool = true -> a = true /\ b = true /\ c = true /\ d = true.
Proof. intros [] [] [] [] H; try discriminate; auto. Qed.
(** the same 50 vehicle-seconds in both *)
Lemma ext_same_example : exists w x y, reachable cfg_det w /\ complete (L w 1) /\
  ext_try cfg_det (L w 1) 10 = Ok x /\ cpp_ext cfg_det (L w 1) 2 = Ok y /\ (x == 50)%Q /\ (y == 50)%Q.
Proof.
  destruct (play_witness cfg_det (ext_net_run [0; 1; 2; 3]%Z 150) (Some 150%Q) (fun w => complete_b (L w 1) && is_q (ext_try cfg_det (L w 1) 10) 50 && is_q (cpp_ext cfg_det (L w 1) 2) 50 && true)) as (w & R & H).
  { vm_compute. reflexivity. }
  apply and4 in H. destruct H as (H0 & H1 & H2 & _). apply complete_b_ok in H0. apply is_q_ok in H1, H2. destruct H1 as (x & X & X0), H2 as (y & Y & Y0). exists w, x, y. repeat (split; [assumption|]). assumption.
Qed.
(** A queue that is still there at the end of the simulation: 100 vehicle-seconds in one, 0 after an exception in the other. *)
Lemma ext_same_refuted : exists w e y, reachable cfg_det w /\ complete (L w 1) /\ w_T w = w_tsize w /\
  ext_try cfg_det (L w 1) 10 = Err e /\ ext_link cfg_det (L w 1) 10 = 0%Q /\ cpp_ext cfg_det (L w 1) 2 = Ok y /\ (y == 100)%Q.
Proof.
  destruct (play_witness cfg_det (ext_net_run [0; 1; 2; 3]%Z 100) (Some 100%Q) (fun w => complete_b (L w 1) && is_err (ext_try cfg_det (L w 1) 10) && is_q (cpp_ext cfg_det (L w 1) 2) 100 && Nat.eqb (w_T w) (w_tsize w))) as (w & R & H).
  { vm_compute. reflexivity. }
  apply and4 in H. destruct H as (H0 & H1 & H2 & H3). apply complete_b_ok in H0. apply is_err_ok in H1. apply is_q_ok in H2. apply Nat.eqb_eq in H3. destruct H1 as (e & X), H2 as (y & Y & Y0).
  exists w, e, y. repeat (split; [assumption|]). split; [unfold ext_link; rewrite X; reflexivity|]. split; assumption.
Qed.
(** the same for the route of vehicle 1 *)
Lemma ext_route_example : exists w x y, reachable cfg_det w /\ ext_route cfg_det w [1; 2] 10 = Ok x /\ cpp_ext_route cfg_det w [1; 2] 10 = Ok y /\ (x == 50)%Q /\ (y == 50)%Q.
Proof.
  destruct (play_witness cfg_det (ext_net_run [0; 1; 2; 3]%Z 150) (Some 150%Q) (fun w => is_q (ext_route cfg_det w [1; 2] 10) 50 && is_q (cpp_ext_route cfg_det w [1; 2] 10) 50 && true && true)) as (w & R & H).
  { vm_compute. reflexivity. }
  apply and4 in H. destruct H as (H1 & H2 & _). apply is_q_ok in H1, H2. destruct H1 as (x & X & X0), H2 as (y & Y & Y0). exists w, x, y. repeat (split; [assumption|]). assumption.
Qed.
Lemma ext_route_refuted : exists w x y, reachable cfg_det w /\ w_T w = w_tsize w /\ ext_route cfg_det w [1; 2] 10 = Ok x /\ cpp_ext_route cfg_det w [1; 2] 10 = Ok y /\ (x == 0)%Q /\ (y == 100)%Q.
Proof.
  destruct (play_witness cfg_det (ext_net_run [0; 1; 2; 3]%Z 100) (Some 100%Q) (fun w => Nat.eqb (w_T w) (w_tsize w) && is_q (ext_route cfg_det w [1; 2] 10) 0 && is_q (cpp_ext_route cfg_det w [1; 2] 10) 100 && true)) as (w & R & H).
  { vm_compute. reflexivity. }
  apply and4 in H. destruct H as (H0 & H1 & H2 & _). apply Nat.eqb_eq in H0. apply is_q_ok in H1, H2. destruct H1 as (x & X & X0), H2 as (y & Y & Y0). exists w, x, y. repeat (split; [assumption|]). assumption.
Qed.
(** a negative time is read before the first entry of the vector (Python: an entry from the end) *)
Lemma ext_safe_refuted : exists w e x, reachable cfg_det w /\ complete (L w 1) /\ cpp_ext cfg_det (L w 1) (-1) = Err e /\ ext_try cfg_det (L w 1) (-5) = Ok x.
Proof.
  destruct (play_witness cfg_det (ext_net_run [0; 1; 2; 3]%Z 150) (Some 150%Q) (fun w => complete_b (L w 1) && is_err (cpp_ext cfg_det (L w 1) (-1)) && negb (is_err (ext_try cfg_det (L w 1) (-5))) && true)) as (w & R & H).
  { vm_compute. reflexivity. }
  apply and4 in H. destruct H as (H0 & H1 & H2 & _). apply complete_b_ok in H0. apply is_err_ok in H1. destruct H1 as (e & X). destruct (ext_try cfg_det (L w 1) (-5)) as [y|] eqn:Y; [|discriminate].
  exists w, e, y. repeat (split; [assumption|]). exact Y.
Qed.
