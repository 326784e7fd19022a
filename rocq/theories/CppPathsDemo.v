(** * CppPathsDemo: the compiled shortest path search and the compiled enumeration of routes at work. *)
From Verif Require Import Base Types Sim Build Tac Reach Steps Lists Spec Registry Route SpecDuo SpecDue Due SpecDso Dso SpecGenetic Genetic Paths Demo MotionDemo DueDemo DsoDemo SpecRoutes EnumRoutes EnumRoutesDemo CppPaths CppEnum.
Local Open Scope string_scope.
Local Open Scope nat_scope.

(** node 1 is put into the queue twice, its first entry is dropped; node 4 cannot be reached *)
Definition five : nid -> nid -> option Q := fun i j =>
  match i, j with 0, 1 => Some 10%Q | 0, 2 => Some 1%Q | 2, 1 => Some 2%Q | 1, 3 => Some 1%Q | 3, 0 => Some 7%Q | 0, 4 => None | _, _ => Some 0%Q end.
Lemma search_example : no_negative 5 five /\ cpp_dist 5 five 0 1 = Some 3%Q /\ cpp_dist 5 five 0 3 = Some 4%Q /\ cpp_next 5 five 0 3 = Some 2 /\ walk (cpp_next 5 five) 5 0 3 = Some [2; 1; 3] /\
  cpp_dist 5 five 0 4 = None /\ cpp_next 5 five 0 4 = None /\ cpp_next 5 five 0 0 = Some 0 /\ cpp_dist 5 five 2 0 = Some 10%Q.
Proof.
  split; [|vm_compute; repeat split; reflexivity]. intros i j q _ _ H. unfold five in H. do 5 (try destruct i as [|i]); do 5 (try destruct j as [|j]); try discriminate H; injection H as <-; lra.
Qed.
Definition cpp_b (w : world) (draw : nat -> lid -> Q) (k : nat) (s t : nid) (rs : list (list lid)) : bool :=
  match cpp_enumerate w draw k 100 with Some d => rlist_eqb (d_routes d (s, t)) rs | None => false end.
Lemma enum_example : exists w, reachable cfg_det w /\
  (cpp_b w dear 2 0 3 [[0; 1]; [2; 3]] && cpp_b w dear 1 0 3 [[0; 1]] && cpp_b w dear 2 3 0 [] && cpp_b w ones 2 0 3 [[0; 1]])%bool = true.
Proof. apply (play_witness cfg_det fork_net (Some 200%Q)). vm_compute. reflexivity. Qed.
(** the pairs of a node with itself: the Python engine has them, the compiled one does not *)
Lemma self_refuted : exists w d d', reachable cfg_det w /\ enumerate_k_random apd_ref w dear 2 100 = Ok d /\ cpp_enumerate w dear 2 100 = Some d' /\
  In (0, 0) (d_keys d) /\ d_routes d (0, 0) = [[]] /\ ~ In (0, 0) (d_keys d').
Proof.
  destruct (play_witness cfg_det fork_net (Some 200%Q) (fun w =>
    match enumerate_k_random apd_ref w dear 2 100, cpp_enumerate w dear 2 100 with
    | Ok d, Some d' => existsb (pair_eqb (0, 0)) (d_keys d) && rlist_eqb (d_routes d (0, 0)) [[]] && negb (existsb (pair_eqb (0, 0)) (d_keys d'))
    | _, _ => false end)%bool) as (w & R & H). { vm_compute. reflexivity. }
  destruct (enumerate_k_random apd_ref w dear 2 100) as [d|] eqn:E; [|discriminate]. destruct (cpp_enumerate w dear 2 100) as [d'|] eqn:E'; [|discriminate].
  apply andb_prop in H. destruct H as [H H3]. apply andb_prop in H. destruct H as [H1 H2]. apply negb_true_iff in H3. apply rlist_eqb_ok in H2. apply existsb_exists in H1. destruct H1 as (x & X1 & X2). apply pair_eqb_spec in X2. subst x.
  exists w, d, d'. split; [exact R|]. split; [exact E|]. split; [exact E'|]. split; [exact X1|]. split; [exact H2|]. intro K. enough (existsb (pair_eqb (0, 0)) (d_keys d') = true) by congruence. apply existsb_exists. exists (0, 0). split; [exact K|reflexivity].
Qed.
(** without links: the Python engine divides by zero, the compiled one has no pairs *)
Lemma empty_refuted : exists w d, reachable cfg_det w /\ enumerate_k_random apd_ref w ones 2 100 = Err ZeroDivisionError /\ cpp_enumerate w ones 2 100 = Some d /\ d_keys d = [].
Proof.
  destruct (play_witness cfg_det [node_ "o"; node_ "d"; OFinalize None] (Some 200%Q) (fun w =>
    match enumerate_k_random apd_ref w ones 2 100, cpp_enumerate w ones 2 100 with Err ZeroDivisionError, Some d => match d_keys d with [] => true | _ => false end | _, _ => false end)) as (w & R & H). { vm_compute. reflexivity. }
  destruct (enumerate_k_random apd_ref w ones 2 100) as [|[]] eqn:E; try discriminate. destruct (cpp_enumerate w ones 2 100) as [d|] eqn:E2; [|discriminate]. exists w, d. split; [exact R|]. split; [exact E|]. split; [exact E2|]. destruct (d_keys d); [reflexivity|discriminate].
Qed.
(** with two links between the same nodes the shortest route need not be found *)
Lemma cpp_shortest_refuted : exists w d s t r, reachable cfg_det w /\ cpp_enumerate w dear 2 100 = Some d /\ leads w s t r /\ forall r', In r' (d_routes d (s, t)) -> (cost (ff w) r < cost (ff w) r')%Q.
Proof.
  destruct (play_witness cfg_det twin_net (Some 200%Q) (fun w => (match cpp_enumerate w dear 2 100 with Some d => forallb (fun r' => negb (qle (cost (ff w) r') (cost (ff w) [0; 2]))) (d_routes d (0, 2)) | _ => false end && leads_b w 0 2 [0; 2])%bool)) as (w & R & H). { vm_compute. reflexivity. }
  apply andb_true_iff in H. destruct H as [H H3]. destruct (cpp_enumerate w dear 2 100) as [d|] eqn:K; [|discriminate H]. exists w, d, 0, 2, [0; 2]. split; [exact R|]. split; [exact K|]. split; [apply leads_b_spec; exact H3|].
  intros r' Hr. rewrite forallb_forall in H. specialize (H r' Hr). apply negb_true_iff in H. apply qle_false in H. exact H.
Qed.
