(** * NodeDistancesDemo: distances and travel times between nodes. *)
From Verif Require Import Base Types Sim Build Tac Reach Steps Lists Spec Registry Route Paths SpecDuo PathsOK Demo MotionDemo DuoDemo DueDemo DsoDemo SpecRoutes EnumRoutes EnumRoutesDemo NodeDistances.
Local Open Scope string_scope.
Local Open Scope nat_scope.

(** the interval of the route choice updates; the timestep is 5 s *)
Definition cfg_upd (q : Q) : cfg := cfg_duo false true q HomogeneousDUO.
Definition fork_run : list op := (firstn 8 fork_net ++ [OExec (UntilT 100)])%list.
Definition twin_run : list op := (firstn 6 twin_net ++ [OExec (UntilT 100)])%list.
(** the first link has length 0 *)
Definition zero_net : list op := [ node_ "o"; node_ "a"; node_ "d"; link_ "zero" 0 1 0; link_ "out" 1 2 1000; OFinalize None ].

(** If it is not a multiple, the query can fail for a time that has been simulated. *)
Theorem times_on_refuted : exists c w t tm, reachable c w /\ (0 < dt c)%Q /\ (dt c <= c_duo_time c)%Q /\ w_tmax w = Some tm /\ (0 <= t)%Q /\ (t < tm)%Q /\ (t < Qof_nat (w_T w) * dt c)%Q /\ all_times_on c w t = Err KeyError.
Proof.
  destruct (play_found (cfg_upd 12) fork_run (Some 200%Q) (fun w => (match all_times_on (cfg_upd 12) w 36 with Err KeyError => true | _ => false end && Nat.eqb (w_T w) 21 && match w_tmax w with Some q => qeq q 200 | None => false end)%bool)) as (w & E & R & H). { vm_compute. reflexivity. }
  clear E. repeat match goal with K : _ && _ = true |- _ => apply andb_true_iff in K; destruct K end. apply Nat.eqb_eq in H1. destruct (w_tmax w) as [tm|] eqn:Et; [|discriminate H0]. apply qeq_iff in H0.
  exists (cfg_upd 12), w, 36%Q, tm. split; [exact R|]. split; [reflexivity|]. split; [unfold dt, dN; cbn; discriminate|]. split; [exact Et|]. split; [discriminate|]. split; [rewrite H0; reflexivity|]. split; [rewrite H1; reflexivity|].
  destruct (all_times_on (cfg_upd 12) w 36) as [|[]]; try discriminate H. reflexivity.
Qed.
(** What is returned as the time of the search is not one: it is the number of intervals. *)
Theorem return_time_refuted : exists c w t d x, reachable c w /\ (c_duo_time c == 4 * dt c)%Q /\ all_times_on c w t = Ok (d, x) /\ forall T d', In (T, d') (w_rcrec w) -> ~ (x == Qof_nat T * dt c)%Q.
Proof.
  destruct (play_found (cfg_upd 20) fork_run (Some 200%Q) (fun w => match all_times_on (cfg_upd 20) w 57 with Ok (d, x) => forallb (fun r => negb (qeq x (Qof_nat (fst r) * dt (cfg_upd 20)))) (w_rcrec w) | _ => false end)) as (w & E & R & H). { vm_compute. reflexivity. }
  clear E. destruct (all_times_on (cfg_upd 20) w 57) as [[d x]|] eqn:K; [|discriminate H]. exists (cfg_upd 20), w, 57%Q, d, x. split; [exact R|]. split; [reflexivity|]. split; [exact K|].
  intros T d' Hi. rewrite forallb_forall in H. specialize (H _ Hi). cbn [fst] in H. apply negb_true_iff in H. apply qeq_false in H. exact H.
Qed.
(** Before the first search all travel times are 0, also where no route leads. *)
Theorem before_refuted : exists c w i k, reachable c w /\ w_final w = true /\ exists_node w i /\ exists_node w k /\ i <> k /\ (forall r, ~ leads w i k r) /\ all_times w i k = Some 0%Q.
Proof.
  destruct (play_found (cfg_upd 20) fork_net (Some 200%Q) (fun w => (w_final w && Nat.eqb (w_nn w) 4 && match all_times w 3 0 with Some q => (Qnum q =? 0)%Z && (Qden q =? 1)%positive | None => false end && match all_distances (cfg_upd 20) w 3 0 with None => true | Some _ => false end &&
     Nat.eqb (w_nl w) 4 && forallb (fun l => negb (qle (l_len (L w l)) 0)) (seq 0 4))%bool)) as (w & E & R & H). { vm_compute. reflexivity. }
  clear E. repeat match goal with K : _ && _ = true |- _ => apply andb_true_iff in K; destruct K end. repeat match goal with K : (_ =? _) = true |- _ => apply Nat.eqb_eq in K end.
  exists (cfg_upd 20), w, 3, 0. split; [exact R|]. split; [assumption|]. split; [unfold exists_node; lia|]. split; [unfold exists_node; lia|]. split; [discriminate|]. split.
  - destruct (distances_lemma (cfg_upd 20) w 3 0) as [_ B]; [apply routine_example|apply reachable_reach; exact R| |unfold exists_node; lia|unfold exists_node; lia|].
    + intros l X. unfold exists_link in X. match goal with K : forallb _ _ = true |- _ => rewrite forallb_forall in K; specialize (K l); rewrite in_seq in K; assert (K' := K ltac:(lia)) end. apply negb_true_iff in K'. apply qle_false in K'. exact K'.
    + apply B. destruct (all_distances (cfg_upd 20) w 3 0); [discriminate|reflexivity].
  - destruct (all_times w 3 0) as [[a b]|]; [|discriminate]. match goal with K : _ && _ = true |- _ => apply andb_true_iff in K; destruct K as [K1 K2] end. apply Z.eqb_eq in K1. apply Pos.eqb_eq in K2. cbn in K1, K2. subst. reflexivity.
Qed.
(** With two links between the same nodes the travel time is not the least one. *)
Theorem times_parallel_refuted : exists c w i k l x, reachable c w /\ w_rcrec w <> [] /\ all_times w i k = Some x /\ leads w i k [l] /\ (last_tt (L w l) < x)%Q.
Proof.
  destruct (play_found (cfg_upd 20) twin_run (Some 200%Q) (fun w => (match all_times w 0 1 with Some x => negb (qle x (last_tt (L w 0))) | None => false end && leads_b w 0 1 [0] && Nat.ltb 0 (List.length (w_rcrec w)))%bool)) as (w & E & R & H). { vm_compute. reflexivity. }
  clear E. repeat match goal with K : _ && _ = true |- _ => apply andb_true_iff in K; destruct K end. destruct (all_times w 0 1) as [x|] eqn:K; [|discriminate H]. apply negb_true_iff in H. apply qle_false in H. apply leads_b_spec in H1. apply Nat.ltb_lt in H0.
  exists (cfg_upd 20), w, 0, 1, 0, x. split; [exact R|]. split; [intro J; rewrite J in H0; cbn in H0; lia|]. split; [exact K|]. split; [exact H1|exact H].
Qed.
(** A link of length 0 counts as no link. *)
Theorem zero_refuted : exists c w i k r, reachable c w /\ correct_routine c /\ exists_node w i /\ exists_node w k /\ leads w i k r /\ all_distances c w i k = None.
Proof.
  destruct (play_found (cfg_upd 20) zero_net (Some 200%Q) (fun w => (leads_b w 0 2 [0; 1] && Nat.eqb (w_nn w) 3 && match all_distances (cfg_upd 20) w 0 2 with None => true | Some _ => false end)%bool)) as (w & E & R & H). { vm_compute. reflexivity. }
  clear E. repeat match goal with K : _ && _ = true |- _ => apply andb_true_iff in K; destruct K end. apply leads_b_spec in H. apply Nat.eqb_eq in H1.
  exists (cfg_upd 20), w, 0, 2, [0; 1]. split; [exact R|]. split; [apply routine_example|]. split; [unfold exists_node; lia|]. split; [unfold exists_node; lia|]. split; [exact H|]. destruct (all_distances (cfg_upd 20) w 0 2); [discriminate H0|reflexivity].
Qed.
(** the queries at work *)
Lemma distances_example : exists w w', reachable (cfg_upd 20) w /\ reachable (cfg_upd 20) w' /\ all_distances (cfg_upd 20) w 0 3 = Some 2000%Q /\ all_distances (cfg_upd 20) w 3 0 = None /\ all_distances (cfg_upd 20) w' 0 1 = Some 1000%Q /\
  map fst (w_rcrec w) = [0; 4; 8; 12; 16; 20] /\ exists d, all_times_on (cfg_upd 20) w 57 = Ok (d, 2%Q) /\ d 0 3 = Some 100%Q.
Proof.
  destruct (play_found (cfg_upd 20) fork_run (Some 200%Q) (fun w => (match all_distances (cfg_upd 20) w 0 3 with Some q => (Qnum q =? 2000)%Z && (Qden q =? 1)%positive | None => false end && match all_distances (cfg_upd 20) w 3 0 with None => true | Some _ => false end && rlist_eqb [map fst (w_rcrec w)] [[0; 4; 8; 12; 16; 20]] &&
     match all_times_on (cfg_upd 20) w 57 with Ok (d, x) => (Qnum x =? 2)%Z && (Qden x =? 1)%positive && match d 0 3 with Some q => (Qnum q =? 100)%Z && (Qden q =? 1)%positive | None => false end | _ => false end)%bool)) as (w & E & R & H). { vm_compute. reflexivity. }
  destruct (play_found (cfg_upd 20) twin_run (Some 200%Q) (fun w => match all_distances (cfg_upd 20) w 0 1 with Some q => (Qnum q =? 1000)%Z && (Qden q =? 1)%positive | None => false end)) as (w' & E' & R' & H'). { vm_compute. reflexivity. }
  clear E E'. assert (Qe : forall q a b, ((Qnum q =? a)%Z && (Qden q =? b)%positive)%bool = true -> q = a # b) by (intros [x y] a b K; apply andb_true_iff in K; destruct K as [K1 K2]; apply Z.eqb_eq in K1; apply Pos.eqb_eq in K2; cbn in K1, K2; subst; reflexivity).
  apply andb_true_iff in H. destruct H as [H H4]. apply andb_true_iff in H. destruct H as [H H3]. apply andb_true_iff in H. destruct H as [H1 H2].
  exists w, w'. split; [exact R|]. split; [exact R'|]. split; [destruct (all_distances (cfg_upd 20) w 0 3); [f_equal; apply Qe; exact H1|discriminate H1]|]. split; [destruct (all_distances (cfg_upd 20) w 3 0); [discriminate H2|reflexivity]|].
  split; [destruct (all_distances (cfg_upd 20) w' 0 1); [f_equal; apply Qe; exact H'|discriminate H']|]. split; [apply rlist_eqb_ok in H3; congruence|].
  destruct (all_times_on (cfg_upd 20) w 57) as [[d x]|]; [|discriminate H4]. apply andb_true_iff in H4. destruct H4 as [H4 H5]. exists d. split; [rewrite (Qe _ _ _ H4); reflexivity|]. destruct (d 0 3); [f_equal; apply Qe; exact H5|discriminate H5].
Qed.
