(** * CppAdjDemo: the costs of the compiled route search at work, and tolls that it does not see. *)
From Verif Require Import Base Types Sim Build Tac Reach Steps Lists Spec SpecDuo Paths Demo MotionDemo EnumRoutesDemo DuoDemo PathsOK Search CppPaths CppAdj.
Local Open Scope string_scope.
Local Open Scope nat_scope.

Definition fare : option (Q -> Q) := Some (fun t => if qle t 20 then 300%Q else 0%Q).
Definition next_b (r : result world) (i k : nid) (o : option nid) : bool := match r with Ok w' => match w_rcnext w' i k, o with Some a, Some b => Nat.eqb a b | None, None => true | _, _ => false end | Err _ => false end.
Definition nx_b (x o : option nid) : bool := match x, o with Some a, Some b => Nat.eqb a b | None, None => true | _, _ => false end.
Definition cnext (c : cfg) (w : world) (series : lid -> list Q) : nid -> nid -> option nid := no_self (cpp_next (w_nn w) (cpp_costs c w series)).
Definition timed_b (w : world) : bool := forallb (fun l => negb (is_nil (l_tti (L w l))) && negb (qle (last_tt (L w l)) 0))%bool (seq 0 (w_nl w)).
Lemma timed_b_ok : forall w, timed_b w = true -> timed w.
Proof.
  intros w H l Hl. unfold timed_b in H. rewrite forallb_forall in H. specialize (H l). assert (K : In l (seq 0 (w_nl w))) by (apply in_seq; unfold exists_link in Hl; lia). specialize (H K). apply andb_prop in H. destruct H as [A B].
  split; [intro E; rewrite E in A; discriminate|]. apply negb_true_iff in B. apply qle_false in B. exact B.
Qed.
(** a toll on the first link of the quick route, known from the beginning: both engines take the other one *)
Lemma adj_example : exists w, reachable cfg_det w /\ timed w /\ series_ok cfg_det w (cpp_series cfg_det w (fun _ => [])) /\
  (next_b (route_search_all cfg_det w) 0 3 (Some 2) && nx_b (cnext cfg_det w (cpp_series cfg_det w (fun _ => [])) 0 3) (Some 2))%bool = true.
Proof.
  destruct (play_witness cfg_det ([ node_ "o"; node_ "a"; node_ "b"; node_ "d"; link_ "oa" 0 1 1000; link_ "ad" 1 3 1000; link_ "ob" 0 2 1000; link_ "bd" 2 3 2000; OSetToll 0 fare; OFinalize None; OExec (UntilT 10) ])%list (Some 200%Q)
    (fun w => (timed_b w && Nat.ltb (w_T w) (w_tsize w) && (next_b (route_search_all cfg_det w) 0 3 (Some 2) && nx_b (cnext cfg_det w (cpp_series cfg_det w (fun _ => [])) 0 3) (Some 2)))%bool)) as (w & R & H). { vm_compute. reflexivity. }
  apply andb_prop in H. destruct H as [H H3]. apply andb_prop in H. destruct H as [H1 H2]. exists w. split; [exact R|]. split; [apply timed_b_ok; exact H1|]. split; [split; [apply Nat.ltb_lt; exact H2|reflexivity]|exact H3].
Qed.
(** the toll set after the scenario is finalized: the compiled engine goes on with the series it has, and takes the link with the toll *)
Lemma late_toll_refuted : exists w w1, reachable cfg_det w /\ w_final w = true /\ (forall l, exists_link w l -> l_toll (L w l) = None) /\ apply_op cfg_det (OSetToll 0 fare) w = Ok w1 /\ timed w1 /\ w_T w1 < w_tsize w1 /\
  next_b (route_search_all cfg_det w1) 0 3 (Some 2) = true /\ cnext cfg_det w1 (cpp_series cfg_det w (fun _ => [])) 0 3 = Some 1.
Proof.
  destruct (play_witness cfg_det (fork_net ++ [OExec (UntilT 10)])%list (Some 200%Q)
    (fun w => let w1 := modl 0 (sl_toll fare) w in (w_final w && forallb (fun l => match l_toll (L w l) with None => true | _ => false end) (seq 0 (w_nl w)) && timed_b w1 && Nat.ltb (w_T w1) (w_tsize w1) &&
       next_b (route_search_all cfg_det w1) 0 3 (Some 2) && nx_b (cnext cfg_det w1 (cpp_series cfg_det w (fun _ => [])) 0 3) (Some 1))%bool)) as (w & R & H). { vm_compute. reflexivity. }
  cbv zeta in H. apply andb_prop in H. destruct H as [H H6]. apply andb_prop in H. destruct H as [H H5]. apply andb_prop in H. destruct H as [H H4]. apply andb_prop in H. destruct H as [H H3]. apply andb_prop in H. destruct H as [H1 H2].
  exists w, (modl 0 (sl_toll fare) w). split; [exact R|]. split; [exact H1|]. split.
  { intros l Hl. rewrite forallb_forall in H2. assert (K : In l (seq 0 (w_nl w))) by (apply in_seq; unfold exists_link in Hl; lia). specialize (H2 l K). destruct (l_toll (L w l)); [discriminate|reflexivity]. }
  split; [reflexivity|]. split; [apply timed_b_ok; exact H3|]. split; [apply Nat.ltb_lt; exact H4|]. split; [exact H5|]. unfold nx_b in H6. destruct (cnext _ _ _ _ _) as [x|]; [|discriminate]. apply Nat.eqb_eq in H6. congruence.
Qed.
(** the first timestep, in which the routes are searched *)
Lemma tick_example : exists w w', reachP cfg_det sound_costs w /\ correct_routine cfg_det /\ good_noise cfg_det /\ tick cfg_det w = Ok w' /\ Nat.modulo (w_T w) (route_steps cfg_det) = 0 /\ series_ok cfg_det w (fun _ => []) /\
  (forall l, exists_link w l -> (0 < l_len (L w l))%Q) /\ w_rcnext w' 0 3 = Some 1.
Proof.
  destruct (playP_witness cfg_det sound_costs costs_b fork_net (Some 200%Q) (fun w => (match tick cfg_det w with Ok w' => nx_b (w_rcnext w' 0 3) (Some 1) | Err _ => false end && Nat.eqb (Nat.modulo (w_T w) (route_steps cfg_det)) 0 && Nat.ltb (w_T w) (w_tsize w) &&
    forallb (fun l => (match l_toll (L w l) with None => true | _ => false end) && qlt 0 (l_len (L w l))) (seq 0 (w_nl w)))%bool)) as (w & R & H); [exact costs_b_ok|intros; split; exact Logic.I|vm_compute; reflexivity|].
  apply andb_prop in H. destruct H as [H H4]. apply andb_prop in H. destruct H as [H H3]. apply andb_prop in H. destruct H as [H1 H2]. destruct (tick cfg_det w) as [w'|] eqn:E; [|discriminate]. exists w, w'. split; [exact R|].
  split; [intros n m x nx Ex Hx; exact (shortest_paths_ok _ _ _ _ Ex Hx)|]. split; [unfold good_noise; cbn; lra|]. split; [exact E|]. split; [apply Nat.eqb_eq; exact H2|]. rewrite forallb_forall in H4.
  assert (K : forall l, exists_link w l -> l_toll (L w l) = None /\ (0 < l_len (L w l))%Q).
  { intros l Hl. assert (Hi : In l (seq 0 (w_nl w))) by (apply in_seq; unfold exists_link in Hl; lia). specialize (H4 l Hi). apply andb_prop in H4. destruct H4 as [A B]. apply qlt_iff in B. split; [destruct (l_toll (L w l)); [discriminate|reflexivity]|exact B]. }
  split; [split; [apply Nat.ltb_lt; exact H3|]; intros l Hl; unfold cpp_series; rewrite (proj1 (K l Hl)); reflexivity|]. split; [intros l Hl; exact (proj2 (K l Hl))|]. unfold nx_b in H1. destruct (w_rcnext w' 0 3); [|discriminate]. apply Nat.eqb_eq in H1. congruence.
Qed.
