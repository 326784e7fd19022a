(** * CppRouteDemo: a route search of the compiled engine. *)
From Verif Require Import Base Types Sim Build Tac Reach Steps Lists Spec SpecDuo Paths PathsOK Demo MotionDemo EnumRoutesDemo DuoDemo Search CppPaths CppAdj CppTimed Cpp CppInv CppSafe CppSafeDemo CppRoute.
Local Open Scope string_scope.
Local Open Scope nat_scope.

Definition proper_b (o : op) (w : world) : bool :=
  costs_b o w && match o with OAddLink a => qlt 0 (la_len a) && qlt 0 (la_ffs a) | OChangeSpeed _ _ => false | _ => true end.
Lemma proper_b_ok : forall o w, proper_b o w = true -> proper_links o w.
Proof.
  intros o w H. apply andb_prop in H. destruct H as [A B]. split; [apply costs_b_ok; exact A|]. destruct o; auto; [|discriminate]. apply andb_prop in B. destruct B as [B1 B2]. split; apply qlt_iff; assumption.
Qed.
(** the first timestep of the compiled engine *)
Lemma engine_example : exists w w', creachP cfg_det proper_links w /\ correct_routine cfg_det /\ good_noise cfg_det /\ cpp_tick cfg_det w = Ok w' /\ Nat.modulo (w_T w) (route_steps cfg_det) = 0 /\ series_ok cfg_det w (fun _ => []) /\
  w_rcnext w' 0 3 = Some 1.
Proof.
  destruct (cplayP_witness cfg_det proper_links proper_b (map inl fork_net) (Some 200%Q) (fun w => (match cpp_tick cfg_det w with Ok w' => match w_rcnext w' 0 3 with Some a => Nat.eqb a 1 | None => false end | Err _ => false end && Nat.eqb (Nat.modulo (w_T w) (route_steps cfg_det)) 0 && Nat.ltb (w_T w) (w_tsize w) &&
    forallb (fun l => match l_toll (L w l) with None => true | _ => false end) (seq 0 (w_nl w)))%bool)) as (w & R & H); [exact proper_b_ok|vm_compute; reflexivity|].
  apply andb_prop in H. destruct H as [H H4]. apply andb_prop in H. destruct H as [H H3]. apply andb_prop in H. destruct H as [H1 H2]. destruct (cpp_tick cfg_det w) as [w'|] eqn:E; [|discriminate]. exists w, w'. split; [exact R|].
  split; [intros n m x nx Ex Hx; exact (shortest_paths_ok _ _ _ _ Ex Hx)|]. split; [unfold good_noise; cbn; lra|]. split; [exact E|]. split; [apply Nat.eqb_eq; exact H2|]. rewrite forallb_forall in H4.
  split; [split; [apply Nat.ltb_lt; exact H3|]; intros l Hl; unfold cpp_series|].
  - assert (Hi : In l (seq 0 (w_nl w))) by (apply in_seq; unfold exists_link in Hl; lia). specialize (H4 l Hi). destruct (l_toll (L w l)); [discriminate|reflexivity].
  - destruct (w_rcnext w' 0 3); [|discriminate]. apply Nat.eqb_eq in H1. congruence.
Qed.
