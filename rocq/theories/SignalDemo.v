(** * SignalDemo: concrete signals, as witnesses. *)
From Verif Require Import Base Types Sim Build Reach Steps Spec Signal Demo.
Local Open Scope nat_scope.

Definition sig_net : list op := merge_net ++ [OExec (UntilT 100)].
(** green times of 10 s and 10 s, timestep 5 s: each phase is shown for 3 timesteps (15 s) *)
Lemma green_too_long : exists w, reachable cfg0 w /\
  ((w_T w =? 21) && nlist_eqb (firstn 9 (n_siglog (N w 2))) [0;0;0;1;1;1;0;0;0])%bool = true.
Proof. apply (play_witness cfg0 sig_net (Some 200%Q)). vm_compute. reflexivity. Qed.

(** override_signal with one phase less, called with its default reset=False in phase 1: the phase is no
    index of the new list, and the next timestep raises IndexError *)
Lemma override_breaks : exists w, reachable cfg0 w /\
  ((2 <? w_nn w) && (List.length (n_signal (N w 2)) <=? n_phase (N w 2)) && w_final w &&
   match exec_simulation cfg0 (UntilT 30) w with Err IndexError => true | _ => false end)%bool = true.
Proof.
  apply (play_witness cfg0 (merge_net ++ [OExec (UntilT 20); OOverrideSignal 2 [15%Q] None 0 false]) (Some 200%Q)).
  vm_compute. reflexivity.
Qed.

Lemma signal_running : exists w, reachable cfg0 w /\
  ((2 <? w_nn w) && (1 <? List.length (n_signal (N w 2))) && (n_phase (N w 2) =? 1) && qlt 0 (n_sigt (N w 2)) && (w_T w =? 6))%bool = true.
Proof. apply (play_witness cfg0 (merge_net ++ [OExec (UntilT 25)]) (Some 200%Q)). vm_compute. reflexivity. Qed.

Definition phase_safeb (o : op) (w : world) : bool :=
  match o with
  | OOverrideSignal n sig _ _ reset => (0 <? List.length sig) && (reset || (n_phase (N w n) <? List.length sig))
  | _ => true
  end.
Lemma phase_safeb_ok : forall o w, phase_safeb o w = true -> phase_safe o w.
Proof.
  intros [] w H; cbn [phase_safeb phase_safe] in *; auto. apply andb_true_iff in H. destruct H as [H1 H2].
  apply Nat.ltb_lt in H1. split; auto. apply orb_true_iff in H2. destruct H2 as [H2|H2]; auto.
  apply Nat.ltb_lt in H2; auto.
Qed.
(** a three-phase signal replaces the two-phase one, without reset, in phase 1; then a one-phase one with reset *)
Lemma phases_running : exists w, reachP cfg0 phase_safe w /\
  ((2 <? w_nn w) && (List.length (n_signal (N w 2)) =? 1) && (n_phase (N w 2) =? 0) &&
    nlist_eqb (n_siglog (N w 2)) [0;0;0;1;1;1;1;2;2;0;0;0;0;0])%bool = true.
Proof.
  apply (playP_witness cfg0 phase_safe phase_safeb (merge_net ++ [OExec (UntilT 20); OOverrideSignal 2 [15%Q; 15%Q; 5%Q] None 0 false;
     OExec (UntilT 50); OOverrideSignal 2 [20%Q] None 0 true; OExec (UntilT 65)]) (Some 200%Q) _ phase_safeb_ok (fun _ => I)).
  vm_compute. reflexivity.
Qed.

Lemma offset_example : exists nd, new_node cfg0 (mkNodeArgs "A"%string 0 0 [30%Q; 20%Q] 15 None None None) = Ok nd /\
  n_phase nd = 1 /\ n_sigt nd = 5%Q.
Proof. vm_compute. eexists; split; [reflexivity|]. auto. Qed.
(** the offset exceeds the cycle: the node starts [15 - 25] seconds into phase 0 *)
Lemma offset_negative : exists nd, new_node cfg0 (mkNodeArgs "A"%string 0 0 [10%Q; 5%Q] 25 None None None) = Ok nd /\
  n_phase nd = 0 /\ n_sigt nd = (-10)%Q.
Proof. vm_compute. eexists; split; [reflexivity|]. auto. Qed.
Lemma zero_cycle_loops : forall fuel, signal_start fuel [0%Q; 0%Q] 0 0 = Err Nontermination.
Proof.
  assert (H : forall fuel, signal_start fuel [0%Q; 0%Q] 0 0 = Err Nontermination /\
                           signal_start fuel [0%Q; 0%Q] 1 0 = Err Nontermination).
  { intros fuel; induction fuel as [|f [IH1 IH2]]; [split; reflexivity|]. split; [exact IH2|exact IH1]. }
  intros fuel. apply H.
Qed.
