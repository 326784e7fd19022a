(** * TaxiDemo: witnesses for Props_Taxi. *)
From Coq Require Import Permutation.
From Verif Require Import Base Types Sim Build Reach Steps Spec Demo Rounds SpecTaxi ExecDemo.
Local Open Scope nat_scope.

(** a state [w] of the play, and the state [k] timesteps later *)
Lemma play_ticks : forall c os tm k (P : op -> world -> Prop) (t : world -> world -> bool),
  match play c os (empty_world tm) with
  | Some w => match iterM (tick c) k w with Ok w' => w_final w && t w w' | Err _ => false end
  | None => false end = true ->
  exists w w', reach c w /\ w_final w = true /\ iterM (tick c) k w = Ok w' /\ later c P w w' /\ t w w' = true.
Proof.
  intros c os tm k P t H. destruct (play c os (empty_world tm)) as [w|] eqn:E; [|discriminate].
  destruct (iterM (tick c) k w) as [w'|] eqn:E2; [|discriminate]. apply andb_true_iff in H. destruct H as [Hf H].
  exists w, w'. split; [apply reachable_reach; eapply play_reachable; [|exact E]; constructor|]. split; [exact Hf|]. split; [exact E2|].
  split; [eapply ticks_later; eauto|exact H].
Qed.

(** ** A ring with one taxi *)
Definition ring : list op :=
  [ node_ "O"; node_ "M"; node_ "A"; link_ "OM" 0 1 100; link_ "MA" 1 2 100; link_ "AO" 2 0 100; taxi_ 0 None 0 ].

(** the taxi is sent to nodes 2, 1 and 0, and stops in this order *)
Definition order_test (w w' : world) : bool :=
  (0 <? w_nv w) && match plan w 0, plan w' 0 with [a; b; d], [] => (a =? 2) && (b =? 1) && (d =? 0) | _, _ => false end.
Lemma order_demo : exists w w', reach cfg0 w /\ later cfg0 appending w w' /\ 0 < w_nv w /\ plan w 0 = [2; 1; 0] /\ plan w' 0 = [].
Proof.
  destruct (play_ticks cfg0 (ring ++ [OFinalize None; OAddDest 0 2 None; OAddDest 0 1 None; OAddDest 0 0 None]) (Some 200%Q) 10 appending order_test) as (w & w' & H1 & _ & _ & H2 & H3);
    [vm_compute; reflexivity|].
  exists w, w'. split; [exact H1|]. split; [exact H2|]. unfold order_test in H3. apply andb_true_iff in H3. destruct H3 as [H3 H4]. apply Nat.ltb_lt in H3. split; [exact H3|].
  destruct (plan w 0) as [|a [|b [|d [|]]]]; try discriminate. destruct (plan w' 0); [|discriminate].
  apply andb_true_iff in H4. destruct H4 as [H4 Hd]. apply andb_true_iff in H4. destruct H4 as [Ha Hb]. apply Nat.eqb_eq in Ha, Hb, Hd. subst. split; reflexivity.
Qed.

(** sent to node 2 twice in succession, the taxi leaves the end of link 1 into the start of the same link *)
Definition jump_test (w w' : world) : bool :=
  (0 <? w_nv w) && vstate_eqb (v_state (V w 0)) Run && opt_eqb (v_link (V w 0)) (Some 1) && vstate_eqb (v_state (V w' 0)) Run && opt_eqb (v_link (V w' 0)) (Some 1) &&
  qeq (v_larr (V w' 0)) (now cfg0 w) && negb (l_start (L w 1) =? l_end (L w 1)) && negb (qeq (v_larr (V w 0)) (now cfg0 w)).
Lemma jump_demo : exists w w', reach cfg0 w /\ w_final w = true /\ tick cfg0 w = Ok w' /\ jump_test w w' = true.
Proof.
  destruct (play_ticks cfg0 (ring ++ [OFinalize None; OAddDest 0 2 None; OAddDest 0 2 None; OExec (UntilT 10)]) (Some 200%Q) 1 any_op jump_test) as (w & w' & H1 & H2 & H3 & _ & H4);
    [vm_compute; reflexivity|].
  exists w, w'. split; [exact H1|]. split; [exact H2|]. split; [|exact H4]. cbn [iterM] in H3. destruct (tick cfg0 w) as [x|]; [exact H3|discriminate].
Qed.
Lemma jump_lemma : exists c w w' v l out, (0 < dt c)%Q /\ reach c w /\ w_final w = true /\ tick c w = Ok w' /\ v < w_nv w /\
  v_state (V w v) = Run /\ v_link (V w v) = Some l /\ enters c w w' v out /\ ~ (v_larr (V w v) == now c w)%Q /\ l_start (L w out) <> l_end (L w l).
Proof.
  destruct jump_demo as (w & w' & H1 & H2 & H3 & H4). exists cfg0, w, w', 0, 1, 1. unfold jump_test in H4.
  repeat (apply andb_true_iff in H4; destruct H4 as [H4 ?]).
  split; [reflexivity|]. split; [exact H1|]. split; [exact H2|]. split; [exact H3|]. split; [apply Nat.ltb_lt; exact H4|].
  split; [apply vstate_eqb_eq; assumption|]. split; [apply opt_eqb_eq; assumption|]. split; [|split].
  - split; [apply vstate_eqb_eq; assumption|]. split; [apply opt_eqb_eq; assumption|apply qeq_iff; assumption].
  - apply qeq_false. apply negb_true_iff. assumption.
  - apply Nat.eqb_neq. apply negb_true_iff. assumption.
Qed.

(** ** Requests *)
Definition at_ (nm : string) (x y : Q) : op := OAddNode (mkNodeArgs nm x y [0%Q] 0 None None None).
Definition some_taxis : list op :=
  [ at_ "O" 0 0; at_ "M" 100 0; at_ "A" 100 100; link_ "OM" 0 1 100; link_ "MA" 1 2 100; link_ "AO" 2 0 100;
    taxi_ 0 None 0; taxi_ 1 None 0; taxi_ 2 None 0; OAddRequest 1 2 0; OAddRequest 2 1 0; OAddRequest 0 1 1000; OAddRequest 1 0 0 ].

(** all stages: request 0 is delivered, request 1 is on its way, request 2 is pending, request 3 is assigned *)
Definition stages_test (w : world) : bool :=
  (3 <? w_nr w) &&
  match r_geton (R w 0), r_arrived (R w 0), r_geton (R w 1), r_arrived (R w 1), r_taxi (R w 2), r_taxi (R w 3), r_geton (R w 3) with
  | Some _, Some _, Some _, None, None, Some _, None => mem 2 (w_pending w)
  | _, _, _, _, _, _, _ => false end.
Lemma stages_demo : exists w, reach cfg0 w /\ stages_test w = true.
Proof.
  destruct (play_witness cfg0 (some_taxis ++ [OFinalize None; OAssignTaxi 0 0; OAssignTaxi 1 1; OExec (UntilT 10); OAssignTaxi 2 3]) (Some 200%Q) stages_test) as (w & H1 & H2); [vm_compute; reflexivity|].
  exists w. split; [apply reachable_reach; exact H1|exact H2].
Qed.

(** two requests from one node for the same taxi: the second one replaces the first one, which is never served although the taxi is vacant again *)
Definition lost_test (w : world) : bool :=
  opt_eqb (r_taxi (R w 0)) (Some 0) && (0 <? w_nr w) && is_vacant_b w 0 && (0 <? w_nv w) &&
  match v_dests (V w 0), v_events (V w 0), r_geton (R w 0), r_arrived (R w 1) with [], [], None, Some _ => true | _, _, _, _ => false end.
Lemma lost_demo : exists w, reach cfg0 w /\ lost_test w = true.
Proof.
  destruct (play_witness cfg0 (ring ++ [OAddRequest 2 1 0; OAddRequest 2 0 0; OFinalize None; OAssignTaxi 0 0; OAssignTaxi 0 1; OExec (UntilT 80)]) (Some 200%Q) lost_test) as (w & H1 & H2); [vm_compute; reflexivity|].
  exists w. split; [apply reachable_reach; exact H1|exact H2].
Qed.
Lemma lost_lemma : exists c w v r, reach c w /\ r < w_nr w /\ assigned w r v /\ is_vacant w v /\ plan w v = [] /\ v_events (V w v) = [] /\ r_geton (R w r) = None.
Proof.
  destruct lost_demo as (w & H1 & H4). exists cfg0, w, 0, 0. unfold lost_test in H4.
  repeat (apply andb_true_iff in H4; destruct H4 as [H4 ?]). split; [exact H1|].
  split; [apply Nat.ltb_lt; assumption|]. split; [apply opt_eqb_eq; exact H4|].
  unfold is_vacant_b, is_vacant, plan in *.
  destruct (v_mode (V w 0)); try discriminate. destruct (v_state (V w 0)); try discriminate. destruct (v_dest (V w 0)); try discriminate.
  destruct (v_dests (V w 0)); try discriminate. destruct (v_events (V w 0)); try discriminate. destruct (r_geton (R w 0)); try discriminate.
  repeat split. apply Nat.ltb_lt. assumption.
Qed.

(** ** Rounds: two of three vacant taxis are used for the three due requests, and the request of the future stays pending *)
Definition round_test (h : handler) (k : nat) (w : world) : bool :=
  (List.length (vacant w) =? 3) && (List.length (w_pending w) =? 4) &&
  match round cfg0 h (vacant w) w with Ok w' => (List.length (w_pending w') =? k) && mem 2 (w_pending w') | Err _ => false end.
Lemma round_demo : forall h k, In (h, k) [(HRandom, 1); (HNearest, 1); (HRadius 60, 2); (HRadius (-1), 4)] ->
  exists w w', reach cfg0 w /\ Permutation (vacant w) (vacant w) /\ round cfg0 h (vacant w) w = Ok w' /\ List.length (vacant w) = 3 /\
    List.length (w_pending w) = 4 /\ List.length (w_pending w') = k.
Proof.
  intros h k H.
  assert (W : exists w, reachable cfg0 w /\ round_test h k w = true).
  { apply (play_witness cfg0 (some_taxis ++ [OExec (UntilT 10)]) (Some 200%Q)). repeat (destruct H as [H|H]; [injection H as <- <-; vm_compute; reflexivity|]). destruct H. }
  destruct W as (w & R & T). unfold round_test in T. apply andb_true_iff in T. destruct T as [T T3]. apply andb_true_iff in T. destruct T as [T1 T2].
  destruct (round cfg0 h (vacant w) w) as [w'|] eqn:E; [|discriminate]. apply andb_true_iff in T3. destruct T3 as [T3 _].
  exists w, w'. split; [apply reachable_reach; exact R|]. split; [apply Permutation_refl|]. apply Nat.eqb_eq in T1, T2, T3. auto.
Qed.
