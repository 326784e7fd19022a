(** * SafeDemo: scenarios for the errors of a timestep. *)
From Verif Require Import Base Types Sim Build Tac Reach Steps Spec SpecDuo SpecSafe Paths Demo.
Local Open Scope string_scope.
Local Open Scope nat_scope.

Definition cfg_het : cfg :=
  mkCfg 5 1 10 (1#2) (1#100) HeterogeneousDUO false 1 false false 1 false true 120
        (fun k => Nat.modulo (7 * k + 3) 11) (fun k => (1#2)%Q) shortest_paths.
Lemma sane0 : sane cfg0.
Proof. unfold sane, good_weights. cbn. split; [reflexivity|]. split; [vm_compute; discriminate|]. split; [discriminate|]. repeat split; vm_compute; discriminate. Qed.

(** a -> b -> c, and b -> d *)
Definition line : list op := [ node_ "a"; node_ "b"; node_ "c"; node_ "d"; link_ "ab" 0 1 50; link_ "bc" 1 2 50; link_ "bd" 1 3 50 ].
(** the error of the timestep after [os] *)
Definition raises (c : cfg) (os : list op) : option exn :=
  match play c os (empty_world (Some 200%Q)) with
  | Some w => if w_final w then match tick c w with Err e => Some e | Ok _ => None end else None
  | None => None
  end.
Lemma raises_ok : forall c os e, raises c os = Some e -> exists w, reachable c w /\ w_final w = true /\ tick c w = Err e.
Proof.
  intros c os e H. unfold raises in H. destruct (play c os (empty_world (Some 200%Q))) as [w|] eqn:E; [|discriminate].
  exists w. split; [eapply play_reachable; [|exact E]; constructor|]. destruct (w_final w); [|discriminate]. split; [reflexivity|].
  destruct (tick c w) as [|e']; [discriminate|]. congruence.
Qed.

(** decidable version of [well_formed] *)
Definition wf_b (o : op) (w : world) : bool :=
  match o with
  | OAddLink a => Nat.eqb (w_nv w) 0 && qlt 0 (la_ffs a) && qle 0 (la_prio a)
  | OChangeSpeed _ q => qlt 0 q
  | OAddVehicle a => match va_mode a, va_dest a, va_pref a with SingleTrip, Some _, None => true | _, _, _ => false end
  | OEnforceRoute v r _ => match v_state (V w v) with Home => true | _ => false end &&
      match last_opt r with Some l => opt_eqb (v_dest (V w v)) (Some (l_end (L w l))) | None => false end
  | OOverrideSignal n sig _ _ reset => (0 <? List.length sig) && (reset || (n_phase (N w n) <? List.length sig))
  | _ => true
  end.
Lemma last_opt_split : forall (r : list nat) l, last_opt r = Some l -> exists r', r = (r' ++ [l])%list.
Proof.
  induction r as [|x r IH]; intros l H; [discriminate|]. destruct r as [|y r]; [injection H as <-; exists []; reflexivity|].
  destruct (IH l H) as (r' & E). exists (x :: r'). cbn. rewrite E. reflexivity.
Qed.
Lemma wf_b_ok : forall o w, wf_b o w = true -> well_formed o w.
Proof.
  intros o w H. destruct o; cbn [well_formed wf_b] in *; auto.
  - apply andb_true_iff in H. destruct H as [H H3]. apply andb_true_iff in H. destruct H as [H1 H2].
    apply Nat.eqb_eq in H1. apply qlt_iff in H2. apply qle_iff in H3. auto.
  - destruct (va_mode a); [|discriminate]. destruct (va_dest a); [|discriminate]. destruct (va_pref a); [discriminate|]. split; [reflexivity|]. split; [discriminate|exact Logic.I].
  - apply andb_true_iff in H. destruct H as [H1 H2]. split; [left; destruct (v_state (V w v)); try discriminate; reflexivity|].
    destruct (last_opt route) as [l|] eqn:E; [|discriminate]. destruct (last_opt_split _ _ E) as (r' & ->). exists l, r'. split; [reflexivity|].
    apply opt_eqb_eq. exact H2.
  - apply andb_true_iff in H. destruct H as [H1 H2]. apply Nat.ltb_lt in H1. split; [exact H1|]. apply orb_true_iff in H2.
    destruct H2 as [H2|H2]; [left; exact H2|right; apply Nat.ltb_lt; exact H2].
  - apply qlt_iff. exact H.
Qed.

(** a well-formed scenario in which vehicles wait, run and have arrived *)
Lemma wf_example : exists w, reachP cfg0 well_formed w /\
  (w_final w && negb (count_state Wait w =? 0) && negb (count_state Run w =? 0) && negb (count_state End_ w =? 0) && (0 <? w_T w))%bool = true.
Proof.
  apply (playP_witness cfg0 well_formed wf_b (merge_net ++ [OExec (UntilT 40)]) (Some 200%Q));
    [apply wf_b_ok|intro w; exact Logic.I|vm_compute; reflexivity].
Qed.
(** the two documented errors in well-formed scenarios *)
Lemma no_link_example : exists w, reachP cfg_det well_formed w /\
  (w_final w && match tick cfg_det w with Err ValueError => true | _ => false end)%bool = true.
Proof.
  apply (playP_witness cfg_det well_formed wf_b (line ++ [veh_ 0 2 0; OSetAvoid 0 [1; 2]; OExec (UntilT 0)]) (Some 200%Q));
    [apply wf_b_ok|intro w; exact Logic.I|vm_compute; reflexivity].
Qed.
Lemma jump_example : exists w, reachP cfg_det well_formed w /\
  (w_final w && match tick cfg_det w with Err ValueError => true | _ => false end)%bool = true.
Proof.
  apply (playP_witness cfg_det well_formed wf_b (line ++ [veh_ 0 2 0; OEnforceRoute 0 [0; 0; 1] false; OExec (UntilT 0)]) (Some 200%Q));
    [apply wf_b_ok|intro w; exact Logic.I|vm_compute; reflexivity].
Qed.

(** scenarios that are not well-formed *)
Lemma late_link_example : exists w, reachable cfg_het w /\ w_final w = true /\ tick cfg_het w = Err KeyError.
Proof. apply (raises_ok cfg_het (line ++ [veh_ 0 2 0; link_ "bc2" 1 2 50; OFinalize None; OExec (UntilT 0)])). vm_compute. reflexivity. Qed.
Lemma short_route_example : exists w, reachable cfg0 w /\ w_final w = true /\ tick cfg0 w = Err IndexError.
Proof. apply (raises_ok cfg0 (line ++ [veh_ 0 2 0; OEnforceRoute 0 [0] false; OExec (UntilT 0)])). vm_compute. reflexivity. Qed.
Lemma fewer_phases_example : exists w, reachable cfg0 w /\ w_final w = true /\ tick cfg0 w = Err IndexError.
Proof. apply (raises_ok cfg0 [node_sig "s" [10%Q; 10%Q]; OExec (UntilT 15); OOverrideSignal 0 [10%Q] None 0 false]). vm_compute. reflexivity. Qed.
Lemma zero_speed_example : exists w, reachable cfg0 w /\ w_final w = true /\ tick cfg0 w = Err ZeroDivisionError.
Proof. apply (raises_ok cfg0 (line ++ [veh_ 0 2 0; OExec (UntilT 5); OChangeSpeed 0 0])). vm_compute. reflexivity. Qed.
Lemma taxi_same_example : exists w, reachable cfg0 w /\ w_final w = true /\ tick cfg0 w = Err AttributeError.
Proof. apply (raises_ok cfg0 (line ++ [taxi_ 0 (Some 1) 0; OAddDest 0 1 None; OExec (UntilT 5)])). vm_compute. reflexivity. Qed.
Lemma vacant_taxi_example : exists w, reachable cfg_het w /\ w_final w = true /\ tick cfg_het w = Err AttributeError.
Proof. apply (raises_ok cfg_het (line ++ [taxi_ 0 None 0; OFinalize None])). vm_compute. reflexivity. Qed.
