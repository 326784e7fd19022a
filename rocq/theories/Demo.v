(** * Demo: concrete scenarios, used to show that the hypotheses of the theorems are met and
    as witnesses of violated properties.  Everything here is computed with [vm_compute]. *)
From Verif Require Import Base Types Sim Build Tac Reach Steps Paths.
Local Open Scope string_scope.
Local Open Scope nat_scope.

(** the default arguments of World() (/repo/uxsim/uxsim.py 1677), with a fixed generator *)
Definition cfg0 : cfg :=
  mkCfg 5 1 600 (1#2) (1#100) HomogeneousDUO false 1 false false 1 false false 120
        (fun k => Nat.modulo (7 * k + 3) 11) (fun k => (1#2)%Q) shortest_paths.
(** hard_deterministic_mode=True *)
Definition cfg_det : cfg :=
  mkCfg 5 1 600 (1#2) (1#100) HomogeneousDUO false 1 false false 1 false true 120
        (fun k => Nat.modulo (7 * k + 3) 11) (fun k => (1#2)%Q) shortest_paths.
(** deltan=1 *)
Definition cfg1 : cfg :=
  mkCfg 1 1 600 (1#2) (1#100) HomogeneousDUO false 1 false false 1 false true 120
        (fun k => Nat.modulo (7 * k + 3) 11) (fun k => (1#2)%Q) shortest_paths.

Definition node_ (s : string) : op := OAddNode (mkNodeArgs s 0 0 [0%Q] 0 None None None).
Definition node_sig (s : string) (g : list Q) : op := OAddNode (mkNodeArgs s 0 0 g 0 None None None).
Definition link_ (s : string) (a b : nat) (len : Q) : op :=
  OAddLink (mkLinkArgs (Some s) a b len 20 (2#10) None 1 1 [0] None None None None).
Definition link_lanes (s : string) (a b : nat) (len : Q) (m : nat) : op :=
  OAddLink (mkLinkArgs (Some s) a b len 20 (2#10) None m 1 [0] None None None None).
Definition veh_ (o d : nat) (t : Z) : op :=
  OAddVehicle (mkVehArgs None o (Some d) (DepStep t) None SingleTrip None [] [] true).
Definition taxi_ (o : nat) (d : option nat) (t : Z) : op :=
  OAddVehicle (mkVehArgs None o d (DepStep t) None Taxi None [] [] true).

(** decidable version of [op_ok] for the operations used here *)
Definition op_okb (o : op) (w : world) : bool :=
  match o with
  | OAddNode _ | OAddLink _ => negb (w_final w)
  | OAddVehicle a => true
  | OAddDemand o d _ _ _ _ => true
  | OFinalize _ => negb (w_final w)
  | OExec _ => true
  | OAddDest v d _ => (v <? w_nv w) && (d <? w_nn w)
  | OEnforceRoute v _ _ => v <? w_nv w
  | OSetPrefer v ls | OSetAvoid v ls => (v <? w_nv w) && forallb (fun l => l <? w_nl w) ls
  | OOverrideSignal n _ _ _ _ => n <? w_nn w
  | OChangeSpeed l _ | OChangeJam l _ | OSetCapIn l _ | OSetCapOut l _ | OSetToll l _ => l <? w_nl w
  | OAddRequest _ _ _ => true
  | OAssignTaxi v r => v <? w_nv w
  end.

Lemma op_okb_ok : forall o w, op_okb o w = true -> op_ok o w.
Proof.
  intros o w H; destruct o; cbn [op_okb op_ok] in *; auto; try (apply negb_true_iff; auto; fail);
  try (apply Nat.ltb_lt; auto; fail);
  apply andb_true_iff in H; destruct H as [H1 H2]; apply Nat.ltb_lt in H1; split; auto;
  try (apply Nat.ltb_lt; auto; fail);
  apply Forall_forall; rewrite forallb_forall in H2; intros x Hx; apply Nat.ltb_lt; auto.
Qed.

(** run a list of operations, checking [op_ok] *)
Fixpoint play (c : cfg) (os : list op) (w : world) : option world :=
  match os with
  | [] => Some w
  | o :: tl => if op_okb o w
               then match apply_op c o w with Ok w1 => play c tl w1 | Err _ => None end
               else None
  end.

Lemma play_reachable : forall c os w w', reachable c w -> play c os w = Some w' -> reachable c w'.
Proof.
  intros c os; induction os as [|o os IH]; intros w w' R H; cbn in H.
  - injection H as <-; auto.
  - destruct (op_okb o w) eqn:E1; [|discriminate].
    destruct (apply_op c o w) as [w1|] eqn:E2; [|discriminate].
    eapply IH; [|exact H]. eapply reach_op; eauto. apply op_okb_ok; auto.
Qed.

(** Witness scheme: a state obtained by playing [os] satisfies the boolean test [t]. *)
Lemma play_witness : forall c os tm (t : world -> bool),
  match play c os (empty_world tm) with Some w => t w | None => false end = true ->
  exists w, reachable c w /\ t w = true.
Proof.
  intros c os tm t H. destruct (play c os (empty_world tm)) as [w|] eqn:E; [|discriminate].
  exists w. split; auto. eapply play_reachable; [|exact E]. constructor.
Qed.

(** A small network: two origins merge at a signalised node, then a link to the destination. *)
Definition merge_net : list op :=
  [ node_ "orig1"; node_ "orig2"; node_sig "merge" [10%Q; 10%Q]; node_ "dest";
    OAddLink (mkLinkArgs (Some "link1") 0 2 100 20 (2#10) None 1 1 [0] None None None None);
    OAddLink (mkLinkArgs (Some "link2") 1 2 100 20 (2#10) None 1 1 [1] None None None None);
    link_ "link3" 2 3 100;
    OAddDemand 0 3 0 60 (45#100) (-1)%Q; OAddDemand 1 3 10 60 (6#10) (-1)%Q ].

Definition count_state (s : vstate) (w : world) : nat :=
  List.length (filter (fun v => vstate_eqb (v_state (V w v)) s) (seq 0 (w_nv w))).

(** in the middle of the run: vehicles at home, waiting, running and arrived *)
Example merge_mid : exists w, reachable cfg0 w /\
  (negb (count_state Wait w =? 0) && negb (count_state Run w =? 0) && negb (count_state End_ w =? 0) &&
   negb (count_state Home w =? 0)) = true.
Proof. apply (play_witness cfg0 (merge_net ++ [OExec (UntilT 40)]) (Some 200%Q)). vm_compute. reflexivity. Qed.

(** ** Witnesses for states reached by restricted operations *)
Fixpoint playP (c : cfg) (Pb : op -> world -> bool) (os : list op) (w : world) : option world :=
  match os with
  | [] => Some w
  | o :: tl => if op_okb o w && Pb o w
               then match apply_op c o w with Ok w1 => playP c Pb tl w1 | Err _ => None end
               else None
  end.

Lemma ticks_later : forall c (P : op -> world -> Prop) k w w', w_final w = true -> iterM (tick c) k w = Ok w' -> later c P w w'.
Proof.
  intros c P k; induction k; intros w w' F H; cbn in H.
  - injection H as <-; constructor.
  - apply bind_ok in H. destruct H as (a & E & H). eapply later_trans.
    + eapply lt_step; [apply lt_refl|eapply st_tick; eauto].
    + apply IHk; auto. rewrite (tick_final _ _ _ E); auto.
Qed.
Lemma exec_until_later : forall c (P : op -> world -> Prop) z w r w', w_final w = true ->
  exec_until c z w = Ok (r, w') -> later c P w w'.
Proof.
  intros c P z w r w' F H. unfold exec_until in H. cbn zeta in H.
  destruct (_ && _); [injection H as _ <-; constructor|].
  destruct (Z.ltb _ _); [discriminate|].
  apply bind_ok in H. destruct H as (w1 & E & H). injection H as _ <-.
  eapply lt_step; [eapply ticks_later; eauto|apply st_time].
Qed.
Lemma exec_later : forall c (P : op -> world -> Prop) a w r w', (forall w, P (OFinalize None) w) ->
  exec_simulation c a w = Ok (r, w') -> later c P w w'.
Proof.
  intros c P a w r w' HP E. unfold exec_simulation in E. apply bind_ok in E. destruct E as (w2 & E2 & E).
  destruct (w_final w) eqn:Ef.
  - injection E2 as <-. eapply exec_until_later; eauto.
  - eapply later_trans; [|eapply exec_until_later; [|exact E]; eapply finalize_final; eauto].
    eapply lt_step; [apply lt_refl|]. eapply st_op with (o := OFinalize None); eauto. congruence.
Qed.
Lemma playP_later : forall c (P : op -> world -> Prop) Pb os w w', (forall o w, Pb o w = true -> P o w) -> (forall w, P (OFinalize None) w) ->
  playP c Pb os w = Some w' -> later c P w w'.
Proof.
  intros c P Pb os; induction os as [|o os IH]; intros w w' HP HF H; cbn [playP] in H.
  - injection H as <-; constructor.
  - destruct (op_okb o w && Pb o w) eqn:E1; [|discriminate]. apply andb_true_iff in E1. destruct E1 as [Ea Eb].
    destruct (apply_op c o w) as [w1|] eqn:E2; [|discriminate].
    eapply later_trans; [|eapply IH; eauto].
    destruct o; try (eapply lt_step; [apply lt_refl|]; eapply st_op; [apply op_okb_ok; exact Ea|apply HP; exact Eb|congruence|exact E2]).
    cbn in E2. apply bind_ok in E2. destruct E2 as ([r w2] & E & E2). injection E2 as <-. eapply exec_later; eauto.
Qed.
Lemma playP_witness : forall c (P : op -> world -> Prop) Pb os tm (t : world -> bool),
  (forall o w, Pb o w = true -> P o w) -> (forall w, P (OFinalize None) w) ->
  match playP c Pb os (empty_world tm) with Some w => t w | None => false end = true ->
  exists w, reachP c P w /\ t w = true.
Proof.
  intros c P Pb os tm t HP HF H. destruct (playP c Pb os (empty_world tm)) as [w|] eqn:E; [|discriminate].
  exists w. split; auto. exists tm. eapply playP_later; eauto.
Qed.
(** equality of lists of numbers *)
Fixpoint nlist_eqb (a b : list nat) : bool :=
  match a, b with
  | [], [] => true
  | x :: a, y :: b => Nat.eqb x y && nlist_eqb a b
  | _, _ => false
  end.
