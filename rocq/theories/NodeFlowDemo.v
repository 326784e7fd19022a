(** * NodeFlowDemo: scenarios for the conservation of the flow at nodes (property C64). *)
From Verif Require Import Base Types Sim Build Heap Tac Reach Steps Spec Demo MotionDemo Rounds SpecTaxi TaxiDemo SpecFlow.
Local Open Scope string_scope.
Local Open Scope nat_scope.

(** two roads merge at [M] and part into one to [D] and one to a dead end [X]; one vehicle starts at [M] *)
Definition cross_net : list op :=
  [ node_ "A"; node_ "B"; node_ "M"; node_ "D"; node_ "X"; link_ "AM" 0 2 500; link_ "BM" 1 2 500; link_ "MD" 2 3 500; link_ "MX" 2 4 300;
    link_ "DA" 3 0 300; veh_ 0 3 0; veh_ 0 3 1; veh_ 1 3 0; veh_ 2 3 0; veh_ 1 2 0; OAddVehicle (mkVehArgs (Some "lost") 2 (Some 0) (DepStep 0) None SingleTrip None [3] [] true) ].
Definition singles_b (w : world) : bool := forallb (fun v => match v_mode (V w v) with SingleTrip => true | _ => false end) (seq 0 (w_nv w)).
Lemma singles_ok : forall w, singles_b w = true -> single_trips w.
Proof.
  intros w H v Hv. unfold singles_b in H. rewrite forallb_forall in H. assert (K : In v (seq 0 (w_nv w))) by (apply in_seq; lia). apply H in K.
  destruct (v_mode (V w v)); [reflexivity|discriminate].
Qed.

Definition cross_test (w : world) : bool :=
  singles_b w && match n_out (N w 2) with [] => false | _ => true end && match n_out (N w 4) with [] => true | _ => false end &&
  Z.eqb (flow_in w 2) 20 && Z.eqb (started w 2) 2 && Z.eqb (flow_out w 2) 25 && Z.eqb (arrived w 2) 1 &&
  Z.eqb (flow_in w 4) 5 && Z.eqb (started w 4) 0 && Z.eqb (flow_out w 4) 0 && Z.eqb (arrived w 4) 0 && Z.eqb (gave_up (fun _ => 4) w 4) 1.
Lemma cross_example : exists c w, reach c w /\ c_deltan c = 5%Z /\ single_trips w /\ n_out (N w 2) <> [] /\ n_out (N w 4) = [] /\
  (flow_in w 2 = 20 /\ started w 2 = 2 /\ flow_out w 2 = 25 /\ arrived w 2 = 1)%Z /\
  (flow_in w 4 = 5 /\ started w 4 = 0 /\ flow_out w 4 = 0 /\ arrived w 4 = 0 /\ gave_up (fun _ => 4%nat) w 4 = 1)%Z.
Proof.
  destruct (play_witness cfg_det (cross_net ++ [OExec (UntilT 50)]) (Some 400%Q) cross_test) as (w & H1 & H2); [vm_compute; reflexivity|].
  exists cfg_det, w. split; [apply reachable_reach; exact H1|]. split; [reflexivity|]. unfold cross_test in H2.
  repeat (apply andb_true_iff in H2; destruct H2 as [H2 ?]). split; [apply singles_ok; exact H2|].
  split; [destruct (n_out (N w 2)); discriminate|]. split; [destruct (n_out (N w 4)); [reflexivity|discriminate]|].
  repeat split; apply Z.eqb_eq; assumption.
Qed.

(** a vehicle from [A] to [D]: what passes [M] *)
Definition pass_net : list op := [ node_ "A"; node_ "M"; node_ "D"; link_ "AM" 0 1 500; link_ "MD" 1 2 500; veh_ 0 2 0; veh_ 0 2 0 ].
Definition stranger_b (w : world) (n : nid) : bool :=
  forallb (fun v => negb (Nat.eqb (v_orig (V w v)) n) && match v_dest (V w v) with Some m => negb (Nat.eqb m n) | None => true end) (seq 0 (w_nv w)).
Lemma stranger_ok : forall w n, stranger_b w n = true -> forall v, v < w_nv w -> v_orig (V w v) <> n /\ v_dest (V w v) <> Some n.
Proof.
  intros w n H v Hv. unfold stranger_b in H. rewrite forallb_forall in H. assert (K : In v (seq 0 (w_nv w))) by (apply in_seq; lia). apply H in K.
  apply andb_true_iff in K. destruct K as [K1 K2]. apply negb_true_iff, Nat.eqb_neq in K1. split; [exact K1|].
  intro E. rewrite E, Nat.eqb_refl in K2. discriminate.
Qed.
Definition some_out (w : world) (n : nid) : bool := match n_out (N w n) with [] => false | _ => true end.
Lemma some_out_ok : forall w n, some_out w n = true -> n_out (N w n) <> [].
Proof. intros w n H K. unfold some_out in H. rewrite K in H. discriminate. Qed.
Lemma transit_example : exists c w n, reach c w /\ single_trips w /\ n_out (N w n) <> [] /\
  (forall v, v < w_nv w -> v_orig (V w v) <> n /\ v_dest (V w v) <> Some n) /\ w_nv w = 2 /\ flow_in w n = 10%Z.
Proof.
  destruct (play_witness cfg_det (pass_net ++ [OExec (UntilT 45)]) (Some 400%Q)
    (fun w => singles_b w && some_out w 1 && stranger_b w 1 && Nat.eqb (w_nv w) 2 && Z.eqb (flow_in w 1) 10)) as (w & H1 & H2); [vm_compute; reflexivity|].
  exists cfg_det, w, 1. repeat (apply andb_true_iff in H2; destruct H2 as [H2 ?]).
  split; [apply reachable_reach; exact H1|]. split; [apply singles_ok; assumption|]. split; [apply some_out_ok; assumption|].
  split; [apply stranger_ok; assumption|]. split; [apply Nat.eqb_eq; assumption|apply Z.eqb_eq; assumption].
Qed.

(** a taxi sent to node 2 twice in succession leaves the end of link 1 into the start of the same link *)
Lemma taxi_refuted : exists c w n, reach c w /\ n_out (N w n) <> [] /\
  (forall v, v < w_nv w -> v_orig (V w v) <> n /\ v_dest (V w v) <> Some n) /\ flow_in w n = 5%Z /\ flow_out w n = 10%Z.
Proof.
  destruct (play_witness cfg0 (ring ++ [OFinalize None; OAddDest 0 2 None; OAddDest 0 2 None; OExec (UntilT 20)]) (Some 200%Q)
    (fun w => some_out w 1 && stranger_b w 1 && Z.eqb (flow_in w 1) 5 && Z.eqb (flow_out w 1) 10)) as (w & H1 & H2); [vm_compute; reflexivity|].
  exists cfg0, w, 1. repeat (apply andb_true_iff in H2; destruct H2 as [H2 ?]).
  split; [apply reachable_reach; exact H1|]. split; [apply some_out_ok; assumption|].
  split; [apply stranger_ok; assumption|]. split; apply Z.eqb_eq; assumption.
Qed.
