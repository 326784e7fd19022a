(** * Props_NodeFlow: conservation of the flow at nodes (C64). *)
From Verif Require Import Base Types Sim Build Steps Reach Spec Demo SpecFlow NodeFlow NodeFlowDemo.
Local Open Scope nat_scope.

(** C64: at every node, what came in or started is what went out, arrived or gave up; vehicles give up at dead ends only *)
Theorem C64_node_balance : forall c w, reach c w -> single_trips w -> exists pl, at_dead_ends pl w /\ forall n, conserved c pl w n.
Proof. exact conserved_lemma. Qed.
Print Assumptions C64_node_balance.

(** C64: at a node with outgoing links nobody gives up *)
Theorem C64_through : forall c w n, reach c w -> single_trips w -> n_out (N w n) <> [] ->
  (flow_in w n + c_deltan c * started w n = flow_out w n + c_deltan c * arrived w n)%Z.
Proof. exact through_lemma. Qed.
Print Assumptions C64_through.

(** a node where traffic merges, parts, starts and arrives, and a dead end where a vehicle gives up *)
Example C64_example : exists c w, reach c w /\ c_deltan c = 5%Z /\ single_trips w /\ n_out (N w 2) <> [] /\ n_out (N w 4) = [] /\
  (flow_in w 2 = 20 /\ started w 2 = 2 /\ flow_out w 2 = 25 /\ arrived w 2 = 1)%Z /\
  (flow_in w 4 = 5 /\ started w 4 = 0 /\ flow_out w 4 = 0 /\ arrived w 4 = 0 /\ gave_up (fun _ => 4%nat) w 4 = 1)%Z.
Proof. exact cross_example. Qed.

(** C64: at a node where no trip starts or ends, what came in went out *)
Theorem C64_transit : forall c w n, reach c w -> single_trips w -> n_out (N w n) <> [] ->
  (forall v, v < w_nv w -> v_orig (V w v) <> n /\ v_dest (V w v) <> Some n) -> flow_in w n = flow_out w n.
Proof. exact transit_lemma. Qed.
Print Assumptions C64_transit.

(** two vehicles pass a node *)
Example C64_transit_example : exists c w n, reach c w /\ single_trips w /\ n_out (N w n) <> [] /\
  (forall v, v < w_nv w -> v_orig (V w v) <> n /\ v_dest (V w v) <> Some n) /\ w_nv w = 2 /\ flow_in w n = 10%Z.
Proof. exact transit_example. Qed.

(** C64 fails for taxis: one sent to the same node twice in succession is put back to the start of its link *)
Theorem C64_taxi_refuted : exists c w n, reach c w /\ n_out (N w n) <> [] /\
  (forall v, v < w_nv w -> v_orig (V w v) <> n /\ v_dest (V w v) <> Some n) /\ flow_in w n = 5%Z /\ flow_out w n = 10%Z.
Proof. exact taxi_refuted. Qed.
Print Assumptions C64_taxi_refuted.
