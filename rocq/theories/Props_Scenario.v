(** * Props_Scenario: saving and loading of scenarios (C29). *)
From Verif Require Import Base Types Sim Build Reach Steps Spec Scenario SpecScenario ScenarioOK Demo ScenarioDemo.
Local Open Scope string_scope.
Local Open Scope nat_scope.

(** C29: a World built from nodes and links in any order and then demand calls, saved and loaded, has the same nodes, links, vehicles and record of calls; only capacity_in_remain of the links can differ. (The calls have to be recorded in the order in which they were made.) *)
Theorem C29_roundtrip : forall c tm nets ds w i, Forall adds_network nets ->
  foldM (perform c) (nets ++ map ADemand ds)%list (empty_world tm, []) = Ok (w, i) -> calls_of i = ds ->
  exists w', load c (save (w, i)) (empty_world tm, []) = Ok (w', i) /\ recreated c w w'.
Proof. exact roundtrip_lemma. Qed.
Print Assumptions C29_roundtrip.

(** C29: that order is kept when a single demand function is used *)
Theorem C29_one_function : forall c tm nets ds w i, Forall adds_network nets -> one_kind ds ->
  foldM (perform c) (nets ++ map ADemand ds)%list (empty_world tm, []) = Ok (w, i) -> calls_of i = ds.
Proof. exact one_kind_lemma. Qed.
Print Assumptions C29_one_function.

(** C29: with nodes first and a given capacity_in for every link the loaded World is the same one, so that every further operation and simulation gives the same *)
Theorem C29_identical : forall c tm ns ls ds w i, Forall adds_node ns -> Forall adds_link_cin ls ->
  foldM (perform c) (ns ++ ls ++ map ADemand ds)%list (empty_world tm, []) = Ok (w, i) -> calls_of i = ds ->
  load c (save (w, i)) (empty_world tm, []) = Ok (w, i).
Proof. exact identical_lemma. Qed.
Print Assumptions C29_identical.

(** the hypotheses hold for a network with signals, offsets, node capacities, lanes, tolls, and 20 or more vehicles *)
Example C29_example : exists s, Forall adds_node (firstn 3 (road (Some 1%Q))) /\ Forall adds_link_cin (skipn 3 (road (Some 1%Q))) /\ one_kind trips /\
  foldM (perform cfg0) (firstn 3 (road (Some 1%Q)) ++ skipn 3 (road (Some 1%Q)) ++ map ADemand trips)%list (empty_world (Some 400%Q), []) = Ok s /\
  calls_of (snd s) = trips /\ 20 <= w_nv (fst s).
Proof. exact road_demo. Qed.

(** the same without capacity_in *)
Example C29_example_plain : exists s s', Forall adds_network (road None) /\
  foldM (perform cfg0) (road None ++ map ADemand trips)%list (empty_world (Some 400%Q), []) = Ok s /\ load cfg0 (save s) (empty_world (Some 400%Q), []) = Ok s' /\
  (20 <=? w_nv (fst s')) && (w_nv (fst s') =? w_nv (fst s)) = true.
Proof. exact road_plain_demo. Qed.

(** C29 fails without a given capacity_in: the loaded link starts with DELTAT times the remaining capacity, and a vehicle enters it earlier *)
Theorem C29_capacity_in_refuted : exists c tm nets ds w i w', Forall adds_network nets /\ one_kind ds /\
  foldM (perform c) (nets ++ map ADemand ds)%list (empty_world tm, []) = Ok (w, i) /\ load c (save (w, i)) (empty_world tm, []) = Ok (w', i) /\
  exists a w1 w1' v, calls c [OExec a] w = Ok w1 /\ calls c [OExec a] w' = Ok w1' /\ v < w_nv w /\ ~ (v_larr (V w1' v) == v_larr (V w1 v))%Q.
Proof. exact slow_lemma. Qed.
Print Assumptions C29_capacity_in_refuted.

(** C29 fails for addVehicle: such vehicles are not saved *)
Theorem C29_single_vehicles_refuted : exists c tm acts s s', foldM (perform c) acts (empty_world tm, []) = Ok s /\ load c (save s) (empty_world tm, []) = Ok s' /\
  w_nv (fst s) = 1 /\ w_nv (fst s') = 0.
Proof. exact single_vehicles_lemma. Qed.
Print Assumptions C29_single_vehicles_refuted.

(** C29 fails for interleaved calls of two demand functions: they are repeated grouped by function, and vehicles change places *)
Theorem C29_mixed_calls_refuted : exists c tm acts s s', foldM (perform c) acts (empty_world tm, []) = Ok s /\ load c (save s) (empty_world tm, []) = Ok s' /\
  w_nv (fst s') = w_nv (fst s) /\ 1 < w_nv (fst s) /\ v_orig (V (fst s') 1) <> v_orig (V (fst s) 1).
Proof. exact mixed_lemma. Qed.
Print Assumptions C29_mixed_calls_refuted.

(** C29 fails after override_signal with an offset: the loaded signal starts in another phase *)
Theorem C29_signal_refuted : exists c tm acts s s', foldM (perform c) acts (empty_world tm, []) = Ok s /\ load c (save s) (empty_world tm, []) = Ok s' /\
  1 < w_nn (fst s) /\ n_phase (N (fst s) 1) = 0 /\ n_phase (N (fst s') 1) = 1.
Proof. exact signal_lemma. Qed.
Print Assumptions C29_signal_refuted.

(** C29 fails after change_jam_density of a link given by jam_density_per_lane: the scenario cannot be loaded *)
Theorem C29_jam_density_refuted : exists c tm acts s e, foldM (perform c) acts (empty_world tm, []) = Ok s /\ load c (save s) (empty_world tm, []) = Err e.
Proof. exact jam_lemma. Qed.
Print Assumptions C29_jam_density_refuted.
