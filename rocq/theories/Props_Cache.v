(** * Props_Cache: reading the state of links between timesteps (C41). *)
From Verif Require Import Base Types Sim Build Inv Reach Steps Spec SpecCache Paths Cache Demo MotionDemo CacheDemo.
Local Open Scope nat_scope.

(** C41: after any history of operations, timesteps and reads, in which the free flow speed of a link is not changed between a read of that link and its next timestep, every read returns the current state of the link (or raises ZeroDivisionError for a density or flow of a link of length 0) *)
Theorem C41_value : forall c P tm w k q l, clater c P (empty_world tm, empty_cache) (w, k) -> l < w_nl w ->
  match fst (ask c w q l k) with
  | Ok x => (x == truth c w q l)%Q
  | Err e => e = ZeroDivisionError /\ (l_len (L w l) == 0)%Q /\ (q = QDensity \/ q = QFlow)
  end.
Proof. exact ask_value. Qed.
Print Assumptions C41_value.

(** C41: the world reached by a history with reads is the world of the same history without the reads; the cache agrees with it *)
Theorem C41_no_effect : forall c P tm w k, clater c P (empty_world tm, empty_cache) (w, k) -> later c P (empty_world tm) w /\ coherent c w k.
Proof. exact clater_coherent. Qed.
Print Assumptions C41_no_effect.

(** C41: with a cache that agrees with the world, a timestep has the same result or the same error as without reads, and leaves no cached value *)
Theorem C41_timestep : forall c w k, coherent c w k ->
  match tick c w with
  | Ok w' => exists k', ctick c (w, k) = Ok (w', k') /\ forall l, unread k' l
  | Err e => ctick c (w, k) = Err e
  end.
Proof. exact ctick_same. Qed.
Print Assumptions C41_timestep.

(** C41: every history of the model without reads and changes of free flow speeds is one of the histories with reads *)
Theorem C41_all_histories : forall c P tm w, later c P (empty_world tm) w -> (forall o x l q, P o x -> o <> OChangeSpeed l q) ->
  exists k, clater c P (empty_world tm, empty_cache) (w, k) /\ forall l, unread k l.
Proof. exact later_clater. Qed.
Print Assumptions C41_all_histories.

(** reads in several timesteps *)
Example C41_example : exists tm w k, clater cfg_det keep_speed (empty_world tm, empty_cache) (w, k) /\ 0 < w_nl w /\ read_test w k = true.
Proof. exact read_example. Qed.

(** C41 fails when the free flow speed of an empty link is changed after a read of its speed: the next read is stale and the recorded travel time changes *)
Theorem C41_stale_refuted : exists w, reachable cfg_det w /\ stale_test w = true.
Proof. exact stale_refuted. Qed.
Print Assumptions C41_stale_refuted.

(** C41 fails after a read during a timestep: the read after the timestep is stale *)
Theorem C41_callback_refuted : exists w, reachable cfg_det w /\ callback_test w = true.
Proof. exact callback_refuted. Qed.
Print Assumptions C41_callback_refuted.
