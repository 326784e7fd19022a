(** * Props_Totals: distances and travel times of trips (C14, C15). *)
From Verif Require Import Base Types Sim Build Reach Steps Spec Paths Demo Motion Spacing MotionDemo Distance Totals TotalsDemo.
Local Open Scope nat_scope.

(** C14: the travel time of a completed trip is at least the free-flow travel time of its route *)
Theorem C14_travel_time : forall c w v, (0 <= dt c)%Q -> reachP c keep_speed w -> fast_links w -> exists_veh w v -> v_state (V w v) = End_ ->
  (free_time w (route_of (V w v)) <= v_tt (V w v))%Q.
Proof. exact travel_time_lemma. Qed.
Print Assumptions C14_travel_time.

(** C14 is false when the free flow speed of a link already traveled is lowered afterwards *)
Theorem C14_speed_change_refuted : exists w, reachP cfg_det sound_links w /\
  (match v_state (V w 0) with End_ => true | _ => false end && nlist_eqb (route_of (V w 0)) [0; 1] &&
   Qeq_bool (v_tt (V w 0)) 55 && Qeq_bool (l_u (L w 0)) 5 && Qeq_bool (free_time w (route_of (V w 0))) 129)%bool = true.
Proof. exact slower_example. Qed.
Print Assumptions C14_speed_change_refuted.

(** a completed trip: 55 s against 51 s at free flow *)
Example C14_example : exists w, reachP cfg_det keep_speed w /\
  (match v_state (V w 0) with End_ => true | _ => false end && nlist_eqb (route_of (V w 0)) [0; 1] &&
   Qeq_bool (total_length w (route_of (V w 0))) 1020 && Qeq_bool (v_dist (V w 0)) 940 &&
   Qeq_bool (v_tt (V w 0)) 55 && Qeq_bool (free_time w (route_of (V w 0))) 51)%bool = true.
Proof. exact distance_example. Qed.

(** C15: distance_traveled never exceeds the total length of the links traveled *)
Theorem C15_upper : forall c w v, (0 <= dt c)%Q -> reachP c sound_links w -> no_loops w -> exists_veh w v -> v_mode (V w v) = SingleTrip ->
  (v_dist (V w v) <= total_length w (route_of (V w v)))%Q.
Proof. exact distance_lemma. Qed.
Print Assumptions C15_upper.

(** C15: for a completed trip, distance_traveled misses at most one timestep of free flow driving per link entered after the first *)
Theorem C15_lower : forall c w v, (0 <= dt c)%Q -> reachP c keep_speed w -> exists_veh w v -> v_state (V w v) = End_ ->
  (total_length w (route_of (V w v)) - step_length c w (tl (route_of (V w v))) <= v_dist (V w v))%Q.
Proof. exact distance_low_lemma. Qed.
Print Assumptions C15_lower.

(** C15: the equality is false, the left-over moved when crossing a node is not counted *)
Theorem C15_equality_refuted : exists w, reachP cfg_det keep_speed w /\
  (match v_state (V w 0) with End_ => true | _ => false end && nlist_eqb (route_of (V w 0)) [0; 1] &&
   Qeq_bool (total_length w (route_of (V w 0))) 1020 && Qeq_bool (v_dist (V w 0)) 940 &&
   Qeq_bool (v_tt (V w 0)) 55 && Qeq_bool (free_time w (route_of (V w 0))) 51)%bool = true.
Proof. exact distance_example. Qed.
Print Assumptions C15_equality_refuted.

(** C15: with a link from a node to itself the upper bound fails too (re-entering it is not recorded) *)
Theorem C15_loop_refuted : exists w, reachP cfg_det keep_speed w /\
  (match v_state (V w 0) with Run => true | _ => false end && nlist_eqb (route_of (V w 0)) [0; 1] &&
   Qeq_bool (total_length w (route_of (V w 0))) 1000 && qlt 1000 (v_dist (V w 0)))%bool = true.
Proof. exact loop_example. Qed.
Print Assumptions C15_loop_refuted.
