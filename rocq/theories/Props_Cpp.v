(** * Props_Cpp: the rules of the compiled engine against those of the Python engine (C65). *)
From Verif Require Import Base Types Sim Build Steps Reach Spec Demo Cpp SpecCpp CppOK CppOK2 CppDemo.
Local Open Scope nat_scope.

(** C65: the car-following passes of the two engines lead to the same world, although they visit the vehicles in different orders *)
Theorem C65_follow : forall c w w1 w2 w3, reach c w ->
  phase_links c w = Ok w1 -> phase_nodes c w1 = Ok w2 -> phase_transfer c w2 = Ok w3 -> forward c w3 ->
  exists w4 w4', phase_follow c w3 = Ok w4 /\ cpp_phase_follow c w3 = Ok w4' /\ same_world w4' w4.
Proof. exact follow_phase_agrees. Qed.
Print Assumptions C65_follow.

(** two vehicles visited in opposite orders *)
Example C65_follow_example : exists c w w1 w2 w3 w4 w4', reach c w /\ phase_links c w = Ok w1 /\ phase_nodes c w1 = Ok w2 /\ phase_transfer c w2 = Ok w3 /\
  forward c w3 /\ phase_follow c w3 = Ok w4 /\ cpp_phase_follow c w3 = Ok w4' /\ w_running w3 = [0; 1] /\ on_links w3 = [1; 0] /\
  (v_xnext (V w4 0) == 100)%Q /\ (v_xnext (V w4' 0) == 100)%Q.
Proof. exact follow_example. Qed.

(** C65: the same signal phases and timers at nodes with two or more phases (the cycle length is not stored) *)
Theorem C65_signal : forall c nd, 1 < List.length (n_signal nd) ->
  cpp_signal_update c nd = match signal_control c nd with Ok x => Ok (sn_cycle (n_cycle nd) x) | Err e => Err e end.
Proof. exact cpp_signal_many. Qed.
Print Assumptions C65_signal.

(** C65: the same phase and phase log at nodes without a signal, where the compiled engine does not advance the timer *)
Theorem C65_no_signal : forall c nd, List.length (n_signal nd) <= 1 -> n_phase nd = 0 -> n_signal nd <> [] ->
  exists x y, cpp_signal_update c nd = Ok x /\ signal_control c nd = Ok y /\ n_phase x = 0 /\ n_phase y = 0 /\ n_siglog x = n_siglog y /\
    n_sigt x = n_sigt nd.
Proof. exact cpp_signal_one. Qed.
Print Assumptions C65_no_signal.

(** C65: the same refill of the node capacity *)
Theorem C65_node_capacity : forall c nd, (n_fcap nd <> None -> exists m, n_lanes nd = Some (S m)) ->
  flow_capacity_update c nd = Ok (cpp_flow_capacity_update c nd).
Proof. exact cpp_capacity_same. Qed.
Print Assumptions C65_node_capacity.

(** C65: the same refill of the capacities of a link, for capacities below 10e9 *)
Theorem C65_link_capacity : forall c k cin, l_cin k = Some cin -> (cin < 10e9)%Q -> (l_cout k < 10e9)%Q -> cpp_caps c k = in_out_flow_constraint c k.
Proof. exact cpp_caps_same. Qed.
Print Assumptions C65_link_capacity.

(** C65: the same instantaneous travel time of a link *)
Theorem C65_travel_time : forall c w k k', tti_interval c <> 0 -> (0 < l_u k)%Q ->
  set_traveltime_instant c w k = Ok k' -> l_tti k' = l_tti k ++ [cpp_travel_time c w (last (l_tti k) 0%Q) k].
Proof. exact cpp_tt_same. Qed.
Print Assumptions C65_travel_time.

(** C65: the buffered records of realised travel times, replayed at each read, are those written at once *)
Theorem C65_record : forall chunks a, reads chunks a = eager_reads chunks a.
Proof. exact reads_agree. Qed.
Print Assumptions C65_record.

(** C65: each entry is the travel time of the last recorded vehicle that entered at or before it *)
Theorem C65_record_value : forall evs a i, i < List.length a -> nth_error (eager evs a) i = Some (last_before evs i (nth i a 0%Q)).
Proof. exact record_value. Qed.
Print Assumptions C65_record_value.

(** three departures, out of order, and two reads *)
Example C65_record_example : reads [[(4, 30%Q)]; [(2, 20%Q); (6, 25%Q)]] [10%Q; 10%Q; 10%Q; 10%Q; 10%Q; 10%Q; 10%Q; 10%Q] =
  [[10%Q; 10%Q; 10%Q; 10%Q; 30%Q; 30%Q; 30%Q; 30%Q]; [10%Q; 10%Q; 20%Q; 20%Q; 20%Q; 20%Q; 25%Q; 25%Q]].
Proof. exact record_example. Qed.

(** C65: the same preferences of the links after any number of rounds, with the flag instead of the sum *)
Theorem C65_preferences : forall nl wt ms l, (0 <= wt <= 1)%Q -> l < nl ->
  (fst (rounds_cpp nl wt ms (fun _ => 0%Q, false)) l == rounds_py nl wt ms (fun _ => 0%Q) l)%Q.
Proof. exact duo_agrees. Qed.
Print Assumptions C65_preferences.

(** the rounds above are those of the Python engine *)
Theorem C65_preferences_python : forall c w k l,
  w_rcpref (homogeneous_DUO_update c w) k l =
  py_duo (w_nl w) (duo_weight0 c) (fun l => opt_eqb (Some (l_end (L w l))) (w_rcnext w (l_start (L w l)) k)) (w_rcpref w k) l.
Proof. exact py_duo_is. Qed.
Print Assumptions C65_preferences_python.

(** C65 fails for weights above 1: the preferences can cancel, which resets the Python engine only *)
Theorem C65_weight_refuted : exists nl wt ms l, l < nl /\ (1 < wt)%Q /\
  ~ (fst (fold_left (fun s m => cpp_duo nl wt m s) ms (fun _ => 0%Q, false)) l == fold_left (fun p m => py_duo nl wt m p) ms (fun _ => 0%Q) l)%Q.
Proof. exact weight_refuted. Qed.
Print Assumptions C65_weight_refuted.

(** C65: sorting the waiting lists by the vehicle number changes nothing *)
Theorem C65_order : forall c w n, reach c w -> sort_ids (n_incoming (N w n)) = n_incoming (N w n).
Proof. exact cpp_sort_same. Qed.
Print Assumptions C65_order.

(** C65: the compiled engine lets a vehicle depart at the first timestep not before its departure time; the Python engine does so in the same or the preceding timestep, the same exactly for multiples of the timestep *)
Theorem C65_departure : forall c t, (0 < dt c)%Q -> (0 <= t)%Q -> exists ts, cpp_departure c t = Some ts /\
  (t <= inject_Z ts * dt c)%Q /\ (forall z, (t <= inject_Z z * dt c)%Q -> (ts <= z)%Z) /\ (py_departure c t <= ts <= py_departure c t + 1)%Z /\
  (ts = py_departure c t <-> (t == inject_Z ts * dt c)%Q).
Proof. exact cpp_departure_first. Qed.
Print Assumptions C65_departure.

(** a departure time that is a multiple of the timestep *)
Example C65_departure_example : exists c t, (0 < dt c)%Q /\ (0 <= t)%Q /\ cpp_departure c t = Some 3%Z /\ py_departure c t = 3%Z.
Proof. exact departure_example. Qed.

(** the timesteps of the departure differ in general *)
Theorem C65_departure_refuted : exists c t, (0 < dt c)%Q /\ (0 <= t)%Q /\ cpp_departure c t = Some 2%Z /\ py_departure c t = 1%Z.
Proof. exact departure_refuted. Qed.
Print Assumptions C65_departure_refuted.

(** C65 fails for the end of trips: of two vehicles side by side at the end of a two-lane road the second arrives one timestep earlier in the compiled engine *)
Theorem C65_arrival_refuted : exists c w w1 w2, reach c w /\ c_det c = true /\ w_nv w = 2 /\ tick c w = Ok w1 /\ cpp_tick c w = Ok w2 /\
  v_state (V w1 0) = Run /\ v_state (V w2 0) = End_ /\ v_state (V w1 1) = End_ /\ v_state (V w2 1) = End_.
Proof. exact order_refuted. Qed.
Print Assumptions C65_arrival_refuted.
