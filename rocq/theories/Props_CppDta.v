(** * Props_CppDta: route swaps of the compiled day-to-day solvers (C73). *)
From Verif Require Import Base Types Sim Build Lists Reach Steps Spec Registry LinkQueries Route SpecDue Due SpecDso Dso CppExt CppDta Paths Demo MotionDemo DueDemo DsoDemo CppDtaDemo.
Local Open Scope nat_scope.

(** C73: the clamped record of travel times is the actual travel time of the Python engine *)
Theorem C73_time : forall c k t, (0 < dt c)%Q -> l_tta k <> [] -> actual_travel_time c k t = Ok (cpp_att c k t).
Proof. exact cpp_att_same. Qed.
Print Assumptions C73_time.

(** C73: the cost of an alternative route in the user equilibrium *)
Theorem C73_cost_due : forall c n w ls t x, (0 < dt c)%Q -> recorded w -> step_tolls c n w -> Forall (exists_link w) ls -> day_cost c w ls t = Ok x ->
  exists y, cpp_due_cost c n w t ls = Ok y /\ (y == x)%Q.
Proof. exact cpp_due_cost_same. Qed.
Print Assumptions C73_cost_due.

(** C73: the cost of the route that was taken in the user equilibrium *)
Theorem C73_own_due : forall c n w ls ents arr t0 x, (0 < dt c)%Q -> recorded w -> step_tolls c n w -> Forall (exists_link w) ls -> List.length ents = List.length ls ->
  nth_error ents 0 = Some t0 -> current_cost c w ls (ents ++ [arr]) = Ok x -> exists y, cpp_due_own c n w ls ents t0 = Ok y /\ (y == x)%Q.
Proof. exact cpp_due_own_same. Qed.
Print Assumptions C73_own_due.

(** C73: the marginal cost of a route in the system optimum: never below that of the Python solver, and equal unless the latter lost an externality *)
Theorem C73_cost_dso : forall c w n ls t x, (0 < dt c)%Q -> records w n ls -> 0 < n -> (0 <= t)%Q -> dso_cost c w ls t = Ok x ->
  exists y, cpp_dso_cost c w t ls = Ok y /\ (x <= y)%Q /\ ((x == y)%Q \/ exists tts, details c w ls t = Ok tts /\ raised c w ls tts t).
Proof. exact cpp_dso_cost_above. Qed.
Print Assumptions C73_cost_dso.

(** C73: a day of the compiled user equilibrium swaps the same vehicles to the same routes *)
Theorem C73_due : forall c n w rs store forced flag tr u, reach c w -> (0 < dt c)%Q -> recorded w -> proper_tolls w -> step_tolls c n w -> stored w rs store -> traced w tr ->
  due_day c w rs forced flag = Ok u ->
  exists r, cpp_swap c w (cpp_due_cost c n w) (cpp_due_own c n w) store forced flag tr = Ok r /\ same_day (w_nv w) u r.
Proof. exact cpp_due_day. Qed.
Print Assumptions C73_due.

(** C73: a day of the compiled system optimum swaps the same vehicles to the same routes *)
Theorem C73_dso : forall c n w rs store forced flag tr u, reach c w -> (0 < dt c)%Q -> 0 < n -> records w n (seq 0 (w_nl w)) -> none_raised c w -> stored w rs store -> traced w tr ->
  dso_day c w rs forced flag = Ok u ->
  exists r, cpp_swap c w (cpp_dso_cost c w) (cpp_dso_own c w) store forced flag tr = Ok r /\ same_day (w_nv w) u r.
Proof. exact cpp_dso_day. Qed.
Print Assumptions C73_dso.

(** C73: a day of the compiled user equilibrium does not fail; a vehicle gets the route it took or one of its set, and keeps its route if its pair of nodes has no set *)
Theorem C73_total : forall c n w store forced flag tr, (forall v, exists_veh w v -> v_dest (V w v) <> None) ->
  exists r, cpp_swap c w (cpp_due_cost c n w) (cpp_due_own c n w) store forced flag tr = Ok r /\ List.length (s_spec r) = w_nv w /\
    (forall v x, nth_error (s_spec r) v = Some x -> v_state (V w v) <> End_ -> x = []) /\
    (forall v x d set, nth_error (s_spec r) v = Some x -> v_state (V w v) = End_ -> v_dest (V w v) = Some d -> store (v_orig (V w v)) d = Some set -> In x (fst (tr v) :: set)) /\
    (forall v x d, nth_error (s_spec r) v = Some x -> v_state (V w v) = End_ -> v_dest (V w v) = Some d -> store (v_orig (V w v)) d = None -> x = fst (tr v)).
Proof. exact cpp_due_total. Qed.
Print Assumptions C73_total.

(** C73: the route and the entry times read off the compiled log are those of the traveled route *)
Theorem C73_traveled : forall c w v ls tms, (0 < dt c)%Q -> c_logint c = 1%Z -> reach c w -> v < w_nv w -> traveled_route w v true false = Ok (ls, tms) ->
  exists ts, map (SpecLogs.at_step c) ts = map g_t (CppLog.stored_rows (V w v)) /\
    let p := dta_traveled None (CppLog.cpp_rows c (CppLog.noted (combine ts (CppLog.stored_rows (V w v)))) (v_state (V w v))) in
    map fst p = ls /\ exists arr, tms = map snd p ++ [arr].
Proof. exact cpp_traced. Qed.
Print Assumptions C73_traveled.

(** C73: routes handed over in flat arrays come back as they were *)
Theorem C73_arrays : forall A (rs : list (list A)), from_csr (fst (to_csr rs)) (snd (to_csr rs)) = rs.
Proof. exact csr_round. Qed.
Print Assumptions C73_arrays.

(** C73: the stored route sets come back under the names of their nodes and links *)
Theorem C73_store : forall w s, store_names w (store_csr s) =
  map (fun p => ((n_name (N w (fst (fst p))), n_name (N w (snd (fst p)))), map (map (fun l => l_name (L w l))) (snd p))) s.
Proof. exact store_round. Qed.
Print Assumptions C73_store.

(** C73: with a toll that falls within a timestep the two solvers decide differently *)
Theorem C73_toll_refuted : exists w u r, reachable cfg_det w /\ due_day cfg_det w (fun _ _ => Some [[KName "in"; KName "out"]; [KName "by"]]) false (fun _ => true) = Ok u /\ u_spec u = [(0, [0; 1])] /\
  due_cpp cfg_det w (fun _ _ => Some [[0; 1]; [2]]) false (fun _ => true) = Ok r /\ s_spec r = [[2]].
Proof. exact toll_refuted. Qed.
Print Assumptions C73_toll_refuted.

(** the day of C42 *)
Example C73_due_example : exists w, reachable cfg_det w /\
  (day_b (due_day cfg_det w both false (fun _ => true)) [(0, [0; 2]); (1, [0; 2])] 5 && swap_b (due_cpp cfg_det w both_ids false (fun _ => true)) [[0; 2]; [0; 2]] 5 &&
   swap_b (due_cpp cfg_det w both_ids false (fun _ => false)) [[0; 1]; [0; 2]] 0)%bool = true.
Proof. exact cpp_due_example. Qed.

(** the same day in the system optimum *)
Example C73_dso_example : exists w, reachable cfg_det w /\
  (day_b (dso_day cfg_det w both false (fun _ => true)) [(0, [0; 2]); (1, [0; 2])] 5 &&
   swap_b (cpp_swap cfg_det w (cpp_dso_cost cfg_det w) (cpp_dso_own cfg_det w) both_ids false (fun _ => true) (tr_of w)) [[0; 2]; [0; 2]] 5)%bool = true.
Proof. exact cpp_dso_example. Qed.
