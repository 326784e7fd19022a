(** * Props_CppAdj: costs of the route search in the compiled engine (C76). *)
From Verif Require Import Base Types Sim Build Lists Reach Steps Spec SpecDuo Paths Duo Search Demo MotionDemo EnumRoutesDemo DuoDemo CppPaths CppAdj CppTimed Cpp CppInv CppSafe CppRoute CppAdjDemo CppRouteDemo.
Local Open Scope nat_scope.

(** C76: the costs, link by link, are those of the Python engine *)
Theorem C76_matrix : forall c w series, timed w -> series_ok c w series ->
  foldM (fun l acc => adj_step c w (now c w) acc l) (seq 0 (w_nl w)) (fun _ _ => Some 0%Q, fun _ _ => 0, w_draw w) = Ok (cpp_matrix c w series).
Proof. exact cpp_matrix_same. Qed.
Print Assumptions C76_matrix.

(** C76: the distances are those of the Python engine, and the next nodes of both engines lie on cheapest paths *)
Theorem C76_search : forall c w w' series, correct_routine c -> timed w -> series_ok c w series -> (forall l, exists_link w l -> (0 <= link_cost c w l)%Q) ->
  route_search_all c w = Ok w' ->
  let m := cpp_costs c w series in let d := cpp_dist (w_nn w) m in let nx := no_self (cpp_next (w_nn w) m) in
  cost_matrix c w m /\ forall i k, i < w_nn w -> k < w_nn w ->
    match d i k, w_rcdist w' i k with Some x, Some y => (x == y)%Q | None, None => True | _, _ => False end /\
    (nx i k = None <-> w_rcnext w' i k = None) /\
    forall x, i <> k -> d i k = Some x ->
      exists j q y j' q' y', nx i k = Some j /\ m i j = Some q /\ d j k = Some y /\ (x == q + y)%Q /\ w_rcnext w' i k = Some j' /\ m i j' = Some q' /\ d j' k = Some y' /\ (x == q' + y')%Q.
Proof. exact cpp_search_same. Qed.
Print Assumptions C76_search.

(** C76: the next node of a node for itself changes nothing for links between different nodes *)
Theorem C76_mask : forall n m w k l, l_start (L w l) < n -> l_start (L w l) <> l_end (L w l) -> cpp_mask (cpp_next n m) w k l = cpp_mask (no_self (cpp_next n m)) w k l.
Proof. exact cpp_mask_same. Qed.
Print Assumptions C76_mask.

(** C76: in every timestep in which the routes are searched, on the state in which they are searched *)
Theorem C76_tick : forall c (P : op -> world -> Prop) series, (forall o w, P o w -> sound_costs o w) -> correct_routine c -> good_noise c ->
  forall w w', reachP c P w -> tick c w = Ok w' -> Nat.modulo (w_T w) (route_steps c) = 0 -> series_ok c w series -> (forall l, exists_link w l -> (0 < l_len (L w l))%Q) ->
  exists wa, w_T wa = w_T w /\ w_nn wa = w_nn w /\ w_nl wa = w_nl w /\ (forall l, l_tti (L wa l) = l_tti (L w' l) /\ l_toll (L wa l) = l_toll (L w l) /\ l_start (L wa l) = l_start (L w l) /\ l_end (L wa l) = l_end (L w l)) /\
    timed wa /\ same_search c wa series (w_rcdist w') (w_rcnext w').
Proof. exact cpp_tick_same. Qed.
Print Assumptions C76_tick.

(** the first timestep *)
Example C76_tick_example : exists w w', reachP cfg_det sound_costs w /\ correct_routine cfg_det /\ good_noise cfg_det /\ tick cfg_det w = Ok w' /\ Nat.modulo (w_T w) (route_steps cfg_det) = 0 /\ series_ok cfg_det w (fun _ => []) /\
  (forall l, exists_link w l -> (0 < l_len (L w l))%Q) /\ w_rcnext w' 0 3 = Some 1.
Proof. exact tick_example. Qed.

(** C76: in every timestep of the compiled engine in which the routes are searched *)
Theorem C76_engine : forall c (P : op -> world -> Prop) series, (forall o w, P o w -> proper_links o w) -> correct_routine c -> good_noise c ->
  forall w w', creachP c P w -> cpp_tick c w = Ok w' -> Nat.modulo (w_T w) (route_steps c) = 0 -> series_ok c w series ->
  exists wa, w_T wa = w_T w /\ w_nn wa = w_nn w /\ w_nl wa = w_nl w /\ (forall l, l_tti (L wa l) = l_tti (L w' l) /\ l_toll (L wa l) = l_toll (L w l) /\ l_start (L wa l) = l_start (L w l) /\ l_end (L wa l) = l_end (L w l)) /\
    timed wa /\ same_search c wa series (w_rcdist w') (w_rcnext w').
Proof. exact cpp_engine_search. Qed.
Print Assumptions C76_engine.

(** the first timestep of the compiled engine *)
Example C76_engine_example : exists w w', creachP cfg_det proper_links w /\ correct_routine cfg_det /\ good_noise cfg_det /\ cpp_tick cfg_det w = Ok w' /\ Nat.modulo (w_T w) (route_steps cfg_det) = 0 /\ series_ok cfg_det w (fun _ => []) /\
  w_rcnext w' 0 3 = Some 1.
Proof. exact engine_example. Qed.

(** a toll that makes both engines take the other route *)
Example C76_example : exists w, reachable cfg_det w /\ timed w /\ series_ok cfg_det w (cpp_series cfg_det w (fun _ => [])) /\
  (next_b (route_search_all cfg_det w) 0 3 (Some 2) && nx_b (cnext cfg_det w (cpp_series cfg_det w (fun _ => [])) 0 3) (Some 2))%bool = true.
Proof. exact adj_example. Qed.

(** C76: a toll that is set after the scenario is finalized is not seen by the compiled engine *)
Theorem C76_late_refuted : exists w w1, reachable cfg_det w /\ w_final w = true /\ (forall l, exists_link w l -> l_toll (L w l) = None) /\ apply_op cfg_det (OSetToll 0 fare) w = Ok w1 /\ timed w1 /\ w_T w1 < w_tsize w1 /\
  next_b (route_search_all cfg_det w1) 0 3 (Some 2) = true /\ cnext cfg_det w1 (cpp_series cfg_det w (fun _ => [])) 0 3 = Some 1.
Proof. exact late_toll_refuted. Qed.
Print Assumptions C76_late_refuted.
