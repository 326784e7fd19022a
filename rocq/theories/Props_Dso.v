(** * Props_Dso: SolverDSO_D2D (C47), and the figures of a day of SolverDUE (C42). *)
From Verif Require Import Base Types Sim Build Reach Steps Spec Registry LinkQueries Route SpecDue Due SpecDso Dso Demo MotionDemo DueDemo DsoDemo.
Local Open Scope nat_scope.

(** C42: the potential swaps of SolverDUE are the vehicles that ended and have a strictly cheaper route in their set, as many as reported; at most so many swap; the reported gap is 0 exactly if there is no such vehicle *)
Theorem C42_figures : forall c w rs forced flag u, (0 <= c_deltan c)%Z -> due_day c w rs forced flag = Ok u ->
  exists vs, NoDup vs /\ (forall v, In v vs <-> exists_veh w v /\ could w (fun t a => alt_cost c w a t) (current_cost c w) rs forced v) /\
    u_pot u = (c_deltan c * Z.of_nat (List.length vs))%Z /\ (0 <= u_nswap u <= u_pot u)%Z /\ (0 <= u_gap u)%Q /\ ((u_gap u == 0)%Q <-> vs = []).
Proof. exact due_figures. Qed.
Print Assumptions C42_figures.

(** C42: the costs used for it are the travel times and tolls *)
Theorem C42_costs : forall c w ls t ts x, proper_tolls w ->
  (alt_cost c w ls t = Ok x -> exists y, day_cost c w ls t = Ok y /\ (x == y)%Q) /\ (current_cost c w ls ts = Ok x -> own_cost c w ls ts x).
Proof. exact due_costs. Qed.
Print Assumptions C42_costs.

(** C47, without given route sets: the vehicles that ended get a route; the swapped ones (as many as reported, in platoons of DELTAN) are those that get another route than the traveled one; they were drawn, and get a route of least cost, strictly cheaper than the traveled one; the others, if drawn, have no cheaper route *)
Theorem C47_swaps : forall c w rs flag u, reach c w -> dso_day c w rs false flag = Ok u ->
  map fst (u_spec u) = filter (ended_b w) (seq 0 (w_nv w)) /\
  exists swapped, NoDup swapped /\ u_nswap u = (c_deltan c * Z.of_nat (List.length swapped))%Z /\ incl swapped (map fst (u_spec u)) /\
    forall v r', In (v, r') (u_spec u) ->
      exists d ks alts ts t0 x, v_dest (V w v) = Some d /\ rs (v_orig (V w v)) d = Some ks /\ mapM (route_new w) ks = Ok alts /\
        traveled_route w v true false = Ok (traveled w v, ts) /\ nth_error ts 0 = Some t0 /\ dso_cost c w (traveled w v) t0 = Ok x /\
        (In v swapped <-> r' <> traveled w v) /\
        (In v swapped -> flag v = true /\ improves (fun a => dso_cost c w a t0) x r' /\ least (fun a => dso_cost c w a t0) alts r') /\
        (~ In v swapped -> flag v = true -> forall b, In b alts -> ~ improves (fun a => dso_cost c w a t0) x b).
Proof. exact dso_swaps. Qed.
Print Assumptions C47_swaps.

(** C47, with given route sets *)
Theorem C47_given_route_sets : forall c w rs flag u v r', reach c w -> dso_day c w rs true flag = Ok u -> In (v, r') (u_spec u) ->
  exists d ks alts, v_dest (V w v) = Some d /\ rs (v_orig (V w v)) d = Some ks /\ mapM (route_new w) ks = Ok alts /\
    (existsb (route_eqb w (traveled w v)) alts = false -> nth_error alts 0 = Some r') /\ In r' (traveled w v :: alts).
Proof. exact dso_forced. Qed.
Print Assumptions C47_given_route_sets.

(** C47: the cost of a route is, link by link and at the time the link is entered, the travel time and the externality *)
Theorem C47_cost : forall c w ls t x, dso_cost c w ls t = Ok x -> exists y, marginal c w ls t = Ok y /\ (x == y)%Q.
Proof. exact dso_cost_lemma. Qed.
Print Assumptions C47_cost.

(** C47: potential swaps and gap, as for SolverDUE *)
Theorem C47_figures : forall c w rs forced flag u, (0 <= c_deltan c)%Z -> dso_day c w rs forced flag = Ok u ->
  exists vs, NoDup vs /\ (forall v, In v vs <-> exists_veh w v /\ could w (fun t a => dso_cost c w a t) (dso_own c w) rs forced v) /\
    u_pot u = (c_deltan c * Z.of_nat (List.length vs))%Z /\ (0 <= u_nswap u <= u_pot u)%Z /\ (0 <= u_gap u)%Q /\ ((u_gap u == 0)%Q <-> vs = []).
Proof. exact dso_figures. Qed.
Print Assumptions C47_figures.

(** C47: the day does not fail when every vehicle has a destination and valid routes *)
Theorem C47_no_failure : forall c w rs forced flag, reach c w -> w_nv w <> 0 -> (forall l, exists_link w l -> l_tta (L w l) <> []) -> routes_ok w rs ->
  exists u, dso_day c w rs forced flag = Ok u.
Proof. exact dso_total. Qed.
Print Assumptions C47_no_failure.

(** C47: the solution is the first of the days of least average travel time among those in which all trips were completed; there is none exactly if there is no such day *)
Theorem C47_solution : forall days,
  (forall j a, best_day days 0 None = Some (j, a) -> nth_error days j = Some (true, a) /\
     forall k b, nth_error days k = Some (true, b) -> (a <= b)%Q /\ (k < j -> (a < b)%Q)) /\
  (best_day days 0 None = None <-> forall a, ~ In (true, a) days).
Proof. exact best_day_lemma. Qed.
Print Assumptions C47_solution.

(** C47: the estimated externality of a link is not negative, 0 unless entering the link means waiting, and otherwise 0 or the time since the last recorded departure, times the vehicles that enter until the queue ends *)
Theorem C47_externality : forall c w l t, (0 < dt c)%Q -> (0 <= c_deltan c)%Z -> reach c w -> exists_link w l -> (0 <= l_len (L w l) / l_u (L w l))%Q -> (0 <= t)%Q ->
  let k := L w l in let i := Z.to_nat (qtrunc (t / dt c)) in
  (0 <= ext_link c k t)%Q /\
  (~ queued c k i -> (ext_link c k t == 0)%Q) /\
  ((ext_link c k t == 0)%Q \/
   exists x n h, nth_error (l_tta k) i = Some x /\ behind c k i n /\ headway k (i + Z.to_nat (qtrunc (x / dt c)) + 1) h /\ (0 < n)%Z /\ 0 < h /\
     (ext_link c k t == Qof_nat h * dt c * inject_Z n)%Q).
Proof. exact ext_lemma. Qed.
Print Assumptions C47_externality.

(** a vehicle changes its route because of the externality only *)
Example C47_example : exists w, reachable cfg_det w /\
  (day_b (dso_day cfg_det w three false (fun _ => true)) [(0, [1; 2]); (1, [3; 2]); (2, [3; 2]); (3, [3; 2])] 15 &&
   day_b (due_day cfg_det w three false (fun _ => true)) [(0, [1; 2]); (1, [1; 2]); (2, [3; 2]); (3, [3; 2])] 10 &&
   qeq (ext_link cfg_det (L w 1) 10) 50)%bool = true.
Proof. exact dso_example. Qed.

(** C42/C47: the reported gap is not the sum of the differences to the cheapest routes: it depends on the order of the routes in the set *)
Theorem C47_gap_refuted : exists w u u' x x', reachable cfg_det w /\
  due_day cfg_det w three false (fun _ => false) = Ok u /\ due_day cfg_det w three_back false (fun _ => false) = Ok u' /\ (u_gap u == 65)%Q /\ (u_gap u' == 25)%Q /\
  dso_day cfg_det w three false (fun _ => false) = Ok x /\ dso_day cfg_det w three_back false (fun _ => false) = Ok x' /\ (u_gap x == 80)%Q /\ (u_gap x' == 40)%Q.
Proof. exact gap_refuted. Qed.
Print Assumptions C47_gap_refuted.

(** C47: the estimate (50 vehicle-seconds) is not the difference in the travel times of the others with and without the vehicle (50 s for two platoons of 5) *)
Theorem C47_externality_refuted : exists w w' r t ts x,
  play cfg_det (dso_run [0; 1; 2; 3]%Z) (empty_world (Some 300%Q)) = Some w /\ play cfg_det (dso_run [0; 2; 3]%Z) (empty_world (Some 300%Q)) = Some w' /\
  reachable cfg_det w /\ reachable cfg_det w' /\ traveled_route w 1 true false = Ok (r, t :: ts) /\ ext_route cfg_det w r t = Ok x /\ (x == 50)%Q /\
  (v_tt (V w 0) == v_tt (V w' 0))%Q /\ (v_tt (V w 2) == v_tt (V w' 1) + 50)%Q /\ (v_tt (V w 3) == v_tt (V w' 2) + 50)%Q.
Proof. exact externality_refuted. Qed.
Print Assumptions C47_externality_refuted.

(** C47: the solver may return no World at all *)
Theorem C47_no_solution_refuted : exists days : list (bool * Q), days <> [] /\ best_day days 0 None = None.
Proof. exact no_solution. Qed.
Print Assumptions C47_no_solution_refuted.
