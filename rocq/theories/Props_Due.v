(** * Props_Due: route swaps of SolverDUE (C42). *)
From Verif Require Import Base Types Sim Build Reach Steps Spec Registry LinkQueries Route SpecDue Due Demo DueDemo.
Local Open Scope nat_scope.

(** C42, without given route sets: the vehicles that ended get a route; the swapped ones (as many as reported, in platoons of DELTAN) were drawn and get a cheapest route of their set that is strictly cheaper than the traveled one; the others keep the traveled one. If the tolls on the traveled route do not depend on the time, the swapped vehicles are exactly those that get another route *)
Theorem C42_swaps : forall c w rs flag u, reach c w -> proper_tolls w -> due_day c w rs false flag = Ok u ->
  map fst (u_spec u) = filter (ended_b w) (seq 0 (w_nv w)) /\
  exists swapped, NoDup swapped /\ u_nswap u = (c_deltan c * Z.of_nat (List.length swapped))%Z /\ incl swapped (map fst (u_spec u)) /\
    forall v r', In (v, r') (u_spec u) ->
      exists d ks alts ts t0 x, v_dest (V w v) = Some d /\ rs (v_orig (V w v)) d = Some ks /\ mapM (route_new w) ks = Ok alts /\
        traveled_route w v true false = Ok (traveled w v, ts) /\ nth_error ts 0 = Some t0 /\ own_cost c w (traveled w v) ts x /\
        (In v swapped -> flag v = true /\ In r' alts /\ cheaper c w t0 x r' /\ cheapest c w t0 alts r') /\
        (~ In v swapped -> r' = traveled w v /\ (flag v = true -> forall b, In b alts -> ~ cheaper c w t0 x b)) /\
        (flat_tolls w (traveled w v) -> (In v swapped <-> r' <> traveled w v)).
Proof. exact due_swaps. Qed.
Print Assumptions C42_swaps.

(** C42, with given route sets: a vehicle that traveled a route outside its set gets the first one of the set *)
Theorem C42_given_route_sets : forall c w rs flag u v r', reach c w -> proper_tolls w -> due_day c w rs true flag = Ok u -> In (v, r') (u_spec u) ->
  exists d ks alts, v_dest (V w v) = Some d /\ rs (v_orig (V w v)) d = Some ks /\ mapM (route_new w) ks = Ok alts /\
    (existsb (route_eqb w (traveled w v)) alts = false -> nth_error alts 0 = Some r') /\ In r' (traveled w v :: alts).
Proof. exact due_forced. Qed.
Print Assumptions C42_given_route_sets.

(** C42: the day does not fail when every vehicle has a destination and valid routes *)
Theorem C42_no_failure : forall c w rs forced flag, reach c w -> w_nv w <> 0 -> (forall l, exists_link w l -> l_tta (L w l) <> []) -> routes_ok w rs ->
  exists u, due_day c w rs forced flag = Ok u.
Proof. exact due_total. Qed.
Print Assumptions C42_no_failure.

(** a swap, and the same day without a draw *)
Example C42_example : exists w, reachable cfg_det w /\
  (day_b (due_day cfg_det w both false (fun _ => true)) [(0, [0; 2]); (1, [0; 2])] 5 && day_b (due_day cfg_det w both false (fun _ => false)) [(0, [0; 1]); (1, [0; 2])] 0)%bool = true.
Proof. exact due_example. Qed.

(** C42 fails with given route sets: a completed vehicle outside its set loses its route for a dearer one, and is not counted *)
Theorem C42_outside_set_refuted : exists w u r x y, reachable cfg_det w /\ due_day cfg_det w only_left true (fun _ => true) = Ok u /\
  u_nswap u = 0%Z /\ In (1, r) (u_spec u) /\ r <> traveled w 1 /\ day_cost cfg_det w (traveled w 1) 15 = Ok x /\ day_cost cfg_det w r 15 = Ok y /\ (x + 40 == y)%Q.
Proof. exact forced_refuted. Qed.
Print Assumptions C42_outside_set_refuted.

(** C42 fails with tolls that depend on the time: a vehicle that keeps its route is counted as swapped *)
Theorem C42_self_swap_refuted : exists w u, reachable cfg_det w /\ due_day cfg_det w (fun _ _ => Some [[KName "in"; KName "out"]]) false (fun _ => true) = Ok u /\
  u_nswap u = 5%Z /\ forall v r, In (v, r) (u_spec u) -> r = traveled w v.
Proof. exact self_swap_refuted. Qed.
Print Assumptions C42_self_swap_refuted.
