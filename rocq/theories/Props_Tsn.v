(** * Props_Tsn: the time-space network (C61). *)
From Verif Require Import Base Types Sim Build Steps Reach Spec LinkQueries Route SpecRoutes Demo MotionDemo Tsn SpecTsn TsnOK TsnDemo.
Local Open Scope nat_scope.

(** C61: the edges are the links at every time of the network, with the recorded travel time, and edges without cost to the end nodes *)
Theorem C61_edges : forall c w darg tm es, w_tmax w = Some tm -> (0 < tsn_dt c darg)%Z -> reach c w -> tsn c w darg = Ok es ->
  let d := tsn_dt c darg in let ts := tsn_times (qtrunc tm) d in
  (forall t, In t ts <-> (exists k, (0 <= k)%Z /\ t = (k * d)%Z) /\ (t < qtrunc tm)%Z) /\
  (forall u v q, In (u, v, q) es ->
     (exists n t, u = (n, Some t) /\ v = (n, None) /\ q = 0%Q /\ n < w_nn w /\ In t ts) \/
     (exists l t, exists_link w l /\ In t ts /\ time_at c w l t = Some q /\ In (arrive d t q) ts /\ u = (l_start (L w l), Some t) /\ v = (l_end (L w l), Some (arrive d t q)))) /\
  (forall n t, n < w_nn w -> In t ts -> In ((n, Some t), (n, None), 0%Q) es) /\
  (forall l t, exists_link w l -> In t ts -> exists q, time_at c w l t = Some q /\
     (In (arrive d t q) ts -> exists q', In ((l_start (L w l), Some t), (l_end (L w l), Some (arrive d t q)), q') es)).
Proof. exact tsn_edges. Qed.
Print Assumptions C61_edges.

(** C61: walks are routes; cost and difference of times differ by less than the step per link *)
Theorem C61_walks : forall c w darg tm es n t m t', w_tmax w = Some tm -> (0 < tsn_dt c darg)%Z -> reach c w -> sane_times w -> tsn c w darg = Ok es ->
  let d := tsn_dt c darg in In t (tsn_times (qtrunc tm) d) ->
  (forall q, twalk es (n, Some t) (m, Some t') q -> exists r q', leads w n m r /\ drive c w d (qtrunc tm) r t q' t' /\ (q == q')%Q /\
     (inject_Z t' - inject_Z t <= q)%Q /\ (r <> [] -> (q < inject_Z t' - inject_Z t + Qof_nat (List.length r) * inject_Z d)%Q)) /\
  (forall r q, leads w n m r -> drive c w d (qtrunc tm) r t q t' -> exists q', twalk es (n, Some t) (m, Some t') q').
Proof. exact tsn_walks. Qed.
Print Assumptions C61_walks.

(** C61: without parallel links the least cost to an end node is the least time of the routes, with times rounded down at nodes *)
Theorem C61_costs : forall c w darg tm es n t m f, w_tmax w = Some tm -> (0 < tsn_dt c darg)%Z -> reach c w -> sane_times w -> tsn c w darg = Ok es ->
  let d := tsn_dt c darg in single_links w -> n < w_nn w -> In t (tsn_times (qtrunc tm) d) -> least_costs es (n, Some t) f ->
  match f (m, None) with
  | Some q => (exists r q' t', leads w n m r /\ drive c w d (qtrunc tm) r t q' t' /\ (q' == q)%Q) /\
              forall r q' t', leads w n m r -> drive c w d (qtrunc tm) r t q' t' -> (q <= q')%Q
  | None => forall r q' t', leads w n m r -> ~ drive c w d (qtrunc tm) r t q' t'
  end.
Proof. exact tsn_costs. Qed.
Print Assumptions C61_costs.

(** C61: if the travel times are multiples of the timestep, the least cost is the least travel time of the routes (Route.actual_travel_time) that end before TMAX *)
Theorem C61_exact : forall c w darg tm es n t m f, w_tmax w = Some tm -> (0 < tsn_dt c darg)%Z -> reach c w -> sane_times w -> tsn c w darg = Ok es ->
  let d := tsn_dt c darg in let tmax := inject_Z (qtrunc tm) in let t0 := inject_Z t in
  whole_times c w -> (dt c == inject_Z d)%Q -> n < w_nn w -> In t (tsn_times (qtrunc tm) d) -> least_costs es (n, Some t) f ->
  match f (m, None) with
  | Some q => (exists r x, leads w n m r /\ in_time c w r t0 tmax /\ route_time c w r t0 = Ok x /\ (x == q)%Q) /\
              forall r x, leads w n m r -> in_time c w r t0 tmax -> route_time c w r t0 = Ok x -> (q <= x)%Q
  | None => forall r, leads w n m r -> ~ in_time c w r t0 tmax
  end.
Proof. exact tsn_exact. Qed.
Print Assumptions C61_exact.

(** two links in a row are better than a longer one *)
Example C61_exact_example : exists w es f x r y, reachable cfg_det w /\ w_final w = true /\ tsn cfg_det w None = Ok es /\ least_costs es (0, Some 0%Z) f /\
  f (2, None) = Some x /\ (x == 10)%Q /\ leads w 0 2 r /\ List.length r = 2 /\ route_time cfg_det w r 0 = Ok y /\ (y == x)%Q.
Proof. exact tsn_example. Qed.

(** C61: when the network can be made, and when the travel times are multiples of the timestep *)
Theorem C61_ready : forall c P targ w0 w1 w darg tm n, reach c w0 -> w_final w0 = false -> finalize c targ w0 = Ok w1 -> later c P w1 w ->
  (0 < dt c)%Q -> w_tmax w = Some tm -> (tm == Qof_nat n * dt c)%Q -> (0 < tsn_dt c darg)%Z ->
  (forall l, exists_link w0 l -> (0 <= l_len (L w0 l) / l_u (L w0 l))%Q) ->
  (exists es, tsn c w darg = Ok es) /\ sane_times w /\
  ((forall l, exists_link w0 l -> exists k : nat, (l_len (L w0 l) / l_u (L w0 l) == Qof_nat k * dt c)%Q) -> whole_times c w).
Proof. exact ready_lemma. Qed.
Print Assumptions C61_ready.

(** C61: costs are computed from the origins of the vehicles at their departure times *)
Theorem C61_sources : forall c w darg tm ss, w_tmax w = Some tm -> (0 < tsn_dt c darg)%Z -> (dt c == inject_Z (tsn_dt c darg))%Q -> tsn_sources c w darg = Ok ss ->
  (forall v, v < w_nv w -> (v_depsec (V w v) == inject_Z (v_dep (V w v)) * dt c)%Q) ->
  forall u, In u ss <-> exists v, v < w_nv w /\ u = (v_orig (V w v), Some (v_dep (V w v) * tsn_dt c darg)%Z) /\ In (v_dep (V w v) * tsn_dt c darg)%Z (tsn_times (qtrunc tm) (tsn_dt c darg)).
Proof. exact sources_lemma. Qed.
Print Assumptions C61_sources.

(** C61: in general the cost is not the travel time of a route *)
Theorem C61_rounding_refuted : exists w es f x r y, reachable cfg_det w /\ w_final w = true /\ (dt cfg_det == 5)%Q /\ tsn cfg_det w None = Ok es /\ least_costs es (0, Some 0%Z) f /\
  f (4, None) = Some x /\ (x == 28)%Q /\ leads w 0 4 r /\ in_time cfg_det w r 0 40 /\ route_time cfg_det w r 0 = Ok y /\ (y == 31)%Q /\
  (forall r', leads w 0 4 r' -> r' = r).
Proof. exact rounding_refuted. Qed.
Print Assumptions C61_rounding_refuted.

(** C61: the better one of parallel links may be missing *)
Theorem C61_parallel_refuted : exists w es f x y, reachable cfg_det w /\ w_final w = true /\ tsn cfg_det w None = Ok es /\ least_costs es (0, Some 0%Z) f /\
  f (1, None) = Some x /\ (x == 9)%Q /\ leads w 0 1 [0] /\ in_time cfg_det w [0] 0 20 /\ route_time cfg_det w [0] 0 = Ok y /\ (y == 7)%Q.
Proof. exact parallel_refuted. Qed.
Print Assumptions C61_parallel_refuted.

(** C61: the construction fails if TMAX is no multiple of the timestep *)
Theorem C61_tmax_refuted : exists w, reachable cfg_det w /\ w_final w = true /\ w_tmax w = Some 12%Q /\ tsn cfg_det w None = Err IndexError.
Proof. exact tmax_refuted. Qed.
Print Assumptions C61_tmax_refuted.

(** C61: departure times given in seconds give a wrong source *)
Theorem C61_source_refuted : exists w, reachable cfg_det w /\ w_final w = true /\ w_nv w = 1 /\ v_dep (V w 0) = 2%Z /\ (dt cfg_det == 5)%Q /\ tsn_sources cfg_det w None = Ok [(0, Some 50%Z)].
Proof. exact source_refuted. Qed.
Print Assumptions C61_source_refuted.
