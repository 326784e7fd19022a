(** * Props_RouteSets: route enumerations and distances of Utilities (C50, C51). *)
From Verif Require Import Base Types Sim Build Reach Steps Spec Registry Route SpecDuo SpecDue Due SpecDso Dso Paths Demo MotionDemo DuoDemo DueDemo DsoDemo SpecRoutes EnumRoutes EnumRoutesDemo NodeDistances NodeDistancesDemo.
Local Open Scope nat_scope.

(** C50: without parallel links, the k simple routes of least cost, in order, with their costs *)
Theorem C50_k_shortest : forall ssp c w f s t k rs cs, correct_ssp ssp -> reach c w -> single_links w ->
  k_shortest ssp w f s t k = Ok (rs, cs) -> k_least w f s t k rs cs.
Proof. exact k_shortest_lemma. Qed.
Print Assumptions C50_k_shortest.

(** C50: the first one is a shortest route, if no cost is negative *)
Theorem C50_shortest : forall ssp c w f s t k rs cs r, correct_ssp ssp -> reach c w -> single_links w ->
  (forall l, exists_link w l -> (0 <= f l)%Q) -> k_shortest ssp w f s t (S k) = Ok (rs, cs) -> leads w s t r ->
  exists r0 tl, rs = r0 :: tl /\ leads w s t r0 /\ (cost f r0 <= cost f r)%Q.
Proof. exact shortest_first. Qed.
Print Assumptions C50_shortest.

(** C50: it fails only if no route leads from one node to the other, or a node has no links *)
Theorem C50_k_shortest_total : forall ssp c w f s t k, correct_ssp ssp -> reach c w ->
  (linked w s /\ linked w t /\ exists r, leads w s t r) <-> exists x, k_shortest ssp w f s t k = Ok x.
Proof. exact k_shortest_total. Qed.
Print Assumptions C50_k_shortest_total.

(** C50: the contract of shortest_simple_paths can be met *)
Theorem C50_routines : correct_ssp ssp_ref.
Proof. exact ssp_ref_correct. Qed.
Print Assumptions C50_routines.

(** C50: the contract of all_pairs_dijkstra_path can be met *)
Theorem C50_routines_all_pairs : correct_apd apd_ref.
Proof. exact apd_ref_correct. Qed.
Print Assumptions C50_routines_all_pairs.

(** C50: for all pairs of nodes with a route, at most k different simple routes from one to the other, at least one *)
Theorem C50_random : forall apd c w draw k fuel d, correct_apd apd -> reach c w -> (forall l, exists_link w l -> (0 <= ff w l)%Q) -> (forall it l, (0 <= draw it l)%Q) ->
  enumerate_k_random apd w draw k fuel = Ok d -> random_routes w k d.
Proof. exact random_lemma. Qed.
Print Assumptions C50_random.

(** C50: without parallel links the first one is a shortest route by free flow travel time *)
Theorem C50_random_shortest : forall apd c w draw k fuel d s t r, correct_apd apd -> reach c w -> single_links w -> (forall l, exists_link w l -> (0 <= ff w l)%Q) -> (forall it l, (0 <= draw it l)%Q) ->
  enumerate_k_random apd w draw (S k) fuel = Ok d -> linked w s -> leads w s t r -> exists r0 tl, d_routes d (s, t) = r0 :: tl /\ (cost (ff w) r0 <= cost (ff w) r)%Q.
Proof. exact random_shortest. Qed.
Print Assumptions C50_random_shortest.

(** C50: in general it is a shortest one among those of the last links between the nodes *)
Theorem C50_random_first : forall apd c w draw k fuel d s t r, correct_apd apd -> reach c w -> (forall l, exists_link w l -> (0 <= ff w l)%Q) -> (forall it l, (0 <= draw it l)%Q) ->
  enumerate_k_random apd w draw (S k) fuel = Ok d -> linked w s -> leads w s t r -> Forall (latest w) r ->
  exists r0 tl, d_routes d (s, t) = r0 :: tl /\ (cost (ff w) r0 <= cost (ff w) r)%Q.
Proof. exact random_first. Qed.
Print Assumptions C50_random_first.

(** C50: the random enumeration ends, and does not fail if there is a link *)
Theorem C50_random_stops : forall apd c w draw k fuel, correct_apd apd -> reach c w -> w_nl w <> 0 ->
  (forall l, exists_link w l -> ~ (l_u (L w l) == 0)%Q /\ (0 <= ff w l)%Q) -> (forall it l, (0 <= draw it l)%Q) ->
  12 + 11 * (k * (w_nn w * w_nn w)) <= fuel -> exists d, enumerate_k_random apd w draw k fuel = Ok d.
Proof. exact random_stops. Qed.
Print Assumptions C50_random_stops.

(** C50: it fails without links *)
Theorem C50_random_no_links : forall apd c w draw k fuel, correct_apd apd -> reach c w -> w_nl w = 0 -> enumerate_k_random apd w draw k (S fuel) = Err ZeroDivisionError.
Proof. exact random_no_links. Qed.
Print Assumptions C50_random_no_links.

(** the enumerations at work *)
Example C50_example : exists w, reachable cfg_det w /\
  found_b w 1 0 3 [[0; 1]] [100%Q] = true /\ found_b w 5 0 3 [[0; 1]; [2; 3]] [100%Q; 150%Q] = true /\ random_b w dear 2 0 3 [[0; 1]; [2; 3]] = true /\ random_b w dear 1 0 3 [[0; 1]] = true /\ random_b w dear 2 3 0 [] = true /\
  k_shortest ssp_ref w (ff w) 3 0 1 = Err Exception_.
Proof. exact enumeration_example. Qed.

(** C50: with parallel links the returned links are no route, and the cost is not the least one *)
Theorem C50_parallel_refuted : exists c w s t r x, reachable c w /\ correct_ssp ssp_ref /\ k_shortest ssp_ref w (ff w) s t 1 = Ok ([r], [x]) /\
  ~ leads w s t r /\ exists r', leads w s t r' /\ (cost (ff w) r' < x)%Q.
Proof. exact parallel_refuted. Qed.
Print Assumptions C50_parallel_refuted.

(** C50: with parallel links the shortest route need not be among the random ones *)
Theorem C50_random_shortest_refuted : exists c w draw d s t r, reachable c w /\ correct_apd apd_ref /\ (forall it l, (0 <= draw it l)%Q) /\
  enumerate_k_random apd_ref w draw 2 100 = Ok d /\ leads w s t r /\ forall r', In r' (d_routes d (s, t)) -> (cost (ff w) r < cost (ff w) r')%Q.
Proof. exact random_first_refuted. Qed.
Print Assumptions C50_random_shortest_refuted.

(** C50: fewer than k routes may be found although there are k *)
Theorem C50_random_number_refuted : exists c w draw d s t, reachable c w /\ (forall it l, (0 <= draw it l)%Q) /\
  enumerate_k_random apd_ref w draw 2 100 = Ok d /\ simple_route w s t [0; 1] /\ simple_route w s t [2; 3] /\ d_routes d (s, t) = [[0; 1]].
Proof. exact random_number_refuted. Qed.
Print Assumptions C50_random_number_refuted.

(** C51: the distance is the length of a shortest route; inf if none leads there *)
Theorem C51_distances : forall c w i k, correct_routine c -> reach c w -> (forall l, exists_link w l -> (0 < len w l)%Q) -> exists_node w i -> exists_node w k ->
  (forall x, all_distances c w i k = Some x -> (exists r, leads w i k r /\ (cost (len w) r == x)%Q) /\ (forall r, leads w i k r -> (x <= cost (len w) r)%Q)) /\
  (all_distances c w i k = None -> forall r, ~ leads w i k r).
Proof. exact distances_lemma. Qed.
Print Assumptions C51_distances.

(** C51: travel times are recorded at every update of the route choice, once; the current ones are the last ones *)
Theorem C51_record : forall c w, reach c w -> RecOK c w.
Proof. exact record_inv. Qed.
Print Assumptions C51_record.

(** C51: the travel times are those of the last update *)
Theorem C51_times : forall c w, reach c w -> w_rcrec w <> [] -> exists T, last_opt (w_rcrec w) = Some (T, all_times w) /\ last_opt (search_steps c (w_T w)) = Some T.
Proof. exact times_last. Qed.
Print Assumptions C51_times.

(** C51: those at a time are those of the last update before it, if the interval is a multiple of the timestep *)
Theorem C51_times_on : forall c w t tm m, reach c w -> (0 < dt c)%Q -> (c_duo_time c == Qof_nat (S m) * dt c)%Q -> w_tmax w = Some tm ->
  (0 <= clip_time c tm t)%Q -> (clip_time c tm t < Qof_nat (w_T w) * dt c)%Q ->
  exists T d n, all_times_on c w t = Ok (d, n) /\ In (T, d) (w_rcrec w) /\ (forall d', In (T, d') (w_rcrec w) -> d' = d) /\
    (Qof_nat T * dt c <= clip_time c tm t)%Q /\ (clip_time c tm t < (Qof_nat T + Qof_nat (S m)) * dt c)%Q.
Proof. exact times_on_lemma. Qed.
Print Assumptions C51_times_on.

(** the queries at work *)
Example C51_example : exists w w', reachable (cfg_upd 20) w /\ reachable (cfg_upd 20) w' /\ all_distances (cfg_upd 20) w 0 3 = Some 2000%Q /\ all_distances (cfg_upd 20) w 3 0 = None /\ all_distances (cfg_upd 20) w' 0 1 = Some 1000%Q /\
  map fst (w_rcrec w) = [0; 4; 8; 12; 16; 20] /\ exists d, all_times_on (cfg_upd 20) w 57 = Ok (d, 2%Q) /\ d 0 3 = Some 100%Q.
Proof. exact distances_example. Qed.

(** C51: a time at or after the end of the simulation is taken as that of the last timestep *)
Theorem C51_times_on_late : forall c w t tm, (0 < dt c)%Q -> w_tmax w = Some tm -> (tm <= t)%Q -> all_times_on c w t = all_times_on c w (tm - dt c).
Proof. exact times_on_late. Qed.
Print Assumptions C51_times_on_late.

(** C51: otherwise the query can fail *)
Theorem C51_times_on_refuted : exists c w t tm, reachable c w /\ (0 < dt c)%Q /\ (dt c <= c_duo_time c)%Q /\ w_tmax w = Some tm /\ (0 <= t)%Q /\ (t < tm)%Q /\ (t < Qof_nat (w_T w) * dt c)%Q /\ all_times_on c w t = Err KeyError.
Proof. exact times_on_refuted. Qed.
Print Assumptions C51_times_on_refuted.

(** C51: the returned time is not the time of the update *)
Theorem C51_return_time_refuted : exists c w t d x, reachable c w /\ (c_duo_time c == 4 * dt c)%Q /\ all_times_on c w t = Ok (d, x) /\ forall T d', In (T, d') (w_rcrec w) -> ~ (x == Qof_nat T * dt c)%Q.
Proof. exact return_time_refuted. Qed.
Print Assumptions C51_return_time_refuted.

(** C51: before the first update all travel times are 0 *)
Theorem C51_before_refuted : exists c w i k, reachable c w /\ w_final w = true /\ exists_node w i /\ exists_node w k /\ i <> k /\ (forall r, ~ leads w i k r) /\ all_times w i k = Some 0%Q.
Proof. exact before_refuted. Qed.
Print Assumptions C51_before_refuted.

(** C51: with parallel links the travel time is not the least one *)
Theorem C51_parallel_refuted : exists c w i k l x, reachable c w /\ w_rcrec w <> [] /\ all_times w i k = Some x /\ leads w i k [l] /\ (last_tt (L w l) < x)%Q.
Proof. exact times_parallel_refuted. Qed.
Print Assumptions C51_parallel_refuted.

(** C51: a link of length 0 counts as none *)
Theorem C51_zero_length_refuted : exists c w i k r, reachable c w /\ correct_routine c /\ exists_node w i /\ exists_node w k /\ leads w i k r /\ all_distances c w i k = None.
Proof. exact zero_refuted. Qed.
Print Assumptions C51_zero_length_refuted.
