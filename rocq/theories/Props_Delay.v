(** * Props_Delay: free-flow travel times, delays and distances (C53). *)
From Verif Require Import Base Types Sim Build Reach Steps Spec SpecDuo SpecStats Analyzer SpecRoutes Demo SpecDelay Delay DelayDemo.
Local Open Scope nat_scope.

(** C53: without parallel or closed links and with positive lengths and speeds, the free travel times are those of the fastest routes, infinite where none leads *)
Theorem C53_free_times : forall c w, correct_routine c -> reach c w -> plain_net w ->
  exists d, free_times c w = Ok d /\ forall i k, exists_node w i -> exists_node w k ->
    (forall x, d i k = Some x -> fastest w i k x) /\ (d i k = None -> forall r, ~ leads w i k r).
Proof. exact free_times_lemma. Qed.
Print Assumptions C53_free_times.

(** C53: likewise the shortest distances *)
Theorem C53_min_distances : forall c w, correct_routine c -> reach c w -> plain_net w ->
  exists d, min_dists c w = Ok d /\ forall i k, exists_node w i -> exists_node w k ->
    (forall x, d i k = Some x -> shortest w i k x) /\ (d i k = None -> forall r, ~ leads w i k r).
Proof. exact min_dists_lemma. Qed.
Print Assumptions C53_min_distances.

(** C53: there, if no speed is changed, total and average delay are those of the completed trips over the fastest routes, and not negative *)
Theorem C53_delay : forall c w, correct_routine c -> (0 <= dt c)%Q -> (0 < c_deltan c)%Z -> reachP c keep_speed w -> plain_net w -> completed w <> 0 ->
  exists m free y a, more_stats_of c w = Ok m /\ ms_delay m = Some y /\ ms_avdelay m = Some a /\
    (forall v k, exists_veh w v -> v_state (V w v) = End_ -> v_dest (V w v) = Some k -> fastest w (v_orig (V w v)) k (free v) /\ (free v <= v_tt (V w v))%Q) /\
    (y == inject_Z (c_deltan c) * qsum (map (fun v => v_tt (V w v) - free v) (filter (has_ended w) (vehicles w))))%Q /\
    (a == qsum (map (fun v => v_tt (V w v) - free v) (filter (has_ended w) (vehicles w))) / Qof_nat (completed w))%Q /\ (0 <= y)%Q /\ (0 <= a)%Q.
Proof. exact delay_lemma. Qed.
Print Assumptions C53_delay.

(** C53: without a completed trip both are -1 *)
Theorem C53_no_trip : forall c w d, (0 <= dt c)%Q -> reach c w -> completed w = 0 ->
  ms_delay (more_of (od_compute c w) (dist_table w) d) = Some (-1)%Q /\ ms_avdelay (more_of (od_compute c w) (dist_table w) d) = Some (-1)%Q.
Proof. exact no_delay_lemma. Qed.
Print Assumptions C53_no_trip.

(** C53: the total distance is that of the vehicles between whose nodes a trip has been completed *)
Theorem C53_distance : forall c w d, (0 <= dt c)%Q -> reach c w ->
  (ms_dist (more_of (od_compute c w) (dist_table w) d) == inject_Z (c_deltan c) * served_distance w)%Q.
Proof. exact total_distance_lemma. Qed.
Print Assumptions C53_distance.

(** C53: if this holds for all vehicles it is the total distance of all vehicles with a destination *)
Theorem C53_all_distance : forall c w d, (0 <= dt c)%Q -> reach c w -> (forall v, exists_veh w v -> has_dest w v = true -> served w v = true) ->
  (ms_dist (more_of (od_compute c w) (dist_table w) d) == inject_Z (c_deltan c) * all_distance w)%Q.
Proof. exact all_distance_lemma. Qed.
Print Assumptions C53_all_distance.

(** two completed trips with delays *)
Example C53_example : exists w, reachP c0 keep_speed w /\ plain_net w /\ completed w = 2 /\ exists m y a, more_stats_of c0 w = Ok m /\ ms_delay m = Some y /\ (y == 65)%Q /\ ms_avdelay m = Some a /\ (a == 13 # 2)%Q.
Proof. exact delay_example. Qed.

(** C53: with parallel links the last one counts and the delay can be negative *)
Theorem C53_parallel_refuted : exists c w m y, correct_routine c /\ reachP c keep_speed w /\ open_links w /\ long_links w /\ fast_links w /\ completed w <> 0 /\ more_stats_of c w = Ok m /\ ms_delay m = Some y /\ (y < 0)%Q.
Proof. exact parallel_refuted. Qed.
Print Assumptions C53_parallel_refuted.

(** C53: after the inflow of a used link has been forbidden the delay is minus infinity *)
Theorem C53_closed_refuted : exists c w m, correct_routine c /\ reachP c keep_speed w /\ single_links w /\ long_links w /\ fast_links w /\ completed w <> 0 /\ more_stats_of c w = Ok m /\ ms_delay m = None.
Proof. exact closed_refuted. Qed.
Print Assumptions C53_closed_refuted.

(** C53: after a speed has been lowered the delay can be negative *)
Theorem C53_speed_refuted : exists c w m y, correct_routine c /\ reach c w /\ plain_net w /\ completed w <> 0 /\ more_stats_of c w = Ok m /\ ms_delay m = Some y /\ (y < 0)%Q.
Proof. exact speed_refuted. Qed.
Print Assumptions C53_speed_refuted.

(** C53: in general the total distance is not that of all vehicles *)
Theorem C53_distance_refuted : exists c w m, correct_routine c /\ reachP c keep_speed w /\ plain_net w /\ more_stats_of c w = Ok m /\ ~ (ms_dist m == inject_Z (c_deltan c) * all_distance w)%Q.
Proof. exact distance_refuted. Qed.
Print Assumptions C53_distance_refuted.

(** C53: the average distance of completed trips can be less than the shortest distance *)
Theorem C53_shortest_refuted : exists c w d x k, correct_routine c /\ reachP c keep_speed w /\ plain_net w /\ min_dists c w = Ok d /\ key_done (od_compute c w) k = true /\ dist_min (od_compute c w) d k = Some x /\ (dist_ave (od_compute c w) (dist_table w) k < x)%Q.
Proof. exact shortest_refuted. Qed.
Print Assumptions C53_shortest_refuted.
