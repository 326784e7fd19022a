(** * Props_AreaTrips: trips between areas and groups of vehicles (C56). *)
From Verif Require Import Base Types Sim Build Reach Steps Spec SpecDuo SpecStats Analyzer SpecRoutes SpecDelay Delay Demo MotionDemo SpecLinks LinkStats AreaStats DelayDemo SpecTrips AreaTrips AreaTripsDemo.
Local Open Scope nat_scope.

(** C56: the rows are those of the pairs of areas with trips between them *)
Theorem C56_pairs : forall c w named areas rows, (0 <= dt c)%Q -> (0 < c_deltan c)%Z -> reach c w -> areas2areas c w named areas = Ok rows ->
  map pr_ij rows = used_pairs w areas.
Proof. exact areas2areas_lemma. Qed.
Print Assumptions C56_pairs.

(** C56: total and completed trips and the average travel time are those of the vehicles between the areas; the average distance counts the vehicles between whose nodes a trip has been completed *)
Theorem C56_pair : forall c w t ij origs dests, (0 <= dt c)%Q -> (0 < c_deltan c)%Z -> reach c w -> od_tables_of c w = Ok t ->
  (trips w origs dests = [] -> pair_row_of t ij origs dests = None) /\
  (trips w origs dests <> [] -> exists r, pair_row_of t ij origs dests = Some r /\ pr_ij r = ij /\
    pr_total r = (c_deltan c * Z.of_nat (List.length (trips w origs dests)))%Z /\
    pr_comp r = (c_deltan c * Z.of_nat (List.length (ended_trips w origs dests)))%Z /\
    (ended_trips w origs dests = [] -> pr_time r = Nan /\ pr_free r = Nan /\ pr_dist r = Nan) /\
    (ended_trips w origs dests <> [] ->
       (exists q, pr_time r = Fin q /\ (q == mean (map (fun v => v_tt (V w v)) (ended_trips w origs dests)))%Q) /\
       (exists q, pr_dist r = Fin q /\ (q == qsum (map (fun v => v_dist (V w v)) (served_trips w origs dests)) / Qof_nat (List.length (trips w origs dests)))%Q))).
Proof. exact pair_row_lemma. Qed.
Print Assumptions C56_pair.

(** C56: in plain networks without changes of speed the average free travel time is that of the fastest routes and at most the average travel time *)
Theorem C56_pair_free : forall c w t ij origs dests, correct_routine c -> (0 <= dt c)%Q -> (0 < c_deltan c)%Z -> reachP c keep_speed w -> plain_net w ->
  od_tables_of c w = Ok t -> ended_trips w origs dests <> [] ->
  exists r free len q x, pair_row_of t ij origs dests = Some r /\
    (forall v k, exists_veh w v -> v_state (V w v) = End_ -> v_dest (V w v) = Some k -> fastest w (v_orig (V w v)) k (free v) /\ (free v <= v_tt (V w v))%Q) /\
    (forall v k, exists_veh w v -> served w v = true -> v_dest (V w v) = Some k -> shortest w (v_orig (V w v)) k (len v)) /\
    pr_free r = Fin q /\ (q == mean (map free (ended_trips w origs dests)))%Q /\ (q <= mean (map (fun v => v_tt (V w v)) (ended_trips w origs dests)))%Q /\
    pr_short r = Fin x /\ (x == qsum (map len (served_trips w origs dests)) / Qof_nat (List.length (trips w origs dests)))%Q.
Proof. exact pair_free_lemma. Qed.
Print Assumptions C56_pair_free.

(** C56: in plain networks only an empty area without given names raises *)
Theorem C56_pairs_total : forall c w named areas, correct_routine c -> reach c w -> plain_net w ->
  ((named = true \/ ~ In [] areas) -> exists rows, areas2areas c w named areas = Ok rows) /\
  (named = false -> In [] areas -> areas2areas c w named areas = Err IndexError).
Proof. exact areas2areas_total. Qed.
Print Assumptions C56_pairs_total.

(** two completed trips between two areas *)
Example C56_pair_example : exists w t r x y, reachP c0 keep_speed w /\ plain_net w /\ od_tables_of c0 w = Ok t /\ pair_row_of t (0, 1) [0] [2] = Some r /\
  List.length (ended_trips w [0] [2]) = 2 /\ pr_total r = 10%Z /\ pr_comp r = 10%Z /\ pr_time r = Fin x /\ (x == 115 # 2)%Q /\ pr_free r = Fin y /\ (y == 51)%Q.
Proof. exact pair_example. Qed.

(** C56: the average distance is not that of all vehicles between the areas *)
Theorem C56_pair_distance_refuted : exists c w t r x, correct_routine c /\ reachP c keep_speed w /\ plain_net w /\ od_tables_of c w = Ok t /\
  pair_row_of t (0, 1) [0] [1; 2] = Some r /\ pr_dist r = Fin x /\ (x < mean (map (fun v => v_dist (V w v)) (trips w [0%nat] [1%nat; 2%nat])))%Q.
Proof. exact pair_distance_refuted. Qed.
Print Assumptions C56_pair_distance_refuted.

(** C56: the average shortest distance can be less than the length of any link *)
Theorem C56_pair_shortest_refuted : exists c w t r x, correct_routine c /\ reachP c keep_speed w /\ plain_net w /\ od_tables_of c w = Ok t /\
  pair_row_of t (0, 1) [0] [1; 2] = Some r /\ (0 < pr_comp r)%Z /\ pr_short r = Fin x /\ (forall l, exists_link w l -> (x < l_len (L w l))%Q).
Proof. exact pair_shortest_refuted. Qed.
Print Assumptions C56_pair_shortest_refuted.

(** C56: the values of a group are the numbers of its vehicles and the means over its ended vehicles *)
Theorem C56_groups : forall t w n groups rows, vehicle_groups t w (Some n) groups = Ok rows ->
  n = List.length groups /\
  Forall2 (fun g r => gr_total r = List.length g /\ gr_comp r = List.length (filter (has_ended w) g) /\
    (filter (has_ended w) g = [] -> gr_time r = Nan /\ gr_delay r = Nan /\ gr_dist r = Nan /\ gr_detour r = Nan /\ gr_speed r = Nan) /\
    (filter (has_ended w) g <> [] -> gr_time r = Fin (mean (map (fun v => v_tt (V w v)) (filter (has_ended w) g))) /\
       gr_dist r = Fin (mean (map (fun v => v_dist (V w v)) (filter (has_ended w) g))) /\
       gr_speed r = Fin (mean (map (fun v => v_dist (V w v) / v_tt (V w v))%Q (filter (has_ended w) g))))) groups rows.
Proof. exact groups_lemma. Qed.
Print Assumptions C56_groups.

(** C56: in plain networks without changes of speed and without round trips the delay ratio is the mean of those to the fastest routes and at least 1 *)
Theorem C56_groups_delay : forall c w t groups, correct_routine c -> (0 <= dt c)%Q -> (0 < c_deltan c)%Z -> reachP c keep_speed w -> plain_net w ->
  od_tables_of c w = Ok t -> Forall (Forall (exists_veh w)) groups ->
  (forall v, exists_veh w v -> v_state (V w v) = End_ -> v_dest (V w v) <> Some (v_orig (V w v))) ->
  exists rows free, vehicle_groups t w (Some (List.length groups)) groups = Ok rows /\
    (forall v k, exists_veh w v -> v_state (V w v) = End_ -> v_dest (V w v) = Some k -> fastest w (v_orig (V w v)) k (free v) /\ (free v <= v_tt (V w v))%Q) /\
    Forall2 (fun g r => filter (has_ended w) g <> [] -> exists q, gr_delay r = Fin q /\ (q == mean (map (fun v => v_tt (V w v) / free v)%Q (filter (has_ended w) g)))%Q /\ (1 <= q)%Q) groups rows.
Proof. exact groups_delay. Qed.
Print Assumptions C56_groups_delay.

(** C56: without given names the statistics of groups always raise AttributeError *)
Theorem C56_groups_unnamed : forall t w g groups, vehicle_groups t w None (g :: groups) = Err AttributeError.
Proof. exact groups_unnamed. Qed.
Print Assumptions C56_groups_unnamed.

(** a group of two ended vehicles *)
Example C56_group_example : exists w t r rs y, reachP c0 keep_speed w /\ plain_net w /\ od_tables_of c0 w = Ok t /\ Forall (Forall (exists_veh w)) [[0; 1]] /\
  (forall v, exists_veh w v -> v_dest (V w v) <> Some (v_orig (V w v))) /\
  vehicle_groups t w (Some 1) [[0; 1]] = Ok (r :: rs) /\ gr_total r = 2 /\ gr_comp r = 2 /\ gr_delay r = Fin y /\ (y == 115 # 102)%Q.
Proof. exact group_example. Qed.

(** C56: the detour ratio can be below 1 *)
Theorem C56_detour_refuted : exists c w t r rs x, correct_routine c /\ reachP c keep_speed w /\ plain_net w /\ od_tables_of c w = Ok t /\
  vehicle_groups t w (Some 1) [[0; 1]] = Ok (r :: rs) /\ gr_detour r = Fin x /\ (x < 1)%Q.
Proof. exact detour_refuted. Qed.
Print Assumptions C56_detour_refuted.

(** C56: a round trip has an infinite delay ratio *)
Theorem C56_round_trip_refuted : exists c w t r rs, correct_routine c /\ reachP c keep_speed w /\ plain_net w /\ od_tables_of c w = Ok t /\
  vehicle_groups t w (Some 1) [[0]] = Ok (r :: rs) /\ gr_comp r = 1 /\ gr_delay r = Inf.
Proof. exact round_trip_refuted. Qed.
Print Assumptions C56_round_trip_refuted.

(** C56: after an earlier od_analysis an ended vehicle can raise IndexError *)
Theorem C56_old_tables_refuted : exists c w w' t, reach c w /\ later c any_op w w' /\ od_tables_of c w = Ok t /\ exists_veh w' 1 /\ v_state (V w' 1) = End_ /\
  vehicle_groups t w' (Some 1) [[1]] = Err IndexError.
Proof. exact old_tables_refuted. Qed.
Print Assumptions C56_old_tables_refuted.
