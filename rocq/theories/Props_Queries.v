(** * Props_Queries: queries of the records of links (C23, C45). *)
From Verif Require Import Base Types Sim Build Inv Reach Steps Spec SpecTT SpecQueries LinkQueries Paths Demo MotionDemo TTActual Queries LogsDemo DueDemo QueriesDemo.
Local Open Scope nat_scope.

(** C23: each of the four queries returns the record, of its own curve, of the timestep containing [t] (the first before 0, the last after the end) *)
Theorem C23_queries : forall c k t, (0 < dt c)%Q ->
  (forall a, arrival_count c k t = Ok a <-> record_at c (l_ca k) t a) /\
  (forall d, departure_count c k t = Ok d <-> record_at c (l_cd k) t d) /\
  (forall x, instant_travel_time c k t = Ok x <-> record_at c (l_tti k) t x) /\
  (forall x, actual_travel_time c k t = Ok x <-> record_at c (l_tta k) t x).
Proof. exact queries_lemma. Qed.
Print Assumptions C23_queries.

(** C23: inflow_between is the difference of the cumulative arrivals per time *)
Theorem C23_inflow : forall c k t0 t1 q, (0 < dt c)%Q -> inflow_between c k t0 t1 = Ok q ->
  exists a0 a1, record_at c (l_ca k) t0 a0 /\ record_at c (l_ca k) t1 a1 /\ ~ (t1 == t0)%Q /\ (q * (t1 - t0) == inject_Z (a1 - a0))%Q.
Proof. exact inflow_lemma. Qed.
Print Assumptions C23_inflow.

(** C23: average density, speed and flow *)
Theorem C23_averages : forall c k t d s f, (0 < dt c)%Q -> average_density c k t = Ok d -> average_speed c k t = Ok s -> average_flow c k t = Ok f ->
  exists a e x, record_at c (l_ca k) t a /\ record_at c (l_cd k) t e /\ record_at c (l_tti k) t x /\
    (d * l_len k == inject_Z (a - e))%Q /\ (s * x == l_len k)%Q /\ (f == s * d)%Q.
Proof. exact averages_lemma. Qed.
Print Assumptions C23_averages.

(** C45: if all vehicles that entered in [t0,t1) have left, and no two of them entered in the same timestep, average_travel_time_between is the mean of the times they spent on the link; the free flow travel time if there are none *)
Theorem C45_average : forall c P w0 w l n ff, (0 < dt c)%Q -> reach c w0 -> w_final w0 = true -> l_tta (L w0 l) = repeat ff n ->
  l_vehs (L w0 l) = [] -> l_enter (L w0 l) = [] -> later c P w0 w ->
  exists g, exits c P l w0 w g /\ forall t0 t1, (0 <= t0)%Q -> (t1 <= Qof_nat n * dt c)%Q ->
    (forall x, In x (on_link w l) -> ~ ((t0 <= snd x)%Q /\ (snd x < t1)%Q)) ->
    (filter (during t0 t1) g = [] -> average_travel_time_between c (L w l) t0 t1 = qdiv (l_len (L w l)) (l_u (L w l))) /\
    (filter (during t0 t1) g <> [] -> NoDup (map entered (filter (during t0 t1) g)) ->
      average_travel_time_between c (L w l) t0 t1 = Ok (mean (map spent (filter (during t0 t1) g)))).
Proof. exact average_lemma. Qed.
Print Assumptions C45_average.

(** C45: the worlds after finalize_scenario meet the requirements (for the travel times see C35_free_flow) *)
Theorem C45_start : forall c tm w w' l, reach c w -> w_final w = false -> finalize c tm w = Ok w' -> l < w_nl w ->
  l_vehs (L w' l) = [] /\ l_enter (L w' l) = [].
Proof. exact finalize_unused. Qed.
Print Assumptions C45_start.

(** two vehicles, 30 s and 40 s *)
Example C45_example : exists w, reachable cfg_det w /\
  (entry_is w 0 1 5 0 && entry_is w 0 2 35 1 && entry_is w 1 1 15 0 && entry_is w 1 2 55 1 && avg_is cfg_det w 0 0 100 35 && avg_is cfg_det w 0 15 16 40 && avg_is cfg_det w 0 20 30 26)%bool = true.
Proof. exact average_example. Qed.

(** C45: of vehicles that enter in the same timestep (on several lanes) only the last to leave is counted *)
Theorem C45_together_refuted : exists w, reachable cfg_det w /\
  (entry_is w 0 1 5 0 && entry_is w 0 2 35 1 && entry_is w 1 1 5 0 && entry_is w 1 2 40 1 && avg_is cfg_det w 0 0 100 35 && Nat.eqb (List.length (l_vehs (L w 0))) 0)%bool = true.
Proof. exact together_refuted. Qed.
Print Assumptions C45_together_refuted.

(** C45: for a vehicle still on the link the time of an earlier one is taken *)
Theorem C45_underway_refuted : exists w, reachable cfg_det w /\
  (entry_is w 0 1 5 0 && entry_is w 0 2 35 1 && entry_is w 1 1 15 0 && match l_vehs (L w 0) with [v] => Nat.eqb v 1 | _ => false end && avg_is cfg_det w 0 10 40 30)%bool = true.
Proof. exact underway_refuted. Qed.
Print Assumptions C45_underway_refuted.
