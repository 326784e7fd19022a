(** * Props_TaxiStats: statistics of the taxi handler and names of requests (C52). *)
From Verif Require Import Base Types Sim Build Reach Steps Spec Rounds SpecTaxi Demo ExecDemo TaxiDemo TaxiStats TaxiStatsDemo.
Local Open Scope nat_scope.

(** C52: the statistics are the numbers, waiting times, riding times and travel times of the requests, in their order *)
Theorem C52_stats : forall c w, (0 <= dt c)%Q -> reach c w ->
  let rs := seq 0 (w_nr w) in
  compute_stats c w = Ok (mkTS (c_deltan c * Z.of_nat (w_nr w)) (c_deltan c * Z.of_nat (List.length (filter (delivered w) rs)))
    (map (wait_of w) (filter (got_on w) rs)) (map (trip_of w) (filter (delivered w) rs)) (map (ride_of w) (filter (delivered w) rs))
    (c_deltan c * Z.of_nat (List.length (filter (is_taxi w) (seq 0 (w_nv w)))))).
Proof. exact stats_lemma. Qed.
Print Assumptions C52_stats.

(** C52: no more requests are completed than made; all who arrived had got on; no ride takes a negative time *)
Theorem C52_bounds : forall c w s, (0 <= dt c)%Q -> (0 <= c_deltan c)%Z -> reach c w -> compute_stats c w = Ok s ->
  (ts_done s <= ts_total s)%Z /\ List.length (ts_travel s) = List.length (ts_ride s) /\
  List.length (ts_ride s) <= List.length (ts_wait s) <= w_nr w /\ (forall q, In q (ts_ride s) -> (0 <= q)%Q).
Proof. exact bounds_lemma. Qed.
Print Assumptions C52_bounds.

(** C52: over the completed requests, the average travel time is the average waiting time and the average riding time *)
Theorem C52_average : forall c w s, (0 <= dt c)%Q -> reach c w -> compute_stats c w = Ok s ->
  (mean0 (ts_travel s) == mean0 (map (wait_of w) (filter (delivered w) (seq 0 (w_nr w)))) + mean0 (ts_ride s))%Q.
Proof. exact average_lemma. Qed.
Print Assumptions C52_average.

(** C52: if requests are assigned when due, no waiting time and no travel time is negative *)
Theorem C52_waiting : forall c w s, (0 <= dt c)%Q -> reachP c on_time w -> compute_stats c w = Ok s ->
  (forall q, In q (ts_wait s) -> (0 <= q)%Q) /\ (forall q, In q (ts_travel s) -> (0 <= q)%Q) /\ (mean0 (ts_ride s) <= mean0 (ts_travel s))%Q.
Proof. exact waiting_lemma. Qed.
Print Assumptions C52_waiting.

(** C52: the statistics can be printed exactly if there is a taxi; the figures are the share of
    completed requests, between 0 and 1, and the completed requests per taxi *)
Theorem C52_print : forall c w, (0 <= dt c)%Q -> (0 < c_deltan c)%Z -> reach c w ->
  ((exists v, v < w_nv w /\ v_mode (V w v) = Taxi) -> exists a b, print_stats c w = Ok (a, b) /\ (0 <= a <= 1)%Q /\
     (a * Qof_nat (w_nr w) == Qof_nat (List.length (filter (delivered w) (seq 0 (w_nr w)))))%Q /\
     (b * Qof_nat (List.length (filter (is_taxi w) (seq 0 (w_nv w)))) == Qof_nat (List.length (filter (delivered w) (seq 0 (w_nr w)))))%Q) /\
  ((forall v, v < w_nv w -> v_mode (V w v) <> Taxi) -> print_stats c w = Err ZeroDivisionError).
Proof. exact print_lemma. Qed.
Print Assumptions C52_print.

(** C52: the table of trips has the times of exactly those requests that have them; no taxi exactly for pending requests *)
Theorem C52_row : forall c w r, (0 <= dt c)%Q -> reach c w -> r < w_nr w ->
  (delivered w r = true <-> fst (fst (trip_row w r)) <> None) /\ (got_on w r = true <-> snd (fst (trip_row w r)) <> None) /\
  (delivered w r = true -> fst (fst (trip_row w r)) = Some (trip_of w r)) /\ (got_on w r = true -> snd (fst (trip_row w r)) = Some (wait_of w r)) /\
  (snd (trip_row w r) = None <-> pending w r).
Proof. exact row_lemma. Qed.
Print Assumptions C52_row.

(** C52: as long as no request has been assigned, every request is found by its default name *)
Theorem C52_names : forall c os tm w ns, valid c os (empty_world tm) -> forallb (fun o => negb (is_assign o)) os = true ->
  names c os (empty_world tm) [] = Some (w, ns) ->
  NoDup ns /\ List.length ns = w_nr w /\ forall r, r < w_nr w -> exists k, nth_error ns r = Some k /\ get_trip ns k 0 = Ok r.
Proof. exact names_lemma. Qed.
Print Assumptions C52_names.

(** the statistics of a service with three taxis *)
Example C52_example : exists w s, reachP cfg0 on_time w /\ compute_stats cfg0 w = Ok s /\ ts_total s = 20%Z /\ ts_done s = 15%Z /\ ts_taxis s = 15%Z /\
  List.length (ts_wait s) = 3 /\ (mean0 (ts_travel s) == 15)%Q /\ (mean0 (ts_wait s) == 25 # 3)%Q.
Proof. exact service_example. Qed.

(** two requests with names *)
Example C52_names_example : exists w, valid cfg0 named (empty_world (Some 100%Q)) /\ forallb (fun o => negb (is_assign o)) named = true /\
  names cfg0 named (empty_world (Some 100%Q)) [] = Some (w, [0; 1]).
Proof. exact names_example. Qed.

(** C52: a request assigned before it is due makes the average waiting time negative *)
Theorem C52_early_refuted : exists c w s, (0 < dt c)%Q /\ reach c w /\ compute_stats c w = Ok s /\ (mean0 (ts_wait s) == -95)%Q /\ (mean0 (ts_travel s) == -85)%Q /\ (mean0 (ts_ride s) == 10)%Q.
Proof. exact early_lemma. Qed.
Print Assumptions C52_early_refuted.

(** C52: printing fails without taxis, although the statistics exist *)
Theorem C52_print_refuted : exists c w s, (0 < dt c)%Q /\ reach c w /\ compute_stats c w = Ok s /\ print_stats c w = Err ZeroDivisionError.
Proof. exact no_taxi_lemma. Qed.
Print Assumptions C52_print_refuted.

(** C52: a default name can be given twice; the later request is not found *)
Theorem C52_names_refuted : exists c os w ns, valid c os (empty_world (Some 200%Q)) /\ names c os (empty_world (Some 200%Q)) [] = Some (w, ns) /\
  w_nr w = 2 /\ nth_error ns 0 = Some 0 /\ nth_error ns 1 = Some 0 /\ get_trip ns 0 0 = Ok 0 /\ forall k, get_trip ns k 0 <> Ok 1.
Proof. exact names_refuted_lemma. Qed.
Print Assumptions C52_names_refuted.
