(** * Properties of the demand (C22), the automatic TMAX (C33), departure times (C44). *)
From Coq Require Import Qabs.
From Verif Require Import Base Types Sim Build Reach Steps Spec Demo Demand DemandDemo.
Local Open Scope nat_scope.

(** C22: the vehicles that exist are unchanged; every new vehicle has the given origin and destination and departs
    in [t_start, t_end) (in timesteps). *)
Theorem C22_vehicles : forall c o d t0 t1 flow volume fl w w', (0 < dN c)%Q -> (0 < dt c)%Q ->
  flow_asked t0 t1 flow volume fl -> (0 <= fl)%Q -> adddemand c o d t0 t1 flow volume w = Ok w' ->
  (forall v, v < w_nv w -> V w' v = V w v) /\
  forall v, w_nv w <= v < w_nv w' ->
    v_orig (V w' v) = o /\ v_dest (V w' v) = Some d /\ v_state (V w' v) = Home /\ v_mode (V w' v) = SingleTrip /\
    (qtrunc (t0 / dt c) <= v_dep (V w' v) < qtrunc (t1 / dt c))%Z.
Proof. exact demand_each_lemma. Qed.
Print Assumptions C22_vehicles.

(** C22: for every timestep t of the interval, the number of new vehicles that depart before t is
    floor(demand cumulated before t / DELTAN). *)
Theorem C22_cumulative : forall c o d t0 t1 flow volume fl w w', (0 < dN c)%Q -> (0 < dt c)%Q ->
  flow_asked t0 t1 flow volume fl -> (0 <= fl)%Q -> adddemand c o d t0 t1 flow volume w = Ok w' ->
  forall t, (qtrunc (t0 / dt c) <= t <= qtrunc (t1 / dt c))%Z ->
  List.length (filter (fun v => (v_dep (V w' v) <? t)%Z) (seq (w_nv w) (w_nv w' - w_nv w))) =
  Z.to_nat (Qfloor (fl * (inject_Z (t - qtrunc (t0 / dt c)) * dt c) / dN c)).
Proof. exact demand_count_lemma. Qed.
Print Assumptions C22_cumulative.

(** C22: the total differs from the requested volume by less than one platoon plus one timestep's demand. *)
Theorem C22_total : forall c o d t0 t1 flow volume fl w w', (0 < dN c)%Q -> (0 < dt c)%Q ->
  flow_asked t0 t1 flow volume fl -> (0 <= fl)%Q -> adddemand c o d t0 t1 flow volume w = Ok w' -> (0 <= t0 <= t1)%Q ->
  (Qabs (inject_Z (Z.of_nat (w_nv w' - w_nv w)) * dN c - fl * (t1 - t0)) < dN c + fl * dt c)%Q.
Proof. exact demand_total_lemma. Qed.
Print Assumptions C22_total.

(** C22: the call succeeds. *)
Theorem C22_succeeds : forall c o d t0 t1 flow volume w, (0 < dN c)%Q -> exists_node w o -> exists_node w d -> auto_names_free w ->
  (0 < volume -> ~ t0 == t1)%Q -> exists w', adddemand c o d t0 t1 flow volume w = Ok w'.
Proof. exact demand_succeeds_lemma. Qed.
Print Assumptions C22_succeeds.

Example C22_not_vacuous : exists w, reachable cfg0 w /\ demand_test w = true.
Proof. exact demand_runs. Qed.

(** the names are needed: a vehicle called "1" makes the next call of addVehicle raise *)
Example C22_names_needed : exists w, reachable cfg0 w /\ clash_test w = true.
Proof. exact clash. Qed.

(** C33: TMAX is the multiple of 1800 that is more than 1800 s and at most 3600 s after the last departure. *)
Theorem C33_tmax : forall c w w', w_tmax w = None -> finalize c None w = Ok w' ->
  exists k : Z, w_tmax w' = Some (inject_Z k * 1800)%Q /\
  (forall v, exists_veh w v -> (inject_Z (v_dep (V w v)) * dt c + 1800 < inject_Z k * 1800)%Q) /\
  (forall x, (0 <= x)%Q -> (forall v, exists_veh w v -> (inject_Z (v_dep (V w v)) * dt c <= x)%Q) -> (inject_Z k * 1800 <= x + 3600)%Q).
Proof. exact tmax_lemma. Qed.
Print Assumptions C33_tmax.

(** C33: exec_simulation() runs to the end, executes every departure timestep, and no vehicle stays at home (for timesteps
    of at most 1800 s). *)
Theorem C33_departures_executed : forall c w r w', (0 < dt c <= 1800)%Q -> reachable c w -> w_final w = false -> w_tmax w = None ->
  exec_simulation c ToEnd w = Ok (r, w') -> r = 1%Z /\
  forall v, exists_veh w v -> (v_dep (V w v) < Z.of_nat (w_T w'))%Z /\ v_state (V w' v) <> Home.
Proof. exact covered_lemma. Qed.
Print Assumptions C33_departures_executed.

Example C33_not_vacuous : exists w, reachable cfg1 w /\ cover_test w = true.
Proof. exact cover_runs. Qed.

(** C33 fails for timesteps longer than 1800 s *)
Theorem C33_long_timestep_refuted : exists w, reachable cfg_slow w /\ missed_test w = true.
Proof. exact missed. Qed.
Print Assumptions C33_long_timestep_refuted.

(** after any timestep, only vehicles that depart later are at home *)
Theorem C33_departs_in_time : forall c w w' v, reach c w -> tick c w = Ok w' -> v < w_nv w -> v_state (V w' v) = Home ->
  (Z.of_nat (w_T w) < v_dep (V w' v))%Z.
Proof. exact tick_gone. Qed.
Print Assumptions C33_departs_in_time.

(** C44: a departure given as timestep t: timestep t, second t*DELTAT.  A departure given in seconds: the timestep
    containing it; but departure_time_in_second is right only for t = 0 or DELTAT = 1. *)
Theorem C44_departure : forall c a w w', (0 < dt c)%Q -> add_vehicle c a w = Ok w' ->
  match va_dep a with
  | DepStep t => v_dep (V w' (w_nv w)) = t /\ v_depsec (V w' (w_nv w)) = (inject_Z t * dt c)%Q
  | DepSec t => ((0 <= t)%Q -> (inject_Z (v_dep (V w' (w_nv w))) * dt c <= t < (inject_Z (v_dep (V w' (w_nv w))) + 1) * dt c)%Q) /\
                (v_depsec (V w' (w_nv w)) == t <-> t == 0 \/ dt c == 1)%Q
  end.
Proof. exact depart_lemma. Qed.
Print Assumptions C44_departure.

(** C44 fails for departure_time_in_second: a vehicle added with departure time 300 s has departure_time_in_second 1500 *)
Theorem C44_second_refuted : exists w, reachable cfg0 w /\ second_test w = true.
Proof. exact second_wrong. Qed.
Print Assumptions C44_second_refuted.
