(** * Properties of trips (C12). *)
From Verif Require Import Base Types Sim Build Reach Steps Spec Life Demo.

(** C12: the state of a vehicle only advances, its departure time never changes, and once the
    trip has ended its arrival and travel times never change. *)
Theorem C12_state_only_advances : forall c P w w' v, reach c w -> later c P w w' -> exists_veh w v ->
  may_become (v_state (V w v)) (v_state (V w' v)) /\ v_dep (V w' v) = v_dep (V w v) /\
  (v_state (V w v) = End_ \/ v_state (V w v) = Abort ->
     v_arr (V w' v) = v_arr (V w v) /\ v_tt (V w' v) = v_tt (V w v)).
Proof. exact advance_lemma. Qed.
Print Assumptions C12_state_only_advances.

(** C12: between timesteps ([w_T] is the number of executed timesteps, so timestep [t] has been
    executed iff [t < w_T]) a vehicle that is not at home left in an executed timestep, the
    arrival and travel times are -1 unless the state is end, and then the arrival is later than
    the departure and the travel time is their difference in seconds. *)
Theorem C12_times : forall c w v, reach c w -> exists_veh w v ->
  (v_state (V w v) <> Home -> (v_dep (V w v) < Z.of_nat (w_T w))%Z) /\
  (v_state (V w v) <> End_ -> v_arr (V w v) = (-1)%Z /\ v_tt (V w v) = (-1)%Q) /\
  (v_state (V w v) = End_ -> (v_dep (V w v) < v_arr (V w v) < Z.of_nat (w_T w))%Z /\
     v_tt (V w v) = (inject_Z (v_arr (V w v) - v_dep (V w v)) * dt c)%Q).
Proof. exact times_lemma. Qed.
Print Assumptions C12_times.

Theorem C12_travel_time_nonneg : forall c w v, (0 <= dt c)%Q -> reach c w -> exists_veh w v ->
  v_state (V w v) = End_ -> (0 <= v_tt (V w v))%Q.
Proof. exact tt_nonneg_lemma. Qed.
Print Assumptions C12_travel_time_nonneg.

(** vehicles in the four states, in a reachable state *)
Example C12_not_vacuous : exists w, reachable cfg0 w /\
  (negb (count_state Wait w =? 0) && negb (count_state Run w =? 0) && negb (count_state End_ w =? 0) &&
   negb (count_state Home w =? 0)) = true.
Proof. exact merge_mid. Qed.
