(** * Cumulative curves, first-in first-out, count queries (C02, C03, C23). *)
From Verif Require Import Base Types Sim Build Reach Steps Spec LinkQueries Demo.

(** C02: curves of every link in every state between timesteps. *)
Theorem C02_curves : forall c w l, (0 <= c_deltan c)%Z -> reach c w -> exists_link w l ->
  curves_ok c (w_T w) (L w l) (List.length (l_vehs (L w l))).
Proof. exact curves_lemma. Qed.
Print Assumptions C02_curves.

(** C02: what a timestep recorded is never changed afterwards. *)
Theorem C02_recorded_stays : forall c P w w', reach c w -> later c P w w' -> forall l, exists_link w l ->
  (exists s, l_ca (L w' l) = l_ca (L w l) ++ s) /\ (exists s, l_cd (L w' l) = l_cd (L w l) ++ s) /\
  (exists s, l_tti (L w' l) = l_tti (L w l) ++ s).
Proof. exact Counts.recorded_stays. Qed.
Print Assumptions C02_recorded_stays.

(** C02: let [w] be the state right after timestep [w_T w - 1].  Asked in [w] or at any later
    time for a time [t] of this timestep, [num_vehicles_t] is the number of vehicles that were on
    the link in [w]. *)
Theorem C02_num_vehicles_t_true : forall c P w w' l t, (0 <= c_deltan c)%Z -> (0 < dt c)%Q ->
  reach c w -> later c P w w' -> exists_link w l -> 0 < w_T w ->
  (Qof_nat (w_T w - 1) * dt c <= t)%Q -> (t < Qof_nat (w_T w) * dt c)%Q ->
  num_vehicles_t c (L w' l) t = Ok (c_deltan c * Z.of_nat (List.length (l_vehs (L w l))))%Z.
Proof. exact count_true. Qed.
Print Assumptions C02_num_vehicles_t_true.

(** C03: between any two states, entries are appended at the back, exits taken from the front,
    and the curves grow by exactly these numbers. *)
Theorem C03_fifo : forall c P w w' l, reach c w -> later c P w w' -> exists_link w l ->
  exists a d, in_out w w' l a d /\
    latest (l_ca (L w' l)) = (latest (l_ca (L w l)) + c_deltan c * Z.of_nat (List.length a))%Z /\
    latest (l_cd (L w' l)) = (latest (l_cd (L w l)) + c_deltan c * Z.of_nat d)%Z.
Proof. exact fifo_lemma. Qed.
Print Assumptions C03_fifo.

(** C23: the four queries return the record of the timestep containing [t] ... *)
Theorem C23_inside : forall A c (l : list A) t k x, (0 < dt c)%Q -> nth_error l k = Some x ->
  (Qof_nat k * dt c <= t)%Q -> (t < (Qof_nat k + 1) * dt c)%Q -> clamp_get l (slot c t) = Ok x.
Proof. exact clamp_inside. Qed.
Print Assumptions C23_inside.

(** ... the first record before time 0 ... *)
Theorem C23_before : forall A c (l : list A) t x, (0 < dt c)%Q -> nth_error l 0 = Some x ->
  (t < 0)%Q -> clamp_get l (slot c t) = Ok x.
Proof. exact clamp_before. Qed.
Print Assumptions C23_before.

(** ... and the last one beyond the end. *)
Theorem C23_after : forall A c (l : list A) t x, (0 < dt c)%Q -> last_opt l = Some x ->
  (Qof_nat (List.length l) * dt c <= t)%Q -> clamp_get l (slot c t) = Ok x.
Proof. exact clamp_after. Qed.
Print Assumptions C23_after.

(** C23: after the first timestep the queries never fail, and 0 <= departures <= arrivals. *)
Theorem C23_defined : forall c w l t, (0 <= c_deltan c)%Z -> reach c w -> exists_link w l -> 0 < w_T w ->
  exists a d q, arrival_count c (L w l) t = Ok a /\ departure_count c (L w l) t = Ok d /\
    instant_travel_time c (L w l) t = Ok q /\ (0 <= d <= a)%Z.
Proof. exact counts_defined. Qed.
Print Assumptions C23_defined.

(** C23: counts are monotone in the time asked for. *)
Theorem C23_monotone : forall c w l t t' a a' d d', (0 <= c_deltan c)%Z -> (0 < dt c)%Q ->
  reach c w -> exists_link w l -> (t <= t')%Q ->
  arrival_count c (L w l) t = Ok a -> arrival_count c (L w l) t' = Ok a' ->
  departure_count c (L w l) t = Ok d -> departure_count c (L w l) t' = Ok d' ->
  (a <= a' /\ d <= d')%Z.
Proof. exact count_monotone. Qed.
Print Assumptions C23_monotone.

(** C23: the inflow volume is additive. *)
Theorem C23_inflow_additive : forall c k t0 t1 t2 q01 q12 q02,
  inflow_between c k t0 t1 = Ok q01 -> inflow_between c k t1 t2 = Ok q12 -> inflow_between c k t0 t2 = Ok q02 ->
  (q02 * (t2 - t0) == q01 * (t1 - t0) + q12 * (t2 - t1))%Q.
Proof. exact inflow_additive. Qed.
Print Assumptions C23_inflow_additive.

(** a reachable state whose link 0 has been entered and left *)
Example C02_not_vacuous : exists w, reachable cfg0 w /\
  (match num_vehicles_t cfg0 (L w 0) 30, arrival_count cfg0 (L w 0) 30, departure_count cfg0 (L w 0) 30,
         inflow_between cfg0 (L w 0) 10 30 with
   | Ok n, Ok a, Ok d, Ok q => Z.ltb 0 n && Z.ltb 0 d && Z.ltb d a && qlt 0 q
   | _, _, _, _ => false
   end) = true.
Proof. apply (play_witness cfg0 (merge_net ++ [OExec (UntilT 40)]) (Some 200%Q)). vm_compute. reflexivity. Qed.
