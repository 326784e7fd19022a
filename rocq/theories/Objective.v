(** * Objective: the objective functions of SolverDSO_GA (DTAsolvers.py 981) and SolverDSO_ALNS (1298) *)
From Verif Require Import Base Types Sim Build Heap Lists Inv FrameBase Tac Frame Eff Eff2 Trace InvStep Reach Steps Effects Phases Attr Life Incoming Vev Ride TripLog Spec SpecStats Analyzer.
From Verif Require Average.
Local Open Scope nat_scope.

(** ** The model *)
(** [- total_travel_time - (trip_all-trip_completed)*TMAX]: to be maximised *)
Definition ga_fitness (tmax : Q) (s : stats) : Q := (- st_total s - inject_Z (st_all s - st_completed s) * tmax)%Q.
(** [total_travel_time - (trip_all-trip_completed)*TMAX]: to be minimised *)
Definition alns_objective (tmax : Q) (s : stats) : Q := (st_total s - inject_Z (st_all s - st_completed s) * tmax)%Q.

(** the sum over the vehicles with a destination of their travel times, [x] for one that has not arrived *)
Definition travel_sum (w : world) (x : Q) : Q := qsum (map (fun v => if has_ended w v then v_tt (V w v) else x) (filter (has_dest w) (vehicles w))).

(** ** Facts *)
Lemma split_sum : forall (f : vid -> Q) (e d : vid -> bool) x vs, (forall v, In v vs -> e v = true -> d v = true) ->
  (qsum (map (fun v => if e v then f v else x) (filter d vs)) == qsum (map f (filter e vs)) + inject_Z (Z.of_nat (List.length (filter d vs)) - Z.of_nat (List.length (filter e vs))) * x)%Q.
Proof.
  intros f e d x vs. induction vs as [|v vs IH]; intro H; cbn [filter map qsum List.length]; [cbn; ring|].
  specialize (IH ltac:(intros u Hu; apply H; right; exact Hu)). pose proof (H v (or_introl eq_refl)) as Hv. destruct (e v) eqn:E.
  - rewrite (Hv eq_refl). cbn [map qsum List.length]. rewrite E, IH. rewrite !Nat2Z.inj_succ. replace (Z.succ (Z.of_nat (List.length (filter d vs))) - Z.succ (Z.of_nat (List.length (filter e vs))))%Z with (Z.of_nat (List.length (filter d vs)) - Z.of_nat (List.length (filter e vs)))%Z by lia. ring.
  - destruct (d v); cbn [map qsum List.length]; [|exact IH]. rewrite E, IH, Nat2Z.inj_succ. replace (Z.succ (Z.of_nat (List.length (filter d vs))) - Z.of_nat (List.length (filter e vs)))%Z with (1 + (Z.of_nat (List.length (filter d vs)) - Z.of_nat (List.length (filter e vs))))%Z by lia. rewrite inject_Z_plus. ring.
Qed.
Lemma ended_dest : forall c w v, (0 <= dt c)%Q -> reach c w -> exists_veh w v -> has_ended w v = true -> has_dest w v = true.
Proof. intros c w v Hd R Hv H. rewrite <- (done_ended c w v Hd R Hv) in H. unfold is_done in H. apply andb_true_iff in H. tauto. Qed.
Lemma travel_sum_eq : forall c w x, (0 <= dt c)%Q -> reach c w -> (travel_sum w x == times w + inject_Z (Z.of_nat (with_dest w) - Z.of_nat (completed w)) * x)%Q.
Proof.
  intros c w x Hd R. unfold travel_sum, times, with_dest, completed. apply (split_sum (fun v => v_tt (V w v))). intros v Hv E. apply (ended_dest c); auto.
  unfold vehicles in Hv. apply in_seq in Hv. unfold exists_veh. lia.
Qed.
Lemma stats_objectives : forall c w s x, (0 <= dt c)%Q -> reach c w -> right_stats c w s -> completed w <> 0 ->
  (ga_fitness x s == - (inject_Z (c_deltan c) * travel_sum w x))%Q /\ (alns_objective x s == inject_Z (c_deltan c) * travel_sum w (- x))%Q.
Proof.
  intros c w s x Hd R (S1 & S2 & S3 & _) H. destruct (S3 H) as [S4 _]. unfold ga_fitness, alns_objective. rewrite !(travel_sum_eq c w _ Hd R), S1, S2, S4.
  replace (c_deltan c * Z.of_nat (with_dest w) - c_deltan c * Z.of_nat (completed w))%Z with (c_deltan c * (Z.of_nat (with_dest w) - Z.of_nat (completed w)))%Z by ring. rewrite inject_Z_mult. split; ring.
Qed.
(** the fitness of the genetic algorithm: a vehicle that has not arrived counts as one that travels [TMAX] *)
Theorem fitness_lemma : forall c w tmax, (0 <= dt c)%Q -> (0 < c_deltan c)%Z -> reach c w ->
  let s := stats_of (od_compute c w) in
  (completed w <> 0 -> (ga_fitness tmax s == - (inject_Z (c_deltan c) * travel_sum w tmax))%Q) /\
  (completed w = 0 -> (ga_fitness tmax s == 1 - inject_Z (c_deltan c) * travel_sum w tmax)%Q).
Proof.
  intros c w tmax Hd Hn R s. pose proof (stats_right c w Hd Hn R) as S. fold s in S. split; intro H; [apply (stats_objectives c w s tmax Hd R S H)|].
  destruct S as (S1 & S2 & _ & S4). destruct (S4 H) as [S5 _]. unfold ga_fitness. rewrite (travel_sum_eq c w _ Hd R), S1, S2, S5, H.
  assert (T0 : times w = 0%Q). { unfold times. unfold completed in H. destruct (filter (has_ended w) (vehicles w)); [reflexivity|discriminate]. }
  rewrite T0. replace (c_deltan c * Z.of_nat (with_dest w) - c_deltan c * Z.of_nat 0)%Z with (c_deltan c * (Z.of_nat (with_dest w) - Z.of_nat 0))%Z by ring. rewrite inject_Z_mult. ring.
Qed.
(** so a World where every vehicle does at least as well has at least the fitness *)
Theorem fitness_order : forall c w w' tmax, (0 <= dt c)%Q -> (0 < c_deltan c)%Z -> reach c w -> reach c w' -> completed w <> 0 -> completed w' <> 0 ->
  w_nv w = w_nv w' -> (forall v, exists_veh w v -> has_dest w v = has_dest w' v) ->
  (forall v, exists_veh w v -> (if has_ended w v then v_tt (V w v) else tmax) <= (if has_ended w' v then v_tt (V w' v) else tmax))%Q ->
  (ga_fitness tmax (stats_of (od_compute c w')) <= ga_fitness tmax (stats_of (od_compute c w)))%Q.
Proof.
  intros c w w' tmax Hd Hn R R' C C' En Hds Ht. pose proof (proj1 (fitness_lemma c w tmax Hd Hn R) C) as F. pose proof (proj1 (fitness_lemma c w' tmax Hd Hn R') C') as F'. cbv zeta in F, F'. rewrite F, F'.
  assert (K : (travel_sum w tmax <= travel_sum w' tmax)%Q).
  { unfold travel_sum, vehicles. rewrite <- En. assert (B : forall v, In v (seq 0 (w_nv w)) -> exists_veh w v) by (intros v Hv; apply in_seq in Hv; unfold exists_veh; lia).
    revert B. generalize (seq 0 (w_nv w)) as vs. intro vs. induction vs as [|v vs IH]; intro B; cbn [filter map qsum]; [apply Qle_refl|].
    rewrite (Hds v (B v (or_introl eq_refl))). specialize (IH ltac:(intros; apply B; right; assumption)). destruct (has_dest w' v); [|exact IH]. cbn [map qsum].
    pose proof (Ht v (B v (or_introl eq_refl))). lra. }
  assert (0 < inject_Z (c_deltan c))%Q by (change 0%Q with (inject_Z 0); rewrite <- Zlt_Qlt; exact Hn). nra.
Qed.
