(** * Props_LinkStats: statistics of links (C54) and areas (C55). *)
From Verif Require Import Base Types Sim Build Reach Steps Spec SpecTT SpecStats SpecDuo SpecDelay Delay Demo MotionDemo SpecLinks LogRoute LinkStats AreaStats AreaFigures DelayDemo LinkStatsDemo.
Local Open Scope nat_scope.

(** C54: traffic_volume and vehicles_remain of a link are the vehicles that left it and that are on it, the average is taken over the travel times of all timesteps *)
Theorem C54_volume_and_mean : forall c P tm w1 w0 w l, (0 < dt c)%Q -> (0 < c_deltan c)%Z -> reach c w1 -> w_final w1 = false -> finalize c tm w1 = Ok w0 ->
  later c P w0 w -> exists_link w l -> 0 < w_T w -> (0 < l_len (L w l))%Q -> (0 < l_u (L w l))%Q ->
  exists g r ff, link_row_of (L w l) = Ok r /\ exits c P l w0 w g /\ Forall (fun x => (dt c <= spent x)%Q) g /\
    (0 < w_tsize w0 -> ff = (l_len (L w1 l) / l_u (L w1 l))%Q) /\
    r_volume r = (c_deltan c * Z.of_nat (List.length g))%Z /\
    r_remain r = (c_deltan c * Z.of_nat (List.length (l_vehs (L w l))))%Z /\
    (r_free r == l_len (L w l) / l_u (L w l))%Q /\
    (g = [] -> r_ave r = (-1)%Q) /\
    (g <> [] -> r_mean r = mean_positive (map (travel_at c ff g) (seq 0 (w_tsize w0)))).
Proof. exact link_row_lemma. Qed.
Print Assumptions C54_volume_and_mean.

(** C54: this average lies between the bounds of the free-flow travel time and of the travel times of the vehicles that left *)
Theorem C54_mean_bounds : forall c n ff g, (0 < dt c)%Q -> 0 < n -> (0 < ff)%Q -> Forall (fun x => (dt c <= spent x)%Q) g ->
  mean_positive (map (travel_at c ff g) (seq 0 n)) = Some (mean (map (travel_at c ff g) (seq 0 n))) /\
  forall lo hi, Forall (fun q => (lo <= q)%Q /\ (q <= hi)%Q) (ff :: map spent g) ->
    (lo <= mean (map (travel_at c ff g) (seq 0 n)))%Q /\ (mean (map (travel_at c ff g) (seq 0 n)) <= hi)%Q.
Proof. exact link_mean_lemma. Qed.
Print Assumptions C54_mean_bounds.

(** C54: before the first timestep the statistics raise IndexError *)
Theorem C54_early : forall c w, reach c w -> w_T w = 0 -> 0 < w_nl w -> link_rows w = Err IndexError.
Proof. exact link_rows_early. Qed.
Print Assumptions C54_early.

(** C54: afterwards, with positive lengths and speeds, there is a row for every link *)
Theorem C54_total : forall c w, (0 <= c_deltan c)%Z -> reach c w -> 0 < w_T w -> (forall l, exists_link w l -> (0 < l_len (L w l))%Q) -> fast_links w ->
  exists rs, link_rows w = Ok rs /\ Forall2 (fun l r => link_row_of (L w l) = Ok r) (seq 0 (w_nl w)) rs.
Proof. exact link_rows_total. Qed.
Print Assumptions C54_total.

(** a link which one platoon has left *)
Example C54_example : exists w1 w0 w r, reach c0 w1 /\ w_final w1 = false /\ finalize c0 None w1 = Ok w0 /\ later c0 keep_speed w0 w /\ exists_link w 0 /\
  link_row_of (L w 0) = Ok r /\ r_volume r = 5%Z /\ r_remain r = 0%Z /\ (r_free r == 26)%Q /\ (r_ave r == 299 # 10)%Q.
Proof. exact link_example. Qed.

(** C54: the average is not the mean over the vehicles that left *)
Theorem C54_mean_refuted : exists c w1 w0 w l g r, reach c w1 /\ w_final w1 = false /\ finalize c None w1 = Ok w0 /\ later c keep_speed w0 w /\ exists_link w l /\
  exits c keep_speed l w0 w g /\ g <> [] /\ link_row_of (L w l) = Ok r /\ r_volume r = (c_deltan c * Z.of_nat (List.length g))%Z /\ ~ (r_ave r == mean_spent g)%Q.
Proof. exact mean_refuted. Qed.
Print Assumptions C54_mean_refuted.

(** C54: it can be below the free-flow travel time *)
Theorem C54_free_refuted : exists c w1 w0 w l r q, reach c w1 /\ w_final w1 = false /\ finalize c None w1 = Ok w0 /\ later c keep_speed w0 w /\ plain_net w /\ exists_link w l /\
  link_row_of (L w l) = Ok r /\ (0 < r_volume r)%Z /\ (r_ave r < r_free r)%Q /\ r_ratio r = Some q /\ (q < 1)%Q.
Proof. exact free_refuted. Qed.
Print Assumptions C54_free_refuted.

(** C55: the links in the log of a vehicle are on its route, and if every timestep is logged they are all of it *)
Theorem C55_log_route : forall c w v, reach c w -> exists_veh w v ->
  (forall l, seen (V w v) l -> In l (route_of (V w v))) /\
  (c_logint c = 1%Z -> forall l, In l (route_of (V w v)) -> seen (V w v) l).
Proof. exact log_route. Qed.
Print Assumptions C55_log_route.

(** C55: if every timestep is logged, traffic_volume of an area counts the vehicles whose route has a link of it and vehicles_remain those on its links; the delay is not negative *)
Theorem C55_area : forall c w areas border rows t, (0 <= c_deltan c)%Z -> c_logint c = 1%Z -> reach c w -> free_names w ->
  area_to_pandas c w None areas border = Ok (rows, t) ->
  Forall2 (fun area a => ar_links a = List.length (area_links w area border) /\
    ar_volume a = (c_deltan c * Z.of_nat (visitors w area border))%Z /\
    ar_remain a = (c_deltan c * Z.of_nat (inside w area border))%Z /\ (forall q, ar_delay a = Fin q -> (0 <= q)%Q)) areas rows.
Proof. exact area_lemma. Qed.
Print Assumptions C55_area.

(** C55: with any logging interval the volume is at most that *)
Theorem C55_area_bound : forall c w areas border rows t, (0 <= c_deltan c)%Z -> reach c w -> free_names w ->
  area_to_pandas c w None areas border = Ok (rows, t) ->
  Forall2 (fun area a => (ar_volume a <= c_deltan c * Z.of_nat (visitors w area border))%Z) areas rows.
Proof. exact area_bound. Qed.
Print Assumptions C55_area_bound.

(** C55: without vehicles inside, total_travel_time is the sum of average times volume and not negative *)
Theorem C55_area_time : forall c P tm w1 w0 w rs df area border, (0 < dt c)%Q -> (0 < c_deltan c)%Z -> reach c w1 -> w_final w1 = false ->
  finalize c tm w1 = Ok w0 -> 0 < w_tsize w0 -> (forall l, exists_link w1 l -> (0 < l_len (L w1 l))%Q /\ (0 < l_u (L w1 l))%Q) ->
  later c P w0 w -> (forall l, exists_link w l -> (0 < l_len (L w l))%Q /\ (0 < l_u (L w l))%Q) -> 0 < w_T w -> link_rows w = Ok rs ->
  inside w area border = 0 -> (0 < ar_volume (area_row_of c w rs df area border))%Z ->
  (ar_time (area_row_of c w rs df area border) == qsum (map (fun l => r_ave (row_of w l) * inject_Z (r_volume (row_of w l)))%Q (area_links w area border)))%Q /\
  (0 <= ar_time (area_row_of c w rs df area border))%Q.
Proof. exact area_time_lemma. Qed.
Print Assumptions C55_area_time.

(** C55: the figures of an area *)
Theorem C55_figures : forall c w t areas border rows t', (0 <= c_deltan c)%Z -> reach c w ->
  area_to_pandas c w t areas border = Ok (rows, t') ->
  Forall2 (fun area a =>
    let time := area_sum c w area border (fun l => r_ave (row_of w l)) in
    let free := area_sum c w area border (fun l => l_len (L w l) / l_u (L w l))%Q in
    let dist := area_sum c w area border (fun l => l_len (L w l)) in
    let len := qsum (map (fun l => l_len (L w l)) (area_links w area border)) in
    ((0 < ar_volume a)%Z ->
      (ar_time a == time)%Q /\
      (~ (free == 0)%Q -> exists q, ar_delay a = Fin q /\ (q == qmax (time / free - 1) 0)%Q) /\
      ((0 < time)%Q -> exists q, ar_speed a = Fin q /\ (q == dist / time)%Q) /\ ((time <= 0)%Q -> ar_speed a = Nan) /\
      ((0 < len)%Q -> ar_density a = Fin (inject_Z (ar_volume a) / len)) /\ ((len <= 0)%Q -> ar_density a = Nan)) /\
    ((ar_volume a <= 0)%Z -> ar_time a = 0%Q /\ ar_delay a = Nan /\ ar_speed a = Nan /\ ar_density a = Nan)) areas rows.
Proof. exact area_figures. Qed.
Print Assumptions C55_figures.

(** an area which two platoons have passed *)
Example C55_example : exists w rows t r, reach c0 w /\ c_logint c0 = 1%Z /\ free_names w /\ area_to_pandas c0 w None [[0]; [1]] true = Ok (rows, t) /\
  nth_error rows 1 = Some r /\ ar_volume r = 10%Z /\ visitors w [1] true = 2 /\ inside w [1] true = 0 /\ (0 < ar_time r)%Q.
Proof. exact area_example. Qed.

(** C55: with vehicles inside the total travel time can be negative *)
Theorem C55_negative_refuted : exists c w rows t r, reachP c keep_speed w /\ plain_net w /\ free_names w /\ area_to_pandas c w None [[0]] true = Ok (r :: rows, t) /\
  (0 < ar_volume r)%Z /\ (ar_time r < 0)%Q.
Proof. exact negative_refuted. Qed.
Print Assumptions C55_negative_refuted.

(** C55: with a longer logging interval vehicles are missed *)
Theorem C55_interval_refuted : exists c w rows t r, reachP c keep_speed w /\ plain_net w /\ free_names w /\ area_to_pandas c w None [[0]] true = Ok (r :: rows, t) /\
  (ar_volume r < c_deltan c * Z.of_nat (visitors w [0%nat] true))%Z.
Proof. exact interval_refuted. Qed.
Print Assumptions C55_interval_refuted.

(** C55: a later call still counts the vehicles of the first one *)
Theorem C55_stale_refuted : exists c w w' rows rows' t t' r, c_logint c = 1%Z /\ reach c w /\ later c keep_speed w w' /\ free_names w' /\
  area_to_pandas c w None [[2]] true = Ok (rows, t) /\ area_to_pandas c w' t [[2]] true = Ok (r :: rows', t') /\
  ar_volume r <> (c_deltan c * Z.of_nat (visitors w' [2%nat] true))%Z.
Proof. exact stale_refuted. Qed.
Print Assumptions C55_stale_refuted.

(** C55: a link named trip_end counts arrived vehicles *)
Theorem C55_name_refuted : exists c w rows t r, c_logint c = 1%Z /\ reach c w /\ area_to_pandas c w None [[2]] true = Ok (r :: rows, t) /\
  (0 < ar_volume r)%Z /\ visitors w [2] true = 0.
Proof. exact name_refuted. Qed.
Print Assumptions C55_name_refuted.
