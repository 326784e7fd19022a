(** * Props_Mfd: network averages and cumulative counts (C57). *)
From Verif Require Import Base Types Sim Build Inv Reach Steps Spec Trials Paths Demo MotionDemo Edie SpecEdie EdieOK Traj SpecTT SpecLinks LinkStatsDemo SpecMfd Mfd MfdDemo.
Local Open Scope nat_scope.

(** C57: density and flow of a set of links in a time slice are the time spent and the distance driven on their cells divided by length times duration *)
Theorem C57_mfd : forall c w tm st links, c_logint c = 1%Z -> (0 < dt c)%Q -> reachP c keep_speed w -> w_final w = true -> no_loops w -> Singles w ->
  (0 < c_eulardt c)%Q -> w_tmax w = Some tm -> (0 <= tm)%Q -> made_in c w st ->
  let key := link_key w links in (0 < area_time c w key)%Q ->
  exists vs st', compute_mfd c w st links = Ok (vs, st') /\ List.length vs = Z.to_nat (qidiv tm (c_eulardt c)) /\
    forall i, i < List.length vs -> exists k q, nth_error vs i = Some (Some k, Some q) /\
      (k == dN c * key_sum c w slice_time key i / area_time c w key)%Q /\
      (q == dN c * key_sum c w slice_dist key i / area_time c w key)%Q.
Proof. exact mfd_lemma. Qed.
Print Assumptions C57_mfd.

(** C57: with cells that cover the links and the time, the flows add up to the whole distance driven *)
Theorem C57_total : forall c w tm st links nt (nx : lid -> nat), c_logint c = 1%Z -> (0 < dt c)%Q -> reachP c keep_speed w -> w_final w = true -> no_loops w -> Singles w ->
  (0 < c_eulardt c)%Q -> w_tmax w = Some tm -> made_in c w st -> (now c w <= tm)%Q -> (tm == Qof_nat nt * c_eulardt c)%Q ->
  let key := link_key w links in (0 < area_time c w key)%Q -> (forall l, In l key -> l_len (L w l) == Qof_nat (nx l) * dx_of w l)%Q ->
  exists vs st', compute_mfd c w st links = Ok (vs, st') /\ List.length vs = nt /\
    (qsum (map (fun kq => match snd kq with Some q => q * area_time c w key | None => 0 end) vs) ==
     dN c * qsum (map (fun l => qsum (map (fun s => px (snd s) - px (fst s)) (all_segs (traj_of c w l)))) key))%Q.
Proof. exact mfd_total. Qed.
Print Assumptions C57_total.

(** one platoon on two links *)
Example C57_mfd_example : exists w tm vs st, reachP (cfg_e 50) keep_speed w /\ w_final w = true /\ no_loops w /\ Singles w /\ w_tmax w = Some tm /\ (tm == 200)%Q /\
  (0 < area_time (cfg_e 50) w (link_key w None))%Q /\ (forall l, exists_link w l -> l_len (L w l) == Qof_nat 5 * dx_of w l)%Q /\ (now (cfg_e 50) w <= tm)%Q /\
  compute_mfd (cfg_e 50) w fresh_mstate None = Ok (vs, st) /\ List.length vs = 4 /\
  match vs with (Some k, Some q) :: (Some k1, Some q1) :: _ => (k == 9 # 2000)%Q /\ (q == 9 # 100)%Q /\ (k1 == 1 # 2000)%Q /\ (q1 == 1 # 100)%Q | _ => False end.
Proof. exact mfd_example. Qed.

(** C57: repeated calls in the same state keep the hypothesis of C57_mfd *)
Theorem C57_made : forall c w st links vs st', made_in c w st -> compute_mfd c w st links = Ok (vs, st') -> made_in c w st'.
Proof. exact compute_made. Qed.
Print Assumptions C57_made.

(** C57: an empty set of links raises ZeroDivisionError *)
Theorem C57_no_links : forall c w tm st links m, w_tmax w = Some tm -> edie_state c tm w st = Ok m -> (0 < c_eulardt c)%Q -> (c_eulardt c <= tm)%Q ->
  link_key w links = [] -> compute_mfd c w st links = Err ZeroDivisionError.
Proof. exact mfd_empty. Qed.
Print Assumptions C57_no_links.

(** C57: the table has one row for each link set asked for so far and fails if these are more than the time slices *)
Theorem C57_table : forall c w st links vs st', compute_mfd c w st links = Ok (vs, st') ->
  let n := List.length (ms_asked st') in
  (n <= List.length vs -> exists rows, mfd_to_pandas c w st links = Ok (rows, st') /\ List.length rows = n /\
     forall i k q, i < n -> nth_error vs i = Some (k, q) -> nth_error rows i = Some ((Qof_nat i * c_eulardt c)%Q, k, q)) /\
  (List.length vs < n -> mfd_to_pandas c w st links = Err IndexError).
Proof. exact pandas_lemma. Qed.
Print Assumptions C57_table.

(** C57: the table does not have one row per time slice *)
Theorem C57_rows_refuted : exists c w vs st rows st', reachP c keep_speed w /\ w_final w = true /\ compute_mfd c w fresh_mstate None = Ok (vs, st) /\ List.length vs = 4 /\
  mfd_to_pandas c w fresh_mstate None = Ok (rows, st') /\ List.length rows = 1.
Proof. exact rows_refuted. Qed.
Print Assumptions C57_rows_refuted.

(** C57: asking for more link sets than time slices raises IndexError *)
Theorem C57_sets_refuted : exists c w v1 s1 v2 s2, reachP c keep_speed w /\ w_final w = true /\ compute_mfd c w fresh_mstate (Some [0]) = Ok (v1, s1) /\
  compute_mfd c w s1 (Some [1]) = Ok (v2, s2) /\ mfd_to_pandas c w s2 None = Err IndexError.
Proof. exact sets_refuted. Qed.
Print Assumptions C57_sets_refuted.

(** C57: vehicles on a link shorter than the drive of one timestep are not counted *)
Theorem C57_short_link_refuted : exists c w vs st, reachP c keep_speed w /\ w_final w = true /\ no_loops w /\ Singles w /\ compute_mfd c w fresh_mstate (Some [0]) = Ok (vs, st) /\
  (forall i k q, nth_error vs i = Some (k, q) -> oq k 0 && oq q 0 = true) /\ (0 < slice_dist (c_eulardt c) 0 (l_len (L w 0)) (traj_of c w 0))%Q.
Proof. exact short_refuted. Qed.
Print Assumptions C57_short_link_refuted.

(** C57: when the simulation continues, the values stay those of the first call *)
Theorem C57_stale_refuted : exists c w w' v1 s1 v2 s2 v3 s3, reach c w /\ later c keep_speed w w' /\ compute_mfd c w fresh_mstate None = Ok (v1, s1) /\
  compute_mfd c w' s1 None = Ok (v2, s2) /\ compute_mfd c w' fresh_mstate None = Ok (v3, s3) /\
  match v1, v2, v3 with (Some a, _) :: _, (Some b, _) :: _, (Some d, _) :: _ => (a == b)%Q /\ ~ (b == d)%Q | _, _, _ => False end.
Proof. exact stale_refuted. Qed.
Print Assumptions C57_stale_refuted.

(** C57: the rows of the cumulative table: counts are monotone, arrivals minus departures are the vehicles on the link after that timestep, the actual travel time is that of the last vehicle which entered by then *)
Theorem C57_cumulative : forall c P tm w1 w0 w, (0 < dt c)%Q -> (0 <= c_deltan c)%Z -> reach c w1 -> w_final w1 = false -> finalize c tm w1 = Ok w0 ->
  later c P w0 w -> w_tsize w <= w_T w ->
  exists tabs, link_cumulative c w = Ok tabs /\ List.length tabs = w_nl w /\
    forall l, exists_link w l -> exists rows g ff, nth_error tabs l = Some rows /\ List.length rows = w_tsize w /\
      exits c P l w0 w g /\ (0 < w_tsize w -> ff = (l_len (L w1 l) / l_u (L w1 l))%Q) /\
      (forall i r, nth_error rows i = Some r -> cu_link r = l /\ cu_t r = (Qof_nat i * dt c)%Q /\ (0 <= cu_dep r <= cu_arr r)%Z /\
         cu_tta r = travel_at c ff g i /\ nth_error (l_tti (L w l)) i = Some (cu_tti r) /\
         forall x, later c P w0 x -> later c P x w -> w_T x = S i ->
           (cu_arr r - cu_dep r = c_deltan c * Z.of_nat (List.length (l_vehs (L x l))))%Z) /\
      (forall i j r s, i <= j -> nth_error rows i = Some r -> nth_error rows j = Some s -> (cu_arr r <= cu_arr s /\ cu_dep r <= cu_dep s)%Z).
Proof. exact cumulative_lemma. Qed.
Print Assumptions C57_cumulative.

(** C57: before the end of the simulation the table raises IndexError *)
Theorem C57_cumulative_early : forall c w l, reach c w -> exists_link w l -> w_T w < w_tsize w -> link_cumulative c w = Err IndexError.
Proof. exact cumulative_early. Qed.
Print Assumptions C57_cumulative_early.

(** a completed run *)
Example C57_cumulative_example : exists w1 w0 w, reach (cfg_e 50) w1 /\ w_final w1 = false /\ finalize (cfg_e 50) None w1 = Ok w0 /\ later (cfg_e 50) keep_speed w0 w /\ w_tsize w <= w_T w /\
  exists r rows tab, link_cumulative (cfg_e 50) w = Ok (rows :: tab) /\ List.length rows = 40 /\ nth_error rows 20 = Some r /\ cu_arr r = 5%Z /\ cu_dep r = 5%Z /\ (cu_tta r == 25)%Q.
Proof. exact cumulative_example. Qed.
