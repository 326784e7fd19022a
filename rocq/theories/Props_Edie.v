(** * Props_Edie: the traffic state of the cells of a link (C40). *)
From Verif Require Import Base Types Sim Build Inv Reach Steps Spec Trials Paths Demo MotionDemo Edie SpecEdie EdieOK EdieDemo Traj TrajDemo.
Local Open Scope nat_scope.

(** C40: over all cells, distance and time are DELTAN times those of the trajectories within the cells; a segment belongs to the observed time if it starts in it *)
Theorem C40_totals : forall dx dt len tmax dn trs, (0 < dx)%Q -> (0 < dt)%Q -> (0 <= len)%Q -> (0 <= tmax)%Q -> all_forward trs ->
  let nx := qidiv len dx in let nt := qidiv tmax dt in
  exists m, edie dx dt len tmax dn trs = Ok m /\
    (cell_sum (Z.to_nat nt) (Z.to_nat nx) (fun i j => fst (m i j)) == dn * total_from 0 (inject_Z nt * dt) (dist_in 0 (inject_Z nx * dx)) trs)%Q /\
    (cell_sum (Z.to_nat nt) (Z.to_nat nx) (fun i j => snd (m i j)) == dn * total_from 0 (inject_Z nt * dt) (time_in 0 (inject_Z nx * dx)) trs)%Q.
Proof. exact total_lemma. Qed.
Print Assumptions C40_totals.

(** C40: when the cells cover the link and the time, they contain the whole distance, and the whole time except that spent standing at the very end of the link *)
Theorem C40_whole_link : forall dx dt len tmax dn trs nx nt, (0 < dx)%Q -> (0 < dt)%Q -> (len == inject_Z (Z.of_nat nx) * dx)%Q ->
  (tmax == inject_Z (Z.of_nat nt) * dt)%Q -> all_forward trs -> within len tmax trs ->
  exists m, edie dx dt len tmax dn trs = Ok m /\
    (cell_sum nt nx (fun i j => fst (m i j)) == dn * qsum (map (fun s => px (snd s) - px (fst s)) (all_segs trs)))%Q /\
    (cell_sum nt nx (fun i j => snd (m i j)) == dn * qsum (map (fun s => pt (snd s) - pt (fst s)) (filter (fun s => qlt (px (fst s)) len) (all_segs trs))))%Q.
Proof. exact whole_lemma. Qed.
Print Assumptions C40_whole_link.

(** C40 for each cell: the parts of the segments between its borders, for the segments that start in its time slice; no exception is raised *)
Theorem C40_each_cell : forall dx dt len tmax dn trs, (0 < dx)%Q -> (0 < dt)%Q -> (0 <= len)%Q -> (0 <= tmax)%Q -> all_forward trs ->
  exists m, edie dx dt len tmax dn trs = Ok m /\
   forall i j, (0 <= i < qidiv tmax dt)%Z -> (0 <= j < qidiv len dx)%Z ->
    (fst (m i j) == dn * total_from (inject_Z i * dt) (inject_Z (i + 1) * dt) (dist_in (inject_Z j * dx) (inject_Z (j + 1) * dx)) trs)%Q /\
    (snd (m i j) == dn * total_from (inject_Z i * dt) (inject_Z (i + 1) * dt) (time_in (inject_Z j * dx) (inject_Z (j + 1) * dx)) trs)%Q.
Proof. exact cell_lemma. Qed.
Print Assumptions C40_each_cell.

(** flow is density times speed in every cell *)
Theorem C40_flow_density_speed : forall u dx dt d, ~ (density dx dt d == 0)%Q -> (flow dx dt d == density dx dt d * speed_of u dx dt d)%Q.
Proof. exact qkv_lemma. Qed.
Print Assumptions C40_flow_density_speed.

(** a cell without density has no flow, so that the free-flow speed is only reported for empty cells *)
Theorem C40_empty_cell : forall dx dt len tmax dn trs m i j, (0 < dx)%Q -> (0 < dt)%Q -> (0 <= len)%Q -> (0 <= tmax)%Q -> all_forward trs ->
  edie dx dt len tmax dn trs = Ok m -> (0 <= i < qidiv tmax dt)%Z -> (0 <= j < qidiv len dx)%Z ->
  (density dx dt (m i j) == 0)%Q -> (flow dx dt (m i j) == 0)%Q.
Proof. exact empty_cell_lemma. Qed.
Print Assumptions C40_empty_cell.

(** two vehicles: 600 m and 35 s, times DELTAN = 5 *)
Example C40_example : all_forward two /\ within 300 30 two /\
  totals 100 10 300 30 5 3 3 two = Ok (3000 # 1, 175 # 1)%Q.
Proof. exact two_demo. Qed.

(** C40 fails for the closed link: a vehicle that waits at the end of the link is in no cell *)
Theorem C40_standing_at_end_refuted : exists dx dt len tmax dn trs m, (0 < dx)%Q /\ (0 < dt)%Q /\ all_forward trs /\ within len tmax trs /\
  edie dx dt len tmax dn trs = Ok m /\ (inject_Z (qidiv len dx) * dx == len)%Q /\ (inject_Z (qidiv tmax dt) * dt == tmax)%Q /\
  ~ (cell_sum (Z.to_nat (qidiv tmax dt)) (Z.to_nat (qidiv len dx)) (fun i j => snd (m i j)) ==
     dn * qsum (map (fun s => pt (snd s) - pt (fst s)) (all_segs trs)))%Q.
Proof. exact waits_lemma. Qed.
Print Assumptions C40_standing_at_end_refuted.

(** C40 fails when the segments are cut at the end of the observed time: of a segment from 8 to 13 all 5 s are in the cells although the observed time ends at 10 *)
Theorem C40_time_slice_refuted : exists dx dt len tmax dn trs m, (0 < dx)%Q /\ (0 < dt)%Q /\ all_forward trs /\
  edie dx dt len tmax dn trs = Ok m /\ qidiv tmax dt = 1%Z /\ qidiv len dx = 1%Z /\
  (snd (m 0%Z 0%Z) == dn * (13 - 8))%Q /\ all_segs trs = [((0, 8), (50, 13))]%Q /\ (tmax == 10)%Q.
Proof. exact late_lemma. Qed.
Print Assumptions C40_time_slice_refuted.

(** C40 fails for the whole link when the cell size does not divide the length *)
Theorem C40_rest_of_link_refuted : exists dx dt len tmax dn trs m, (0 < dx)%Q /\ (0 < dt)%Q /\ all_forward trs /\ within len tmax trs /\
  edie dx dt len tmax dn trs = Ok m /\
  ~ (cell_sum (Z.to_nat (qidiv tmax dt)) (Z.to_nat (qidiv len dx)) (fun i j => fst (m i j)) ==
     dn * qsum (map (fun s => px (snd s) - px (fst s)) (all_segs trs)))%Q.
Proof. exact rest_lemma. Qed.
Print Assumptions C40_rest_of_link_refuted.

(** C40 for simulations: with every timestep logged, no link from a node to itself and no taxis, the recorded trajectories of every link go forward and stay on it *)
Theorem C40_recorded : forall c w l, c_logint c = 1%Z -> (0 < dt c)%Q -> reachP c sound_links w -> no_loops w -> Singles w ->
  all_forward (recorded w l) /\ within (l_len (L w l)) (now c w) (recorded w l).
Proof. exact recorded_lemma. Qed.
Print Assumptions C40_recorded.

(** C40 for simulations: so do the extrapolated ones when no free flow speed is changed *)
Theorem C40_extrapolated : forall c w l, c_logint c = 1%Z -> (0 < dt c)%Q -> reachP c keep_speed w -> no_loops w -> Singles w -> l < w_nl w ->
  let trs := map (extend (l_u (L w l)) (l_len (L w l)) (dt c)) (recorded w l) in
  all_forward trs /\ within (l_len (L w l)) (now c w) trs.
Proof. exact extended_lemma. Qed.
Print Assumptions C40_extrapolated.

(** C40 for simulations: hence the cells of every link contain the whole distance of the extrapolated trajectories, and their whole time except that spent standing at the very end *)
Theorem C40_simulated : forall c w l dx dtE tmax nx nt, c_logint c = 1%Z -> (0 < dt c)%Q -> reachP c keep_speed w -> no_loops w -> Singles w -> l < w_nl w ->
  (0 < dx)%Q -> (0 < dtE)%Q -> (l_len (L w l) == inject_Z (Z.of_nat nx) * dx)%Q -> (tmax == inject_Z (Z.of_nat nt) * dtE)%Q -> (now c w <= tmax)%Q ->
  let trs := map (extend (l_u (L w l)) (l_len (L w l)) (dt c)) (recorded w l) in
  exists m, edie dx dtE (l_len (L w l)) tmax (dN c) trs = Ok m /\
    (cell_sum nt nx (fun i j => fst (m i j)) == dN c * qsum (map (fun s => px (snd s) - px (fst s)) (all_segs trs)))%Q /\
    (cell_sum nt nx (fun i j => snd (m i j)) == dN c * qsum (map (fun s => pt (snd s) - pt (fst s)) (filter (fun s => qlt (px (fst s)) (l_len (L w l))) (all_segs trs))))%Q.
Proof. exact simulated_lemma. Qed.
Print Assumptions C40_simulated.

(** a simulated vehicle: recorded and extrapolated trajectory on its second link *)
Example C40_simulated_example : exists w, reachP cfg_det keep_speed w /\
  (Z.eqb (c_logint cfg_det) 1 && forallb (fun l => negb (Nat.eqb (l_start (L w l)) (l_end (L w l)))) (seq 0 (w_nl w)) &&
   forallb (fun v => match v_mode (V w v) with SingleTrip => true | _ => false end) (seq 0 (w_nv w)) &&
   match recorded w 1 with
   | tr :: _ => pts_eqb tr [(80, 35); (180, 40); (280, 45); (380, 50); (480, 55)] &&
             pts_eqb (extend (l_u (L w 1)) (l_len (L w 1)) (dt cfg_det) tr) [(0, 31); (80, 35); (180, 40); (280, 45); (380, 50); (480, 55); (500, 56)]
   | _ => false
   end)%bool%Q = true.
Proof. exact row_traj. Qed.

(** with taxis the recorded trajectories may go backwards (see C04_forward_refuted) *)
Theorem C40_taxi_refuted : exists w, reachable cfg_det w /\ c_logint cfg_det = 1%Z /\ (0 < dt cfg_det)%Q /\ no_loops w /\ ~ all_forward (recorded w 1).
Proof. exact back_traj. Qed.
Print Assumptions C40_taxi_refuted.
