(** * Properties of the motion of vehicles: positions (C04), spacing (C05), density (C06). *)
From Verif Require Import Base Types Sim Build Reach Steps Spec Paths Demo Motion Spacing MotionDemo.
Local Open Scope nat_scope.

(** C04: a running vehicle is on its link: 0 <= x <= length *)
Theorem C04_position : forall c w v l, (0 <= dt c)%Q -> reachP c sound_links w -> exists_veh w v -> on_link w v l ->
  (0 <= v_x (V w v) <= l_len (L w l))%Q.
Proof. exact position_in_link. Qed.
Print Assumptions C04_position.

(** C04: the speed after a timestep is within [0, free_flow_speed]; a vehicle that stays on its link moves forward by exactly speed*DELTAT; one that crosses a node moves in addition by at most its left-over distance, scaled by the ratio of the speeds *)
Theorem C04_timestep : forall c w w' v l, (0 < dt c)%Q -> reachP c sound_links w -> exists_veh w v -> tick c w = Ok w' -> on_link w' v l ->
  let x := v_x (V w v) in let x' := v_x (V w' v) in let s := v_v (V w' v) in let u := l_u (L w l) in
  (0 <= s <= u)%Q /\ (s * dt c <= x')%Q /\
  (forall k, on_link w v k -> ~ In v (crossed c w w' k) -> k = l /\ x' == x + s * dt c)%Q /\
  (forall k, on_link w v k -> In v (crossed c w w' k) -> ~ l_u (L w k) == 0 /\ x' <= v_remain (V w v) * u / l_u (L w k) + s * dt c)%Q.
Proof. exact timestep_motion. Qed.
Print Assumptions C04_timestep.

(** C04: a vehicle that crosses a node (it was at the end of its link) moves by at most two timesteps at the free flow speed of the new link, provided that no free flow speed is changed *)
Theorem C04_crossing : forall c w w' v k l, (0 < dt c)%Q -> reachP c keep_speed w -> exists_veh w v -> tick c w = Ok w' ->
  on_link w v k -> In v (crossed c w w' k) -> on_link w' v l ->
  (0 <= v_x (V w' v) <= 2 * (l_u (L w l) * dt c))%Q.
Proof. exact crossing_motion. Qed.
Print Assumptions C04_crossing.

(** C04, the bound free_flow_speed*DELTAT is exceeded by a vehicle that crosses a node: 180 m in 5 s at 20 m/s, while its speed is reported as 20 m/s *)
Theorem C04_one_step_refuted : exists w, reachP cfg_det keep_speed w /\
  (match tick cfg_det w with
   | Ok w' => match v_link (V w 0), v_link (V w' 0) with
              | Some k, Some l => Nat.eqb k 0 && Nat.eqb l 1 && Qeq_bool (v_x (V w 0)) (l_len (L w 0)) &&
                                  Qeq_bool (v_x (V w' 0)) 180 && Qeq_bool (l_u (L w 1) * dt cfg_det) 100 &&
                                  Qeq_bool (v_v (V w' 0)) 20
              | _, _ => false
              end
   | Err _ => false
   end)%bool = true.
Proof. exact crossing_example. Qed.
Print Assumptions C04_one_step_refuted.

(** C04, a taxi whose next destination is the node just reached jumps from the end of its link back to 25 m on the same link *)
Theorem C04_forward_refuted : exists w, reachable cfg_det w /\
  (match tick cfg_det w with
   | Ok w' => match v_link (V w 0), v_link (V w' 0) with
              | Some k, Some l => Nat.eqb k 1 && Nat.eqb l 1 && Qeq_bool (v_x (V w 0)) 100 && Qeq_bool (v_x (V w' 0)) 25
              | _, _ => false
              end
   | Err _ => false
   end)%bool = true.
Proof. exact back_example. Qed.
Print Assumptions C04_forward_refuted.

(** the move inside a link *)
Example C04_example : exists w, reachP cfg_det keep_speed w /\
  (match tick cfg_det w with
   | Ok w' => match v_link (V w 0), v_link (V w' 0) with
              | Some k, Some l => Nat.eqb k 0 && Nat.eqb l 0 && Qeq_bool (v_x (V w 0)) 200 &&
                                  Qeq_bool (v_x (V w' 0)) 300 && Qeq_bool (v_v (V w' 0)) 20
              | _, _ => false
              end
   | Err _ => false
   end)%bool = true.
Proof. exact moving_example. Qed.

(** C05: without taxis and without lowering jam densities, a vehicle is at least DELTAN/(jam density per lane) behind its leader, on the same link and in the same lane *)
Theorem C05_spacing : forall c w l u v, (0 <= dt c)%Q -> (0 <= dN c)%Q -> reachP c keep_room w -> exists_veh w v ->
  on_link w v l -> v_leader (V w v) = Some u ->
  on_link w u l /\ v_lane (V w u) = v_lane (V w v) /\ (v_x (V w v) + jam_gap c (L w l) <= v_x (V w u))%Q /\
  (0 < l_kappa (L w l) -> jam_gap c (L w l) == dN c * Qof_nat (l_lanes (L w l)) / l_kappa (L w l))%Q.
Proof. exact leader_lemma. Qed.
Print Assumptions C05_spacing.

(** C05: the same by position in the queue of the link *)
Theorem C05_positions : forall c w l i u v, (0 <= dt c)%Q -> (0 <= dN c)%Q -> reachP c keep_room w -> exists_link w l ->
  nth_error (l_vehs (L w l)) i = Some u -> nth_error (l_vehs (L w l)) (i + l_lanes (L w l)) = Some v ->
  v_leader (V w v) = Some u /\ v_lane (V w u) = v_lane (V w v) /\ (v_x (V w v) + jam_gap c (L w l) <= v_x (V w u))%Q.
Proof. exact spacing_lemma. Qed.
Print Assumptions C05_positions.

(** C05, with taxis: a taxi that re-enters its own link overtakes its leader (100 m against 50 m in the same lane) *)
Theorem C05_taxi_refuted : exists w, reachable cfg_det w /\
  (nlist_eqb (l_vehs (L w 1)) [1; 2; 0] && opt_eqb (v_leader (V w 0)) (Some 2) && (l_lanes (L w 1) =? 1) &&
   Qeq_bool (v_x (V w 0)) 100 && Qeq_bool (v_x (V w 2)) 50 && Qeq_bool (jam_gap cfg_det (L w 1)) 25)%bool = true.
Proof. exact overtake_example. Qed.
Print Assumptions C05_taxi_refuted.

(** C05, lowering the jam density while vehicles are on the link leaves them too close *)
Theorem C05_jam_change_refuted : exists w, reachable cfg_det w /\
  (nlist_eqb (l_vehs (L w 1)) [0; 1] && opt_eqb (v_leader (V w 1)) (Some 0) &&
   qlt (v_x (V w 0)) (v_x (V w 1) + jam_gap cfg_det (L w 1)) && qlt 0 (l_kappa (L w 1)))%bool = true.
Proof. exact denser_example. Qed.
Print Assumptions C05_jam_change_refuted.

(** a queue in two lanes, at jam spacing *)
Example C05_example : exists w, reachP cfg_det keep_room w /\
  (nlist_eqb (l_vehs (L w 0)) [0; 1; 2; 3] && negb (is_nil (n_queue (N w 0))) &&
   opt_eqb (v_leader (V w 3)) (Some 1) && Qeq_bool (v_x (V w 1)) 100 && Qeq_bool (v_x (V w 3)) 50 &&
   Qeq_bool (jam_gap cfg_det (L w 0)) 50 && Qeq_bool (l_kappa (L w 0) * l_len (L w 0)) 20)%bool = true.
Proof. exact queue_example. Qed.

(** C06: the number of vehicles on a link is at most jam_density*length plus one platoon per lane *)
Theorem C06_density : forall c w l, (0 <= dt c)%Q -> (0 <= dN c)%Q -> reachP c keep_room w -> exists_link w l -> (0 < l_kappa (L w l))%Q ->
  (Qof_nat (List.length (l_vehs (L w l))) * dN c <= l_kappa (L w l) * l_len (L w l) + Qof_nat (l_lanes (L w l)) * dN c)%Q.
Proof. exact density_lemma. Qed.
Print Assumptions C06_density.

(** a full link: 20 vehicles on it, jam_density*length = 20 *)
Example C06_example : exists w, reachP cfg_det keep_room w /\
  (nlist_eqb (l_vehs (L w 0)) [0; 1; 2; 3] && negb (is_nil (n_queue (N w 0))) &&
   opt_eqb (v_leader (V w 3)) (Some 1) && Qeq_bool (v_x (V w 1)) 100 && Qeq_bool (v_x (V w 3)) 50 &&
   Qeq_bool (jam_gap cfg_det (L w 0)) 50 && Qeq_bool (l_kappa (L w 0) * l_len (L w 0)) 20)%bool = true.
Proof. exact queue_example. Qed.

