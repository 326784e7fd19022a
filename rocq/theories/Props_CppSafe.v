(** * Props_CppSafe: positions, speeds and distances in the compiled engine (C70). *)
From Verif Require Import Base Types Sim Build Reach Steps Spec Inv FD Demo Cpp CppInv CppSafe CppSafeDemo.
Local Open Scope nat_scope.

(** C70: a vehicle on a link is between its two ends *)
Theorem C70_positions : forall c w v l, (0 <= dt c)%Q -> (0 <= dN c)%Q -> creachP c keep_room w -> exists_veh w v -> on_link w v l -> (0 <= v_x (V w v) <= l_len (L w l))%Q.
Proof. exact cpp_position. Qed.
Print Assumptions C70_positions.

(** C70: after a timestep of the compiled engine a vehicle stands where its speed took it, not behind the place where it was, and its speed is between zero and the free flow speed *)
Theorem C70_motion : forall c w w' v l, (0 < dt c)%Q -> (0 <= dN c)%Q -> creachP c keep_room w -> w_final w = true -> cpp_tick c w = Ok w' -> exists_veh w v -> on_link w' v l ->
  (0 <= v_xold (V w' v))%Q /\ (v_xold (V w' v) <= v_x (V w' v) <= l_len (L w l))%Q /\ (v_x (V w' v) <= v_xold (V w' v) + l_u (L w l) * dt c)%Q /\
  (v_x (V w' v) == v_xold (V w' v) + v_v (V w' v) * dt c)%Q /\ (0 <= v_v (V w' v) <= l_u (L w l))%Q.
Proof. exact cpp_motion. Qed.
Print Assumptions C70_motion.

(** C70: a vehicle is at least the jam spacing behind its leader, on the same link and in the same lane *)
Theorem C70_spacing : forall c w l u v, (0 <= dt c)%Q -> (0 <= dN c)%Q -> creachP c keep_room w -> exists_veh w v ->
  on_link w v l -> v_leader (V w v) = Some u ->
  on_link w u l /\ v_lane (V w u) = v_lane (V w v) /\ (v_x (V w v) + jam_gap c (L w l) <= v_x (V w u))%Q /\
  (0 < l_kappa (L w l) -> jam_gap c (L w l) == dN c * Qof_nat (l_lanes (L w l)) / l_kappa (L w l))%Q.
Proof. exact cpp_leader_gap. Qed.
Print Assumptions C70_spacing.

(** C70: the same for two vehicles as many places apart as there are lanes *)
Theorem C70_order : forall c w l i u v, (0 <= dt c)%Q -> (0 <= dN c)%Q -> creachP c keep_room w -> exists_link w l ->
  nth_error (l_vehs (L w l)) i = Some u -> nth_error (l_vehs (L w l)) (i + l_lanes (L w l)) = Some v ->
  v_leader (V w v) = Some u /\ v_lane (V w u) = v_lane (V w v) /\ (v_x (V w v) + jam_gap c (L w l) <= v_x (V w u))%Q.
Proof. exact cpp_spacing. Qed.
Print Assumptions C70_order.

(** C70: the number of vehicles on a link *)
Theorem C70_density : forall c w l, (0 <= dt c)%Q -> (0 <= dN c)%Q -> creachP c keep_room w -> exists_link w l -> (0 < l_kappa (L w l))%Q ->
  (Qof_nat (List.length (l_vehs (L w l))) * dN c <= l_kappa (L w l) * l_len (L w l) + Qof_nat (l_lanes (L w l)) * dN c)%Q.
Proof. exact cpp_density. Qed.
Print Assumptions C70_density.

(** C70: the fundamental diagram of a link stays triangular *)
Theorem C70_triangular : forall c w l, creach c w -> exists_link w l -> triangular c (L w l).
Proof. exact cpp_triangular. Qed.
Print Assumptions C70_triangular.

(** C70: the vehicles a node has noted down stand at the ends of links into it *)
Theorem C70_incoming : forall c w n v, (0 <= dt c)%Q -> (0 <= dN c)%Q -> creachP c keep_room w -> In v (n_incoming (N w n)) ->
  exists_veh w v /\ exists l, on_link w v l /\ l_end (L w l) = n /\ (v_x (V w v) == l_len (L w l))%Q.
Proof. exact cpp_incoming. Qed.
Print Assumptions C70_incoming.

(** a two-lane queue in front of a red light *)
Example C70_example : exists w, creachP cfg_det keep_room w /\
  (nlist_eqb (l_vehs (L w 0)) [0; 1; 2; 3] && negb (is_nil (n_queue (N w 0))) &&
   opt_eqb (v_leader (V w 3)) (Some 1) && Qeq_bool (v_x (V w 1)) 100 && Qeq_bool (v_x (V w 3)) 50 &&
   Qeq_bool (jam_gap cfg_det (L w 0)) 50 && Qeq_bool (l_kappa (L w 0) * l_len (L w 0)) 20 && nlist_eqb (n_incoming (N w 1)) [0; 1])%bool = true.
Proof. exact cpp_queue_example. Qed.

(** the move of a lone vehicle *)
Example C70_move_example : exists w, creachP cfg_det keep_room w /\ w_final w = true /\
  (match cpp_tick cfg_det w with
   | Ok w' => match v_link (V w 0), v_link (V w' 0) with
              | Some k, Some l => Nat.eqb k 0 && Nat.eqb l 0 && Qeq_bool (v_x (V w 0)) 200 && Qeq_bool (v_xold (V w' 0)) 200 &&
                                  Qeq_bool (v_x (V w' 0)) 300 && Qeq_bool (v_v (V w' 0)) 20
              | _, _ => false
              end
   | Err _ => false
   end)%bool = true.
Proof. exact cpp_moving_example. Qed.

(** C70: the spacing fails after the jam density was lowered *)
Theorem C70_jam_change_refuted : exists w, creach cfg_det w /\
  (nlist_eqb (l_vehs (L w 0)) [0; 1; 2; 3] && opt_eqb (v_leader (V w 3)) (Some 1) &&
   qlt (v_x (V w 1)) (v_x (V w 3) + jam_gap cfg_det (L w 0)) && qlt 0 (l_kappa (L w 0)))%bool = true.
Proof. exact cpp_denser_example. Qed.
Print Assumptions C70_jam_change_refuted.
