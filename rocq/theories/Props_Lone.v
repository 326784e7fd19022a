(** * Props_Lone: the ride of a lone vehicle (C63). *)
From Verif Require Import Base Types Sim Build Steps Reach Spec Paths Demo MotionDemo Merge SpecProgress SpecLone Lone Lone2 LoneDemo.
Local Open Scope nat_scope.

(** C63: the travel time of a lone vehicle is the free-flow travel time of its route, rounded up by less than a timestep *)
Theorem C63_time : forall c w v, (0 < dt c)%Q -> (0 <= dN c <= 10e10)%Q -> reachP c settled w -> alone w v -> v_mode (V w v) = SingleTrip -> (0 <= v_dep (V w v))%Z ->
  free_net c w -> way_on w v -> v_state (V w v) = End_ ->
  (free_time w (route_of (V w v)) <= v_tt (V w v) < free_time w (route_of (V w v)) + dt c)%Q.
Proof. exact lone_time_lemma. Qed.
Print Assumptions C63_time.

(** links of 520 m and 500 m: free-flow travel time 51 s, travel time 55 s *)
Example C63_time_example : exists w, reachP cfg_det settled w /\ alone w 0 /\ free_net cfg_det w /\ way_on w 0 /\
  (v_state (V w 0) = End_ /\ v_mode (V w 0) = SingleTrip /\ (0 <= v_dep (V w 0))%Z) /\
  (free_time w (route_of (V w 0)) == 51)%Q /\ (v_tt (V w 0) == 55)%Q.
Proof. exact lone_example. Qed.

(** C63: while it drives, it is exactly where free-flow travel since its departure takes it *)
Theorem C63_position : forall c w v pre l, (0 < dt c)%Q -> (0 <= dN c <= 10e10)%Q -> reachP c settled w -> alone w v -> v_mode (V w v) = SingleTrip -> (0 <= v_dep (V w v))%Z ->
  free_net c w -> way_on w v -> v_state (V w v) = Run -> route_of (V w v) = pre ++ [l] ->
  (free_time w pre + (v_x (V w v) + v_remain (V w v)) / l_u (L w l) == inject_Z (Z.of_nat (w_T w) - 1 - v_dep (V w v)) * dt c)%Q /\
  (v_x (V w v) == l_len (L w l) \/ v_remain (V w v) == 0)%Q.
Proof. exact position_lemma. Qed.
Print Assumptions C63_position.

(** 280 m behind the end of the first link *)
Example C63_position_example : exists w, reachP cfg_det settled w /\ alone w 0 /\ free_net cfg_det w /\ way_on w 0 /\
  v_state (V w 0) = Run /\ route_of (V w 0) = [0; 1] /\ (v_x (V w 0) == 280)%Q /\ w_T w = 9 /\ v_dep (V w 0) = 0%Z.
Proof. exact position_example. Qed.

(** C63: it is on the road one timestep after its departure time *)
Theorem C63_departs : forall c w v, (0 < dt c)%Q -> (0 <= dN c <= 10e10)%Q -> reachP c settled w -> alone w v -> v_mode (V w v) = SingleTrip -> (0 <= v_dep (V w v))%Z ->
  free_net c w -> way_on w v -> (v_dep (V w v) + 1 < Z.of_nat (w_T w))%Z -> v_state (V w v) <> Home /\ v_state (V w v) <> Wait.
Proof. exact departs_lemma. Qed.
Print Assumptions C63_departs.

(** C63: default capacities do not hold it back, if the free flow speed is not very low *)
Theorem C63_default : forall c w l q, reach c w -> exists_link w l -> (0 < c_react c)%Q -> (0 <= dN c)%Q -> (0 < l_kappa (L w l))%Q ->
  (1 <= l_u (L w l) * l_kappa (L w l) * c_react c)%Q -> l_cin (L w l) = Some q -> (l_cap (L w l) * 2 <= q)%Q -> (l_cap (L w l) * 2 <= l_cout (L w l))%Q ->
  ample c (L w l).
Proof. exact default_lemma. Qed.
Print Assumptions C63_default.

(** C63: on links that take less than a timestep the travel time is longer *)
Theorem C63_short_links_refuted : exists w, reachP cfg_det settled w /\ alone w 0 /\ open_net cfg_det w /\ way_on w 0 /\
  (v_state (V w 0) = End_ /\ v_mode (V w 0) = SingleTrip /\ (0 <= v_dep (V w 0))%Z) /\
  (free_time w (route_of (V w 0)) + dt cfg_det <= v_tt (V w 0))%Q.
Proof. exact short_links_witness. Qed.
Print Assumptions C63_short_links_refuted.

(** C63: with a second vehicle the travel time is longer *)
Theorem C63_company_refuted : exists w, reachP cfg_det settled w /\ exists_veh w 1 /\ free_net cfg_det w /\ way_on w 1 /\
  (v_state (V w 1) = End_ /\ v_mode (V w 1) = SingleTrip /\ (0 <= v_dep (V w 1))%Z) /\
  (free_time w (route_of (V w 1)) + dt cfg_det <= v_tt (V w 1))%Q.
Proof. exact company_witness. Qed.
Print Assumptions C63_company_refuted.
