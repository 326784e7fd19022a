(** * Properties of links and nodes: fundamental diagram (C34), spatial queries (C32), node capacity (C37). *)
From Coq Require Import Sorted.
From Verif Require Import Base Types Sim Build Reach Steps Spec Paths Demo FD Spatial NodeCap NetDemo.
Local Open Scope string_scope.
Local Open Scope nat_scope.

Local Open Scope Q_scope.
(** C34: in every reachable state, after any creations and changes, the parameters of every link satisfy the relations of Spec.v *)
Theorem C34_triangular : forall c w l, reach c w -> (l < w_nl w)%nat -> triangular c (L w l).
Proof. exact triangular_lemma. Qed.
Print Assumptions C34_triangular.
Local Open Scope nat_scope.

Local Open Scope Q_scope.
(** C34: these relations say: capacity = u*w*kappa/(u+w); the branches meet at the critical density k' = capacity/u; capacity is the
    largest flow, less than lanes/reaction_time and less than u*kappa *)
Theorem C34_diagram : forall c a, triangular c a -> 0 < c_react c -> 0 < l_u a -> 0 < l_kappa a -> (1 <= l_lanes a)%nat ->
  let k' := l_cap a / l_u a in
  0 < l_w a /\ 0 < l_cap a /\ l_cap a == l_u a * l_w a * l_kappa a / (l_u a + l_w a) /\
  0 < k' /\ k' < l_kappa a /\ l_u a * k' == l_cap a /\ l_w a * (l_kappa a - k') == l_cap a /\
  l_cap a < Qof_nat (l_lanes a) / c_react c /\ l_cap a < l_u a * l_kappa a /\
  (forall k, fd_flow a k <= l_cap a) /\ fd_flow a k' == l_cap a.
Proof. exact diagram_lemma. Qed.
Print Assumptions C34_diagram.
Local Open Scope nat_scope.

Local Open Scope Q_scope.
(** C34: change_free_flow_speed *)
Theorem C34_change_speed : forall c w w' l q, reach c w -> (l < w_nl w)%nat -> change_free_flow_speed l q w = Ok w' ->
  (q < 0 -> w' = w) /\
  (0 <= q -> l_u (L w' l) = q /\ l_kappa (L w' l) = l_kappa (L w l) /\ l_w (L w' l) == l_w (L w l) /\ l_dpl (L w' l) = l_dpl (L w l)) /\
  triangular c (L w' l) /\ forall k, k <> l -> L w' k = L w k.
Proof. exact speed_change_lemma. Qed.
Print Assumptions C34_change_speed.
Local Open Scope nat_scope.

Local Open Scope Q_scope.
(** C34: change_jam_density *)
Theorem C34_change_jam_density : forall c w w' l q, reach c w -> (l < w_nl w)%nat -> change_jam_density l q w = Ok w' ->
  (q < 0 -> w' = w) /\
  (0 <= q -> l_kappa (L w' l) = q /\ l_u (L w' l) = l_u (L w l) /\ 0 < q) /\
  triangular c (L w' l) /\ forall k, k <> l -> L w' k = L w k.
Proof. exact jam_change_lemma. Qed.
Print Assumptions C34_change_jam_density.
Local Open Scope nat_scope.

Local Open Scope Q_scope.
(** C34: addLink; jam_density_per_lane overrides jam_density *)
Theorem C34_new_link : forall c a w w', add_link c a w = Ok w' ->
  let k := L w' (w_nl w) in
  l_u k = la_ffs a /\ l_len k = la_len a /\ l_lanes k = la_lanes a /\
  (la_jampl a = None -> l_kappa k = la_jam a) /\ (forall kp, la_jampl a = Some kp -> l_kappa k == kp * Qof_nat (la_lanes a)).
Proof. exact link_made_lemma. Qed.
Print Assumptions C34_new_link.
Local Open Scope nat_scope.

(** a link that meets the hypotheses of C34_diagram *)
Example C34_not_vacuous : exists w, reachable cfg0 w /\
  ((0 <? w_nl w) && qlt 0 (c_react cfg0) && qlt 0 (l_u (L w 0)) && qlt 0 (l_kappa (L w 0)) && (l_lanes (L w 0) =? 3) &&
   Qeq_bool (l_u (L w 0)) 10 && Qeq_bool (l_kappa (L w 0)) (4#10))%bool = true.
Proof. exact fd_example. Qed.

(** jam_density_per_lane *)
Example C34_per_lane_not_vacuous : exists w, reachable cfg0 w /\
  match add_link cfg0 (mkLinkArgs (Some "l") 0 1 1000 20 (2#10) (Some (15#100)) 2 1 [0] None None None None) w with
  | Ok w' => Qeq_bool (l_kappa (L w' 0)) (3#10) | Err _ => false end = true.
Proof. exact per_lane_example. Qed.

(** C34: jam_density_per_lane together with another jam_density than 0.2 raises AttributeError instead of overriding *)
Theorem C34_per_lane_refuted : exists w, reachable cfg0 w /\
  match add_link cfg0 (mkLinkArgs (Some "l") 0 1 1000 20 (1#10) (Some (15#100)) 2 1 [0] None None None None) w with
  | Err AttributeError => true | _ => false end = true.
Proof. exact per_lane_error. Qed.
Print Assumptions C34_per_lane_refuted.

(** C32: get_nearest_node returns the first node of least distance *)
Theorem C32_nearest : forall w x y n, get_nearest_node w x y = Some n ->
  exists_node w n /\ (forall m, exists_node w m -> (dist2 w n x y <= dist2 w m x y)%Q) /\
  (forall m, m < n -> (dist2 w n x y < dist2 w m x y)%Q).
Proof. exact nearest_lemma. Qed.
Print Assumptions C32_nearest.

(** C32: None exactly if every node is at least 10^5 away *)
Theorem C32_none : forall w x y, get_nearest_node w x y = None <-> forall m, exists_node w m -> (inject_Z (10 ^ 10) <= dist2 w m x y)%Q.
Proof. exact nearest_none_lemma. Qed.
Print Assumptions C32_none.

(** C32: get_nodes_in_area *)
Theorem C32_area : forall w x y r,
  (forall n, In n (get_nodes_in_area w x y r) <-> exists_node w n /\ (dist2 w n x y < r * r)%Q) /\
  StronglySorted lt (get_nodes_in_area w x y r).
Proof. exact area_lemma. Qed.
Print Assumptions C32_area.

(** three nodes *)
Example C32_not_vacuous : exists w, reachable cfg0 w /\
  (match get_nearest_node w 4 4 with Some n => n =? 1 | None => false end && nlist_eqb (get_nodes_in_area w 0 0 (15#2)) [0; 1])%bool = true.
Proof. exact nearest_example. Qed.

(** C32: a world with one node, which get_nearest_node does not return *)
Theorem C32_far_refuted : exists w, reachable cfg0 w /\
  ((w_nn w =? 1) && match get_nearest_node w 0 0 with Some n => false | None => true end)%bool = true.
Proof. exact nearest_far_example. Qed.
Print Assumptions C32_far_refuted.

(** C37: finalize_scenario with and without adjust_node_capacity *)
Theorem C37_node_capacity : forall c tm w w' n, reach c w -> w_final w = false -> finalize c tm w = Ok w' -> exists_node w n ->
  (c_adjust c = false \/ n_fcap (N w n) <> None \/ n_in (N w n) = [] \/ n_out (N w n) = [] -> N w' n = N w n) /\
  (c_adjust c = true -> n_fcap (N w n) = None -> n_in (N w n) <> [] -> n_out (N w n) <> [] ->
   exists ci co q m, largest_cap w (n_in (N w n)) ci /\ largest_cap w (n_out (N w n)) co /\ (q == (ci + co) / 2)%Q /\
     n_fcap (N w' n) = Some q /\ (n_fcapr (N w' n) == q * dt c)%Q /\ n_lanes (N w' n) = Some m /\ lanes_for q m).
Proof. exact node_capacity_lemma. Qed.
Print Assumptions C37_node_capacity.

(** an inner node *)
Example C37_not_vacuous : exists w, reachable cfg_adj w /\
  (negb (w_final w) && c_adjust cfg_adj && (2 <? w_nn w) &&
   match finalize cfg_adj None w with
   | Ok w' => match n_fcap (N w' 1), n_lanes (N w' 1) with Some q, Some m => Qeq_bool q (16#15) && (m =? 2) | _, _ => false end
   | Err _ => false end)%bool = true.
Proof. exact nodecap_example. Qed.
