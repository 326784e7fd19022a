(** * Props_Area: demand between groups of nodes (C46). *)
From Verif Require Import Base Types Sim Build Reach Steps Spec Registry Spatial Demand SpecArea AreaDemand Demo MotionDemo AreaDemo.
Local Open Scope nat_scope.

(** C46: adddemand_nodes2nodes gives all pairs of usable nodes the same number of platoons; the total is within one platoon per pair (and the flow of one timestep) of the demand asked for *)
Theorem C46_nodes2nodes : forall c ko kd t0 t1 flow volume F w w', (0 < dN c)%Q -> (0 < dt c)%Q -> (0 <= t0 <= t1)%Q ->
  flow_asked t0 t1 flow volume F -> (0 <= F)%Q -> adddemand_nodes2nodes c ko kd t0 t1 flow volume w = Ok w' ->
  exists os ds m, origins w ko os /\ destinations w kd ds /\ shares os ds m (qtrunc (t0 / dt c)) (qtrunc (t1 / dt c)) w w' /\
    (Qof_nat (w_nv w' - w_nv w) * dN c - F * (t1 - t0) <= F * dt c)%Q /\
    (F * (t1 - t0) - Qof_nat (w_nv w' - w_nv w) * dN c < Qof_nat (List.length os * List.length ds) * dN c + F * dt c)%Q.
Proof. exact nodes2nodes_lemma. Qed.
Print Assumptions C46_nodes2nodes.

(** C46: so does adddemand_area2area with the nodes of the areas *)
Theorem C46_area2area : forall c xo yo ro xd yd rd t0 t1 flow volume F w w', (0 < dN c)%Q -> (0 < dt c)%Q -> (0 <= t0 <= t1)%Q ->
  flow_asked t0 t1 flow volume F -> (0 <= F)%Q -> adddemand_area2area c xo yo ro xd yd rd t0 t1 flow volume w = Ok w' ->
  exists os ds m, area w (fun n => n_out (N w n) <> []) xo yo ro os /\ area w (fun n => n_in (N w n) <> []) xd yd rd ds /\
    shares os ds m (qtrunc (t0 / dt c)) (qtrunc (t1 / dt c)) w w' /\
    (Qof_nat (w_nv w' - w_nv w) * dN c - F * (t1 - t0) <= F * dt c)%Q /\
    (F * (t1 - t0) - Qof_nat (w_nv w' - w_nv w) * dN c < Qof_nat (List.length os * List.length ds) * dN c + F * dt c)%Q.
Proof. exact area2area_lemma. Qed.
Print Assumptions C46_area2area.

(** C46: adddemand_nodes2nodes2 creates the whole platoons of the volume asked for, between different usable nodes, evenly spaced in time, whatever the random numbers *)
Theorem C46_nodes2nodes2 : forall c r ko kd t0 t1 flow volume vol w w', (0 < dN c)%Q -> (0 < dt c)%Q -> (0 <= t0 <= t1)%Q ->
  volume_asked t0 t1 flow volume vol -> (0 <= vol)%Q -> adddemand_nodes2nodes2 c r ko kd t0 t1 flow volume w = Ok w' ->
  exists os ds, origins w ko os /\ destinations w kd ds /\ scattering c os ds t0 t1 (w_nv w' - w_nv w) w w' /\
  (Qof_nat (w_nv w' - w_nv w) * dN c <= vol)%Q /\ (vol < Qof_nat (w_nv w' - w_nv w) * dN c + dN c)%Q.
Proof. exact nodes2nodes2_lemma. Qed.
Print Assumptions C46_nodes2nodes2.

(** C46: so does adddemand_area2area2 *)
Theorem C46_area2area2 : forall c r xo yo ro xd yd rd t0 t1 flow volume vol w w', (0 < dN c)%Q -> (0 < dt c)%Q -> (0 <= t0 <= t1)%Q ->
  volume_asked t0 t1 flow volume vol -> (0 <= vol)%Q -> adddemand_area2area2 c r xo yo ro xd yd rd t0 t1 flow volume w = Ok w' ->
  exists os ds, area w (fun n => n_out (N w n) <> []) xo yo ro os /\ area w (fun n => n_in (N w n) <> []) xd yd rd ds /\
  scattering c os ds t0 t1 (w_nv w' - w_nv w) w w' /\
  (Qof_nat (w_nv w' - w_nv w) * dN c <= vol)%Q /\ (vol < Qof_nat (w_nv w' - w_nv w) * dN c + dN c)%Q.
Proof. exact area2area2_lemma. Qed.
Print Assumptions C46_area2area2.

(** C46: adddemand_point2point is adddemand between the nearest nodes (C22, C32) *)
Theorem C46_point2point : forall c xo yo xd yd t0 t1 flow volume w w', adddemand_point2point c xo yo xd yd t0 t1 flow volume w = Ok w' ->
  exists o d, get_nearest_node w xo yo = Some o /\ get_nearest_node w xd yd = Some d /\ adddemand c o d t0 t1 flow volume w = Ok w'.
Proof. exact point2point_lemma. Qed.
Print Assumptions C46_point2point.

(** C46: adddemand_nodes2nodes2 succeeds if every origin has another destination *)
Theorem C46_succeeds : forall c r ko kd os ds t0 t1 flow volume vol w, (0 < dN c)%Q -> volume_asked t0 t1 flow volume vol -> (0 <= vol)%Q ->
  usable w (has_out w) ko = Ok os -> usable w (has_in w) kd = Ok ds -> os <> [] -> (forall o, In o os -> exists d, In d ds /\ d <> o) -> auto_names_free w ->
  exists w', adddemand_nodes2nodes2 c r ko kd t0 t1 flow volume w = Ok w'.
Proof. exact nodes2nodes2_succeeds. Qed.
Print Assumptions C46_succeeds.

(** C46: the resulting worlds are reachable, so all other properties hold for them *)
Theorem C46_reachable : forall c w w', reach c w ->
  (forall xo yo xd yd t0 t1 fl vo, adddemand_point2point c xo yo xd yd t0 t1 fl vo w = Ok w' -> reach c w') /\
  (forall ko kd t0 t1 fl vo, adddemand_nodes2nodes c ko kd t0 t1 fl vo w = Ok w' -> reach c w') /\
  (forall xo yo ro xd yd rd t0 t1 fl vo, adddemand_area2area c xo yo ro xd yd rd t0 t1 fl vo w = Ok w' -> reach c w') /\
  (forall r ko kd t0 t1 fl vo, adddemand_nodes2nodes2 c r ko kd t0 t1 fl vo w = Ok w' -> reach c w') /\
  (forall r xo yo ro xd yd rd t0 t1 fl vo, adddemand_area2area2 c r xo yo ro xd yd rd t0 t1 fl vo w = Ok w' -> reach c w').
Proof. exact area_reach_lemma. Qed.
Print Assumptions C46_reachable.

(** two origins, two destinations, 44 vehicles, equal shares *)
Example C46_shares_example : exists w, reachable cfg_det w /\
  match adddemand_nodes2nodes cfg_det ab cd 0 100 (-1) 44 w with
  | Ok w' => Nat.eqb (w_nv w') (w_nv w + 8) && veh_is w' 0 0 3 9 && veh_is w' 1 0 3 18 && veh_is w' 2 0 4 9 && veh_is w' 4 1 3 9 && veh_is w' 7 1 4 18
  | Err _ => false end = true.
Proof. exact shares_example. Qed.

(** the same scattered *)
Example C46_scatter_example : exists w, reachable cfg_det w /\
  match adddemand_nodes2nodes2 cfg_det dr ab cd 0 100 (-1) 44 w with
  | Ok w' => Nat.eqb (w_nv w') (w_nv w + 8) && veh_is w' 0 0 4 0 && veh_is w' 1 1 3 2 && veh_is w' 2 0 4 5 && veh_is w' 7 1 3 20
  | Err _ => false end = true.
Proof. exact scatter_example. Qed.

(** C46: the total of adddemand_nodes2nodes may miss more than a platoon: here nobody travels *)
Theorem C46_truncated_refuted : exists w, reachable cfg_det w /\
  match adddemand_nodes2nodes cfg_det ab cd 0 100 (-1) 16 w with Ok w' => Nat.eqb (w_nv w') (w_nv w) | Err _ => false end = true.
Proof. exact truncated. Qed.
Print Assumptions C46_truncated_refuted.

(** C46: adddemand_nodes2nodes creates vehicles from a node to itself *)
Theorem C46_itself_refuted : exists w, reachable cfg_det w /\
  match adddemand_nodes2nodes cfg_det [KName "a"; KName "m"] [KName "m"; KName "c"] 0 100 (-1) 80 w with
  | Ok w' => Nat.ltb (w_nv w + 8) (w_nv w') && veh_is w' (w_nv w + 8) 2 2 4 | Err _ => false end = true.
Proof. exact to_itself. Qed.
Print Assumptions C46_itself_refuted.

(** C46: adddemand_nodes2nodes2 raises, depending on the random numbers, if the only destination is an origin *)
Theorem C46_raises_refuted : exists w, reachable cfg_det w /\
  (match adddemand_nodes2nodes2 cfg_det dr [KName "m"; KName "a"] [KName "m"] 0 100 (-1) 44 w with Err ValueError => true | _ => false end &&
   match adddemand_nodes2nodes2 cfg_det (mkDraws (fun _ => 1) (fun _ => 0) (fun _ => 0)) [KName "m"; KName "a"] [KName "m"] 0 100 (-1) 44 w with
   | Ok w' => Nat.eqb (w_nv w') (w_nv w + 8) | _ => false end)%bool = true.
Proof. exact no_other. Qed.
Print Assumptions C46_raises_refuted.

(** C46: adddemand_nodes2nodes2 does not keep to [t_start, t_end): the last platoon departs at t_end *)
Theorem C46_end_refuted : exists w, reachable cfg_det w /\
  match adddemand_nodes2nodes2 cfg_det dr ab cd 0 100 (-1) 44 w with Ok w' => veh_is w' (w_nv w' - 1) 1 3 (qtrunc (100 / dt cfg_det)) | Err _ => false end = true.
Proof. exact at_end. Qed.
Print Assumptions C46_end_refuted.
