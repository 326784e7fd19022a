(** * Props_Progress: progress at nodes (C62). *)
From Verif Require Import Base Types Sim Build Steps Reach Spec Paths Demo MotionDemo Merge SpecProgress Progress Progress2 ProgressDemo.
Local Open Scope nat_scope.

(** C62: a vehicle that stands at the end of a link and has not arrived is registered at the node *)
Theorem C62_waiting : forall c w v l, reach c w -> exists_veh w v -> v_state (V w v) = Run -> v_link (V w v) = Some l ->
  v_x (V w v) == l_len (L w l) -> v_flag (V w v) = false -> In v (n_incoming (N w (l_end (L w l)))).
Proof. exact waiting_lemma. Qed.
Print Assumptions C62_waiting.

(** C62: if a vehicle may pass the node to a link that has room and inflow allowance, some vehicle enters that link or the flow capacity of the node is used up *)
Theorem C62_progress : forall c w w1 w2 w3 n out v l, reach c w ->
  phase_links c w = Ok w1 -> phase_nodes c w1 = Ok w2 -> phase_transfer c w2 = Ok w3 ->
  merge_candidate c w2 n out v l -> room c w2 out -> (dN c <= l_cinr (L w2 out))%Q ->
  (exists m u, passed c w2 w3 m u out) \/ node_spent c w3 n.
Proof. exact progress_lemma. Qed.
Print Assumptions C62_progress.

(** C62: the same from the state before the timestep: the first vehicle standing at the end of its link *)
Theorem C62_flow : forall c w w1 w2 w3 v l out, reach c w -> phase_links c w = Ok w1 -> phase_nodes c w1 = Ok w2 -> phase_transfer c w2 = Ok w3 ->
  exists_veh w v -> v_state (V w v) = Run -> v_link (V w v) = Some l -> v_x (V w v) == l_len (L w l) -> v_flag (V w v) = false ->
  hd_error (l_vehs (L w l)) = Some v -> v_next (V w v) = Some (Some out) ->
  (In (n_phase (N w2 (l_end (L w l)))) (l_group (L w2 l)) \/ List.length (n_signal (N w2 (l_end (L w l)))) <= 1) ->
  (dN c <= l_coutr (L w2 l))%Q -> room c w2 out -> (dN c <= l_cinr (L w2 out))%Q ->
  (exists m u, passed c w2 w3 m u out) \/ node_spent c w3 (l_end (L w l)).
Proof. exact flow_lemma. Qed.
Print Assumptions C62_flow.

(** C62: a vehicle that alone wants to enter a link passes itself *)
Theorem C62_sole : forall c w w1 w2 w3 n out v l, reach c w ->
  phase_links c w = Ok w1 -> phase_nodes c w1 = Ok w2 -> phase_transfer c w2 = Ok w3 ->
  merge_candidate c w2 n out v l -> room c w2 out -> (dN c <= l_cinr (L w2 out))%Q ->
  (forall m u, In u (n_incoming (N w2 m)) -> v_next (V w2 u) = Some (Some out) -> u = v) ->
  passed c w2 w3 n v out \/ node_spent c w3 n.
Proof. exact sole_lemma. Qed.
Print Assumptions C62_sole.

(** one vehicle at the end of a link, with an open way *)
Example C62_flow_example : exists w, reachable cfg_det w /\
  (at_end w 0 0 false && wants w 0 1 && stage cfg_det w (fun w2 w3 =>
     open_way cfg_det w2 1 0 1 && Nat.eqb (List.length (n_incoming (N w2 1))) 1 && gone cfg_det w2 w3 0 1))%bool = true.
Proof. exact open_example. Qed.

(** the flow capacity of the node is used up by a vehicle to another link *)
Example C62_spent_example : exists w w1 w2 w3, reach cfg_det w /\ phase_links cfg_det w = Ok w1 /\ phase_nodes cfg_det w1 = Ok w2 /\ phase_transfer cfg_det w2 = Ok w3 /\
  (exists l, merge_candidate cfg_det w2 2 3 1 l) /\ room cfg_det w2 3 /\ (dN cfg_det <= l_cinr (L w2 3))%Q /\
  v_link (V w3 1) <> Some 3 /\ (qlt (n_fcapr (N w3 2)) (dN cfg_det) && Nat.eqb (List.length (l_vehs (L w3 3))) 0)%bool = true.
Proof. exact spent_example. Qed.

(** C62: the first vehicle on a link that has reached its destination leaves in the next timestep *)
Theorem C62_trip_end : forall c w w' v l, reach c w -> w_final w = true -> tick c w = Ok w' -> exists_veh w v ->
  v_state (V w v) = Run -> v_link (V w v) = Some l -> v_flag (V w v) = true -> hd_error (l_vehs (L w l)) = Some v ->
  v_state (V w' v) = End_ \/ v_state (V w' v) = Abort.
Proof. exact trip_end_lemma. Qed.
Print Assumptions C62_trip_end.

(** such a vehicle *)
Example C62_trip_end_example : exists w, reachable cfg_det w /\
  (w_final w && at_end w 0 2 true && match tick cfg_det w with Ok w' => vstate_eqb (v_state (V w' 0)) End_ | Err _ => false end)%bool = true.
Proof. exact arrive_example. Qed.

(** C62: another vehicle may take the place *)
Theorem C62_itself_refuted : exists w w1 w2 w3, reach cfg_det w /\ phase_links cfg_det w = Ok w1 /\ phase_nodes cfg_det w1 = Ok w2 /\ phase_transfer cfg_det w2 = Ok w3 /\
  (exists l, merge_candidate cfg_det w2 2 2 1 l) /\ room cfg_det w2 2 /\ (dN cfg_det <= l_cinr (L w2 2))%Q /\
  v_link (V w3 1) <> Some 2 /\ opt_eqb (v_link (V w3 0)) (Some 2) = true.
Proof. exact itself_refuted. Qed.
Print Assumptions C62_itself_refuted.

(** C62: a vehicle at the end of its last link does not always arrive in the same timestep *)
Theorem C62_at_once_refuted : exists w, reach cfg_det w /\
  exists v u l, exists_veh w v /\ v_state (V w v) = Run /\ v_link (V w v) = Some l /\ v_flag (V w v) = true /\ hd_error (l_vehs (L w l)) = Some v /\
    v_state (V w u) = End_ /\ (v_x (V w v) == l_len (L w l))%Q.
Proof. exact at_once_refuted. Qed.
Print Assumptions C62_at_once_refuted.
