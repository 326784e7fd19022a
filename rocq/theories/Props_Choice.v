(** * Properties of link choice and enforced routes (C16, C17). *)
From Verif Require Import Base Types Sim Build Reach Steps Spec Paths Demo Choice Enforce ChoiceDemo.
Local Open Scope nat_scope.

(** C17: after any timestep of any run, a vehicle at the end of its link (not yet at its destination) has chosen an admissible
    outgoing link: see [choice_ok] in Spec.v. *)
Theorem C17_chosen : forall c w w' v l, reach c w -> w_final w = true -> tick c w = Ok w' -> exists_veh w v ->
  on_link w' v l -> v_spec (V w' v) = None -> v_mode (V w' v) <> Taxi -> (v_x (V w' v) == l_len (L w' l))%Q ->
  v_dest (V w' v) <> Some (l_end (L w' l)) -> n_out (N w' (l_end (L w' l))) <> [] ->
  exists out, v_next (V w' v) = Some (Some out) /\ choice_ok c w' (V w' v) (n_out (N w' (l_end (L w' l)))) out.
Proof. exact choice_made_lemma. Qed.
Print Assumptions C17_chosen.

(** C17: also for taxis: whenever the next link changes, the new one is an admissible choice at the end of the link *)
Theorem C17_choice_changed : forall c w w' v l out, reach c w -> w_final w = true -> tick c w = Ok w' -> exists_veh w v ->
  on_link w' v l -> v_spec (V w' v) = None -> v_next (V w' v) = Some (Some out) -> v_next (V w v) <> Some (Some out) ->
  choice_ok c w' (V w' v) (n_out (N w' (l_end (L w' l)))) out.
Proof. exact choice_changed_lemma. Qed.
Print Assumptions C17_choice_changed.

(** C17: the link entered is the chosen one *)
Theorem C17_entered_is_chosen : forall c w w' v l, reach c w -> w_final w = true -> tick c w = Ok w' -> exists_veh w v -> on_link w v l ->
  (links_of (v_tlog (V w' v)) = links_of (v_tlog (V w v)) /\ (v_state (V w' v) = Run -> v_link (V w' v) = Some l)) \/
  exists out, v_next (V w v) = Some (Some out) /\ out <> l /\
    links_of (v_tlog (V w' v)) = links_of (v_tlog (V w v)) ++ [out] /\ (v_state (V w' v) = Run -> v_link (V w' v) = Some out).
Proof. exact enter_chosen_lemma. Qed.
Print Assumptions C17_entered_is_chosen.

(** C17: the first link is an admissible outgoing link of the origin *)
Theorem C17_first_link : forall c w w' v, reach c w -> w_final w = true -> tick c w = Ok w' -> exists_veh w v -> v_state (V w v) = Wait ->
  v_spec (V w v) = None -> v_state (V w' v) <> Wait ->
  exists out, links_of (v_tlog (V w' v)) = [out] /\ (v_state (V w' v) = Run -> v_link (V w' v) = Some out) /\
    admissible (V w v) (n_out (N w (v_orig (V w v)))) out.
Proof. exact enter_admissible_lemma. Qed.
Print Assumptions C17_first_link.

(** C17: one call of route_next_link_choice in any state *)
Theorem C17_choice : forall c v w w' l t0 r, route_next_link_choice c v w = Ok w' -> v_link (V w v) = Some l -> v_spec (V w v) = None ->
  v_tlog (V w v) = (t0, PHome) :: r ->
  (v_dest (V w v) = Some (l_end (L w l)) /\ V w' v = V w v) \/
  v_dest (V w v) <> Some (l_end (L w l)) /\
  (n_out (N w (l_end (L w l))) = [] /\ V w' v = sv_next (Some None) (V w v) \/
   exists out, V w' v = sv_next (Some (Some out)) (V w v) /\ choice_ok c w (V w v) (n_out (N w (l_end (L w l)))) out).
Proof. exact choose_lemma. Qed.
Print Assumptions C17_choice.

(** C17: nothing admissible (for example all links avoided): ValueError *)
Theorem C17_nothing_admissible_raises : forall c v w l t0 r, v_link (V w v) = Some l -> v_spec (V w v) = None ->
  v_tlog (V w v) = (t0, PHome) :: r -> Forall (fun e => exists l, snd e = PLink l) r ->
  v_dest (V w v) <> Some (l_end (L w l)) -> n_out (N w (l_end (L w l))) <> [] ->
  (forall k, ~ admissible (V w v) (n_out (N w (l_end (L w l)))) k) ->
  route_next_link_choice c v w = Err ValueError.
Proof. exact choose_error_lemma. Qed.
Print Assumptions C17_nothing_admissible_raises.

(** C17: the same at the origin *)
Theorem C17_nothing_admissible_at_origin_raises : forall c n w v q, n_queue (N w n) = v :: q -> v_spec (V w v) = None ->
  0 < nsum (map (fun l => l_lanes (L w l)) (n_out (N w n))) -> (forall k, ~ admissible (V w v) (n_out (N w n)) k) ->
  generate c n w = Err ValueError.
Proof. exact generate_error_lemma. Qed.
Print Assumptions C17_nothing_admissible_at_origin_raises.

(** a preferred link is chosen *)
Example C17_not_vacuous : exists w, reachable cfg0 w /\
  (w_final w && (0 <? w_nv w) &&
   match tick cfg0 w with
   | Ok w' => at_end_b w' 0 0 && no_spec w' 0 && next_is w' 0 2 && negb (next_is w 0 2) &&
              nlist_eqb (n_out (N w' 1)) [1; 2] && nlist_eqb (v_prefer (V w' 0)) [2] && goes_to w' 0 2
   | Err _ => false end)%bool = true.
Proof. exact choice_example. Qed.

(** a waiting vehicle enters its first link *)
Example C17_first_not_vacuous : exists w, reachable cfg0 w /\
  (w_final w && (0 <? w_nv w) && vstate_eqb (v_state (V w 0)) Wait && no_spec w 0 &&
   match tick cfg0 w with
   | Ok w' => vstate_eqb (v_state (V w' 0)) Run && nlist_eqb (links_of (v_tlog (V w' 0))) [0]
   | Err _ => false end)%bool = true.
Proof. exact enter_example. Qed.

(** all links avoided: the timestep raises ValueError *)
Example C17_error_not_vacuous : exists w, reachable cfg0 w /\
  (w_final w && match tick cfg0 w with Err ValueError => nlist_eqb (v_avoid (V w 0)) [1; 2] | _ => false end)%bool = true.
Proof. exact choice_error_example. Qed.

(** C17 counts the nodes a vehicle has left as visited. The node it stands at is not counted: with no_cyclic_routing a loop at
    this node is chosen although link 1 leads to a node never visited. *)
Theorem C17_loop_refuted : exists w, reachable cfg_nc w /\
  (at_end_b w 0 0 && no_spec w 0 && next_is w 0 2 && (l_end (L w 2) =? l_end (L w 0)) &&
   nlist_eqb (n_out (N w 1)) [1; 2] && nlist_eqb (links_of (v_tlog (V w 0))) [0] && negb (l_end (L w 1) =? l_end (L w 0)) &&
   negb (l_end (L w 1) =? l_start (L w 0)) && nlist_eqb (v_prefer (V w 0)) [] && nlist_eqb (v_avoid (V w 0)) [] &&
   match v_mode (V w 0) with SingleTrip => true | Taxi => false end)%bool = true.
Proof. exact loop_example. Qed.
Print Assumptions C17_loop_refuted.

(** C17: with an enforced route an avoided link is chosen *)
Theorem C17_enforced_avoid_refuted : exists w, reachable cfg0 w /\
  (at_end_b w 0 0 && next_is w 0 2 && nlist_eqb (v_avoid (V w 0)) [2])%bool = true.
Proof. exact avoid_example. Qed.
Print Assumptions C17_enforced_avoid_refuted.

(** C16: the links recorded for a vehicle with an enforced route are always a prefix of the route, and the link it is on is the
    last of them *)
Theorem C16_prefix : forall c w w' v sp, reach c w -> exists_veh w v -> v_state (V w v) = Home \/ v_state (V w v) = Wait ->
  v_spec (V w v) = Some sp -> later c (keeps_route v) w w' ->
  (exists rest, sp = links_of (v_tlog (V w' v)) ++ rest) /\
  (forall l, on_link w' v l -> exists done rest, links_of (v_tlog (V w' v)) = done ++ [l] /\ sp = done ++ l :: rest).
Proof. exact enforced_lemma. Qed.
Print Assumptions C16_prefix.

(** C16: a link change goes to the next link of the route *)
Theorem C16_next : forall c w w1 w2 v sp l, reach c w -> exists_veh w v -> v_state (V w v) = Home \/ v_state (V w v) = Wait ->
  v_spec (V w v) = Some sp -> later c (keeps_route v) w w1 -> w_final w1 = true -> tick c w1 = Ok w2 ->
  on_link w1 v l ->
  (links_of (v_tlog (V w2 v)) = links_of (v_tlog (V w1 v)) /\ (v_state (V w2 v) = Run -> v_link (V w2 v) = Some l)) \/
  exists out, nth_error sp (List.length (links_of (v_tlog (V w1 v)))) = Some out /\
    links_of (v_tlog (V w2 v)) = links_of (v_tlog (V w1 v)) ++ [out] /\ (v_state (V w2 v) = Run -> v_link (V w2 v) = Some out).
Proof. exact enforced_step_lemma. Qed.
Print Assumptions C16_next.

(** C16: a vehicle ready to leave its link is going to take the next link of the route *)
Theorem C16_leaving : forall c w w' v sp l out, reach c w -> exists_veh w v -> v_state (V w v) = Home \/ v_state (V w v) = Wait ->
  v_spec (V w v) = Some sp -> later c (keeps_route v) w w' -> on_link w' v l ->
  (v_x (V w' v) == l_len (L w' l))%Q -> v_flag (V w' v) = false -> v_next (V w' v) = Some (Some out) ->
  nth_error sp (List.length (links_of (v_tlog (V w' v)))) = Some out.
Proof. exact enforced_next_lemma. Qed.
Print Assumptions C16_leaving.

(** C16: a timestep that succeeds has found the next link of the route among the outgoing ones *)
Theorem C16_fits : forall c w w' v l sp, reach c w -> w_final w = true -> tick c w = Ok w' -> exists_veh w v ->
  on_link w' v l -> v_spec (V w' v) = Some sp -> (v_x (V w' v) == l_len (L w' l))%Q -> v_flag (V w' v) = false ->
  v_next (V w' v) <> Some None ->
  exists out, v_next (V w' v) = Some (Some out) /\ nth_error sp (List.length (links_of (v_tlog (V w' v)))) = Some out /\
    In out (n_out (N w' (l_end (L w' l)))).
Proof. exact enforced_fits_lemma. Qed.
Print Assumptions C16_fits.

(** C16: route too short: IndexError; next link of the route not outgoing: ValueError *)
Theorem C16_misfit_raises : forall c v w l sp, v_link (V w v) = Some l -> v_spec (V w v) = Some sp -> n_out (N w (l_end (L w l))) <> [] ->
  (nth_error sp (List.length (v_tlog (V w v)) - 1) = None -> route_next_link_choice c v w = Err IndexError) /\
  (forall k, nth_error sp (List.length (v_tlog (V w v)) - 1) = Some k -> ~ In k (n_out (N w (l_end (L w l)))) ->
    route_next_link_choice c v w = Err ValueError).
Proof. exact enforced_error_lemma. Qed.
Print Assumptions C16_misfit_raises.

(** C16: the same at the origin *)
Theorem C16_misfit_at_origin_raises : forall c n w v q sp, n_queue (N w n) = v :: q -> v_spec (V w v) = Some sp ->
  0 < nsum (map (fun l => l_lanes (L w l)) (n_out (N w n))) ->
  (sp = [] -> generate c n w = Err IndexError) /\
  (forall k r, sp = k :: r -> ~ In k (n_out (N w n)) -> generate c n w = Err ValueError).
Proof. exact enforced_start_error_lemma. Qed.
Print Assumptions C16_misfit_at_origin_raises.

(** C16: the call itself *)
Theorem C16_call : forall v r b w, 
  (forall w', enforce_route v r b w = Ok w' -> v_spec (V w' v) = Some r /\ v_prefer (V w' v) = r /\ Forall (exists_link w) r) /\
  (forall e, enforce_route v r b w = Err e -> exists l, In l r /\ ~ exists_link w l).
Proof. exact enforce_route_lemma. Qed.
Print Assumptions C16_call.

(** a trip along an enforced route *)
Example C16_not_vacuous : exists w, reachable cfg0 w /\
  ((0 <? w_nv w) && spec_is w 0 [0; 2] && nlist_eqb (links_of (v_tlog (V w 0))) [0; 2] && vstate_eqb (v_state (V w 0)) End_)%bool = true.
Proof. exact enforced_example. Qed.

(** the hypotheses on the first state *)
Example C16_start_not_vacuous : exists w, reachable cfg0 w /\
  ((0 <? w_nv w) && spec_is w 0 [0; 2] && vstate_eqb (v_state (V w 0)) Home)%bool = true.
Proof. exact enforced_start_example. Qed.

(** a route too short *)
Example C16_short_route : exists w, reachable cfg0 w /\
  (w_final w && spec_is w 0 [0] && match tick cfg0 w with Err IndexError => true | _ => false end)%bool = true.
Proof. exact enforced_short_example. Qed.

(** a route that is not connected *)
Example C16_jump : exists w, reachable cfg0 w /\
  (w_final w && spec_is w 0 [0; 0] && match tick cfg0 w with Err ValueError => true | _ => false end)%bool = true.
Proof. exact enforced_jump_example. Qed.

(** C16: consecutive passages of a loop are not recorded, so a route taking a loop (link 2) twice keeps the vehicle on
    the loop for ever: here it has been round more than 20 times *)
Theorem C16_loop_refuted : exists w, reachable cfg0 w /\
  (spec_is w 0 [0; 2; 2; 1] && opt_eqb (v_link (V w 0)) (Some 2) && vstate_eqb (v_state (V w 0)) Run && next_is w 0 2 &&
   (20 <? rounds 2 (v_log (V w 0))))%bool = true.
Proof. exact enforced_loop_example. Qed.
Print Assumptions C16_loop_refuted.
