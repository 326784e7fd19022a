(** * Props_Duo: DUO preferences and the route search (C24, C25). *)
From Verif Require Import Base Types Sim Build Reach Steps Frame FrameBase Spec Paths Demo MotionDemo SpecDuo Search DuoInv DuoSum PathsOK Prefs DuoDemo.
Local Open Scope nat_scope.

(** C24: every preference shared by the travelers to a destination lies between 0 and 1 *)
Theorem C24_bounds : forall c w k l, good_weights c -> reachable c w -> (0 <= w_rcpref w k l)%Q /\ (w_rcpref w k l <= 1)%Q.
Proof. exact duo_bounds_lemma. Qed.
Print Assumptions C24_bounds.

(** C24: so does every preference of a vehicle that has its own *)
Theorem C24_own_bounds : forall c w v d, good_weights c -> reachP c sound_prefs w -> v < w_nv w ->
  v_pref (V w v) = PrefOwn d -> unit_prefs d.
Proof. exact own_bounds_lemma. Qed.
Print Assumptions C24_own_bounds.

(** C24: without parallel links the preferences of the links leaving a node sum to at most 1 *)
Theorem C24_sum : forall c w k n, good_weights c -> reachable c w -> exists_node w n -> no_parallel w n ->
  (0 <= out_pref w k n)%Q /\ (out_pref w k n <= 1)%Q.
Proof. exact duo_sum_lemma. Qed.
Print Assumptions C24_sum.

(** C24: and to exactly 1 after an update, if each search found the destination reachable *)
Theorem C24_exact : forall c w n k, correct_routine c -> good_noise c -> reachP c sound_costs w -> searched w ->
  exists_node w n -> exists_node w k -> n <> k -> always_reached w n k -> no_parallel w n -> (out_pref w k n == 1)%Q.
Proof. exact duo_exact_lemma. Qed.
Print Assumptions C24_exact.

(** preferences split in halves after a link was closed *)
Example C24_exact_example : exists w, reachP (cfg_duo false true 10 HomogeneousDUO) sound_costs w /\
  (Nat.eqb (List.length (w_rcrec w)) 2 && Nat.ltb 3 (w_nn w) && reached_b w 0 3 && no_parallel_b w 0 &&
   Qeq_bool (out_pref w 3 0) 1 && Qeq_bool (w_rcpref w 3 0) (1#2) && Qeq_bool (w_rcpref w 3 2) (1#2))%bool = true.
Proof. exact exact_example. Qed.

(** a vehicle with own preferences *)
Example C24_own_example : exists w, reachP (cfg_duo false true 10 HeterogeneousDUO) sound_prefs w /\
  match v_pref (V w 0) with PrefOwn d => Nat.eqb (List.length d) 4 && Qeq_bool (qsum (map snd d)) 3 | _ => false end = true.
Proof. exact own_example. Qed.

(** C24: without [good_weights] (gradual updates, duo_update_time below the timestep) a preference becomes negative *)
Theorem C24_gradual_refuted : exists w, reachable (cfg_duo true true 1 HomogeneousDUO) w /\
  existsb (fun l => qlt (w_rcpref w 3 l) 0) (seq 0 (w_nl w)) = true.
Proof. exact gradual_refuted. Qed.
Print Assumptions C24_gradual_refuted.

(** C24: with parallel links the sum is 2 *)
Theorem C24_parallel_refuted : exists w, reachable cfg_det w /\ Qeq_bool (out_pref w 1 0) 2 = true.
Proof. exact parallel_refuted. Qed.
Print Assumptions C24_parallel_refuted.

(** C24: a node from which the destination became reachable only at a later search has sum 1/2 *)
Theorem C24_reached_later_refuted : exists w, reachP (cfg_duo false true 10 HomogeneousDUO) sound_costs w /\
  (Nat.eqb (List.length (w_rcrec w)) 2 && no_parallel_b w 0 && match w_rcdist w 0 3 with Some _ => true | None => false end && Qeq_bool (out_pref w 3 0) (1#2))%bool = true.
Proof. exact later_refuted. Qed.
Print Assumptions C24_reached_later_refuted.

(** C25: the matrix given to the shortest path routine, which fixes distances and successors *)
Theorem C25_cost_matrix : forall c w w', route_search_all c w = Ok w' ->
  exists m, cost_matrix c w m /\ (w_rcdist w', w_rcnext w') = c_dijkstra c (w_nn w) m /\
    w_rcrec w' = w_rcrec w ++ [(w_T w, w_rcdist w')] /\ w_rcpref w' = w_rcpref w.
Proof. exact search_lemma. Qed.
Print Assumptions C25_cost_matrix.

(** C25: after the first update the preferred links are exactly first links of least-cost paths, and one exists wherever the destination is reachable *)
Theorem C25_first_update : forall c w w', correct_routine c -> good_noise c -> reachP c sound_costs w -> w_final w = true -> ~ searched w ->
  tick c w = Ok w' ->
  exists wa m, fr w wa /\ (forall l, l_tti (L wa l) = l_tti (L w' l)) /\ cost_matrix c wa m /\
  forall k l, exists_node w k -> exists_link w l ->
    let i := l_start (L w l) in let j := l_end (L w l) in
    ((w_rcpref w' k l == 1)%Q \/ (w_rcpref w' k l == 0)%Q) /\
    ((w_rcpref w' k l == 1)%Q -> exists q x y, m i j = Some q /\ least (w_nn w) m i k x /\ least (w_nn w) m j k y /\ (x == q + y)%Q) /\
    (forall y, i <> k -> path (w_nn w) m i k y -> exists l', exists_link w l' /\ l_start (L w l') = i /\ (w_rcpref w' k l' == 1)%Q).
Proof. exact first_update_lemma. Qed.
Print Assumptions C25_first_update.

(** the first update on a network with two routes *)
Example C25_first_example : exists w, reachP cfg_det sound_costs w /\
  (w_final w && Nat.eqb (List.length (w_rcrec w)) 0 && match tick cfg_det w with
   | Ok w' => Nat.eqb (List.length (w_rcrec w')) 1 && Qeq_bool (w_rcpref w' 3 0) 1 && Qeq_bool (w_rcpref w' 3 2) 0
   | Err _ => false end)%bool = true.
Proof. exact first_example. Qed.

(** the hypotheses on the routine and the noise are met *)
Example C25_routine_example : forall g d t p, correct_routine (cfg_duo g d t p) /\ good_noise (cfg_duo g d t p).
Proof. exact routine_example. Qed.

(** C25: the reference routine used in the scenarios is a correct shortest path routine *)
Theorem C25_routine : forall n m d nx, shortest_paths n m = (d, nx) -> no_negative n m -> paths_ok n m d nx.
Proof. exact shortest_paths_ok. Qed.
Print Assumptions C25_routine.

(** C25, consequence: closing one of two parallel links cuts the connection *)
Theorem C25_closed_parallel_refuted : exists w, reachable cfg_det w /\
  (Nat.eqb (List.length (n_out (N w 0))) 2 && negb (closed (L w 0)) && match w_rcdist w 0 1 with None => true | _ => false end)%bool = true.
Proof. exact closed_parallel_refuted. Qed.
Print Assumptions C25_closed_parallel_refuted.
