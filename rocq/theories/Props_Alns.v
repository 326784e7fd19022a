(** * Props_Alns: SolverDSO_ALNS (C49). *)
From Verif Require Import Base Types Sim Build Reach Steps Spec Registry LinkQueries Route SpecStats Analyzer SpecDue Due SpecDso Dso Demo MotionDemo DueDemo DsoDemo SpecGenetic Genetic Objective SpecAlns Alns AlnsDemo AlnsW.
Local Open Scope nat_scope.

(** C49: the size of the destruction stays within its bounds *)
Theorem C49_size : forall kmin kmax ratio, kmin <= kmax -> kmin <= size_now kmin kmax ratio <= kmax.
Proof. exact size_lemma. Qed.
Print Assumptions C49_size.

(** C49: these lie between 1 and the number of vehicles *)
Theorem C49_bounds : forall kmin kmax n, 1 <= n -> 1 <= fst (bounds kmin kmax n) <= snd (bounds kmin kmax n) /\ snd (bounds kmin kmax n) <= n.
Proof. exact bounds_lemma. Qed.
Print Assumptions C49_bounds.

(** C49: the removed places exist, at least one and at most as many as allowed; a segment is one *)
Theorem C49_destroy : forall p o n k d r, 1 <= p_kmin p <= k -> perm_ok n d -> (forall l v, In l (p_hot p) -> In v l -> v < n) -> destroy p o n k d = Ok r ->
  (forall i, In i r -> i < n) /\ 1 <= List.length r <= k /\ (o <> DCongest -> NoDup r) /\ (o <> DSegment -> p_kmin p <= List.length r) /\
  (o = DSegment -> 2 <= n -> exists i, r = seq i (List.length r)).
Proof. exact destroy_lemma. Qed.
Print Assumptions C49_destroy.

(** C49: the random repair gives the removed places values of their domains, others than before if there are any, and changes nothing else; nothing remains empty *)
Theorem C49_repair_random : forall p base rm vals, (forall i, In i rm -> i < List.length base) -> List.length (p_dom p) = List.length base -> (forall dom, In dom (p_dom p) -> dom <> []) ->
  exists partial y x, erase base rm = Ok partial /\ repair_random p base rm vals 0 partial = Ok y /\ filled y = Ok x /\ redone (p_dom p) rm base x /\
    forall i, In i rm -> NoDup (nth i (p_dom p) []) -> 2 <= List.length (nth i (p_dom p) []) -> nth i x 0 <> nth i base 0.
Proof. exact repair_random_lemma. Qed.
Print Assumptions C49_repair_random.

(** C49: the other repair gives the removed vehicles routes of least cost; all changed places are reported, and without any the solution is the old one *)
Theorem C49_repair_minimum_cost : forall p base rm x ch, (forall dom, In dom (p_dom p) -> dom <> []) -> repair_min p rm None base [] = Ok (x, ch) ->
  redone (p_dom p) rm base x /\ (forall j, In j rm -> cheapest p j (nth j x 0)) /\ (forall j, j < List.length base -> nth j x 0 <> nth j base 0 -> In j ch) /\ (ch = [] -> x = base).
Proof. exact repair_min_lemma. Qed.
Print Assumptions C49_repair_minimum_cost.

(** C49: the operator is picked whose share of the sum of the weights contains the random number *)
Theorem C49_roulette : forall A (u : Q) (ws : list (opw A)), ws <> [] -> (0 <= u < 1)%Q -> exists pre o post, ws = pre ++ o :: post /\ roulette u ws = Some (o_name o) /\
  (pre = [] \/ (wsum pre < u * wsum ws)%Q) /\ (u * wsum ws <= wsum pre + qmax tiny (o_weight o))%Q.
Proof. exact roulette_lemma. Qed.
Print Assumptions C49_roulette.

(** C49: a step keeps the invariants (values, positive weights); it takes a candidate that is no worse than the current solution; the best solution never gets worse, and is no worse than the candidate *)
Theorem C49_step : forall p t f d s s' x x0, problem_ok p (List.length x0) -> draws_ok (List.length x0) d -> (0 <= t_eta t <= 1)%Q -> good p f x0 s -> auto_step p t f d s = Ok (s', x) ->
  good p f x0 s' /\ (exists rm, redone (p_dom p) rm (s_cur s) x /\ 1 <= List.length rm <= size_now (p_kmin p) (p_kmax p) (d_ratio d)) /\
  (s_cur s' = x \/ s_cur s' = s_cur s) /\ ((f x <= f (s_cur s))%Q -> s_cur s' = x) /\
  (s_best s' = s_best s \/ s_best s' = x) /\ (s_fbest s' <= s_fbest s)%Q /\ (s_fbest s' <= f x)%Q /\ s_it s' = S (s_it s).
Proof. exact step_lemma. Qed.
Print Assumptions C49_step.

(** C49: a step does not fail if not all vehicles leave at time step 0, all congested links were entered, and the costs are defined (where needed) *)
Theorem C49_no_failure : forall p t f d s x0, problem_ok p (List.length x0) -> draws_ok (List.length x0) d -> good p f x0 s -> no_fail p s -> exists s' x, auto_step p t f d s = Ok (s', x).
Proof. exact step_total. Qed.
Print Assumptions C49_no_failure.

(** C49: all simulated solutions have values of the domains (or those of the initial solution); the best one of the search is the best of the initial solution and of all candidates; the returned one is the best of all simulated ones *)
Theorem C49_run : forall p t f dw rw x0 ds1 ds2 s xs, problem_ok p (List.length x0) -> (0 <= t_eta t <= 1)%Q -> (forall d, In d ds2 -> draws_ok (List.length x0) d) ->
  dw <> [] -> rw <> [] -> (forall o, In o dw -> (0 < snd o)%Q) -> (forall o, In o rw -> (0 < snd o)%Q) -> run p t f dw rw x0 ds1 ds2 = Ok (s, xs) ->
  List.length xs = 1 + List.length ds1 + List.length ds2 /\
  (forall x, In x xs -> List.length x = List.length x0 /\ forall i, i < List.length x0 -> nth i x 0 = nth i x0 0 \/ In (nth i x 0) (nth i (p_dom p) [])) /\
  (exists tr cs, xs = x0 :: tr ++ cs /\ List.length tr = List.length ds1 /\ least f (x0 :: cs) (s_best s)) /\ s_fbest s = f (s_best s) /\
  (exists b, alns_solution f xs = Some b /\ least f xs b /\ (f b <= f (s_best s))%Q /\ (f b <= f x0)%Q).
Proof. exact run_lemma. Qed.
Print Assumptions C49_run.

(** C49: trials and steps are as many as iterations asked for *)
Theorem C49_budget : forall total trials, fst (budget total trials) + snd (budget total trials) = total.
Proof. exact budget_lemma. Qed.
Print Assumptions C49_budget.

(** C49: the routes of a given World are found in the sets; the last one is taken otherwise *)
Theorem C49_initial : forall rs t, rs <> [] -> (In t rs -> nth_error rs (recover rs t 0 0) = Some t /\ forall j, j < recover rs t 0 0 -> nth_error rs j <> Some t) /\
  (~ In t rs -> recover rs t 0 0 = List.length rs - 1).
Proof. exact recover_lemma. Qed.
Print Assumptions C49_initial.

(** C49: without a given World the numbers are at most the numbers of routes *)
Theorem C49_initial_random : forall lens r, List.length (random_x0 lens r) = List.length lens /\ forall i, i < List.length lens -> nth i (random_x0 lens r) 0 <= nth i lens 0.
Proof. exact random_x0_lemma. Qed.
Print Assumptions C49_initial_random.

(** C49: a number outside of the set stands for the last route *)
Theorem C49_routes : forall routes v, routes <> [] -> exists r, route_of routes v = Ok r /\ In r routes /\ (v < List.length routes -> nth_error routes v = Some r) /\ (List.length routes <= v -> last_opt routes = Some r).
Proof. exact route_of_lemma. Qed.
Print Assumptions C49_routes.

(** C49: a most delayed link that no vehicle entered makes the destruction fail for some draws *)
Theorem C49_congested_links : forall hot n kmin k d, In [] hot -> 1 <= kmin -> kmin <= Nat.min k n ->
  exists lk, destroy_congest n kmin k hot (mkDraws (d_u1 d) (d_u2 d) (d_ratio d) (d_k d) (d_perm d) (d_i d) (d_j d) lk (d_vehs d) (d_vals d) (d_heat d)) = Err ValueError.
Proof. exact congest_fails. Qed.
Print Assumptions C49_congested_links.

(** the operators at work *)
Example C49_operators : roulette (1 # 2) (weights0 [(DRandom, 1%Q); (DSegment, 1%Q); (DEarly, 5%Q)]) = Some DEarly /\ roulette 0 (weights0 [(DRandom, 1%Q); (DSegment, 1%Q)]) = Some DRandom /\
  destroy_segment 5 1 3 (mkDraws 0 0 1 0 [] 4 1 (fun _ => 0) (fun _ => 0) (fun _ => 0) false) = Ok [1; 2; 3] /\
  repair_min (mkProblem [[0; 1; 2]; [0; 1]] 1 1 [] [] (fun j v => Ok (if v =? 1 then 3 else 5)%Q) false) [0; 1] None [0; 1] [] = Ok ([1; 1], [0]).
Proof. exact alns_operators. Qed.

(** C49: the objective, which is minimised, is lower for a World in which no vehicle arrives than for one in which all do (the fitness of the genetic algorithm is not) *)
Theorem C49_objective_refuted : exists w w', alns_world [0; 0] = Some w /\ alns_world [1; 1] = Some w' /\ reachable cfg_det w /\ reachable cfg_det w' /\
  with_dest w = 2 /\ completed w = 2 /\ with_dest w' = 2 /\ completed w' = 0 /\
  (alns_objective 300 (stats_of (od_compute cfg_det w')) < alns_objective 300 (stats_of (od_compute cfg_det w)))%Q /\
  (ga_fitness 300 (stats_of (od_compute cfg_det w')) < ga_fitness 300 (stats_of (od_compute cfg_det w)))%Q.
Proof. exact alns_objective_refuted. Qed.
Print Assumptions C49_objective_refuted.

(** C49: so the solver can return a World in which no vehicle arrives although it started with one in which all do *)
Theorem C49_solution_refuted : exists s xs w w', run alns_problem alns_tuning alns_obj [(DRandom, 1%Q)] [(RRandom, 1%Q)] [0; 0] [] [pick_at 0; pick_at 1] = Ok (s, xs) /\
  problem_ok alns_problem 2 /\ (forall d, In d [pick_at 0; pick_at 1] -> draws_ok 2 d) /\
  xs = [[0; 0]; [1; 0]; [1; 1]] /\ alns_solution alns_obj xs = Some [1; 1] /\ alns_world [0; 0] = Some w /\ alns_world [1; 1] = Some w' /\ reachable cfg_det w /\ reachable cfg_det w' /\
  completed w = 2 /\ completed w' = 0.
Proof. exact alns_run_refuted. Qed.
Print Assumptions C49_solution_refuted.

(** C49: the reported solution need not be the one of the returned World *)
Theorem C49_star_refuted : exists s xs b, run alns_problem alns_tuning odd_obj [(DRandom, 1%Q)] [(RRandom, 1%Q)] [1; 1] [pick_at 0] [pick_at 1] = Ok (s, xs) /\
  alns_solution odd_obj xs = Some b /\ (odd_obj b < odd_obj (s_best s))%Q.
Proof. exact alns_star_refuted. Qed.
Print Assumptions C49_star_refuted.

(** C49: the random initial solution need not be in the domains *)
Theorem C49_initial_refuted : exists r, random_x0 [2; 2] r = [2; 1] /\ ~ in_domains [[0; 1]; [0; 1]] (random_x0 [2; 2] r).
Proof. exact alns_x0_refuted. Qed.
Print Assumptions C49_initial_refuted.

(** C49: a route outside of the set is not replaced by the quickest one of the set *)
Theorem C49_quickest_refuted : exists w ls ts a b x y, reachable cfg_det w /\ traveled_route w 0 true false = Ok (ls, ts) /\ ~ In ls [a; b] /\ recover [a; b] ls 0 0 = 1 /\
  route_time cfg_det w a 0 = Ok x /\ route_time cfg_det w b 0 = Ok y /\ (x < y)%Q.
Proof. exact alns_recover_refuted. Qed.
Print Assumptions C49_quickest_refuted.

(** C49: without these conditions a step can fail *)
Theorem C49_no_failure_refuted : (forall n kmin k d, destroy_departure n kmin k [0; 0] d = Err ValueError) /\
  exists w d, reachable cfg_det w /\ completed w = 2 /\ In [] (hot_of w [0; 1; 2]) /\ destroy_congest 2 1 1 (hot_of w [0; 1; 2]) d = Err ValueError.
Proof. exact alns_failure_refuted. Qed.
Print Assumptions C49_no_failure_refuted.

(** C49: a segment can be shorter than the lower bound *)
Theorem C49_segment_refuted : exists d r, perm_ok 3 d /\ destroy_segment 3 2 2 d = Ok r /\ List.length r = 1.
Proof. exact alns_segment_refuted. Qed.
Print Assumptions C49_segment_refuted.

(** C49: the weights of the operators stay between a millionth and the greatest of the initial weights and rewards *)
Theorem C49_weights : forall p t f dw rw x0 ds1 ds2 s xs B, (0 <= t_eta t <= 1)%Q -> ((1 # 1000000) <= B)%Q -> (0 <= t_rbest t <= B)%Q -> (0 <= t_rimp t <= B)%Q -> (0 <= t_rworse t <= B)%Q ->
  (forall o, In o dw -> ((1 # 1000000) <= snd o <= B)%Q) -> (forall o, In o rw -> ((1 # 1000000) <= snd o <= B)%Q) -> run p t f dw rw x0 ds1 ds2 = Ok (s, xs) ->
  (forall o, In o (s_d s) -> ((1 # 1000000) <= o_weight o <= B)%Q) /\ (forall o, In o (s_r s) -> ((1 # 1000000) <= o_weight o <= B)%Q).
Proof. exact weights_run. Qed.
Print Assumptions C49_weights.

(** C49: at the end of a segment a weight moves a fraction of the way to the average reward per use, and the counts start again *)
Theorem C49_reweight : forall A eta (o : opw A), ((1 # 1000000) * Qof_nat (Nat.max 1 (o_uses o)) <= o_score o)%Q ->
  (o_weight (reweighted eta o) == o_weight o + eta * (o_score o / Qof_nat (Nat.max 1 (o_uses o)) - o_weight o))%Q /\ o_score (reweighted eta o) = 0%Q /\ o_uses (reweighted eta o) = 0 /\
  o_name (reweighted eta o) = o_name o /\ o_best (reweighted eta o) = o_best o.
Proof. exact reweight_lemma. Qed.
Print Assumptions C49_reweight.

(** the default fraction; an operator that was not used *)
Example C49_reweight_example : (Qeq_bool (o_weight (reweighted (2 # 10) (mkOpw tt 1 (55 # 10) 3 1))) (7 # 6) &&
  Qeq_bool (o_weight (reweighted (2 # 10) (mkOpw tt 1 0 0 0))) ((8 # 10) + (2 # 10) * (1 # 1000000)))%bool = true.
Proof. exact reweight_example. Qed.
