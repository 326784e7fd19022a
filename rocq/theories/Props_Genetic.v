(** * Props_Genetic: SolverDSO_GA (C48). *)
From Verif Require Import Base Types Sim Build Reach Steps Spec SpecStats Analyzer Demo MotionDemo DueDemo DsoDemo SpecGenetic Genetic Objective GeneticDemo.
Local Open Scope nat_scope.

(** C48: there is one winner for every tournament; it is of the sample, and of largest fitness in it *)
Theorem C48_tournament : forall pop k samples sel, tournament pop k samples = Ok sel ->
  List.length sel = List.length samples /\
  forall j s, nth_error samples j = Some s -> exists g q, nth_error sel j = Some g /\ (exists i, In i s /\ nth_error pop i = Some (g, q)) /\
    forall i h r, In i s -> nth_error pop i = Some (h, r) -> (r <= q)%Q.
Proof. exact tournament_lemma. Qed.
Print Assumptions C48_tournament.

(** C48: at every place the two children have the two genes of the parents; the crossing fails exactly if there are too many points *)
Theorem C48_crossover : forall p q n pts, List.length p = List.length q ->
  (crossover p q n pts = Err ValueError <-> List.length p <= n) /\
  forall a b, rising 0 pts -> (forall x, In x pts -> x < List.length p) -> crossover p q n pts = Ok (a, b) -> crossed p q a b.
Proof. exact crossover_lemma. Qed.
Print Assumptions C48_crossover.

(** C48: a mutation keeps a gene or replaces it by a possible one *)
Theorem C48_mutation : forall g maxs draws g', mutate g maxs draws 0 = Ok g' -> mutated maxs g g'.
Proof. exact mutate_lemma. Qed.
Print Assumptions C48_mutation.

(** C48: the first population has the right size and valid genomes, the first of them (from size 4 on) the routes of the initial World; it fails if a vehicle has no route *)
Theorem C48_first_population : forall size rts rnd draws, 1 <= size ->
  ((exists rt, In rt rts /\ fst rt = []) -> first_population size rts rnd draws = Err ValueError) /\
  ((forall rt, In rt rts -> fst rt <> []) -> exists pop, first_population size rts rnd draws = Ok pop /\ List.length pop = size /\
    (forall g, In g pop -> valid (map (fun rt => List.length (fst rt)) rts) g) /\ (4 <= size -> nth_error pop 0 = Some (first_genome rts))).
Proof. exact first_population_lemma. Qed.
Print Assumptions C48_first_population.

(** C48: a generation does not fail, and keeps the genomes valid, the size, and (with an elite) one of the best genomes *)
Theorem C48_generation : forall f maxs size elite npts pop g, (forall h, In h pop -> valid maxs h) -> List.length pop = size -> 3 <= size -> npts < List.length maxs ->
  gen_ok (List.length maxs) npts size size g -> 1 <= elite <= size \/ Nat.Even size ->
  exists pop', next_generation f maxs size elite npts pop (e_samples g) (e_pairs g) = Ok pop' /\ (forall h, In h pop' -> valid maxs h) /\
    (elite <= size -> List.length pop' = size) /\ (1 <= elite -> exists b, fittest f pop b /\ In b pop').
Proof. exact generation_lemma. Qed.
Print Assumptions C48_generation.

(** C48: all populations have the right size and valid genomes; with an elite the best fitness never gets worse, and the intermediate solution at the end is the best genome of all generations *)
Theorem C48_generations : forall f maxs size elite npts gs pop, (forall h, In h pop -> valid maxs h) -> List.length pop = size -> 3 <= size -> npts < List.length maxs ->
  (forall g, In g gs -> gen_ok (List.length maxs) npts size size g) -> 1 <= elite <= size ->
  exists pops, generations f maxs size elite npts pop gs = Ok pops /\ List.length pops = List.length gs /\
    (forall p, In p pops -> List.length p = size /\ forall h, In h p -> valid maxs h) /\
    (forall i j p p' g h, i <= j -> nth_error pops i = Some p -> nth_error pops j = Some p' -> best_genome f p = Some g -> best_genome f p' = Some h -> (f g <= f h)%Q) /\
    (forall b, intermid f pops = Some b -> forall p h, In p pops -> In h p -> (f h <= f b)%Q).
Proof. exact generations_lemma. Qed.
Print Assumptions C48_generations.

(** C48: it is no worse than the initial World *)
Theorem C48_never_worse : forall f rts rnd draws size elite npts gs pop pops b, 4 <= size -> 1 <= elite <= size ->
  npts < List.length rts -> gs <> [] -> (forall g, In g gs -> gen_ok (List.length rts) npts size size g) ->
  first_population size rts rnd draws = Ok pop -> generations f (map (fun rt => List.length (fst rt)) rts) size elite npts pop gs = Ok pops ->
  intermid f pops = Some b -> (f (first_genome rts) <= f b)%Q.
Proof. exact never_worse_lemma. Qed.
Print Assumptions C48_never_worse.

(** C48: the fitness counts a vehicle that has not arrived like one that travels TMAX (and 1 too much if no vehicle arrived) *)
Theorem C48_fitness : forall c w tmax, (0 <= dt c)%Q -> (0 < c_deltan c)%Z -> reach c w ->
  let s := stats_of (od_compute c w) in
  (completed w <> 0 -> (ga_fitness tmax s == - (inject_Z (c_deltan c) * travel_sum w tmax))%Q) /\
  (completed w = 0 -> (ga_fitness tmax s == 1 - inject_Z (c_deltan c) * travel_sum w tmax)%Q).
Proof. exact fitness_lemma. Qed.
Print Assumptions C48_fitness.

(** C48: a World where every vehicle does at least as well has at least the fitness *)
Theorem C48_fitness_order : forall c w w' tmax, (0 <= dt c)%Q -> (0 < c_deltan c)%Z -> reach c w -> reach c w' -> completed w <> 0 -> completed w' <> 0 ->
  w_nv w = w_nv w' -> (forall v, exists_veh w v -> has_dest w v = has_dest w' v) ->
  (forall v, exists_veh w v -> (if has_ended w v then v_tt (V w v) else tmax) <= (if has_ended w' v then v_tt (V w' v) else tmax))%Q ->
  (ga_fitness tmax (stats_of (od_compute c w')) <= ga_fitness tmax (stats_of (od_compute c w)))%Q.
Proof. exact fitness_order. Qed.
Print Assumptions C48_fitness_order.

(** a crossing, a tournament, a mutation *)
Example C48_operators : crossover [0; 1; 2; 3; 4] [5; 6; 7; 8; 9] 2 [1; 3] = Ok ([0; 6; 7; 3; 4], [5; 1; 2; 8; 9]) /\ crossover [0; 1] [2; 3] 2 [] = Err ValueError /\
  tournament [([0], 1%Q); ([1], 3%Q); ([2], 3%Q)] 3 [[0; 2; 1]; [1; 0; 2]; [0; 1; 2]] = Ok [[2]; [1]; [1]] /\ mutate [0; 0] [3; 2] (fun i => (i =? 0, 5)) 0 = Ok [2; 0].
Proof. exact ga_operators. Qed.

(** two generations, with the simulated fitness *)
Example C48_example : exists pop pops, first_population 4 ga_rts ga_rnd (fun _ => no_mutation) = Ok pop /\ pop = [[1; 1]; [1; 1]; [0; 1]; [0; 0]] /\ first_genome ga_rts = [1; 1] /\
  gen_ok 2 1 4 4 ga_gen /\ generations ga_fit ga_maxs 4 1 1 pop [ga_gen; ga_gen] = Ok pops /\ nth_error pops 1 = Some [[1; 1]; [1; 1]; [1; 1]; [1; 1]] /\ intermid ga_fit pops = Some [1; 1].
Proof. exact ga_example. Qed.

(** C48: the returned World is not the best one, but the one simulated last *)
Theorem C48_solution_refuted : exists pop pops g x b, first_population 4 ga_rts ga_rnd (fun _ => no_mutation) = Ok pop /\ gen_ok 2 1 4 4 g /\
  generations ga_fit ga_maxs 4 1 1 pop [g] = Ok pops /\ solution pops = Some x /\ intermid ga_fit pops = Some b /\ (ga_fit x < ga_fit b)%Q.
Proof. exact ga_solution_refuted. Qed.
Print Assumptions C48_solution_refuted.

(** C48: with three genomes the routes of the initial World need not be among them *)
Theorem C48_initial_refuted : exists rnd draws pop, first_population 3 ga_rts rnd draws = Ok pop /\ ~ In (first_genome ga_rts) pop.
Proof. exact ga_first_refuted. Qed.
Print Assumptions C48_initial_refuted.

(** C48: without an elite the best fitness can get worse *)
Theorem C48_no_elite_refuted : exists g pop pop' b b', (forall h, In h pop -> valid ga_maxs h) /\ List.length pop = 4 /\ gen_ok 2 1 4 4 g /\
  next_generation ga_fit ga_maxs 4 0 1 pop (e_samples g) (e_pairs g) = Ok pop' /\ best_genome ga_fit pop = Some b /\ best_genome ga_fit pop' = Some b' /\ (ga_fit b' < ga_fit b)%Q.
Proof. exact ga_no_elite_refuted. Qed.
Print Assumptions C48_no_elite_refuted.

(** C48: without an elite a population of three loses a genome, and the next generation fails *)
Theorem C48_size_refuted : exists g pop pop', (forall h, In h pop -> valid ga_maxs h) /\ List.length pop = 3 /\ gen_ok 2 1 3 3 g /\
  next_generation ga_fit ga_maxs 3 0 1 pop (e_samples g) (e_pairs g) = Ok pop' /\ List.length pop' = 2 /\
  forall samples ds, next_generation ga_fit ga_maxs 3 0 1 pop' samples ds = Err ValueError.
Proof. exact ga_size_refuted. Qed.
Print Assumptions C48_size_refuted.
