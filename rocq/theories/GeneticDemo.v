(** * GeneticDemo: runs of SolverDSO_GA. *)
From Verif Require Import Base Types Sim Build Tac Reach Steps Lists SpecStats Analyzer Paths Demo MotionDemo DueDemo DsoDemo SpecGenetic Genetic Objective.
Local Open Scope string_scope.
Local Open Scope nat_scope.

(** two vehicles, each with a long and a short route *)
Definition ga_routes : list (list lid) := [[0; 2]; [3; 2]].
Definition ga_prefer (g : genome) : list op := map (fun vx => OSetPrefer (fst vx) (nth (snd vx) ga_routes [])) (combine (seq 0 (List.length g)) g).
Definition ga_ops (g : genome) : list op := (dso_net ++ [veh_ 0 2 0; veh_ 0 2 1] ++ ga_prefer g ++ [OExec (UntilT 300)])%list.
Definition ga_fit (g : genome) : Q := match play cfg_det (ga_ops g) (empty_world (Some 300%Q)) with Some w => ga_fitness 300 (stats_of (od_compute cfg_det w)) | None => 0%Q end.
Definition ga_rts : list (list (list nat) * list nat) := [(ga_routes, [3; 2]); (ga_routes, [3; 2])].
Definition ga_rnd (k i : nat) : nat := if (k =? 3) then 0 else k + i.
Definition no_mutation (k : nat) : bool * nat := (false, 0).
Definition ga_pair : pair_draws := mkPair 0 1 [1] no_mutation no_mutation false no_mutation no_mutation.
Definition ga_gen : gen_draws := mkGen [[0; 1; 2]; [0; 1; 2]; [0; 1; 2]; [0; 1; 2]] [ga_pair; ga_pair].
Definition pair_okb (len npts nsel : nat) (d : pair_draws) : bool :=
  (d_p1 d <? nsel) && (d_p2 d <? nsel) && (List.length (d_pts d) =? npts) && (fix up (x : nat) (l : list nat) := match l with [] => true | p :: tl => (x <=? p) && up p tl end) 0 (d_pts d) &&
  forallb (fun x => (1 <=? x) && (x <? len)) (d_pts d).
Definition gen_okb (len npts size popsize : nat) (g : gen_draws) : bool :=
  (List.length (e_samples g) =? popsize) && (List.length (e_pairs g) =? size / 2) && forallb (fun s => (List.length s =? 3) && forallb (fun i => i <? popsize) s) (e_samples g) &&
  forallb (pair_okb len npts popsize) (e_pairs g).
Lemma up_rising : forall l x, (fix up (x : nat) (l : list nat) := match l with [] => true | p :: tl => (x <=? p) && up p tl end) x l = true -> rising x l.
Proof. intro l. induction l as [|p l IH]; intros x H; [exact Logic.I|]. apply andb_true_iff in H. destruct H as [H1 H2]. split; [apply Nat.leb_le; exact H1|apply IH; exact H2]. Qed.
Lemma gen_okb_ok : forall len npts size popsize g, gen_okb len npts size popsize g = true -> gen_ok len npts size popsize g.
Proof.
  intros len npts size popsize g H. unfold gen_okb in H. rewrite !andb_true_iff, !forallb_forall in H. destruct H as [[[H1 H2] H3] H4]. split; [apply Nat.eqb_eq; exact H1|]. split; [apply Nat.eqb_eq; exact H2|]. split.
  - intros s Hs. specialize (H3 s Hs). rewrite andb_true_iff, forallb_forall in H3. destruct H3 as [K1 K2]. split; [apply Nat.eqb_eq; exact K1|]. intros i Hi. apply Nat.ltb_lt, K2, Hi.
  - intros d Hd. specialize (H4 d Hd). unfold pair_okb in H4. rewrite !andb_true_iff, forallb_forall in H4. destruct H4 as [[[[K1 K2] K3] K4] K5].
    split; [apply Nat.ltb_lt; exact K1|]. split; [apply Nat.ltb_lt; exact K2|]. split; [apply Nat.eqb_eq; exact K3|]. split; [apply up_rising; exact K4|].
    intros x Hx. specialize (K5 x Hx). apply andb_true_iff in K5. destruct K5 as [K5 K6]. apply Nat.leb_le in K5. apply Nat.ltb_lt in K6. lia.
Qed.

(** A run of two generations, with the simulated fitness. *)
Definition ga_maxs : list nat := [2; 2].
Lemma ga_example : exists pop pops, first_population 4 ga_rts ga_rnd (fun _ => no_mutation) = Ok pop /\ pop = [[1; 1]; [1; 1]; [0; 1]; [0; 0]] /\ first_genome ga_rts = [1; 1] /\
  gen_ok 2 1 4 4 ga_gen /\ generations ga_fit ga_maxs 4 1 1 pop [ga_gen; ga_gen] = Ok pops /\ nth_error pops 1 = Some [[1; 1]; [1; 1]; [1; 1]; [1; 1]] /\ intermid ga_fit pops = Some [1; 1].
Proof.
  eexists. eexists. split; [vm_compute; reflexivity|]. split; [reflexivity|]. split; [reflexivity|]. split; [apply gen_okb_ok; reflexivity|]. split; [vm_compute; reflexivity|]. split; vm_compute; reflexivity.
Qed.

(** The returned World is the one simulated last, not the best one. *)
Theorem ga_solution_refuted : exists pop pops g x b, first_population 4 ga_rts ga_rnd (fun _ => no_mutation) = Ok pop /\ gen_ok 2 1 4 4 g /\
  generations ga_fit ga_maxs 4 1 1 pop [g] = Ok pops /\ solution pops = Some x /\ intermid ga_fit pops = Some b /\ (ga_fit x < ga_fit b)%Q.
Proof.
  eexists. eexists. exists ga_gen, [0; 0], [1; 1]. split; [vm_compute; reflexivity|]. split; [apply gen_okb_ok; reflexivity|]. split; [vm_compute; reflexivity|]. split; [reflexivity|]. split; vm_compute; reflexivity.
Qed.

(** With less than four genomes the routes of the initial World are mutated away. *)
Theorem ga_first_refuted : exists rnd draws pop, first_population 3 ga_rts rnd draws = Ok pop /\ ~ In (first_genome ga_rts) pop.
Proof.
  exists (fun _ _ => 0), (fun _ _ => (true, 0)), [[0; 0]; [0; 0]; [0; 0]]. split; [vm_compute; reflexivity|]. vm_compute. intros [H|[H|[H|[]]]]; discriminate H.
Qed.

(** Without an elite the best fitness can get worse. *)
Definition ga_away : pair_draws := mkPair 0 1 [1] no_mutation no_mutation true (fun _ => (true, 0)) (fun _ => (true, 0)).
Theorem ga_no_elite_refuted : exists g pop pop' b b', (forall h, In h pop -> valid ga_maxs h) /\ List.length pop = 4 /\ gen_ok 2 1 4 4 g /\
  next_generation ga_fit ga_maxs 4 0 1 pop (e_samples g) (e_pairs g) = Ok pop' /\ best_genome ga_fit pop = Some b /\ best_genome ga_fit pop' = Some b' /\ (ga_fit b' < ga_fit b)%Q.
Proof.
  exists (mkGen [[0; 1; 2]; [0; 1; 2]; [0; 1; 2]; [0; 1; 2]] [ga_away; ga_away]), [[1; 1]; [1; 1]; [0; 1]; [0; 0]], [[0; 0]; [0; 0]; [0; 0]; [0; 0]], [1; 1], [0; 0].
  split. { intros h [<-|[<-|[<-|[<-|[]]]]]; unfold valid, ga_maxs; repeat constructor. }
  split; [reflexivity|]. split; [apply gen_okb_ok; reflexivity|]. split; [vm_compute; reflexivity|]. split; [vm_compute; reflexivity|]. split; vm_compute; reflexivity.
Qed.

(** Without an elite an odd population loses a genome with every generation, until the tournaments fail. *)
Theorem ga_size_refuted : exists g pop pop', (forall h, In h pop -> valid ga_maxs h) /\ List.length pop = 3 /\ gen_ok 2 1 3 3 g /\
  next_generation ga_fit ga_maxs 3 0 1 pop (e_samples g) (e_pairs g) = Ok pop' /\ List.length pop' = 2 /\
  forall samples ds, next_generation ga_fit ga_maxs 3 0 1 pop' samples ds = Err ValueError.
Proof.
  exists (mkGen [[0; 1; 2]; [0; 1; 2]; [0; 1; 2]] [ga_pair]), [[1; 1]; [0; 1]; [0; 0]], [[1; 1]; [1; 1]].
  split. { intros h [<-|[<-|[<-|[]]]]; unfold valid, ga_maxs; repeat constructor. }
  split; [reflexivity|]. split; [apply gen_okb_ok; reflexivity|]. split; [vm_compute; reflexivity|]. split; [reflexivity|]. intros samples ds. reflexivity.
Qed.
(** a crossing with two points, and a tournament *)
Lemma ga_operators : crossover [0; 1; 2; 3; 4] [5; 6; 7; 8; 9] 2 [1; 3] = Ok ([0; 6; 7; 3; 4], [5; 1; 2; 8; 9]) /\ crossover [0; 1] [2; 3] 2 [] = Err ValueError /\
  tournament [([0], 1%Q); ([1], 3%Q); ([2], 3%Q)] 3 [[0; 2; 1]; [1; 0; 2]; [0; 1; 2]] = Ok [[2]; [1]; [1]] /\ mutate [0; 0] [3; 2] (fun i => (i =? 0, 5)) 0 = Ok [2; 0].
Proof. vm_compute. repeat split; reflexivity. Qed.
