(** * AlnsDemo: runs of SolverDSO_ALNS. *)
From Verif Require Import Base Types Sim Build Tac Reach Steps Lists Spec Registry LinkQueries Route SpecStats Analyzer SpecDue Due SpecDso Dso Paths Demo MotionDemo DueDemo DsoDemo SpecGenetic Genetic Objective SpecAlns Alns.
Local Open Scope string_scope.
Local Open Scope nat_scope.

(** two vehicles, each with a short route and one that takes longer than the simulation *)
Definition alns_net : list op := [ node_ "o"; node_ "a"; node_ "d"; link_ "short" 0 1 400; link_ "long" 0 1 20000; link_ "out" 1 2 200 ].
Definition alns_routes : list (list lid) := [[0; 2]; [1; 2]].
Definition alns_ops (x : vec) : list op :=
  (alns_net ++ [veh_ 0 2 0; veh_ 0 2 1] ++ map (fun vx => OSetPrefer (fst vx) (nth (snd vx) alns_routes [])) (combine (seq 0 (List.length x)) x) ++ [OExec (UntilT 300)])%list.
Definition alns_world (x : vec) : option world := play cfg_det (alns_ops x) (empty_world (Some 300%Q)).
Definition alns_obj (x : vec) : Q := match alns_world x with Some w => alns_objective 300 (stats_of (od_compute cfg_det w)) | None => 0%Q end.

(** The search prefers the World in which no vehicle arrives: the unfinished trips are subtracted from the objective that is minimised. *)
Theorem alns_objective_refuted : exists w w', alns_world [0; 0] = Some w /\ alns_world [1; 1] = Some w' /\ reachable cfg_det w /\ reachable cfg_det w' /\
  with_dest w = 2 /\ completed w = 2 /\ with_dest w' = 2 /\ completed w' = 0 /\
  (alns_objective 300 (stats_of (od_compute cfg_det w')) < alns_objective 300 (stats_of (od_compute cfg_det w)))%Q /\
  (ga_fitness 300 (stats_of (od_compute cfg_det w')) < ga_fitness 300 (stats_of (od_compute cfg_det w)))%Q.
Proof.
  destruct (play_found cfg_det (alns_ops [0; 0]) (Some 300%Q) (fun w => (with_dest w =? 2) && (completed w =? 2) && qeq (alns_objective 300 (stats_of (od_compute cfg_det w))) 325 && qeq (ga_fitness 300 (stats_of (od_compute cfg_det w))) (-325))) as (w & E & R & H). { vm_compute. reflexivity. }
  destruct (play_found cfg_det (alns_ops [1; 1]) (Some 300%Q) (fun w => (with_dest w =? 2) && (completed w =? 0) && qeq (alns_objective 300 (stats_of (od_compute cfg_det w))) (-3001) && qeq (ga_fitness 300 (stats_of (od_compute cfg_det w))) (-2999))) as (w' & E' & R' & H'). { vm_compute. reflexivity. }
  repeat match goal with K : _ && _ = true |- _ => apply andb_true_iff in K; destruct K end.
  repeat match goal with K : qeq _ _ = true |- _ => apply qeq_iff in K end. repeat match goal with K : (_ =? _) = true |- _ => apply Nat.eqb_eq in K end.
  exists w, w'. split; [exact E|]. split; [exact E'|]. clear E E'. split; [exact R|]. split; [exact R'|]. repeat (split; [assumption|]). 
  split; match goal with K : (?a == _)%Q, K' : (?b == _)%Q |- (?a < ?b)%Q => rewrite K, K'; reflexivity end.
Qed.

Definition alns_tuning : tuning := mkTuning 50 (2 # 10) 5 2 (1 # 2).
Definition alns_problem : problem := mkProblem [[0; 1]; [0; 1]] 1 1 [0; 1] [] (fun _ _ => Err Exception_) false.
Definition pick_at (i : nat) : draws := mkDraws (1 # 2) (1 # 2) 1 0 [i; 1 - i] 0 0 (fun _ => 0) (fun _ => 0) (fun _ => 0) false.
Lemma alns_problem_ok : problem_ok alns_problem 2.
Proof. constructor; cbn; try lia; intros x Hx; try tauto. - destruct Hx as [<-|[<-|[]]]; discriminate. Qed.
Lemma pick_ok : forall i, i < 2 -> draws_ok 2 (pick_at i).
Proof.
  intros i Hi. assert (K : i = 0 \/ i = 1) by lia. unfold draws_ok, perm_ok. cbn [pick_at d_perm d_u1 d_u2]. split; [|split; split; reflexivity || (cbn; lra)].
  split; [destruct K as [-> | ->]; (constructor; [cbn; lia|constructor; [intros []|constructor]])|]. split; [reflexivity|]. intros j [<-|[<-|[]]]; lia.
Qed.

(** So the solver, started with a solution in which all vehicles arrive, returns one in which none does. *)
Theorem alns_run_refuted : exists s xs w w', run alns_problem alns_tuning alns_obj [(DRandom, 1%Q)] [(RRandom, 1%Q)] [0; 0] [] [pick_at 0; pick_at 1] = Ok (s, xs) /\
  problem_ok alns_problem 2 /\ (forall d, In d [pick_at 0; pick_at 1] -> draws_ok 2 d) /\
  xs = [[0; 0]; [1; 0]; [1; 1]] /\ alns_solution alns_obj xs = Some [1; 1] /\ alns_world [0; 0] = Some w /\ alns_world [1; 1] = Some w' /\ reachable cfg_det w /\ reachable cfg_det w' /\
  completed w = 2 /\ completed w' = 0.
Proof.
  destruct alns_objective_refuted as (w & w' & E & E' & R & R' & _ & C & _ & C' & _).
  assert (Z : exists s, run alns_problem alns_tuning alns_obj [(DRandom, 1%Q)] [(RRandom, 1%Q)] [0; 0] [] [pick_at 0; pick_at 1] = Ok (s, [[0; 0]; [1; 0]; [1; 1]]) /\ alns_solution alns_obj [[0; 0]; [1; 0]; [1; 1]] = Some [1; 1]).
  { clear. eexists. split; vm_compute; reflexivity. }
  destruct Z as (s & Z1 & Z2). exists s, [[0; 0]; [1; 0]; [1; 1]], w, w'. split; [exact Z1|]. split; [exact alns_problem_ok|]. split; [intros d [<-|[<-|[]]]; apply pick_ok; lia|]. split; [reflexivity|]. split; [exact Z2|].
  split; [exact E|]. split; [exact E'|]. split; [exact R|]. split; [exact R'|]. split; [exact C|exact C'].
Qed.

(** The solution of the search ([xx_star]) need not be the one of the returned World: a trial for the temperature can be better. *)
Definition odd_obj (x : vec) : Q := if eq_genome x [0; 1] then 0%Q else 1%Q.
Theorem alns_star_refuted : exists s xs b, run alns_problem alns_tuning odd_obj [(DRandom, 1%Q)] [(RRandom, 1%Q)] [1; 1] [pick_at 0] [pick_at 1] = Ok (s, xs) /\
  alns_solution odd_obj xs = Some b /\ (odd_obj b < odd_obj (s_best s))%Q.
Proof. eexists. eexists. eexists. split; [vm_compute; reflexivity|]. split; vm_compute; reflexivity. Qed.

(** The random initial solution need not be in the domains. *)
Theorem alns_x0_refuted : exists r, random_x0 [2; 2] r = [2; 1] /\ ~ in_domains [[0; 1]; [0; 1]] (random_x0 [2; 2] r).
Proof.
  exists (fun i => 2 - i). assert (E : random_x0 [2; 2] (fun i => 2 - i) = [2; 1]) by reflexivity. split; [exact E|]. rewrite E. intros [_ H]. specialize (H 0 ltac:(cbn; lia)). cbn in H. lia.
Qed.

(** A route that is not in the set is replaced by the last one of the set, not by the quickest one. *)
Theorem alns_recover_refuted : exists w ls ts a b x y, reachable cfg_det w /\ traveled_route w 0 true false = Ok (ls, ts) /\ ~ In ls [a; b] /\ recover [a; b] ls 0 0 = 1 /\
  route_time cfg_det w a 0 = Ok x /\ route_time cfg_det w b 0 = Ok y /\ (x < y)%Q.
Proof.
  destruct (play_witness cfg_det (dso_run [0]%Z) (Some 300%Q) (fun w => match traveled_route w 0 true false with Ok (ls, _) => eq_genome ls [1; 2] | Err _ => false end &&
    match route_time cfg_det w [3; 2] 0, route_time cfg_det w [0; 2] 0 with Ok x, Ok y => qlt x y | _, _ => false end)) as (w & R & H). { vm_compute. reflexivity. }
  apply andb_true_iff in H. destruct H as [H1 H2]. destruct (traveled_route w 0 true false) as [[ls ts]|] eqn:T; [|discriminate H1]. unfold eq_genome in H1. destruct (list_eq_dec Nat.eq_dec ls [1; 2]) as [->|]; [|discriminate H1].
  destruct (route_time cfg_det w [3; 2] 0) as [x|] eqn:X; [|discriminate H2]. destruct (route_time cfg_det w [0; 2] 0) as [y|] eqn:Y; [|discriminate H2].
  exists w, [1; 2], ts, [3; 2], [0; 2], x, y. split; [exact R|]. split; [exact T|]. split; [intros [K|[K|[]]]; discriminate K|]. split; [reflexivity|]. split; [exact X|]. split; [exact Y|]. apply qlt_iff. exact H2.
Qed.

(** If all vehicles leave at time step 0, or no vehicle entered one of the most delayed links, the destruction can fail. *)
Theorem alns_failure_refuted : (forall n kmin k d, destroy_departure n kmin k [0; 0] d = Err ValueError) /\
  exists w d, reachable cfg_det w /\ completed w = 2 /\ In [] (hot_of w [0; 1; 2]) /\ destroy_congest 2 1 1 (hot_of w [0; 1; 2]) d = Err ValueError.
Proof.
  split; [intros; apply departure_lemma; intros t [<-|[<-|[]]]; reflexivity|].
  destruct (play_witness cfg_det (alns_ops [0; 0]) (Some 300%Q) (fun w => (completed w =? 2) && match l_enter (L w 1) with [] => true | _ => false end)) as (w & R & H). { vm_compute. reflexivity. }
  apply andb_true_iff in H. destruct H as [H1 H2]. apply Nat.eqb_eq in H1. destruct (l_enter (L w 1)) eqn:E; [|discriminate H2].
  assert (I0 : In [] (hot_of w [0; 1; 2])) by (unfold hot_of; cbn [map]; right; left; rewrite E; reflexivity).
  destruct (congest_fails (hot_of w [0; 1; 2]) 2 1 1 (pick_at 0) I0 ltac:(lia) ltac:(cbn; lia)) as (lk & F). eexists. eexists. split; [exact R|]. split; [exact H1|]. split; [exact I0|exact F].
Qed.
(** the segment at the end can be shorter than [k_min] *)
Theorem alns_segment_refuted : exists d r, perm_ok 3 d /\ destroy_segment 3 2 2 d = Ok r /\ List.length r = 1.
Proof.
  exists (mkDraws 0 0 1 0 [0; 1; 2] 2 2 (fun _ => 0) (fun _ => 0) (fun _ => 0) false), [2]. split; [|split; reflexivity]. unfold perm_ok. cbn [d_perm]. split; [constructor; [cbn; lia|constructor; [cbn; lia|constructor; [intros []|constructor]]]|]. split; [reflexivity|]. intros i [<-|[<-|[<-|[]]]]; lia.
Qed.
(** roulette, destruction and repair at work *)
Lemma alns_operators : roulette (1 # 2) (weights0 [(DRandom, 1%Q); (DSegment, 1%Q); (DEarly, 5%Q)]) = Some DEarly /\ roulette 0 (weights0 [(DRandom, 1%Q); (DSegment, 1%Q)]) = Some DRandom /\
  destroy_segment 5 1 3 (mkDraws 0 0 1 0 [] 4 1 (fun _ => 0) (fun _ => 0) (fun _ => 0) false) = Ok [1; 2; 3] /\
  repair_min (mkProblem [[0; 1; 2]; [0; 1]] 1 1 [] [] (fun j v => Ok (if v =? 1 then 3 else 5)%Q) false) [0; 1] None [0; 1] [] = Ok ([1; 1], [0]).
Proof. vm_compute. repeat split; reflexivity. Qed.
