(** * DsoDemo: days of SolverDSO_D2D, and externalities. *)
From Verif Require Import Base Types Sim Build Tac Reach Steps Spec Registry LinkQueries Route SpecDue Due SpecDso Dso Paths Demo MotionDemo DueDemo.
Local Open Scope string_scope.
Local Open Scope nat_scope.

(** three ways from the origin to node 1; the shortest one lets out one platoon in 50 s *)
Definition dso_net : list op :=
  [ node_ "o"; node_ "a"; node_ "d"; link_ "left" 0 1 2000; link_ "right" 0 1 200; link_ "out" 1 2 200; link_ "mid" 0 1 1200; OSetCapOut 1 (1 # 10) ].
Definition by_right (v : vid) : op := OEnforceRoute v [1; 2] false.
Definition dso_run (ts : list Z) : list op := (dso_net ++ map (veh_ 0 2) ts ++ map by_right (seq 0 (List.length ts)) ++ [OExec (UntilT 300)])%list.
Definition three (o d : nid) : option (list (list key)) := Some [[KName "left"; KName "out"]; [KName "mid"; KName "out"]; [KName "right"; KName "out"]].
Definition three_back (o d : nid) : option (list (list key)) := Some [[KName "right"; KName "out"]; [KName "mid"; KName "out"]; [KName "left"; KName "out"]].

(** Vehicle 1 changes its route because of the externality of the traveled one, which is shorter by itself. *)
Lemma dso_example : exists w, reachable cfg_det w /\
  (day_b (dso_day cfg_det w three false (fun _ => true)) [(0, [1; 2]); (1, [3; 2]); (2, [3; 2]); (3, [3; 2])] 15 &&
   day_b (due_day cfg_det w three false (fun _ => true)) [(0, [1; 2]); (1, [1; 2]); (2, [3; 2]); (3, [3; 2])] 10 &&
   qeq (ext_link cfg_det (L w 1) 10) 50)%bool = true.
Proof. apply (play_witness cfg_det (dso_run [0; 1; 2; 3]%Z) (Some 300%Q)). vm_compute. reflexivity. Qed.

(** The reported gap depends on the order of the routes in the set: it is not the difference to the cheapest one. *)
Definition gaps_b (a b : result due) (x y : Q) : bool :=
  match a, b with Ok u, Ok u' => qeq (u_gap u) x && qeq (u_gap u') y | _, _ => false end.
Lemma gaps_ok : forall a b x y, gaps_b a b x y = true -> exists u u', a = Ok u /\ b = Ok u' /\ (u_gap u == x)%Q /\ (u_gap u' == y)%Q.
Proof.
  intros [u|] [u'|] x y H; try discriminate. cbn [gaps_b] in H. apply andb_true_iff in H. destruct H as [H1 H2]. apply qeq_iff in H1, H2. exists u, u'. auto.
Qed.
Lemma gap_refuted : exists w u u' x x', reachable cfg_det w /\
  due_day cfg_det w three false (fun _ => false) = Ok u /\ due_day cfg_det w three_back false (fun _ => false) = Ok u' /\ (u_gap u == 65)%Q /\ (u_gap u' == 25)%Q /\
  dso_day cfg_det w three false (fun _ => false) = Ok x /\ dso_day cfg_det w three_back false (fun _ => false) = Ok x' /\ (u_gap x == 80)%Q /\ (u_gap x' == 40)%Q.
Proof.
  destruct (play_witness cfg_det (dso_run [0; 1; 2; 3]%Z) (Some 300%Q) (fun w =>
    gaps_b (due_day cfg_det w three false (fun _ => false)) (due_day cfg_det w three_back false (fun _ => false)) 65 25 &&
    gaps_b (dso_day cfg_det w three false (fun _ => false)) (dso_day cfg_det w three_back false (fun _ => false)) 80 40)%bool) as (w & R & H).
  { vm_compute. reflexivity. }
  apply andb_true_iff in H. destruct H as [H1 H2]. apply gaps_ok in H1, H2. destruct H1 as (u & u' & A1 & A2 & A3 & A4), H2 as (x & x' & B1 & B2 & B3 & B4).
  exists w, u, u', x, x'. repeat (split; [assumption|]). exact B4.
Qed.

(** The estimated externality of vehicle 1 (50 vehicle-seconds) and what the others gain without it: 50 s for each vehicle of two platoons. *)
Definition est_b (w : world) : bool :=
  match traveled_route w 1 true false with
  | Ok (r, t :: _) => qeq t 10 && match ext_route cfg_det w r t with Ok x => qeq x 50 | Err _ => false end
  | _ => false
  end && qeq (v_tt (V w 0)) 20 && qeq (v_tt (V w 2)) 75 && qeq (v_tt (V w 3)) 120.
Definition rest_b (w : world) : bool := qeq (v_tt (V w 0)) 20 && qeq (v_tt (V w 1)) 25 && qeq (v_tt (V w 2)) 70.
Lemma play_found : forall c os tm (t : world -> bool), match play c os (empty_world tm) with Some w => t w | None => false end = true ->
  exists w, play c os (empty_world tm) = Some w /\ reachable c w /\ t w = true.
Proof.
  intros c os tm t H. destruct (play c os (empty_world tm)) as [w|] eqn:E; [|discriminate]. exists w. split; [reflexivity|]. split; [|exact H]. eapply play_reachable; [|exact E]. constructor.
Qed.
Lemma externality_refuted : exists w w' r t ts x,
  play cfg_det (dso_run [0; 1; 2; 3]%Z) (empty_world (Some 300%Q)) = Some w /\ play cfg_det (dso_run [0; 2; 3]%Z) (empty_world (Some 300%Q)) = Some w' /\
  reachable cfg_det w /\ reachable cfg_det w' /\ traveled_route w 1 true false = Ok (r, t :: ts) /\ ext_route cfg_det w r t = Ok x /\ (x == 50)%Q /\
  (v_tt (V w 0) == v_tt (V w' 0))%Q /\ (v_tt (V w 2) == v_tt (V w' 1) + 50)%Q /\ (v_tt (V w 3) == v_tt (V w' 2) + 50)%Q.
Proof.
  destruct (play_found cfg_det (dso_run [0; 1; 2; 3]%Z) (Some 300%Q) est_b) as (w & E & R & H). { vm_compute. reflexivity. }
  destruct (play_found cfg_det (dso_run [0; 2; 3]%Z) (Some 300%Q) rest_b) as (w' & E' & R' & H'). { vm_compute. reflexivity. }
  unfold est_b in H. destruct (traveled_route w 1 true false) as [[r [|t ts]]|] eqn:T; [cbn in H; discriminate H| |cbn in H; discriminate H].
  destruct (ext_route cfg_det w r t) as [x|] eqn:X; [|rewrite andb_false_r in H; cbn in H; discriminate H]. unfold rest_b in H'.
  repeat match goal with K : _ && _ = true |- _ => apply andb_true_iff in K; destruct K end.
  repeat match goal with K : qeq _ _ = true |- _ => apply qeq_iff in K end.
  exists w, w', r, t, ts, x. split; [exact E|]. split; [exact E'|]. split; [exact R|]. split; [exact R'|]. split; [exact T|]. split; [exact X|]. clear E E'. split; [assumption|]. split; [|split]; lra.
Qed.
