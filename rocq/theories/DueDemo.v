(** * DueDemo: days of SolverDUE. *)
From Verif Require Import Base Types Sim Build Tac Reach Steps Spec Registry LinkQueries Route SpecDue Due Paths Demo MotionDemo.
Local Open Scope string_scope.
Local Open Scope nat_scope.

Definition due_net : list op :=
  [ node_ "o"; node_ "a"; node_ "d"; link_ "in" 0 1 200; link_ "left" 1 2 1000; link_ "right" 1 2 200; veh_ 0 2 0; veh_ 0 2 2 ].
Definition both (o d : nid) : option (list (list key)) := Some [[KName "in"; KName "left"]; [KName "in"; KName "right"]].
Definition only_left (o d : nid) : option (list (list key)) := Some [[KName "in"; KName "left"]].
Definition lanes_net : list op :=
  [ node_ "o"; node_ "a"; node_ "d"; link_lanes "in" 0 1 520 2; link_ "out" 1 2 500; veh_ 0 2 0; veh_ 0 2 0;
    OSetToll 1 (Some (fun t => if qle t 35 then 100%Q else 0%Q)) ].

Definition spec_eqb (a b : list (vid * list lid)) : bool :=
  if list_eq_dec (fun x y : vid * list lid => ltac:(decide equality; [apply (list_eq_dec Nat.eq_dec)|apply Nat.eq_dec])) a b then true else false.
Definition day_b (r : result due) (spec : list (vid * list lid)) (n : Z) : bool :=
  match r with Ok u => spec_eqb (u_spec u) spec && Z.eqb (u_nswap u) n | Err _ => false end.
Lemma day_b_ok : forall r spec n, day_b r spec n = true -> exists u, r = Ok u /\ u_spec u = spec /\ u_nswap u = n.
Proof.
  intros [u|] spec n H; [|discriminate]. cbn [day_b] in H. apply andb_true_iff in H. destruct H as [H1 H2]. apply Z.eqb_eq in H2. unfold spec_eqb in H1.
  destruct (list_eq_dec _ _ _) as [E|]; [|discriminate]. eauto.
Qed.
(** vehicle 0 drove the longer route: it swaps if its draw allows it *)
Lemma due_example : exists w, reachable cfg_det w /\
  (day_b (due_day cfg_det w both false (fun _ => true)) [(0, [0; 2]); (1, [0; 2])] 5 && day_b (due_day cfg_det w both false (fun _ => false)) [(0, [0; 1]); (1, [0; 2])] 0)%bool = true.
Proof.
  apply (play_witness cfg_det (due_net ++ [OEnforceRoute 0 [0; 1] false; OEnforceRoute 1 [0;2] false; OExec (UntilT 150)])%list (Some 200%Q)). vm_compute. reflexivity.
Qed.

(** Both vehicles enter link 0 together, on two lanes, and leave it after each other; the toll of link 1 falls in between. The route of vehicle 0 costs
    less from its starting time on (with the travel time of the other vehicle) than at the times it drove. It "swaps" to the route it traveled, and is counted. *)
Lemma self_swap_refuted : exists w u, reachable cfg_det w /\ due_day cfg_det w (fun _ _ => Some [[KName "in"; KName "out"]]) false (fun _ => true) = Ok u /\
  u_nswap u = 5%Z /\ forall v r, In (v, r) (u_spec u) -> r = traveled w v.
Proof.
  destruct (play_witness cfg_det (lanes_net ++ [OExec (UntilT 150)])%list (Some 200%Q)
    (fun w => day_b (due_day cfg_det w (fun _ _ => Some [[KName "in"; KName "out"]]) false (fun _ => true)) [(0, traveled w 0); (1, traveled w 1)] 5)) as (w & R & H).
  { vm_compute. reflexivity. }
  apply day_b_ok in H. destruct H as (u & H1 & H2 & H3). exists w, u. split; [exact R|]. split; [exact H1|]. split; [exact H3|].
  intros v r Hi. rewrite H2 in Hi. destruct Hi as [Hi|[Hi|[]]]; injection Hi as <- <-; reflexivity.
Qed.

(** Given route sets, vehicle 1 loses its route for one that takes 40 s longer, and is not counted. *)
Definition costs_b (w : world) : bool :=
  match day_cost cfg_det w [0; 1] 15, day_cost cfg_det w [0; 2] 15 with Ok x, Ok y => Qeq_bool (x - y) 40 | _, _ => false end.
Lemma forced_refuted : exists w u r x y, reachable cfg_det w /\ due_day cfg_det w only_left true (fun _ => true) = Ok u /\
  u_nswap u = 0%Z /\ In (1, r) (u_spec u) /\ r <> traveled w 1 /\ day_cost cfg_det w (traveled w 1) 15 = Ok x /\ day_cost cfg_det w r 15 = Ok y /\ (x + 40 == y)%Q.
Proof.
  destruct (play_witness cfg_det (due_net ++ [OEnforceRoute 0 [0; 1] false; OEnforceRoute 1 [0;2] false; OExec (UntilT 150)])%list (Some 200%Q)
    (fun w => day_b (due_day cfg_det w only_left true (fun _ => true)) [(0, [0; 1]); (1, [0; 1])] 0 && costs_b w && spec_eqb [(1, traveled w 1)] [(1, [0; 2])])%bool) as (w & R & H).
  { vm_compute. reflexivity. }
  apply andb_true_iff in H. destruct H as [H H0]. apply andb_true_iff in H. destruct H as [H Hc]. apply day_b_ok in H. destruct H as (u & H1 & H2 & H3).
  unfold spec_eqb in H0. destruct (list_eq_dec _ _ _) as [E|]; [|discriminate]. injection E as E. unfold costs_b in Hc.
  destruct (day_cost cfg_det w [0; 1] 15) as [y|] eqn:Y; [|discriminate]. destruct (day_cost cfg_det w [0; 2] 15) as [x|] eqn:X; [|discriminate]. apply Qeq_bool_iff in Hc.
  exists w, u, [0; 1], x, y. split; [exact R|]. split; [exact H1|]. split; [exact H3|]. rewrite H2, E. split; [right; left; reflexivity|]. split; [discriminate|]. split; [exact X|]. split; [exact Y|]. rewrite <- Hc. ring.
Qed.
