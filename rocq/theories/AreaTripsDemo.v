(** * AreaTripsDemo: scenarios for the trips between areas and for groups of vehicles. *)
From Verif Require Import Base Types Sim Build Tac Reach Steps Lists Spec Registry Route Paths SpecDuo PathsOK Demo MotionDemo DuoDemo DueDemo DsoDemo SpecStats Analyzer SpecDelay Delay DelayDemo SpecLinks LinkStats AreaStats LinkStatsDemo SpecTrips AreaTrips.
Local Open Scope string_scope.
Local Open Scope nat_scope.
(** from a to b and back *)
Definition loop_net : list op := [ node_ "a"; node_ "b"; link_ "ab" 0 1 500; link_ "ba" 1 0 500; veh_ 0 0 0; OExec (UntilT 200) ].

Definition pair_b (w : world) (o d : list nid) (p : pair_row -> bool) : bool :=
  match od_tables_of c0 w with Ok t => match pair_row_of t (0, 1) o d with Some r => p r | None => false end | Err _ => false end.
Definition group_b (w : world) (gs : list (list vid)) (p : group_row -> bool) : bool :=
  match od_tables_of c0 w with Ok t => match vehicle_groups t w (Some (List.length gs)) gs with Ok (r :: _) => p r | _ => false end | Err _ => false end.
Definition fin_b (n : num) (p : Q -> bool) : bool := match n with Fin q => p q | _ => false end.

(** two completed trips between two areas *)
Theorem pair_example : exists w t r x y, reachP c0 keep_speed w /\ plain_net w /\ od_tables_of c0 w = Ok t /\ pair_row_of t (0, 1) [0] [2] = Some r /\
  List.length (ended_trips w [0] [2]) = 2 /\ pr_total r = 10%Z /\ pr_comp r = 10%Z /\ pr_time r = Fin x /\ (x == 115 # 2)%Q /\ pr_free r = Fin y /\ (y == 51)%Q.
Proof.
  destruct (playP_witness c0 keep_speed speed_b plain_run (Some 200%Q) (fun w => single_b w && open_b w && long_b w && fast_b w && ((List.length (ended_trips w [0] [2]) =? 2) && pair_b w [0] [2] (fun r => Z.eqb (pr_total r) 10 && Z.eqb (pr_comp r) 10 && fin_b (pr_time r) (fun q => qeq q (115 # 2)) && fin_b (pr_free r) (fun q => qeq q 51))))) as (w & R & H).
  { apply speed_b_ok. } { intro w. split; [exact Logic.I|discriminate]. } { vm_compute. reflexivity. }
  apply andb_true_iff in H. destruct H as [H0 H]. apply andb_true_iff in H. destruct H as [H1 H]. unfold pair_b in H. destruct (od_tables_of c0 w) as [t|] eqn:Et; [|discriminate H]. destruct (pair_row_of t (0, 1) [0] [2]) as [r|] eqn:Er; [|discriminate H].
  apply andb_true_iff in H. destruct H as [H H5]. apply andb_true_iff in H. destruct H as [H H4]. apply andb_true_iff in H. destruct H as [H2 H3]. unfold fin_b in *.
  destruct (pr_time r) as [x| |] eqn:Ex; try discriminate H4. destruct (pr_free r) as [y| |] eqn:Ey; try discriminate H5.
  exists w, t, r, x, y. split; [exact R|]. split; [apply plain_ok; exact H0|]. split; [exact Et|]. split; [exact Er|]. split; [apply Nat.eqb_eq; exact H1|]. split; [apply Z.eqb_eq; exact H2|]. split; [apply Z.eqb_eq; exact H3|].
  split; [exact Ex|]. split; [apply qeq_iff; exact H4|]. split; [exact Ey|apply qeq_iff; exact H5].
Qed.

(** Trips between nodes without a completed trip count with distance 0, so the averages are too small. *)
Theorem pair_distance_refuted : exists c w t r x, correct_routine c /\ reachP c keep_speed w /\ plain_net w /\ od_tables_of c w = Ok t /\
  pair_row_of t (0, 1) [0] [1; 2] = Some r /\ pr_dist r = Fin x /\ (x < mean (map (fun v => v_dist (V w v)) (trips w [0%nat] [1%nat; 2%nat])))%Q.
Proof.
  destruct (playP_witness c0 keep_speed speed_b two_run (Some 200%Q) (fun w => single_b w && open_b w && long_b w && fast_b w && pair_b w [0] [1; 2] (fun r => fin_b (pr_dist r) (fun q => qlt q (mean (map (fun v => v_dist (V w v)) (trips w [0] [1; 2]))))))) as (w & R & H).
  { apply speed_b_ok. } { intro w. split; [exact Logic.I|discriminate]. } { vm_compute. reflexivity. }
  apply andb_true_iff in H. destruct H as [H0 H]. unfold pair_b in H. destruct (od_tables_of c0 w) as [t|] eqn:Et; [|discriminate H]. destruct (pair_row_of t (0, 1) [0] [1; 2]) as [r|] eqn:Er; [|discriminate H].
  unfold fin_b in H. destruct (pr_dist r) as [x| |] eqn:Ex; try discriminate H.
  exists c0, w, t, r, x. split; [apply routine_example|]. split; [exact R|]. split; [apply plain_ok; exact H0|]. split; [exact Et|]. split; [exact Er|]. split; [exact Ex|apply qlt_iff; exact H].
Qed.
(** The average shortest distance can be less than the lengths of all links. *)
Theorem pair_shortest_refuted : exists c w t r x, correct_routine c /\ reachP c keep_speed w /\ plain_net w /\ od_tables_of c w = Ok t /\
  pair_row_of t (0, 1) [0] [1; 2] = Some r /\ (0 < pr_comp r)%Z /\ pr_short r = Fin x /\ (forall l, exists_link w l -> (x < l_len (L w l))%Q).
Proof.
  destruct (playP_witness c0 keep_speed speed_b two_run (Some 200%Q) (fun w => single_b w && open_b w && long_b w && fast_b w && pair_b w [0] [1; 2] (fun r => Z.ltb 0 (pr_comp r) && fin_b (pr_short r) (fun q => links_b (fun l => qlt q (l_len (L w l))) w)))) as (w & R & H).
  { apply speed_b_ok. } { intro w. split; [exact Logic.I|discriminate]. } { vm_compute. reflexivity. }
  apply andb_true_iff in H. destruct H as [H0 H]. unfold pair_b in H. destruct (od_tables_of c0 w) as [t|] eqn:Et; [|discriminate H]. destruct (pair_row_of t (0, 1) [0] [1; 2]) as [r|] eqn:Er; [|discriminate H].
  apply andb_true_iff in H. destruct H as [H1 H]. unfold fin_b in H. destruct (pr_short r) as [x| |] eqn:Ex; try discriminate H.
  exists c0, w, t, r, x. split; [apply routine_example|]. split; [exact R|]. split; [apply plain_ok; exact H0|]. split; [exact Et|]. split; [exact Er|]. split; [apply Z.ltb_lt; exact H1|]. split; [exact Ex|].
  intros l Hl. apply qlt_iff. exact (links_b_ok _ _ H l Hl).
Qed.

(** a group of two vehicles, both ended *)
Theorem group_example : exists w t r rs y, reachP c0 keep_speed w /\ plain_net w /\ od_tables_of c0 w = Ok t /\ Forall (Forall (exists_veh w)) [[0; 1]] /\
  (forall v, exists_veh w v -> v_dest (V w v) <> Some (v_orig (V w v))) /\
  vehicle_groups t w (Some 1) [[0; 1]] = Ok (r :: rs) /\ gr_total r = 2 /\ gr_comp r = 2 /\ gr_delay r = Fin y /\ (y == 115 # 102)%Q.
Proof.
  destruct (playP_witness c0 keep_speed speed_b plain_run (Some 200%Q) (fun w => single_b w && open_b w && long_b w && fast_b w && ((w_nv w =? 2) && forallb (fun v => match v_dest (V w v) with Some d => negb (Nat.eqb d (v_orig (V w v))) | None => true end) (seq 0 (w_nv w)) && group_b w [[0; 1]] (fun r => (gr_total r =? 2) && (gr_comp r =? 2) && fin_b (gr_delay r) (fun q => qeq q (115 # 102)))))) as (w & R & H).
  { apply speed_b_ok. } { intro w. split; [exact Logic.I|discriminate]. } { vm_compute. reflexivity. }
  apply andb_true_iff in H. destruct H as [H0 H]. apply andb_true_iff in H. destruct H as [H1 H]. apply andb_true_iff in H1. destruct H1 as [H1 H1']. apply Nat.eqb_eq in H1. unfold group_b in H.
  destruct (od_tables_of c0 w) as [t|] eqn:Et; [|discriminate H]. cbn [List.length] in H. destruct (vehicle_groups t w (Some 1) [[0; 1]]) as [[|r rs]|] eqn:Er; try discriminate H.
  apply andb_true_iff in H. destruct H as [H H4]. apply andb_true_iff in H. destruct H as [H2 H3]. unfold fin_b in H4. destruct (gr_delay r) as [y| |] eqn:Ey; try discriminate H4.
  exists w, t, r, rs, y. split; [exact R|]. split; [apply plain_ok; exact H0|]. split; [exact Et|]. split; [repeat constructor; unfold exists_veh; lia|]. split.
  { intros v Hv E. rewrite forallb_forall in H1'. assert (Hi : In v (seq 0 (w_nv w))) by (apply in_seq; unfold exists_veh in Hv; lia). specialize (H1' v Hi). rewrite E, Nat.eqb_refl in H1'. discriminate H1'. }
  split; [exact Er|]. split; [apply Nat.eqb_eq; exact H2|]. split; [apply Nat.eqb_eq; exact H3|]. split; [exact Ey|apply qeq_iff; exact H4].
Qed.

(** The detour ratio can be below 1. *)
Theorem detour_refuted : exists c w t r rs x, correct_routine c /\ reachP c keep_speed w /\ plain_net w /\ od_tables_of c w = Ok t /\
  vehicle_groups t w (Some 1) [[0; 1]] = Ok (r :: rs) /\ gr_detour r = Fin x /\ (x < 1)%Q.
Proof.
  destruct (playP_witness c0 keep_speed speed_b plain_run (Some 200%Q) (fun w => single_b w && open_b w && long_b w && fast_b w && group_b w [[0; 1]] (fun r => fin_b (gr_detour r) (fun q => qlt q 1)))) as (w & R & H).
  { apply speed_b_ok. } { intro w. split; [exact Logic.I|discriminate]. } { vm_compute. reflexivity. }
  apply andb_true_iff in H. destruct H as [H0 H]. unfold group_b in H. destruct (od_tables_of c0 w) as [t|] eqn:Et; [|discriminate H]. cbn [List.length] in H. destruct (vehicle_groups t w (Some 1) [[0; 1]]) as [[|r rs]|] eqn:Er; try discriminate H.
  unfold fin_b in H. destruct (gr_detour r) as [x| |] eqn:Ex; try discriminate H.
  exists c0, w, t, r, rs, x. split; [apply routine_example|]. split; [exact R|]. split; [apply plain_ok; exact H0|]. split; [exact Et|]. split; [exact Er|]. split; [exact Ex|apply qlt_iff; exact H].
Qed.
(** A round trip has an infinite delay ratio. *)
Theorem round_trip_refuted : exists c w t r rs, correct_routine c /\ reachP c keep_speed w /\ plain_net w /\ od_tables_of c w = Ok t /\
  vehicle_groups t w (Some 1) [[0]] = Ok (r :: rs) /\ gr_comp r = 1 /\ gr_delay r = Inf.
Proof.
  destruct (playP_witness c0 keep_speed speed_b loop_net (Some 200%Q) (fun w => single_b w && open_b w && long_b w && fast_b w && group_b w [[0]] (fun r => (gr_comp r =? 1) && match gr_delay r with Inf => true | _ => false end))) as (w & R & H).
  { apply speed_b_ok. } { intro w. split; [exact Logic.I|discriminate]. } { vm_compute. reflexivity. }
  apply andb_true_iff in H. destruct H as [H0 H]. unfold group_b in H. destruct (od_tables_of c0 w) as [t|] eqn:Et; [|discriminate H]. cbn [List.length] in H. destruct (vehicle_groups t w (Some 1) [[0]]) as [[|r rs]|] eqn:Er; try discriminate H.
  apply andb_true_iff in H. destruct H as [H1 H]. destruct (gr_delay r) eqn:Ex; try discriminate H.
  exists c0, w, t, r, rs. split; [apply routine_example|]. split; [exact R|]. split; [apply plain_ok; exact H0|]. split; [exact Et|]. split; [exact Er|]. split; [apply Nat.eqb_eq; exact H1|exact Ex].
Qed.
(** With the tables of an earlier od_analysis, which are kept, a vehicle added since then raises IndexError. *)
Definition later_veh : op := veh_ 0 1 2.
Theorem old_tables_refuted : exists c w w' t, reach c w /\ later c any_op w w' /\ od_tables_of c w = Ok t /\ exists_veh w' 1 /\ v_state (V w' 1) = End_ /\
  vehicle_groups t w' (Some 1) [[1]] = Err IndexError.
Proof.
  destruct (run_witness c0 any_op (net 520 540) (Some 200%Q) 1 (fun _ _ w => w_final w && match od_tables_of c0 w, playP c0 (fun _ _ => true) [later_veh; OExec (UntilT 200)] w with
     | Ok t, Some w' => (1 <? w_nv w') && has_ended w' 1 && match vehicle_groups t w' (Some 1) [[1]] with Err IndexError => true | _ => false end | _, _ => false end)) as (w1 & w0 & w & _ & _ & _ & _ & R & H). { vm_compute. reflexivity. }
  apply andb_true_iff in H. destruct H as [_ H]. destruct (od_tables_of c0 w) as [t|] eqn:Et; [|discriminate H]. destruct (playP c0 (fun _ _ => true) [later_veh; OExec (UntilT 200)] w) as [w'|] eqn:E; [|discriminate H].
  assert (K : later c0 any_op w w') by (eapply playP_later; [|  |exact E]; intros; exact Logic.I). clear E.
  apply andb_true_iff in H. destruct H as [H H3]. apply andb_true_iff in H. destruct H as [H1 H2].
  exists c0, w, w', t. split; [exact R|]. split; [exact K|]. split; [exact Et|]. split; [apply Nat.ltb_lt; exact H1|]. split; [unfold has_ended in H2; destruct (v_state (V w' 1)); try discriminate H2; reflexivity|].
  destruct (vehicle_groups t w' (Some 1) [[1]]) as [|e]; [discriminate H3|]. destruct e; try discriminate H3. reflexivity.
Qed.
