(** * CppDemo: scenarios for the comparison of the two engines (property C65). *)
From Verif Require Import Base Types Sim Build Heap Tac Reach Steps Spec Demo Cpp SpecCpp.
Local Open Scope string_scope.
Local Open Scope nat_scope.

(** two roads merge into a two-lane road; the second vehicle has the priority, so the two vehicles run side by side
    on the last road with the younger one in front *)
Definition pair_net : list op :=
  [ node_ "A"; node_ "B"; node_ "M"; node_ "D";
    OAddLink (mkLinkArgs (Some "AM") 0 2 500 20 (2#10) None 1 1 [0] None None None None);
    OAddLink (mkLinkArgs (Some "BM") 1 2 500 20 (2#10) None 1 2 [0] None None None None);
    link_lanes "MD" 2 3 500 2; veh_ 0 3 0; veh_ 1 3 0 ].
Definition shows (r : result world) (test : world -> bool) : bool := match r with Ok w => test w | Err _ => false end.
Lemma shows_ok : forall r test, shows r test = true -> exists w, r = Ok w /\ test w = true.
Proof. intros [w|e] test H; [exists w; auto|discriminate]. Qed.
Definition on_road (w : world) (v : vid) : bool := match v_state (V w v) with Run => true | _ => false end.
Definition at_home (w : world) (v : vid) : bool := match v_state (V w v) with End_ => true | _ => false end.
Lemma on_road_ok : forall w v, on_road w v = true -> v_state (V w v) = Run.
Proof. intros w v H. unfold on_road in H. destruct (v_state (V w v)); try discriminate; reflexivity. Qed.
Lemma at_home_ok : forall w v, at_home w v = true -> v_state (V w v) = End_.
Proof. intros w v H. unfold at_home in H. destruct (v_state (V w v)); try discriminate; reflexivity. Qed.

Theorem order_refuted : exists c w w1 w2, reach c w /\ c_det c = true /\ w_nv w = 2 /\ tick c w = Ok w1 /\ cpp_tick c w = Ok w2 /\
  v_state (V w1 0) = Run /\ v_state (V w2 0) = End_ /\ v_state (V w1 1) = End_ /\ v_state (V w2 1) = End_.
Proof.
  destruct (play_witness cfg_det (pair_net ++ [OExec (UntilT 45)]) (Some 400%Q)
    (fun w => Nat.eqb (w_nv w) 2 && shows (tick cfg_det w) (fun x => on_road x 0 && at_home x 1) && shows (cpp_tick cfg_det w) (fun x => at_home x 0 && at_home x 1)))
    as (w & H1 & H2); [vm_compute; reflexivity|].
  apply andb_true_iff in H2. destruct H2 as [H2 H3]. apply andb_true_iff in H2. destruct H2 as [H2 H4].
  apply shows_ok in H3. apply shows_ok in H4. destruct H3 as (w2 & E2 & H3). destruct H4 as (w1 & E1 & H4).
  apply andb_true_iff in H3. apply andb_true_iff in H4. destruct H3 as [H3 H3']. destruct H4 as [H4 H4'].
  exists cfg_det, w, w1, w2. split; [apply reachable_reach; exact H1|]. split; [reflexivity|]. split; [apply Nat.eqb_eq; exact H2|].
  split; [exact E1|]. split; [exact E2|]. split; [apply on_road_ok; exact H4|]. split; [apply at_home_ok; exact H3|]. split; apply at_home_ok; assumption.
Qed.

(** a vehicle given the departure time 7 s in timesteps of 5 s starts at 5 s here and at 10 s there *)
Theorem departure_refuted : exists c t, (0 < dt c)%Q /\ (0 <= t)%Q /\ cpp_departure c t = Some 2%Z /\ py_departure c t = 1%Z.
Proof. exists cfg_det, 7%Q. repeat split; vm_compute; congruence. Qed.
Theorem departure_example : exists c t, (0 < dt c)%Q /\ (0 <= t)%Q /\ cpp_departure c t = Some 3%Z /\ py_departure c t = 3%Z.
Proof. exists cfg_det, 15%Q. repeat split; vm_compute; congruence. Qed.

(** the car-following passes on a reachable state with two vehicles on one road *)
Theorem follow_example : exists c w w1 w2 w3 w4 w4', reach c w /\ phase_links c w = Ok w1 /\ phase_nodes c w1 = Ok w2 /\ phase_transfer c w2 = Ok w3 /\
  forward c w3 /\ phase_follow c w3 = Ok w4 /\ cpp_phase_follow c w3 = Ok w4' /\ w_running w3 = [0; 1] /\ on_links w3 = [1; 0] /\
  (v_xnext (V w4 0) == 100)%Q /\ (v_xnext (V w4' 0) == 100)%Q.
Proof.
  destruct (play_witness cfg_det (pair_net ++ [OExec (UntilT 25)]) (Some 400%Q)
    (fun w => shows (phase_links cfg_det w) (fun w1 => shows (phase_nodes cfg_det w1) (fun w2 => shows (phase_transfer cfg_det w2) (fun w3 =>
       forallb (fun l => qle 0 (l_u (L w3 l) * dt cfg_det)) (seq 0 (w_nl w3)) && (if list_eq_dec Nat.eq_dec (w_running w3) [0; 1] then true else false) &&
       (if list_eq_dec Nat.eq_dec (on_links w3) [1; 0] then true else false) &&
       shows (phase_follow cfg_det w3) (fun w4 => qeq (v_xnext (V w4 0)) 100) && shows (cpp_phase_follow cfg_det w3) (fun w4 => qeq (v_xnext (V w4 0)) 100))))))
    as (w & H1 & H2); [vm_compute; reflexivity|].
  apply shows_ok in H2. destruct H2 as (w1 & E1 & H2). apply shows_ok in H2. destruct H2 as (w2 & E2 & H2). apply shows_ok in H2. destruct H2 as (w3 & E3 & H2).
  apply andb_true_iff in H2. destruct H2 as [H2 H3]. apply andb_true_iff in H2. destruct H2 as [H2 H4]. apply andb_true_iff in H2. destruct H2 as [H2 H5].
  apply andb_true_iff in H2. destruct H2 as [H2 H6].
  apply shows_ok in H3. destruct H3 as (w4' & E4' & H3). apply shows_ok in H4. destruct H4 as (w4 & E4 & H4).
  exists cfg_det, w, w1, w2, w3, w4, w4'. split; [apply reachable_reach; exact H1|]. split; [exact E1|]. split; [exact E2|]. split; [exact E3|].
  split. { rewrite forallb_forall in H2. intros l Hl. apply qle_iff. apply H2. apply in_seq. lia. }
  split; [exact E4|]. split; [exact E4'|]. split; [destruct (list_eq_dec Nat.eq_dec (w_running w3) [0; 1]) as [K|K]; [exact K|discriminate]|].
  split; [destruct (list_eq_dec Nat.eq_dec (on_links w3) [1; 0]) as [K|K]; [exact K|discriminate]|]. split; apply qeq_iff; assumption.
Qed.

(** three departures read in between: the second vehicle entered before the first *)
Theorem record_example : reads [[(4, 30%Q)]; [(2, 20%Q); (6, 25%Q)]] [10%Q; 10%Q; 10%Q; 10%Q; 10%Q; 10%Q; 10%Q; 10%Q] =
  [[10%Q; 10%Q; 10%Q; 10%Q; 30%Q; 30%Q; 30%Q; 30%Q]; [10%Q; 10%Q; 20%Q; 20%Q; 20%Q; 20%Q; 25%Q; 25%Q]].
Proof. vm_compute. reflexivity. Qed.

(** with weights outside [0, 1] the flag and the sum differ: preferences cancel *)
Theorem weight_refuted : exists nl wt ms l, l < nl /\ (1 < wt)%Q /\
  ~ (fst (fold_left (fun s m => cpp_duo nl wt m s) ms (fun _ => 0%Q, false)) l == fold_left (fun p m => py_duo nl wt m p) ms (fun _ => 0%Q) l)%Q.
Proof.
  exists 2, 2%Q, [fun _ => true; fun l => Nat.eqb l 1; fun l => Nat.eqb l 1], 0.
  split; [lia|]. split; [lra|]. vm_compute. congruence.
Qed.
