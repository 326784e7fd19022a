(** * ProgressDemo: scenarios for progress at nodes (property C62). *)
From Verif Require Import Base Types Sim Build Heap Lists Inv FrameBase Tac Frame Eff Eff2 Trace InvStep Reach Steps Effects Phases Spec Paths Demo MotionDemo Merge SpecProgress Progress.
Local Open Scope string_scope.
Local Open Scope nat_scope.

Definition at_end (w : world) (v : vid) (l : lid) (flag : bool) : bool :=
  vstate_eqb (v_state (V w v)) Run && opt_eqb (v_link (V w v)) (Some l) && Qeq_bool (v_x (V w v)) (l_len (L w l)) &&
  Bool.eqb (v_flag (V w v)) flag && opt_eqb (hd_error (l_vehs (L w l))) (Some v).
Definition wants (w : world) (v : vid) (out : lid) : bool :=
  match v_next (V w v) with Some o => opt_eqb o (Some out) | None => false end.
Definition open_way (c : cfg) (w : world) (n : nid) (l out : lid) : bool :=
  (Nat.leb (List.length (n_signal (N w n))) 1) && qle (dN c) (l_coutr (L w l)) && has_space c w (L w out) && qle (dN c) (l_cinr (L w out)).
Definition before_transfer (c : cfg) (w : world) : result world := w1 <- phase_links c w ;; phase_nodes c w1.
Definition gone (c : cfg) (w w' : world) (v : vid) (out : lid) : bool :=
  opt_eqb (v_link (V w' v)) (Some out) && Qeq_bool (v_larr (V w' v)) (now c w).
Definition stage (c : cfg) (w : world) (t : world -> world -> bool) : bool :=
  match before_transfer c w with
  | Ok w2 => match phase_transfer c w2 with Ok w3 => t w2 w3 | Err _ => false end
  | Err _ => false
  end.

(** one vehicle at the end of link ab, the way is open: it goes to link bc *)
Lemma open_example : exists w, reachable cfg_det w /\
  (at_end w 0 0 false && wants w 0 1 && stage cfg_det w (fun w2 w3 =>
     open_way cfg_det w2 1 0 1 && Nat.eqb (List.length (n_incoming (N w2 1))) 1 && gone cfg_det w2 w3 0 1))%bool = true.
Proof. apply (play_witness cfg_det (row_net ++ [OExec (UntilT 30)]) (Some 200%Q)). vm_compute. reflexivity. Qed.

(** Two vehicles side by side on a link with two lanes. *)
Definition pair_net : list op :=
  [ node_ "a"; node_ "b"; node_ "c"; node_ "d"; OAddLink (mkLinkArgs (Some "ac") 0 2 500 20 (2#10) None 1 1 [0] None None None None);
    OAddLink (mkLinkArgs (Some "bc") 1 2 500 20 (2#10) None 1 2 [0] None None None None); link_lanes "cd" 2 3 500 2; veh_ 0 3 0; veh_ 1 3 0 ].

(** a vehicle at the end of its last link, which has arrived in the next state *)
Lemma arrive_example : exists w, reachable cfg_det w /\
  (w_final w && at_end w 0 2 true && match tick cfg_det w with Ok w' => vstate_eqb (v_state (V w' 0)) End_ | Err _ => false end)%bool = true.
Proof. apply (play_witness cfg_det (pair_net ++ [OExec (UntilT 50)]) (Some 200%Q)). vm_compute. reflexivity. Qed.

(** Two links into node c with the flow capacity [fc], both leading to link cd: one vehicle on each. *)
Definition two_in (fc : option Q) : list op :=
  [ node_ "a"; node_ "b"; OAddNode (mkNodeArgs "c" 0 0 [0%Q] 0 None fc (Some 1%nat)); node_ "d"; node_ "e";
    link_ "ac" 0 2 500; link_ "bc" 1 2 500; link_ "cd" 2 3 500; link_ "ce" 2 4 500; veh_ 0 3 0; veh_ 1 4 0 ].

(** two vehicles wait for the same link: one passes, the other does not, although its way was open *)
Definition merge_in : list op :=
  [ node_ "a"; node_ "b"; node_ "c"; node_ "d"; link_ "ac" 0 2 500; link_ "bc" 1 2 500; link_ "cd" 2 3 500; veh_ 0 3 0; veh_ 1 3 0 ].
Definition one_only (c : cfg) (w w' : world) (n : nid) (u v : vid) (k l out : lid) : bool :=
  wants w u out && wants w v out && open_way c w n k out && open_way c w n l out && gone c w w' u out && negb (gone c w w' v out).

(** Vehicle [v] is a candidate at node [n] for link [out], the way to [out] is open, and [t] holds after the transfers. *)
Definition blocked_b (c : cfg) (w2 w3 : world) (n : nid) (v : vid) (out : lid) (t : world -> bool) : bool :=
  match candidate c n out w2 v with Ok b => b | Err _ => false end && mem v (n_incoming (N w2 n)) &&
  (Nat.leb 1 (l_lanes (L w2 out)) && has_space c w2 (L w2 out)) && qle (dN c) (l_cinr (L w2 out)) && negb (opt_eqb (v_link (V w3 v)) (Some out)) && t w3.
Lemma blocked_found : forall c os n v out (t : world -> bool),
  match play c os (empty_world (Some 200%Q)) with Some w => stage c w (fun w2 w3 => blocked_b c w2 w3 n v out t) | None => false end = true ->
  exists w w1 w2 w3, reach c w /\ phase_links c w = Ok w1 /\ phase_nodes c w1 = Ok w2 /\ phase_transfer c w2 = Ok w3 /\
    (exists l, merge_candidate c w2 n out v l) /\ room c w2 out /\ (dN c <= l_cinr (L w2 out))%Q /\
    v_link (V w3 v) <> Some out /\ t w3 = true.
Proof.
  intros c os n v out t H. destruct (play_witness _ _ _ _ H) as (w & R & K). clear H.
  unfold stage, before_transfer in K. destruct (phase_links c w) as [w1|] eqn:E1; [|discriminate K]. cbn [bind] in K.
  destruct (phase_nodes c w1) as [w2|] eqn:E2; [|discriminate K]. destruct (phase_transfer c w2) as [w3|] eqn:E3; [|discriminate K].
  unfold blocked_b in K. apply andb_true_iff in K. destruct K as [K K6]. apply andb_true_iff in K. destruct K as [K K5].
  apply andb_true_iff in K. destruct K as [K K4]. apply andb_true_iff in K. destruct K as [K K3]. apply andb_true_iff in K. destruct K as [K1 K2].
  exists w, w1, w2, w3. split; [apply reachable_reach; exact R|]. split; [exact E1|]. split; [exact E2|]. split; [exact E3|].
  split. { apply candidate_spec; [apply mem_iff; exact K2|]. destruct (candidate c n out w2 v) as [[]|]; [reflexivity|discriminate K1|discriminate K1]. }
  split; [apply andb_true_iff in K3; destruct K3 as [K3 K7]; apply space_room; [apply Nat.leb_le; exact K3|exact K7]|]. split; [apply qle_iff; exact K4|]. split; [|exact K6].
  intro E. rewrite E in K5. cbn [opt_eqb] in K5. rewrite Nat.eqb_refl in K5. discriminate K5.
Qed.

(** The flow capacity of the node is used up by another vehicle, which goes to another link. *)
Lemma spent_example : exists w w1 w2 w3, reach cfg_det w /\ phase_links cfg_det w = Ok w1 /\ phase_nodes cfg_det w1 = Ok w2 /\ phase_transfer cfg_det w2 = Ok w3 /\
  (exists l, merge_candidate cfg_det w2 2 3 1 l) /\ room cfg_det w2 3 /\ (dN cfg_det <= l_cinr (L w2 3))%Q /\
  v_link (V w3 1) <> Some 3 /\ (qlt (n_fcapr (N w3 2)) (dN cfg_det) && Nat.eqb (List.length (l_vehs (L w3 3))) 0)%bool = true.
Proof. apply (blocked_found cfg_det (two_in (Some (1#5)%Q) ++ [OExec (UntilT 25)]) 2 1 3 (fun w3 => qlt (n_fcapr (N w3 2)) (dN cfg_det) && Nat.eqb (List.length (l_vehs (L w3 3))) 0)%bool).
  vm_compute. reflexivity. Qed.

(** Another vehicle is chosen. *)
Lemma itself_refuted : exists w w1 w2 w3, reach cfg_det w /\ phase_links cfg_det w = Ok w1 /\ phase_nodes cfg_det w1 = Ok w2 /\ phase_transfer cfg_det w2 = Ok w3 /\
  (exists l, merge_candidate cfg_det w2 2 2 1 l) /\ room cfg_det w2 2 /\ (dN cfg_det <= l_cinr (L w2 2))%Q /\
  v_link (V w3 1) <> Some 2 /\ opt_eqb (v_link (V w3 0)) (Some 2) = true.
Proof. apply (blocked_found cfg_det (merge_in ++ [OExec (UntilT 25)]) 2 1 2 (fun w3 => opt_eqb (v_link (V w3 0)) (Some 2))). vm_compute. reflexivity. Qed.

(** Two vehicles reach the end of their last link in the same timestep; the one that is first in the order of vehicles is second on the link and arrives a timestep later. *)
Lemma at_once_refuted : exists w, reach cfg_det w /\
  exists v u l, exists_veh w v /\ v_state (V w v) = Run /\ v_link (V w v) = Some l /\ v_flag (V w v) = true /\ hd_error (l_vehs (L w l)) = Some v /\
    v_state (V w u) = End_ /\ (v_x (V w v) == l_len (L w l))%Q.
Proof.
  destruct (play_witness cfg_det (pair_net ++ [OExec (UntilT 50)]) (Some 200%Q)
    (fun w => Nat.ltb 0 (w_nv w) && at_end w 0 2 true && vstate_eqb (v_state (V w 1)) End_)%bool) as (w & R & H); [vm_compute; reflexivity|].
  exists w. split; [apply reachable_reach; exact R|]. exists 0, 1, 2. clear R. unfold at_end in H. rewrite !andb_true_iff in H.
  destruct H as [[H0 [[[[H1 H2] H3] H4] H5]] H6]. apply Nat.ltb_lt in H0.
  split; [exact H0|]. split; [destruct (v_state (V w 0)); try discriminate H1; reflexivity|].
  split; [apply opt_eqb_eq in H2; exact H2|]. split; [apply Bool.eqb_prop in H4; exact H4|].
  split; [apply opt_eqb_eq in H5; exact H5|]. split; [destruct (v_state (V w 1)); try discriminate H6; reflexivity|].
  apply Qeq_bool_iff in H3. exact H3.
Qed.
