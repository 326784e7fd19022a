(** * LoneDemo: scenarios for the ride of a lone vehicle (property C63). *)
From Verif Require Import Base Types Sim Build Heap Lists Inv FrameBase Tac Frame Eff Eff2 Trace InvStep Reach Steps Effects Phases Spec Paths Demo MotionDemo Merge SpecProgress Progress SpecLone.
Local Open Scope string_scope.
Local Open Scope nat_scope.

Definition settled_b (o : op) (w : world) : bool :=
  speed_b o w && (match o with OSetCapIn _ _ | OSetCapOut _ _ => false | _ => true end) && (negb (w_final w) || match o with OFinalize _ | OExec _ | OEnforceRoute _ _ _ | OSetPrefer _ _ | OSetAvoid _ _ | OSetToll _ _ => true | _ => false end).
Lemma settled_b_ok : forall o w, settled_b o w = true -> settled o w.
Proof.
  intros o w H. unfold settled_b in H. apply andb_true_iff in H. destruct H as [H H2]. apply andb_true_iff in H. destruct H as [H1 H3]. split; [apply speed_b_ok; exact H1|].
  split; [intros l q; split; intro E; subst o; discriminate H3|].
  intro Hf. rewrite Hf in H2. cbn in H2. destruct o; try discriminate H2; exact Logic.I.
Qed.
Lemma settled_final : forall w, settled (OFinalize None) w.
Proof. intro w. split; [split; [exact Logic.I|discriminate]|]. split; [split; discriminate|]. intros _. exact Logic.I. Qed.

Definition none_b {A} (o : option A) : bool := match o with None => true | _ => false end.
Definition ample_b (c : cfg) (k : link) : bool :=
  match l_cin k with Some q => qle (dN c) (q * dt c) && qle (dN c) (l_cout k * dt c) | None => false end.
Definition link_open (c : cfg) (w : world) (l : lid) : bool := ample_b c (L w l) && negb (Nat.eqb (l_start (L w l)) (l_end (L w l))) && qlt 0 (l_u (L w l)).
Definition nodes_open (w : world) : bool := forallb (fun n => (List.length (n_signal (N w n)) <=? 1) && none_b (n_fcap (N w n))) (seq 0 (w_nn w)).
Definition links_open (c : cfg) (w : world) : bool := forallb (link_open c w) (seq 0 (w_nl w)).
Definition links_long (c : cfg) (w : world) : bool := forallb (fun l => qle (l_u (L w l) * dt c) (l_len (L w l))) (seq 0 (w_nl w)).
Definition way_b (w : world) (v : vid) : bool :=
  forallb (fun n => negb (is_nil (n_out (N w n))) || opt_eqb (v_dest (V w v)) (Some n) && negb (Nat.eqb (v_orig (V w v)) n)) (seq 0 (w_nn w)).
Definition single_b (w : world) (v : vid) : bool := match v_mode (V w v) with SingleTrip => true | _ => false end.
Definition done_b (w : world) (v : vid) : bool := vstate_eqb (v_state (V w v)) End_ && single_b w v && Z.leb 0 (v_dep (V w v)).

Fixpoint same_list (a b : list nat) : bool :=
  match a, b with [], [] => true | x :: a', y :: b' => Nat.eqb x y && same_list a' b' | _, _ => false end.
Lemma same_list_ok : forall a b, same_list a b = true -> a = b.
Proof.
  induction a as [|x a IH]; intros [|y b] H; try discriminate H; [reflexivity|]. cbn in H. apply andb_true_iff in H. destruct H as [H1 H2].
  apply Nat.eqb_eq in H1. rewrite H1, (IH b H2). reflexivity.
Qed.
Lemma none_b_ok : forall A (o : option A), none_b o = true -> o = None. Proof. intros A [a|] H; [discriminate|reflexivity]. Qed.
Lemma seq_b_ok : forall f n, forallb f (seq 0 n) = true -> forall k, k < n -> f k = true.
Proof. intros f n H k Hk. rewrite forallb_forall in H. apply H. apply in_seq. lia. Qed.
Lemma ample_ok : forall c k, ample_b c k = true -> ample c k.
Proof.
  intros c k H. unfold ample_b in H. destruct (l_cin k) as [q|] eqn:E; [|discriminate]. apply andb_true_iff in H. destruct H as [H1 H2].
  exists q. split; [exact E|]. split; apply qle_iff; assumption.
Qed.
Lemma links_open_ok : forall c w, links_open c w = true -> forall l, exists_link w l -> ample c (L w l) /\ l_start (L w l) <> l_end (L w l) /\ (0 < l_u (L w l))%Q.
Proof.
  intros c w H l Hl. pose proof (seq_b_ok _ _ H l Hl) as K. unfold link_open in K. apply andb_true_iff in K. destruct K as [K K3]. apply andb_true_iff in K. destruct K as [K1 K2].
  split; [apply ample_ok; exact K1|]. split; [intro E; rewrite E, Nat.eqb_refl in K2; discriminate|apply qlt_iff; exact K3].
Qed.
Lemma nodes_open_ok : forall w, nodes_open w = true -> forall n, n < w_nn w -> List.length (n_signal (N w n)) <= 1 /\ n_fcap (N w n) = None.
Proof.
  intros w H n Hn. pose proof (seq_b_ok _ _ H n Hn) as K. apply andb_true_iff in K. destruct K as [K1 K2].
  split; [apply Nat.leb_le; exact K1|apply none_b_ok; exact K2].
Qed.
Lemma free_net_ok : forall c w, (links_open c w && nodes_open w && links_long c w)%bool = true -> free_net c w.
Proof.
  intros c w H. apply andb_true_iff in H. destruct H as [H H3]. apply andb_true_iff in H. destruct H as [H1 H2]. split; [|apply nodes_open_ok; exact H2].
  intros l Hl. destruct (links_open_ok c w H1 l Hl) as (A & B & C). repeat split; auto. apply qle_iff. exact (seq_b_ok _ _ H3 l Hl).
Qed.
Lemma open_net_ok : forall c w, (links_open c w && nodes_open w)%bool = true -> open_net c w.
Proof. intros c w H. apply andb_true_iff in H. destruct H as [H1 H2]. split; [apply links_open_ok; exact H1|apply nodes_open_ok; exact H2]. Qed.
Lemma way_ok : forall w v, way_b w v = true -> way_on w v.
Proof.
  intros w v H n Hn Ho. pose proof (seq_b_ok _ _ H n Hn) as K. cbv beta in K. rewrite Ho in K. cbn [is_nil negb orb] in K. apply andb_true_iff in K. destruct K as [K1 K2].
  split; [apply opt_eqb_eq; exact K1|]. intro E. rewrite E, Nat.eqb_refl in K2. discriminate.
Qed.
Lemma alone_ok : forall w, (w_nv w =? 1) = true -> alone w 0.
Proof. intros w H. apply Nat.eqb_eq in H. unfold alone, exists_veh. rewrite H. split; [lia|intros; lia]. Qed.
Lemma done_ok : forall w v, done_b w v = true -> v_state (V w v) = End_ /\ v_mode (V w v) = SingleTrip /\ (0 <= v_dep (V w v))%Z.
Proof.
  intros w v H. unfold done_b, single_b in H. apply andb_true_iff in H. destruct H as [H H3]. apply andb_true_iff in H. destruct H as [H1 H2].
  split; [destruct (v_state (V w v)); try discriminate H1; reflexivity|]. split; [destruct (v_mode (V w v)); [reflexivity|discriminate]|apply Z.leb_le; exact H3].
Qed.

(** links of 520 m and 500 m: free-flow travel time 51 s, travel time 55 s *)
Lemma lone_example : exists w, reachP cfg_det settled w /\ alone w 0 /\ free_net cfg_det w /\ way_on w 0 /\
  (v_state (V w 0) = End_ /\ v_mode (V w 0) = SingleTrip /\ (0 <= v_dep (V w 0))%Z) /\
  (free_time w (route_of (V w 0)) == 51)%Q /\ (v_tt (V w 0) == 55)%Q.
Proof.
  destruct (playP_witness cfg_det settled settled_b (row_net ++ [OExec (UntilT 150)])%list (Some 200%Q)
    (fun w => ((w_nv w =? 1) && (links_open cfg_det w && nodes_open w && links_long cfg_det w) && way_b w 0 && done_b w 0 &&
       (qeq (free_time w (route_of (V w 0))) 51 && qeq (v_tt (V w 0)) 55))%bool)) as (w & R & H).
  - apply settled_b_ok.
  - apply settled_final.
  - vm_compute. reflexivity.
  - exists w. apply andb_true_iff in H. destruct H as [H H5]. apply andb_true_iff in H. destruct H as [H H4]. apply andb_true_iff in H. destruct H as [H H3].
    apply andb_true_iff in H. destruct H as [H1 H2]. apply andb_true_iff in H5. destruct H5 as [H5 H6].
    split; [exact R|]. split; [apply alone_ok; exact H1|]. split; [apply free_net_ok; exact H2|]. split; [apply way_ok; exact H3|].
    split; [apply done_ok; exact H4|]. split; apply qeq_iff; assumption.
Qed.

(** after 9 timesteps, one of which it takes to depart, the vehicle has driven 8 * 5 * 20 = 800 m: it is 280 m
    behind the end of the first link of 520 m *)
Lemma position_example : exists w, reachP cfg_det settled w /\ alone w 0 /\ free_net cfg_det w /\ way_on w 0 /\
  v_state (V w 0) = Run /\ route_of (V w 0) = [0; 1] /\ (v_x (V w 0) == 280)%Q /\ w_T w = 9 /\ v_dep (V w 0) = 0%Z.
Proof.
  destruct (playP_witness cfg_det settled settled_b (row_net ++ [OExec (UntilT 40)])%list (Some 200%Q)
    (fun w => ((w_nv w =? 1) && (links_open cfg_det w && nodes_open w && links_long cfg_det w) && way_b w 0 && vstate_eqb (v_state (V w 0)) Run && same_list (route_of (V w 0)) [0; 1] &&
       (qeq (v_x (V w 0)) 280 && (w_T w =? 9) && Z.eqb (v_dep (V w 0)) 0))%bool)) as (w & R & H).
  - apply settled_b_ok.
  - apply settled_final.
  - vm_compute. reflexivity.
  - exists w. apply andb_true_iff in H. destruct H as [H H5]. apply andb_true_iff in H. destruct H as [H H7]. apply andb_true_iff in H. destruct H as [H H4]. apply andb_true_iff in H. destruct H as [H H3].
    apply andb_true_iff in H. destruct H as [H1 H2]. apply andb_true_iff in H5. destruct H5 as [H5 H6]. apply andb_true_iff in H5. destruct H5 as [H5 H8].
    split; [exact R|]. split; [apply alone_ok; exact H1|]. split; [apply free_net_ok; exact H2|]. split; [apply way_ok; exact H3|].
    split; [destruct (v_state (V w 0)); try discriminate H4; reflexivity|]. split; [apply same_list_ok; exact H7|]. split; [apply qeq_iff; exact H5|].
    split; [apply Nat.eqb_eq; exact H8|apply Z.eqb_eq; exact H6].
Qed.

(** ** What the hypotheses are for *)
(** three links of 20 m, each of which takes a whole timestep *)
Definition short_net : list op :=
  [ node_ "a"; node_ "b"; node_ "c"; node_ "d"; link_ "ab" 0 1 20; link_ "bc" 1 2 20; link_ "cd" 2 3 20; veh_ 0 3 0 ].
Lemma short_links_witness : exists w, reachP cfg_det settled w /\ alone w 0 /\ open_net cfg_det w /\ way_on w 0 /\
  (v_state (V w 0) = End_ /\ v_mode (V w 0) = SingleTrip /\ (0 <= v_dep (V w 0))%Z) /\
  (free_time w (route_of (V w 0)) + dt cfg_det <= v_tt (V w 0))%Q.
Proof.
  destruct (playP_witness cfg_det settled settled_b (short_net ++ [OExec (UntilT 150)])%list (Some 200%Q)
    (fun w => ((w_nv w =? 1) && (links_open cfg_det w && nodes_open w) && way_b w 0 && done_b w 0 &&
       qle (free_time w (route_of (V w 0)) + dt cfg_det) (v_tt (V w 0)))%bool)) as (w & R & H).
  - apply settled_b_ok.
  - apply settled_final.
  - vm_compute. reflexivity.
  - exists w. apply andb_true_iff in H. destruct H as [H H5]. apply andb_true_iff in H. destruct H as [H H4]. apply andb_true_iff in H. destruct H as [H H3].
    apply andb_true_iff in H. destruct H as [H1 H2].
    split; [exact R|]. split; [apply alone_ok; exact H1|]. split; [apply open_net_ok; exact H2|]. split; [apply way_ok; exact H3|].
    split; [apply done_ok; exact H4|]. apply qle_iff. exact H5.
Qed.

(** two vehicles that leave at the same time: the second waits for the first *)
Definition two_net : list op := (row_net ++ [veh_ 0 2 0])%list.
Lemma company_witness : exists w, reachP cfg_det settled w /\ exists_veh w 1 /\ free_net cfg_det w /\ way_on w 1 /\
  (v_state (V w 1) = End_ /\ v_mode (V w 1) = SingleTrip /\ (0 <= v_dep (V w 1))%Z) /\
  (free_time w (route_of (V w 1)) + dt cfg_det <= v_tt (V w 1))%Q.
Proof.
  destruct (playP_witness cfg_det settled settled_b (two_net ++ [OExec (UntilT 150)])%list (Some 200%Q)
    (fun w => ((1 <? w_nv w) && (links_open cfg_det w && nodes_open w && links_long cfg_det w) && way_b w 1 && done_b w 1 &&
       qle (free_time w (route_of (V w 1)) + dt cfg_det) (v_tt (V w 1)))%bool)) as (w & R & H).
  - apply settled_b_ok.
  - apply settled_final.
  - vm_compute. reflexivity.
  - exists w. apply andb_true_iff in H. destruct H as [H H5]. apply andb_true_iff in H. destruct H as [H H4]. apply andb_true_iff in H. destruct H as [H H3].
    apply andb_true_iff in H. destruct H as [H1 H2].
    split; [exact R|]. split; [apply Nat.ltb_lt; exact H1|]. split; [apply free_net_ok; exact H2|]. split; [apply way_ok; exact H3|].
    split; [apply done_ok; exact H4|]. apply qle_iff. exact H5.
Qed.
