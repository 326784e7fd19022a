(** * NodeCap: automatic node capacities (C37). *)
From Coq Require Import QArith Qround Lqa Qfield.
From Verif Require Import Base Types Sim Build Heap Lists Inv FrameBase Tac Frame Eff Eff2 Trace InvStep Reach Steps Effects Phases Attr Demand Spec.
Local Open Scope nat_scope.

Lemma qmax_list_in : forall xs x, In (qmax_list x xs) (x :: xs).
Proof.
  intros xs; induction xs as [|a xs IH]; intros x; [left; reflexivity|]. cbn [qmax_list fold_left]. fold (qmax_list (if qlt x a then a else x) xs).
  destruct (IH (if qlt x a then a else x)) as [E|E]; [|right; right; exact E]. destruct (qlt x a); [right; left|left]; exact E.
Qed.
Lemma largest_of : forall w ls x xs, map (fun l => l_cap (L w l)) ls = x :: xs -> largest_cap w ls (qmax_list x xs).
Proof.
  intros w ls x xs E. assert (M : forall q, In q (x :: xs) <-> exists l, l_cap (L w l) = q /\ In l ls) by (intro; rewrite <- E; apply in_map_iff).
  split.
  - destruct (proj1 (M _) (qmax_list_in xs x)) as (l & E1 & E2). exists l. auto.
  - intros l Hl. destruct (proj2 (M (l_cap (L w l))) (ex_intro _ l (conj eq_refl Hl))) as [<- |H]; [apply (proj1 (qmax_list_ge xs x))|]. apply (proj2 (qmax_list_ge xs x)). exact H.
Qed.
Lemma auto_lanes_for : forall q, lanes_for q (auto_lanes q).
Proof.
  intro q. unfold lanes_for, auto_lanes, qceil, Qof_nat.
  assert (D : (q / (8#10) == q * (10#8))%Q) by (field).
  pose proof (Qle_ceiling (q / (8#10))) as H1. split.
  - assert (inject_Z (Qceiling (q / (8 # 10))) <= inject_Z (Z.of_nat (Z.to_nat (Qceiling (q / (8 # 10))))))%Q as H2 by (rewrite <- Zle_Qle; lia).
    lra.
  - intros k Hk. assert (Qceiling (q / (8 # 10)) <= Z.of_nat k)%Z; [|lia].
    rewrite <- (Qceiling_Z (Z.of_nat k)). apply Qceiling_resp_le. lra.
Qed.

(** nodes without capacity have no number of lanes *)
Definition lanes_inv (w : world) : Prop := forall n, n < w_nn w -> n_fcap (N w n) = None -> n_lanes (N w n) = None.


Lemma new_node_lanes : forall c a nd, new_node c a = Ok nd -> n_fcap nd = None -> n_lanes nd = None.
Proof.
  intros c a nd H E. unfold new_node in H. cbv zeta in H. apply bind_ok in H. destruct H as ([ph t0] & _ & H). injection H as <-. rs in *.
  rewrite E. reflexivity.
Qed.
Lemma reach_lanes : forall c w, reach c w -> w_final w = false -> lanes_inv w.
Proof.
  intros c w R. induction R as [tm|w o w' R IH Ho Hx H|w w' R IH Hf H|w R IH]; intro Ef.
  - intros n Hn. cbn in Hn. lia.
  - pose proof (apply_op_osteps _ _ _ _ Ho Hx H) as O. clear - O IH Ef.
    assert (G : (w_final w = false -> lanes_inv w) -> w_final w' = false -> lanes_inv w'); [|auto]. clear IH Ef.
    induction O as [w|a b d O1 O IH]; auto. intro Ha. apply IH. intro Fb. clear IH O.
    destruct O1; unfold wkeep in *.
    + intros n Hn. specialize (Ha H n). unfold added_node, N in *. cbn in *. destruct (Nat.eq_dec n (w_nn w)) as [-> |Hk].
      * rewrite upd_same. eapply new_node_lanes; eauto.
      * rewrite upd_other by auto. apply Ha. lia.
    + intros n Hn. specialize (Ha H n Hn). unfold added_link. rewrite !N_at.
      destruct (Nat.eqb n (la_end a)), (Nat.eqb n (la_start a)); exact Ha.
    + exact (Ha Fb).
    + apply finalize_ok in H0. rewrite (fz_final _ _ _ H0) in Fb. discriminate.
    + assert (lanes_inv w) as A by (apply Ha; congruence). intros n Hn. unfold N. rewrite H1. apply A. congruence.
    + assert (lanes_inv w) as A by (apply Ha; congruence). intros n Hn E. specialize (H1 n). unfold nkeep in H1.
      replace (n_lanes (N w' n)) with (n_lanes (N w n)) by congruence. apply A; congruence.
  - exfalso. apply tick_fr in H. destruct H as (w1 & E & ->). pose proof (body_fr _ _ E) as F. cbn in Ef. rewrite (fr_w_final F) in Ef. congruence.
  - exact (IH Ef).
Qed.

Lemma adjust_other : forall c n w k, k <> n -> N (adjust_node_capacity c n w) k = N w k.
Proof.
  intros c n w k H. unfold adjust_node_capacity. destruct (n_fcap _); auto. destruct (map _ _); auto. destruct (map _ _); auto.
  rewrite N_at, (proj2 (Nat.eqb_neq _ _) H). reflexivity.
Qed.
Lemma adjust_links : forall c n w, w_links (adjust_node_capacity c n w) = w_links w.
Proof. intros c n w. unfold adjust_node_capacity. destruct (n_fcap _); auto. destruct (map _ _); auto. destruct (map _ _); auto. Qed.
Lemma adjust_ext : forall c n w x, w_links x = w_links w -> N x n = N w n -> N (adjust_node_capacity c n x) n = N (adjust_node_capacity c n w) n.
Proof.
  intros c n w x E1 E2. unfold adjust_node_capacity, L. rewrite E1, E2. destruct (n_fcap _); auto. destruct (map _ _); auto. destruct (map _ _); auto.
  rewrite !N_at, Nat.eqb_refl, E2. reflexivity.
Qed.
Lemma adjust_fold : forall c ns w n, NoDup ns ->
  N (fold_left (fun w n => adjust_node_capacity c n w) ns w) n = if mem n ns then N (adjust_node_capacity c n w) n else N w n.
Proof.
  intros c ns; induction ns as [|k ns IH]; intros w n ND; [reflexivity|]. inversion ND as [|? ? Hk ND']; subst. cbn [fold_left]. rewrite IH by exact ND'.
  destruct (mem n (k :: ns)) eqn:E1; destruct (mem n ns) eqn:E2.
  - apply mem_iff in E2. assert (n <> k) by (intro; subst; contradiction). apply adjust_ext; [apply adjust_links|apply adjust_other; assumption].
  - apply mem_iff in E1. apply mem_false in E2. destruct E1 as [-> |E1]; [reflexivity|contradiction].
  - exfalso. apply mem_false in E1. apply mem_iff in E2. apply E1. right. exact E2.
  - apply mem_false in E1. apply adjust_other. intro; subst; apply E1; left; reflexivity.
Qed.

Lemma finalize_node : forall c tm w w' n, finalize c tm w = Ok w' -> n < w_nn w ->
  N w' n = if c_adjust c then N (adjust_node_capacity c n w) n else N w n.
Proof.
  intros c tm w w' n H Hn. unfold finalize in H. cbn zeta in H. apply bind_ok in H. destruct H as (w1 & E & H). injection H as <-.
  set (w0 := sw_tsize _ _) in E.
  assert (P : w_nodes w1 = w_nodes w /\ w_nn w1 = w_nn w /\ (forall l, l_cap (L w1 l) = l_cap (L w l))).
  { apply (foldM_inv (fun x => w_nodes x = w_nodes w /\ w_nn x = w_nn w /\ (forall l, l_cap (L x l) = l_cap (L w l)))) in E; auto.
    intros l x x' _ (X1 & X2 & X3) K. unfold init_after_tmax_fix in K. cbn zeta in K.
    apply bind_ok in K. destruct K as (dx & _ & K). apply bind_ok in K. destruct K as (q1 & _ & K).
    apply bind_ok in K. destruct K as (q2 & _ & K). apply bind_ok in K. destruct K as (ff & _ & K). injection K as <-.
    repeat split; auto. intro k. rewrite L_at. destruct (Nat.eqb k l) eqn:El; [|auto]. apply Nat.eqb_eq in El. subst. apply X3. }
  clear E. destruct P as (P1 & P2 & P3).
  replace (seq 0 (w_nn w1)) with (seq 0 (w_nn w)) by (rewrite P2; reflexivity).
  set (x := sw_rcdist _ _). assert (Ex : w_nodes x = w_nodes w /\ w_nn x = w_nn w /\ (forall l, l_cap (L x l) = l_cap (L w l))) by (repeat split; auto).
  clearbody x. clear P1 P2 P3 w0 w1. destruct Ex as (P1 & P2 & P3).
  change (N (sw_final true (sw_avgcnt 0 (sw_avgspd 0%Q ?y))) n) with (N y n).
  destruct (c_adjust c); [|unfold N; rewrite P1; reflexivity].
  rewrite adjust_fold by apply seq_NoDup.
  rewrite (proj2 (mem_iff _ _)) by (apply in_seq; lia).
  unfold adjust_node_capacity. replace (N x n) with (N w n) by (unfold N; rewrite P1; reflexivity).
  rewrite (map_ext (fun l => l_cap (L x l)) (fun l => l_cap (L w l))) by exact P3.
  rewrite (map_ext (fun l => l_cap (L x l)) (fun l => l_cap (L w l)) P3 (n_out (N w n))).
  destruct (n_fcap _); [unfold N; rewrite P1; reflexivity|].
  destruct (map _ (n_in _)); [unfold N; rewrite P1; reflexivity|]. destruct (map _ (n_out _)); [unfold N; rewrite P1; reflexivity|].
  rewrite !N_at, Nat.eqb_refl. unfold N. rewrite P1. reflexivity.
Qed.

Theorem node_capacity_lemma : forall c tm w w' n, reach c w -> w_final w = false -> finalize c tm w = Ok w' -> exists_node w n ->
  (c_adjust c = false \/ n_fcap (N w n) <> None \/ n_in (N w n) = [] \/ n_out (N w n) = [] -> N w' n = N w n) /\
  (c_adjust c = true -> n_fcap (N w n) = None -> n_in (N w n) <> [] -> n_out (N w n) <> [] ->
   exists ci co q m, largest_cap w (n_in (N w n)) ci /\ largest_cap w (n_out (N w n)) co /\ (q == (ci + co) / 2)%Q /\
     n_fcap (N w' n) = Some q /\ (n_fcapr (N w' n) == q * dt c)%Q /\ n_lanes (N w' n) = Some m /\ lanes_for q m).
Proof.
  intros c tm w w' n R Ef H Hn. rewrite (finalize_node c tm w w' n H Hn). split.
  - intros [-> |K]; [reflexivity|]. destruct (c_adjust c); [|reflexivity]. unfold adjust_node_capacity.
    destruct (n_fcap (N w n)); [reflexivity|]. destruct K as [K|[-> | ->]]; [congruence|reflexivity|]. cbn [map]. destruct (map _ _); reflexivity.
  - intros -> E1 E2 E3. pose proof (reach_lanes c w R Ef n Hn E1) as E4. unfold adjust_node_capacity. rewrite E1.
    destruct (map _ (n_in (N w n))) as [|i is_] eqn:Ei; [apply map_eq_nil in Ei; contradiction|].
    destruct (map _ (n_out (N w n))) as [|o os] eqn:Eo; [apply map_eq_nil in Eo; contradiction|].
    exists (qmax_list i is_), (qmax_list o os), ((qmax_list i is_ + qmax_list o os) / 2)%Q, (auto_lanes ((qmax_list i is_ + qmax_list o os) / 2)).
    split; [apply largest_of; exact Ei|]. split; [apply largest_of; exact Eo|]. split; [reflexivity|].
    rewrite N_at, Nat.eqb_refl. rs. rewrite E4. repeat split; try reflexivity; apply auto_lanes_for.
Qed.
