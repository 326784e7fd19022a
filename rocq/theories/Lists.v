(** * Lists: facts about the list helpers of Base. *)
From Verif Require Import Base Types Sim.
From Coq Require Import Permutation.
Set Implicit Arguments.

Lemma last_opt_app : forall A (l : list A) x, last_opt (l ++ [x]) = Some x.
Proof.
  intros A l x; induction l as [|y l IH]; cbn; auto.
  destruct (l ++ [x]) eqn:E; auto. destruct l; discriminate.
Qed.

Lemma last_opt_nth : forall A (l : list A), last_opt l = nth_error l (List.length l - 1).
Proof.
  intros A l; induction l as [|x l IH]; cbn; auto.
  destruct l as [|y l]; auto. rewrite IH. cbn. rewrite Nat.sub_0_r. reflexivity.
Qed.

Lemma last_opt_nil : forall A (l : list A), last_opt l = None <-> l = [].
Proof.
  intros A l; split; intro H; [|now subst].
  destruct l as [|x l]; auto. rewrite last_opt_nth in H.
  apply nth_error_None in H. cbn in H. lia.
Qed.

Lemma from_end_nth : forall A (l : list A) k, 1 <= k <= List.length l ->
  from_end l k = nth_error l (List.length l - k).
Proof.
  intros A l k H. unfold from_end. destruct (k <=? List.length l) eqn:E; auto.
  apply Nat.leb_gt in E. lia.
Qed.

Lemma from_end_some : forall A (l : list A) k, 1 <= k <= List.length l ->
  exists x, from_end l k = Some x.
Proof.
  intros A l k H. rewrite from_end_nth by auto.
  destruct (nth_error l (List.length l - k)) eqn:E; eauto.
  apply nth_error_None in E. lia.
Qed.

Lemma In_nth_error_iff : forall A (l : list A) x, In x l <-> exists i, nth_error l i = Some x.
Proof.
  intros A l x; split.
  - apply In_nth_error.
  - intros (i & H). eapply nth_error_In; eauto.
Qed.

Lemma nth_error_lt : forall A (l : list A) i x, nth_error l i = Some x -> i < List.length l.
Proof. intros A l i x H. apply nth_error_Some. congruence. Qed.

Lemma nth_error_app_last : forall A (l : list A) x i y,
  nth_error (l ++ [x]) i = Some y ->
  (i < List.length l /\ nth_error l i = Some y) \/ (i = List.length l /\ y = x).
Proof.
  intros A l x i y H.
  destruct (Nat.lt_ge_cases i (List.length l)) as [Hi|Hi].
  - rewrite nth_error_app1 in H by auto. auto.
  - rewrite nth_error_app2 in H by auto. right.
    destruct (i - List.length l) eqn:E; cbn in H.
    + split; [lia|congruence].
    + destruct n; discriminate.
Qed.

Lemma NoDup_nth_inj : forall A (l : list A) i j x, NoDup l ->
  nth_error l i = Some x -> nth_error l j = Some x -> i = j.
Proof.
  intros A l i j x H Hi Hj. rewrite NoDup_nth_error in H. apply H.
  - eapply nth_error_lt; eauto.
  - congruence.
Qed.

Lemma remove_first_In : forall x y l, x <> y -> (In y (remove_first x l) <-> In y l).
Proof.
  intros x y l H; induction l as [|z l IH]; cbn; [tauto|].
  destruct (Nat.eqb x z) eqn:E.
  - apply Nat.eqb_eq in E; subst. split; intros; [auto|]. destruct H0; auto. congruence.
  - cbn. rewrite IH. tauto.
Qed.

Lemma remove_first_sub : forall x y l, In y (remove_first x l) -> In y l.
Proof.
  intros x y l; induction l as [|z l IH]; cbn; [tauto|].
  destruct (Nat.eqb x z); cbn; intuition.
Qed.

Lemma remove_first_NoDup : forall x l, NoDup l -> NoDup (remove_first x l) /\ ~ In x (remove_first x l).
Proof.
  intros x l H; induction l as [|z l IH]; cbn; [split; [constructor|tauto]|].
  inversion H; subst. destruct (IH H3) as [N1 N2].
  destruct (Nat.eqb x z) eqn:E.
  - apply Nat.eqb_eq in E; subst. auto.
  - apply Nat.eqb_neq in E. split.
    + constructor; auto. intro K. apply remove_first_sub in K. auto.
    + cbn. intros [K|K]; auto.
Qed.

Lemma NoDup_app_last : forall A (l : list A) x, NoDup l -> ~ In x l -> NoDup (l ++ [x]).
Proof.
  intros A l x H K. apply NoDup_Add with (a := x) (l := l); [|auto].
  rewrite <- (app_nil_r l) at 1. apply Add_app.
Qed.

Lemma add_last_spec : forall l d l', add_last l d = Some l' ->
  exists p z, l = p ++ [z] /\ l' = p ++ [(z + d)%Z].
Proof.
  intros l d; induction l as [|x l IH]; intros l' H; cbn in H; [discriminate|].
  destruct l as [|y l].
  - injection H as H; subst. exists [], x. auto.
  - destruct (add_last (y :: l) d) eqn:E; [|discriminate]. injection H as H; subst.
    destruct (IH _ eq_refl) as (p & z & E1 & E2). exists (x :: p), z. cbn. split; congruence.
Qed.

Lemma add_last_some : forall l d, l <> [] -> exists l', add_last l d = Some l'.
Proof.
  intros l d; induction l as [|x l IH]; intros H; [congruence|]. cbn.
  destruct l as [|y l]; [eauto|]. destruct IH as (l' & E); [discriminate|]. rewrite E. eauto.
Qed.

Lemma nodup_keep_spec : forall l seen x,
  In x (nodup_keep seen l) <-> In x l /\ ~ In x seen.
Proof.
  induction l as [|y l IH]; cbn; intros seen x; [tauto|].
  destruct (mem y seen) eqn:E.
  - rewrite IH. apply mem_iff in E. split; [tauto|]. intros [[->|H] K]; tauto.
  - apply mem_false in E. cbn. rewrite IH. cbn. split.
    + intros [->|[H K]]; auto.
    + intros [[->|H] K]; auto. destruct (Nat.eq_dec y x); auto. right; split; auto. intuition.
Qed.

Lemma nodup_keep_NoDup : forall l seen, NoDup (nodup_keep seen l).
Proof.
  induction l as [|y l IH]; cbn; intros seen; [constructor|].
  destruct (mem y seen); auto. constructor; auto.
  rewrite nodup_keep_spec. cbn. tauto.
Qed.

Lemma remove_nth_perm : forall A (l : list A) i x,
  nth_error l i = Some x -> Permutation l (x :: remove_nth i l).
Proof.
  intros A l; induction l as [|y l IH]; intros i x H; [destruct i; discriminate|].
  destruct i; cbn in *.
  - injection H as H; subst; auto.
  - apply IH in H. rewrite H at 1. apply perm_swap.
Qed.

Lemma shuffle_perm : forall A orc fuel k (l : list A), Permutation l (shuffle_n orc k fuel l).
Proof.
  intros A orc fuel; induction fuel; intros k l; cbn; auto.
  destruct (nth_error l _) eqn:E; auto.
  eapply perm_trans; [apply remove_nth_perm; exact E|]. constructor. apply IHfuel.
Qed.

Lemma insert_perm : forall A (ltb : A -> A -> bool) x l, Permutation (x :: l) (insert ltb x l).
Proof.
  intros A ltb x l; induction l as [|y l IH]; cbn; auto.
  destruct (ltb x y); auto. eapply perm_trans; [apply perm_swap|]. constructor. auto.
Qed.

Lemma sort_perm : forall A (ltb : A -> A -> bool) l, Permutation l (sort ltb l).
Proof.
  intros A ltb l; induction l as [|x l IH]; cbn; auto.
  eapply perm_trans; [constructor; exact IH|]. apply insert_perm.
Qed.

Lemma set_from_length : forall A (l : list A) i v, List.length (set_from l i v) = List.length l.
Proof.
  intros A l i v. unfold set_from. rewrite app_length, firstn_length, repeat_length. lia.
Qed.

Lemma nth_error_set_from : forall A (l : list A) i v j,
  nth_error (set_from l i v) j =
  if j <? i then nth_error l j else if j <? List.length l then Some v else None.
Proof.
  intros A l i v j. unfold set_from.
  destruct (j <? i) eqn:E.
  - apply Nat.ltb_lt in E. destruct (Nat.lt_ge_cases j (List.length l)).
    + rewrite nth_error_app1 by (rewrite firstn_length; lia).
      clear H. revert i j E. induction l; intros; destruct i, j; cbn; auto; try lia. apply IHl. lia.
    + replace (nth_error l j) with (@None A) by (symmetry; apply nth_error_None; lia).
      apply nth_error_None. rewrite app_length, firstn_length, repeat_length. lia.
  - apply Nat.ltb_ge in E. destruct (j <? List.length l) eqn:E2.
    + apply Nat.ltb_lt in E2. rewrite nth_error_app2 by (rewrite firstn_length; lia).
      rewrite firstn_length. rewrite nth_error_repeat; auto. lia.
    + apply Nat.ltb_ge in E2. apply nth_error_None.
      rewrite app_length, firstn_length, repeat_length. lia.
Qed.
