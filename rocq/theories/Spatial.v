(** * Spatial: nearest node and nodes in an area (C32). *)
From Coq Require Import QArith Lqa Sorted.
From Verif Require Import Base Types Sim Build Heap Tac Reach Spec.
Local Open Scope nat_scope.

(** (node.x-x)**2 + (node.y-y)**2 *)
Definition dist2 (w : world) (n : nid) (x y : Q) : Q := ((n_x (N w n) - x) * (n_x (N w n) - x) + (n_y (N w n) - y) * (n_y (N w n) - y))%Q.

(** [World.get_nearest_node], uxsim.py 2587-2610; the loop over [W.NODES] *)
Fixpoint nearest_loop (w : world) (x y : Q) (ns : list nid) (best : Q) (r : option nid) : option nid :=
  match ns with
  | [] => r
  | n :: ns => if qlt (dist2 w n x y) best then nearest_loop w x y ns (dist2 w n x y) (Some n) else nearest_loop w x y ns best r
  end.
Definition get_nearest_node (w : world) (x y : Q) : option nid := nearest_loop w x y (seq 0 (w_nn w)) (inject_Z (10 ^ 10)) None.

(** [World.get_nodes_in_area], 2612-2634 *)
Definition get_nodes_in_area (w : world) (x y r : Q) : list nid :=
  filter (fun n => qlt (dist2 w n x y) (r * r)) (seq 0 (w_nn w)).

Lemma nearest_inv : forall w x y ns best r n, nearest_loop w x y ns best r = Some n ->
  (r = Some n /\ (forall m, In m ns -> (best <= dist2 w m x y)%Q)) \/
  (exists a b, ns = a ++ n :: b /\ (dist2 w n x y < best)%Q /\ (forall m, In m a -> (dist2 w n x y < dist2 w m x y)%Q) /\
     (forall m, In m b -> (dist2 w n x y <= dist2 w m x y)%Q)).
Proof.
  intros w x y ns; induction ns as [|k ns IH]; intros best r n H; cbn [nearest_loop] in H.
  - left. split; [exact H|intros m []].
  - destruct (qlt _ _) eqn:E.
    + apply qlt_iff in E. destruct (IH _ _ _ H) as [(Hr & A)|(a & b & -> & A1 & A2 & A3)].
      * injection Hr as ->. right. exists [], ns. split; [reflexivity|]. split; [exact E|]. split; [intros m []|exact A].
      * right. exists (k :: a), b. split; [reflexivity|]. split; [lra|]. split; [|exact A3]. intros m [<- |Hm]; [exact A1|auto].
    + apply qlt_false in E. destruct (IH _ _ _ H) as [(Hr & A)|(a & b & -> & A1 & A2 & A3)].
      * left. split; [exact Hr|]. intros m [<- |Hm]; auto.
      * right. exists (k :: a), b. split; [reflexivity|]. split; [exact A1|]. split; [|exact A3]. intros m [<- |Hm]; [lra|auto].
Qed.
Lemma nearest_none : forall w x y ns best r, nearest_loop w x y ns best r = None -> r = None /\ forall m, In m ns -> (best <= dist2 w m x y)%Q.
Proof.
  intros w x y ns; induction ns as [|k ns IH]; intros best r H; cbn [nearest_loop] in H; [split; [exact H|intros m []]|].
  destruct (qlt _ _) eqn:E.
  - destruct (IH _ _ H) as [C _]. discriminate.
  - apply qlt_false in E. destruct (IH _ _ H) as [C A]. split; [exact C|]. intros m [<- |Hm]; auto.
Qed.

(** the node returned is at least as near as every other node and the first such node *)
Theorem nearest_lemma : forall w x y n, get_nearest_node w x y = Some n ->
  exists_node w n /\ (forall m, exists_node w m -> (dist2 w n x y <= dist2 w m x y)%Q) /\
  (forall m, m < n -> (dist2 w n x y < dist2 w m x y)%Q).
Proof.
  intros w x y n H. apply nearest_inv in H. destruct H as [(H & _)|(a & b & E & _ & A2 & A3)]; [discriminate|].
  assert (Ha : a = seq 0 (List.length a) /\ n = List.length a).
  { assert (Hn : nth_error (seq 0 (w_nn w)) (List.length a) = Some n) by (rewrite E, nth_error_app2, Nat.sub_diag by lia; reflexivity).
    assert (Hl : List.length a < w_nn w) by (rewrite <- (seq_length (w_nn w) 0), E, app_length; cbn; lia).
    split.
    - assert (Hf : firstn (List.length a) (seq 0 (w_nn w)) = a) by (rewrite E, firstn_app, Nat.sub_diag, firstn_all; cbn; apply app_nil_r).
      replace (w_nn w) with (List.length a + (w_nn w - List.length a)) in Hf by lia. rewrite seq_app, firstn_app, seq_length, Nat.sub_diag in Hf.
      rewrite firstn_all2, app_nil_r in Hf by (rewrite seq_length; lia). symmetry. exact Hf.
    - rewrite (nth_error_nth' _ 0) in Hn by (rewrite seq_length; exact Hl). rewrite seq_nth in Hn by exact Hl. injection Hn as <-. reflexivity. }
  destruct Ha as [Ha Hn].
  assert (Hin : In n (seq 0 (w_nn w))) by (rewrite E; apply in_or_app; right; left; auto). apply in_seq in Hin.
  split; [unfold exists_node; lia|]. split.
  - intros m Hm. unfold exists_node in Hm. assert (Hi : In m (seq 0 (w_nn w))) by (apply in_seq; lia). rewrite E in Hi.
    apply in_app_or in Hi. destruct Hi as [Hi|[<- |Hi]]; [apply Qlt_le_weak; auto|apply Qle_refl|auto].
  - intros m Hm. apply A2. rewrite Ha. apply in_seq. lia.
Qed.
(** nothing is returned only if every node is 10^5 or more away *)
Theorem nearest_none_lemma : forall w x y, get_nearest_node w x y = None <-> forall m, exists_node w m -> (inject_Z (10 ^ 10) <= dist2 w m x y)%Q.
Proof.
  intros w x y. split.
  - intros H m Hm. apply nearest_none in H. apply H. apply in_seq. unfold exists_node in Hm. lia.
  - intro H. destruct (get_nearest_node w x y) as [n|] eqn:E; [|reflexivity]. exfalso.
    apply nearest_inv in E. destruct E as [(E & _)|(a & b & E & A1 & _)]; [discriminate|].
    assert (Hin : In n (seq 0 (w_nn w))) by (rewrite E; apply in_or_app; right; left; auto). apply in_seq in Hin.
    specialize (H n ltac:(unfold exists_node; lia)). lra.
Qed.
Theorem area_lemma : forall w x y r,
  (forall n, In n (get_nodes_in_area w x y r) <-> exists_node w n /\ (dist2 w n x y < r * r)%Q) /\
  StronglySorted lt (get_nodes_in_area w x y r).
Proof.
  intros w x y r. split.
  - intro n. unfold get_nodes_in_area, exists_node. rewrite filter_In, in_seq, qlt_iff. intuition lia.
  - unfold get_nodes_in_area. generalize 0 (w_nn w). intros k m; revert k; induction m as [|m IH]; intro k; cbn [seq filter]; [constructor|].
    destruct (qlt _ _); [|apply IH]. constructor; [apply IH|]. apply Forall_forall. intros z Hz. apply filter_In in Hz. destruct Hz as [Hz _].
    apply in_seq in Hz. lia.
Qed.
