(** * Search: the cost matrix of RouteChoice.route_search_all and the first DUO update. *)
From Verif Require Import Base Types Sim Build Heap Lists Inv FrameBase Tac Frame Eff Eff2 Trace InvStep Reach Steps Effects Phases Spec SpecDuo Duo Merge FD Bucket.
Local Open Scope nat_scope.

Lemma foldM_snoc : forall A S (f : A -> S -> result S) xs x s s',
  foldM f (xs ++ [x]) s = Ok s' -> exists s1, foldM f xs s = Ok s1 /\ f x s1 = Ok s'.
Proof.
  intros A S f xs x s s' H. rewrite foldM_app in H. apply bind_ok in H. destruct H as (s1 & H1 & H2).
  exists s1. split; [exact H1|]. cbn [foldM] in H2. apply bind_ok in H2. destruct H2 as (s2 & H2 & H3). injection H3 as <-. exact H2.
Qed.

Definition between (w : world) (i j : nid) (k : nat) : list lid := filter (joins w i j) (seq 0 k).
Lemma between_S : forall w i j k, between w i j (S k) = between w i j k ++ (if joins w i j k then [k] else []).
Proof. intros. unfold between. rewrite seq_S, filter_app. cbn. reflexivity. Qed.

Record adj_ok (c : cfg) (w : world) (k : nat) (acc : (nid -> nid -> option Q) * (nid -> nid -> nat) * nat) : Prop := mkAdj {
  ad_cnt : forall i j, snd (fst acc) i j = List.length (between w i j k);
  ad_draw : snd acc = w_draw w + (if c_det c then 0 else k);
  ad_closed : forall i j, existsb (fun l => closed (L w l)) (between w i j k) = true -> fst (fst acc) i j = None;
  ad_open : forall i j, existsb (fun l => closed (L w l)) (between w i j k) = false ->
    exists q, fst (fst acc) i j = Some q /\ (between w i j k = [] -> q = 0%Q) /\
      (q * Qof_nat (List.length (between w i j k)) == qsum (map (link_cost c w) (between w i j k)))%Q }.

Lemma qsum_app' : forall a b, (qsum (a ++ b) == qsum a + qsum b)%Q.
Proof. induction a as [|x a IH]; intro b; cbn; [ring|]. rewrite IH. ring. Qed.

Lemma adj_step_ok : forall c w k acc acc', adj_ok c w k acc -> adj_step c w (now c w) acc k = Ok acc' -> adj_ok c w (S k) acc'.
Proof.
  intros c w k [[m cnt] dr] acc' [A1 A2 A3 A4] H. cbn [fst snd] in *. cbn [adj_step] in H. cbn zeta in H.
  apply bind_ok in H. destruct H as (itt & Hi & H). unfold of_opt in Hi.
  destruct (last_opt (l_tti (L w k))) as [d|] eqn:Ed; [|discriminate]. injection Hi as <-.
  assert (T : exists ntt dr', acc' = (upd2 m (l_start (L w k)) (l_end (L w k))
      (match l_cin (L w k) with Some ci => if qeq ci 0 then None else
          match m (l_start (L w k)) (l_end (L w k)) with Some q => Some (q * Qof_nat (cnt (l_start (L w k)) (l_end (L w k))) / (Qof_nat (cnt (l_start (L w k)) (l_end (L w k))) + 1) + ntt / (Qof_nat (cnt (l_start (L w k)) (l_end (L w k))) + 1))%Q | None => None end
        | None => match m (l_start (L w k)) (l_end (L w k)) with Some q => Some (q * Qof_nat (cnt (l_start (L w k)) (l_end (L w k))) / (Qof_nat (cnt (l_start (L w k)) (l_end (L w k))) + 1) + ntt / (Qof_nat (cnt (l_start (L w k)) (l_end (L w k))) + 1))%Q | None => None end end),
      upd2 cnt (l_start (L w k)) (l_end (L w k)) (S (cnt (l_start (L w k)) (l_end (L w k)))), dr')
      /\ ntt = link_cost c w k /\ dr' = dr + (if c_det c then 0 else 1)).
  { unfold link_cost, last_tt. rewrite Ed. destruct (c_det c).
    - injection H as <-. eexists _, _. split; [reflexivity|]. split; [reflexivity|lia].
    - injection H as <-. eexists _, _. split; [reflexivity|]. rewrite A2. split; [reflexivity|lia]. }
  clear H. destruct T as (ntt & dr' & -> & Hn & Hd).
  assert (Hc : forall x, match l_cin (L w k) with Some ci => if qeq ci 0 then None else x | None => x end = if closed (L w k) then None else x :> option Q).
  { intro x. unfold closed. destruct (l_cin (L w k)); reflexivity. }
  constructor; cbn [fst snd].
  - intros i j. rewrite between_S, app_length. unfold upd2, joins. rewrite (Nat.eqb_sym (l_start _)), (Nat.eqb_sym (l_end _)).
    destruct (Nat.eqb i (l_start (L w k))) eqn:E1; destruct (Nat.eqb j (l_end (L w k))) eqn:E2; cbn [andb]; rewrite ?A1; cbn [List.length]; try lia.
    apply Nat.eqb_eq in E1. apply Nat.eqb_eq in E2. subst. lia.
  - rewrite Hd, A2. destruct (c_det c); lia.
  - intros i j X. rewrite between_S, existsb_app in X. rewrite Hc. unfold upd2. unfold joins in X.
    rewrite (Nat.eqb_sym (l_start _)), (Nat.eqb_sym (l_end _)) in X.
    destruct (Nat.eqb i (l_start (L w k))) eqn:E1; destruct (Nat.eqb j (l_end (L w k))) eqn:E2; cbn [andb existsb] in *;
      rewrite ?orb_false_r in X; auto.
    apply Nat.eqb_eq in E1. apply Nat.eqb_eq in E2. subst i j. apply orb_true_iff in X. destruct X as [X | X].
    + rewrite (A3 _ _ X). destruct (closed _); reflexivity.
    + rewrite X. reflexivity.
  - intros i j X. rewrite between_S in X |- *. rewrite existsb_app in X. rewrite Hc. unfold upd2. unfold joins in X |- *.
    rewrite (Nat.eqb_sym (l_start _)), (Nat.eqb_sym (l_end _)) in X |- *.
    destruct (Nat.eqb i (l_start (L w k))) eqn:E1; destruct (Nat.eqb j (l_end (L w k))) eqn:E2; cbn [andb existsb] in *;
      rewrite ?orb_false_r in X; rewrite ?app_nil_r; auto.
    apply Nat.eqb_eq in E1. apply Nat.eqb_eq in E2. subst i j. apply orb_false_iff in X. destruct X as [X1 X2]. rewrite X2.
    destruct (A4 _ _ X1) as (q & -> & _ & Hq). eexists. split; [reflexivity|]. split; [intro E; destruct (between w (l_start (L w k)) (l_end (L w k)) k); discriminate|].
    rewrite A1, app_length, map_app, qsum_app'. cbn [map List.length qsum fold_right]. rewrite <- Hq, Nat.add_1_r, Qof_S, <- Hn.
    pose proof (Qof_nn (List.length (between w (l_start (L w k)) (l_end (L w k)) k))). unfold qsum. cbn. field. lra.
Qed.

Theorem search_lemma : forall c w w', route_search_all c w = Ok w' ->
  exists m, cost_matrix c w m /\ (w_rcdist w', w_rcnext w') = c_dijkstra c (w_nn w) m /\
    w_rcrec w' = w_rcrec w ++ [(w_T w, w_rcdist w')] /\ w_rcpref w' = w_rcpref w.
Proof.
  intros c w w' H. unfold route_search_all in H. apply bind_ok in H. destruct H as ([[m cnt] dr] & H1 & H).
  assert (A : adj_ok c w (w_nl w) (m, cnt, dr)).
  { clear H. remember (w_nl w) as n eqn:En. clear En. revert m cnt dr H1. induction n as [|n IH]; intros m cnt dr H1.
    - cbn [seq foldM] in H1. injection H1 as <- <- <-. constructor; cbn; auto; try discriminate.
      + destruct (c_det c); lia.
      + intros. exists 0%Q. split; [reflexivity|]. split; [reflexivity|ring].
    - rewrite seq_S in H1. apply foldM_snoc in H1. destruct H1 as ([[m1 cnt1] dr1] & H1 & H2).
      eapply adj_step_ok; [exact (IH _ _ _ H1)|exact H2]. }
  exists m. destruct (c_dijkstra c (w_nn w) m) as [d nx] eqn:Ed. injection H as <-.
  split; [|split; [reflexivity|split; reflexivity]].
  intros i j. destruct A as [A1 A2 A3 A4]. cbn [fst snd] in *.
  change (links_between w i j) with (between w i j (w_nl w)). split; [|split].
  - intro E. destruct (A4 i j) as (q & Hm & Hq & _); [rewrite E; reflexivity|]. rewrite Hm, (Hq E). reflexivity.
  - intros (l & Hl & Hc). apply A3. apply existsb_exists. exists l; auto.
  - intros Hn Hc. destruct (A4 i j) as (q & Hm & _ & Hq).
    { destruct (existsb _ _) eqn:E; auto. apply existsb_exists in E. destruct E as (l & Hl & E). rewrite (Hc _ Hl) in E. discriminate. }
    exists q. split; [exact Hm|]. rewrite <- Hq. field.
    destruct (between w i j (w_nl w)) as [|a t]; [congruence|]. cbn [List.length]. rewrite Qof_S. pose proof (Qof_nn (List.length t)). lra.
Qed.
