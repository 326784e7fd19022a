(** * ScenarioOK: loading a saved scenario recreates it (C29). *)
From Verif Require Import Base Types Sim Build Heap Lists Inv FrameBase Tac Frame Eff Eff2 Reach Steps Registry Scenario SpecScenario.
Local Open Scope nat_scope.

(** ** Constructors applied to their own attributes *)
Lemma new_node_again : forall c a nd, new_node c a = Ok nd ->
  new_node c (save_node nd) = Ok nd /\ n_in nd = [] /\ n_out nd = [] /\ n_name nd = na_name a.
Proof.
  intros c a nd H. unfold new_node in H. cbn zeta in H. apply bind_ok in H. destruct H as ([ph t0] & E & H). injection H as <-.
  split; [|cbn; auto]. unfold new_node, save_node. cbn [na_signal na_offset na_offset_old na_fcap na_lanes na_name na_x na_y n_signal n_offset n_fcap n_lanes n_name n_x n_y].
  rewrite E. cbn. destruct (na_fcap a) as [fc|]; [|reflexivity]. destruct (na_lanes a); reflexivity.
Qed.
Definition args_of (k : link) : link_args := mkLinkArgs (Some (l_name k)) (l_start k) (l_end k) (l_len k) (l_ffs k) (l_jam k) (l_jampl k) (l_lanes k) (l_prio k)
                (l_group k) (Some (l_cout k)) (l_cin k) (l_toll k) (l_eulardx k).
Lemma new_link_again : forall c a nm k, new_link c a nm = Ok k ->
  new_link c (args_of k) nm = Ok (restored c k) /\ l_name k = nm /\ l_start k = la_start a /\ l_end k = la_end a /\ l_cin k <> None /\
  (la_cin a <> None -> restored c k = k).
Proof.
  intros c a nm k H. unfold new_link in H. cbn zeta in H.
  apply bind_ok in H. destruct H as (kappa & E1 & H). apply bind_ok in H. destruct H as (tau & E2 & H). apply bind_ok in H. destruct H as (it & E3 & H).
  apply bind_ok in H. destruct H as (wsp & E4 & H). apply bind_ok in H. destruct H as (cap & E5 & H). apply bind_ok in H. destruct H as (delta & E6 & H).
  apply bind_ok in H. destruct H as (x & E7 & H). injection H as <-.
  split; [|cbn; repeat (split; [auto|])].
  - unfold new_link, args_of, restored. cbn [la_lanes la_ffs la_jampl la_jam la_cout la_cin la_len la_start la_end la_prio la_toll la_group la_eulardx
      l_name l_start l_end l_len l_lanes l_u l_kappa l_tau l_w l_cap l_delta l_dpl l_ffs l_jam l_jampl l_prio l_toll l_group l_cout l_cin l_eulardx].
    rewrite E1. cbn [bind]. rewrite E2. cbn [bind]. rewrite E3. cbn [bind]. rewrite E4. cbn [bind]. rewrite E5. cbn [bind]. rewrite E6. cbn [bind]. rewrite E7. cbn [bind].
    destruct (la_cin a); reflexivity.
  - destruct (la_cin a); discriminate.
  - intro Hc. unfold restored. cbn. destruct (la_cin a); [reflexivity|congruence].
Qed.

(** ** Worlds under construction *)
Definition starts (w : world) (n : nid) : list lid := filter (fun l => l_start (L w l) =? n) (seq 0 (w_nl w)).
Definition ends (w : world) (n : nid) : list lid := filter (fun l => l_end (L w l) =? n) (seq 0 (w_nl w)).

Record Built (c : cfg) (w : world) : Prop := mkBuilt {
  bu_node : forall n, n < w_nn w -> exists b, new_node c (save_node b) = Ok b /\ N w n = sn_in (ends w n) (sn_out (starts w n) b);
  bu_link : forall l, l < w_nl w -> new_link c (args_of (L w l)) (l_name (L w l)) = Ok (restored c (L w l)) /\ l_start (L w l) < w_nn w /\ l_end (L w l) < w_nn w;
  bu_nodes : NoDup (node_names w);
  bu_links : NoDup (link_names w) }.

Lemma built_empty : forall c tm, Built c (empty_world tm).
Proof. intros c tm. constructor; try (intros n Hn; cbn in Hn; lia); constructor. Qed.

Lemma names_snoc' : forall (f : nat -> string) n, map f (seq 0 (S n)) = map f (seq 0 n) ++ [f n].
Proof. intros. rewrite seq_S, map_app. reflexivity. Qed.
Lemma smem_false : forall s l, smem s l = false -> ~ In s l.
Proof.
  intros s l H K. unfold smem in H. assert (existsb (String.eqb s) l = true); [|congruence]. apply existsb_exists. exists s. split; [exact K|apply String.eqb_refl].
Qed.
Lemma smem_out : forall s l, ~ In s l -> smem s l = false.
Proof.
  intros s l H. destruct (smem s l) eqn:E; [|reflexivity]. elim H. unfold smem in E. apply existsb_exists in E. destruct E as (x & K1 & K2). apply String.eqb_eq in K2. congruence.
Qed.

Lemma filter_nil : forall A (f : A -> bool) l, (forall x, In x l -> f x = false) -> filter f l = [].
Proof. intros A f l H. induction l as [|a l IH]; [reflexivity|]. cbn. rewrite (H a) by (left; reflexivity). apply IH. intros. apply H. right. auto. Qed.

(** the world after adding a node or a link *)
Definition with_node (nd : node) (w : world) : world := sw_nn (S (w_nn w)) (sw_nodes (upd (w_nodes w) (w_nn w) nd) w).
Definition with_link (k : link) (w : world) : world :=
  modn (l_end k) (fun nd => sn_in (n_in nd ++ [w_nl w]) nd) (modn (l_start k) (fun nd => sn_out (n_out nd ++ [w_nl w]) nd)
    (sw_nl (S (w_nl w)) (sw_links (upd (w_links w) (w_nl w) k) w))).
Lemma with_node_N : forall nd w n, N (with_node nd w) n = if Nat.eqb n (w_nn w) then nd else N w n.
Proof. intros. unfold with_node, N, upd. cbn. rewrite Nat.eqb_sym. destruct (Nat.eqb (w_nn w) n) eqn:E; destruct (Nat.eqb n (w_nn w)) eqn:E2; try reflexivity; rewrite Nat.eqb_sym in E; congruence. Qed.
Lemma with_node_L : forall nd w l, L (with_node nd w) l = L w l.
Proof. reflexivity. Qed.
Lemma with_link_L : forall k w l, L (with_link k w) l = if Nat.eqb l (w_nl w) then k else L w l.
Proof. intros. unfold with_link, L, upd, modn. cbn. destruct (Nat.eqb (w_nl w) l) eqn:E; destruct (Nat.eqb l (w_nl w)) eqn:E2; try reflexivity; rewrite Nat.eqb_sym in E; congruence. Qed.
Lemma with_link_N : forall k w n, N (with_link k w) n =
  (fun a => if Nat.eqb n (l_end k) then sn_in (n_in a ++ [w_nl w]) a else a) (if Nat.eqb n (l_start k) then sn_out (n_out (N w n) ++ [w_nl w]) (N w n) else N w n).
Proof. intros. unfold with_link. rewrite !N_at. cbn [N w_nodes sw_nl sw_links]. reflexivity. Qed.

Lemma add_node_ok : forall c a w w', add_node c a w = Ok w' <-> exists nd, new_node c a = Ok nd /\ ~ In (na_name a) (node_names w) /\ w' = with_node nd w.
Proof.
  intros c a w w'. unfold add_node. split.
  - intro H. apply bind_ok in H. destruct H as (nd & E & H). destruct (smem (na_name a) (node_names w)) eqn:Es; [discriminate|]. injection H as <-.
    exists nd. split; [exact E|]. split; [apply smem_false; exact Es|reflexivity].
  - intros (nd & E & Hn & ->). rewrite E. cbn [bind]. rewrite smem_out by exact Hn. reflexivity.
Qed.
Lemma add_link_ok : forall c a w w', add_link c a w = Ok w' <->
  exists k, new_link c a (link_name_of w a) = Ok k /\ la_start a < w_nn w /\ la_end a < w_nn w /\ ~ In (link_name_of w a) (link_names w) /\ w' = with_link k w.
Proof.
  intros c a w w'. unfold add_link. split.
  - intro H. destruct (la_start a <? w_nn w) eqn:E1; [|discriminate]. destruct (la_end a <? w_nn w) eqn:E2; [|discriminate]. cbn [negb andb] in H. cbn zeta in H.
    apply bind_ok in H. destruct H as (k & E & H). destruct (smem _ _) eqn:Es; [discriminate|]. injection H as <-.
    apply Nat.ltb_lt in E1, E2. destruct (new_link_again _ _ _ _ E) as (_ & _ & K1 & K2 & _).
    exists k. split; [exact E|]. split; [exact E1|]. split; [exact E2|]. split; [apply smem_false; exact Es|]. unfold with_link. rewrite K1, K2. reflexivity.
  - intros (k & E & H1 & H2 & Hn & ->). apply Nat.ltb_lt in H1, H2. rewrite H1, H2. cbn [negb andb]. cbn zeta. rewrite E. cbn [bind]. rewrite smem_out by exact Hn.
    destruct (new_link_again _ _ _ _ E) as (_ & _ & K1 & K2 & _). unfold with_link. rewrite K1, K2. reflexivity.
Qed.

Lemma names_same : forall (f g : nat -> string) n, (forall i, i < n -> f i = g i) -> map f (seq 0 n) = map g (seq 0 n).
Proof. intros. apply map_ext_in. intros i Hi. apply in_seq in Hi. apply H. lia. Qed.
Lemma with_node_names : forall nd w, node_names (with_node nd w) = node_names w ++ [n_name nd] /\ link_names (with_node nd w) = link_names w.
Proof.
  intros nd w. split; [|reflexivity]. unfold node_names. change (w_nn (with_node nd w)) with (S (w_nn w)). rewrite names_snoc'. f_equal.
  - apply names_same. intros i Hi. rewrite with_node_N. replace (Nat.eqb i (w_nn w)) with false; [reflexivity|]. symmetry. apply Nat.eqb_neq. lia.
  - rewrite with_node_N, Nat.eqb_refl. reflexivity.
Qed.
Lemma with_link_name : forall k w n, n_name (N (with_link k w) n) = n_name (N w n).
Proof. intros. rewrite with_link_N. destruct (Nat.eqb n (l_end k)), (Nat.eqb n (l_start k)); reflexivity. Qed.
Lemma with_link_save : forall k w n, save_node (N (with_link k w) n) = save_node (N w n).
Proof. intros. rewrite with_link_N. destruct (Nat.eqb n (l_end k)), (Nat.eqb n (l_start k)); reflexivity. Qed.
Lemma with_link_names : forall k w, link_names (with_link k w) = link_names w ++ [l_name k] /\ node_names (with_link k w) = node_names w.
Proof.
  intros k w. split.
  - unfold link_names. change (w_nl (with_link k w)) with (S (w_nl w)). rewrite names_snoc'. f_equal.
    + apply names_same. intros i Hi. rewrite with_link_L. replace (Nat.eqb i (w_nl w)) with false; [reflexivity|]. symmetry. apply Nat.eqb_neq. lia.
    + rewrite with_link_L, Nat.eqb_refl. reflexivity.
  - unfold node_names. change (w_nn (with_link k w)) with (w_nn w). apply names_same. intros i _. apply with_link_name.
Qed.
Lemma NoDup_snoc' : forall (l : list string) x, NoDup l -> ~ In x l -> NoDup (l ++ [x]).
Proof. exact nodup_snoc. Qed.

Lemma built_node : forall c w nd, Built c w -> new_node c (save_node nd) = Ok nd -> ~ In (n_name nd) (node_names w) -> Built c (with_node nd w).
Proof.
  intros c w nd [B1 B2 B3 B4] H Hn. destruct (with_node_names nd w) as [E1 E2].
  destruct (new_node_again _ _ _ H) as (_ & Hi & Ho & _). constructor.
  - intros n Hl. change (w_nn (with_node nd w)) with (S (w_nn w)) in Hl. rewrite with_node_N. change (ends (with_node nd w) n) with (ends w n). change (starts (with_node nd w) n) with (starts w n).
    destruct (Nat.eqb_spec n (w_nn w)) as [-> |Hne]; [|apply B1; lia]. exists nd. split; [exact H|].
    assert (X : starts w (w_nn w) = [] /\ ends w (w_nn w) = []).
    { split; apply filter_nil; intros l Hin; apply in_seq in Hin; apply Nat.eqb_neq; destruct (B2 l ltac:(lia)) as (_ & K1 & K2); lia. }
    destruct X as [-> ->]. destruct nd; cbn in *. subst. reflexivity.
  - intros l Hl. rewrite with_node_L. destruct (B2 l Hl) as (K1 & K2 & K3). change (w_nn (with_node nd w)) with (S (w_nn w)). split; [exact K1|split; lia].
  - rewrite E1. apply nodup_snoc; auto.
  - rewrite E2. exact B4.
Qed.
Lemma starts_snoc : forall k w n, starts (with_link k w) n = starts w n ++ (if Nat.eqb n (l_start k) then [w_nl w] else []) /\
  ends (with_link k w) n = ends w n ++ (if Nat.eqb n (l_end k) then [w_nl w] else []).
Proof.
  intros k w n. unfold starts, ends. change (w_nl (with_link k w)) with (S (w_nl w)). rewrite !seq_S, !filter_app, !Nat.add_0_l. cbn [filter]. rewrite with_link_L, Nat.eqb_refl.
  rewrite (Nat.eqb_sym n (l_start k)), (Nat.eqb_sym n (l_end k)).
  split; f_equal; apply filter_ext_in; intros l Hl; apply in_seq in Hl; rewrite with_link_L; (replace (Nat.eqb l (w_nl w)) with false; [reflexivity|symmetry; apply Nat.eqb_neq; lia]).
Qed.
Lemma built_link : forall c w k, Built c w -> new_link c (args_of k) (l_name k) = Ok (restored c k) -> l_start k < w_nn w -> l_end k < w_nn w ->
  ~ In (l_name k) (link_names w) -> Built c (with_link k w).
Proof.
  intros c w k [B1 B2 B3 B4] H Hs He Hn. destruct (with_link_names k w) as [E1 E2]. constructor.
  - intros n Hl. change (w_nn (with_link k w)) with (w_nn w) in Hl. destruct (B1 n Hl) as (b & K1 & K2). exists b. split; [exact K1|].
    destruct (starts_snoc k w n) as [-> ->]. rewrite with_link_N, K2. destruct (Nat.eqb n (l_end k)), (Nat.eqb n (l_start k)); rewrite ?app_nil_r; destruct b; reflexivity.
  - intros l Hl. change (w_nl (with_link k w)) with (S (w_nl w)) in Hl. change (w_nn (with_link k w)) with (w_nn w). rewrite with_link_L.
    destruct (Nat.eqb_spec l (w_nl w)) as [-> |Hne]; [auto|]. apply B2. lia.
  - rewrite E2. exact B3.
  - rewrite E1. apply nodup_snoc; auto.
Qed.

(** ** Loading the nodes *)
Lemma dict_nodes : forall w n, NoDup (node_names w) -> n < w_nn w -> dict_get (node_dict w) (n_name (N w n)) = Some n.
Proof.
  intros w n Nd Hn. pose proof (lookup_own (fun n => n_name (N w n)) (w_nn w) Nd n Hn) as K. unfold lookup in K. fold (node_dict w) in K.
  change (map (fun i => (n_name (N w i), i)) (seq 0 (w_nn w))) with (node_dict w) in K.
  destruct (dict_get (node_dict w) (n_name (N w n))); [congruence|discriminate].
Qed.

Lemma foldM_app' : forall A S (f : A -> S -> result S) xs ys s, foldM f (xs ++ ys) s = (s1 <- foldM f xs s ;; foldM f ys s1).
Proof. intros A S f xs; induction xs as [|x xs IH]; intros ys s; cbn; [reflexivity|]. destruct (f x s); cbn; auto. Qed.

Lemma rest_node : forall nd w, rest (with_node nd w) = rest w.
Proof. reflexivity. Qed.
Lemma rest_link : forall k w, rest (with_link k w) = rest w.
Proof. reflexivity. Qed.

Lemma net_built : forall c nets s s', Forall adds_network nets -> foldM (perform c) nets s = Ok s' -> Built c (fst s) ->
  Built c (fst s') /\ rest (fst s') = rest (fst s) /\ snd s' = snd s.
Proof.
  intros c nets; induction nets as [|a nets IH]; intros s s' F H B; cbn [foldM] in H.
  - injection H as <-. auto.
  - apply bind_ok in H. destruct H as ([w1 i1] & E & H). inversion F as [|? ? Fa Fn]; subst.
    assert (X : Built c w1 /\ rest w1 = rest (fst s) /\ i1 = snd s).
    { destruct Fa as [[x ->]|[x ->]]; cbn [perform apply_op] in E; apply bind_ok in E; destruct E as (w2 & E & K); injection K as <- <-.
      - apply add_node_ok in E. destruct E as (nd & E1 & E2 & ->). destruct (new_node_again _ _ _ E1) as (K1 & _ & _ & K2).
        split; [apply built_node; auto; rewrite K2; exact E2|auto].
      - apply add_link_ok in E. destruct E as (k & E1 & E2 & E3 & E4 & ->). destruct (new_link_again _ _ _ _ E1) as (K1 & K2 & K3 & K4 & _).
        split; [|auto]. apply built_link; auto; rewrite ?K2, ?K3, ?K4; auto. }
    destruct X as (X1 & X2 & X3). destruct (IH (w1, i1) s' Fn H X1) as (Y1 & Y2 & Y3). cbn in Y2, Y3. split; [exact Y1|]. split; congruence.
Qed.

Lemma load_nodes : forall c tm w, Built c w -> forall k, k <= w_nn w ->
  exists w1, foldM (add_node c) (map (fun n => save_node (N w n)) (seq 0 k)) (empty_world tm) = Ok w1 /\ Built c w1 /\ w_nn w1 = k /\ w_nl w1 = 0 /\
    (forall n, n < k -> save_node (N w1 n) = save_node (N w n)) /\ rest w1 = rest (empty_world tm).
Proof.
  intros c tm w B k. induction k as [|k IH]; intro Hk.
  - exists (empty_world tm). split; [reflexivity|]. split; [apply built_empty|]. repeat split. intros; lia.
  - destruct (IH ltac:(lia)) as (w1 & E & B1 & H1 & H2 & H3 & H4). rewrite seq_S, map_app, foldM_app', E. cbn [bind map foldM Nat.add].
    destruct (bu_node _ _ B k ltac:(lia)) as (b & K1 & K2).
    assert (Es : save_node (N w k) = save_node b) by (rewrite K2; destruct b; reflexivity).
    assert (Hn : ~ In (n_name b) (node_names w1)).
    { intro Hin. apply in_map_iff in Hin. destruct Hin as (j & Ej & Hj). apply in_seq in Hj. specialize (H3 j ltac:(lia)).
      assert (Ek : n_name (N w j) = n_name (N w k)).
      { transitivity (na_name (save_node (N w j))); [reflexivity|]. rewrite <- H3. cbn. rewrite Ej. rewrite K2. destruct b; reflexivity. }
      pose proof (names_inj (fun n => n_name (N w n)) (w_nn w) (bu_nodes _ _ B) j k ltac:(lia) ltac:(lia) Ek). lia. }
    exists (with_node b w1). split.
    { rewrite Es. replace (add_node c (save_node b) w1) with (Ok (with_node b w1)); [reflexivity|]. symmetry. apply add_node_ok. exists b. auto. }
    split; [apply built_node; auto|]. split; [change (S (w_nn w1) = S k); congruence|]. split; [exact H2|]. split; [|exact H4].
    intros n Hl. rewrite with_node_N. destruct (Nat.eqb_spec n (w_nn w1)) as [-> |Hne]; [rewrite H1; symmetry; exact Es|]. apply H3. lia.
Qed.

Lemma restored_twice : forall c k, restored c (restored c k) = restored c k /\ args_of (restored c k) = args_of k /\ l_name (restored c k) = l_name k /\
  l_start (restored c k) = l_start k /\ l_end (restored c k) = l_end k.
Proof. intros c k. unfold restored, args_of. destruct k; cbn. destruct l_cin; repeat split. Qed.

Lemma load_links : forall c w w1, Built c w -> Built c w1 -> w_nn w1 = w_nn w -> w_nl w1 = 0 -> (forall n, n < w_nn w -> save_node (N w1 n) = save_node (N w n)) ->
  forall k, k <= w_nl w ->
  exists w2, foldM (load_link c) (map (fun l => save_link w (L w l)) (seq 0 k)) w1 = Ok w2 /\ Built c w2 /\ w_nn w2 = w_nn w /\ w_nl w2 = k /\
    (forall n, n < w_nn w -> save_node (N w2 n) = save_node (N w n)) /\ (forall l, l < k -> L w2 l = restored c (L w l)) /\ rest w2 = rest w1.
Proof.
  intros c w w1 B B1 Hn Hl Hs k. induction k as [|k IH]; intro Hk.
  - exists w1. split; [reflexivity|]. repeat (split; [auto; fail|]). split; [intros; lia|reflexivity].
  - destruct (IH ltac:(lia)) as (w2 & E & B2 & H1 & H2 & H3 & H4 & H5). rewrite seq_S, map_app, foldM_app', E. cbn [bind map foldM Nat.add].
    destruct (bu_link _ _ B k ltac:(lia)) as (K1 & K2 & K3). destruct (restored_twice c (L w k)) as (Z1 & Z2 & Z3 & Z4 & Z5).
    assert (Nm : forall n, n < w_nn w -> n_name (N w n) = n_name (N w2 n)).
    { intros n Hl'. transitivity (na_name (save_node (N w n))); [reflexivity|]. rewrite <- H3 by exact Hl'. reflexivity. }
    assert (Nw : ~ In (l_name (L w k)) (link_names w2)).
    { intro Hin. apply in_map_iff in Hin. destruct Hin as (j & Ej & Hj). apply in_seq in Hj. rewrite H4 in Ej by lia.
      destruct (restored_twice c (L w j)) as (_ & _ & Y & _). rewrite Y in Ej.
      pose proof (names_inj (fun l => l_name (L w l)) (w_nl w) (bu_links _ _ B) j k ltac:(lia) ltac:(lia) Ej). lia. }
    exists (with_link (restored c (L w k)) w2). split.
    { assert (Lk : load_link c (save_link w (L w k)) w2 = Ok (with_link (restored c (L w k)) w2)).
      { unfold load_link, save_link. rewrite (Nm _ K2), (Nm _ K3). rewrite !dict_nodes by (try apply (bu_nodes _ _ B2); lia). cbn [of_opt bind].
        apply add_link_ok. exists (restored c (L w k)). change (link_name_of w2 _) with (l_name (L w k)). split; [exact K1|].
        cbn [la_start la_end]. rewrite H1. auto. }
      rewrite Lk. reflexivity. }
    split; [apply built_link; rewrite ?Z1, ?Z2, ?Z3, ?Z4, ?Z5, ?H1; auto|].
    split; [exact H1|]. split; [change (S (w_nl w2) = S k); congruence|].
    split; [intros n Hl'; rewrite with_link_save; apply H3; exact Hl'|]. split; [|exact H5].
    intros l Hl'. rewrite with_link_L. destruct (Nat.eqb_spec l (w_nl w2)) as [-> |Hne]; [rewrite H2; reflexivity|]. apply H4. lia.
Qed.

Lemma built_same : forall c w w2, Built c w -> Built c w2 -> w_nn w2 = w_nn w -> w_nl w2 = w_nl w ->
  (forall n, n < w_nn w -> save_node (N w2 n) = save_node (N w n)) -> (forall l, l < w_nl w -> L w2 l = restored c (L w l)) ->
  forall n, n < w_nn w -> N w2 n = N w n.
Proof.
  intros c w w2 B B2 Hn Hl Hs HL n Hlt. destruct (bu_node _ _ B n Hlt) as (b & K1 & K2). destruct (bu_node _ _ B2 n ltac:(lia)) as (b2 & K3 & K4).
  assert (save_node b2 = save_node b).
  { transitivity (save_node (N w2 n)); [rewrite K4; destruct b2; reflexivity|]. rewrite Hs by exact Hlt. rewrite K2. destruct b; reflexivity. }
  assert (b2 = b) by congruence. subst b2. rewrite K4, K2. unfold ends, starts. rewrite Hl.
  f_equal; [|f_equal]; apply filter_ext_in; intros l Hin; apply in_seq in Hin; rewrite HL by lia; destruct (restored_twice c (L w l)) as (_ & _ & _ & Z4 & Z5); rewrite ?Z4, ?Z5; reflexivity.
Qed.

(** ** Demand *)
Definition alike (w w' : world) : Prop := w_nn w' = w_nn w /\ w_nl w' = w_nl w /\ (forall n, n < w_nn w -> N w' n = N w n) /\ rest w' = rest w.
Definition still (w w1 : world) : Prop := w_nn w1 = w_nn w /\ w_nl w1 = w_nl w /\ w_nodes w1 = w_nodes w /\ w_links w1 = w_links w.
Lemma still_refl : forall w, still w w.
Proof. repeat split. Qed.
Lemma still_trans : forall a b d, still a b -> still b d -> still a d.
Proof. intros a b d (A1 & A2 & A3 & A4) (B1 & B2 & B3 & B4). repeat split; congruence. Qed.
(** [w1] arises from [w] as [w1'] from [w'] *)
Definition follows (w' : world) (w1 : world) (r : result world) : Prop := exists w1', r = Ok w1' /\ alike w1 w1' /\ still w' w1'.

Lemma add_vehicle_like : forall c a w w1 w', alike w w' -> add_vehicle c a w = Ok w1 -> still w w1 /\ follows w' w1 (add_vehicle c a w').
Proof.
  intros c a w w1 w' (A1 & A2 & A3 & A4) H. unfold add_vehicle in *. unfold rest in A4. injection A4 as R1 R2 R3 R4 R5 R6 R7 R8 R9 R10 R11 R12 R13 R14 R15 R16 R17 R18 R19 R20.
  assert (Nv : veh_names w' = veh_names w) by (unfold veh_names, V; rewrite R1, R3; reflexivity).
  assert (Nk : node_ok w' (va_dest a) = node_ok w (va_dest a)) by (unfold node_ok; rewrite A1; reflexivity).
  rewrite A1, A2, Nk. destruct (negb _); [discriminate|]. cbn zeta in *. rewrite R1, R13, Nv. destruct (smem _ _); [discriminate|]. injection H as <-.
  split; [repeat split|]. eexists. split; [reflexivity|]. split; [|repeat split]. unfold alike. cbn. split; [exact A1|]. split; [exact A2|]. split; [exact A3|].
  unfold rest. cbn. rewrite R2, R3, R4, R5, R6, R7, R8, R9, R10, R11, R12, R14, R15, R16, R17, R18, R19, R20. reflexivity.
Qed.
Lemma emit_like : forall c a fuel f w w' g w1, alike w w' -> emit c a fuel f w = Ok (g, w1) ->
  still w w1 /\ exists w1', emit c a fuel f w' = Ok (g, w1') /\ alike w1 w1' /\ still w' w1'.
Proof.
  intros c a fuel; induction fuel as [|k IH]; intros f w w' g w1 A H; cbn [emit] in *.
  - destruct (qle (dN c) f); [discriminate|]. injection H as <- <-. split; [apply still_refl|]. exists w'. split; [reflexivity|]. split; [exact A|apply still_refl].
  - destruct (qle (dN c) f); [|injection H as <- <-; split; [apply still_refl|]; exists w'; split; [reflexivity|]; split; [exact A|apply still_refl]].
    apply bind_ok in H. destruct H as (w2 & E & H). destruct (add_vehicle_like _ _ _ _ _ A E) as (S1 & w2' & E' & A' & S1').
    destruct (IH _ _ _ _ _ A' H) as (S2 & w3' & E3 & A3 & S3). split; [eapply still_trans; eauto|]. exists w3'. rewrite E'. cbn [bind]. split; [exact E3|]. split; [exact A3|eapply still_trans; eauto].
Qed.
Lemma demand_loop_like : forall c o d fl ts f w w' g w1, alike w w' -> demand_loop c o d fl ts f w = Ok (g, w1) ->
  still w w1 /\ exists w1', demand_loop c o d fl ts f w' = Ok (g, w1') /\ alike w1 w1' /\ still w' w1'.
Proof.
  intros c o d fl ts; induction ts as [|t ts IH]; intros f w w' g w1 A H; cbn [demand_loop] in *.
  - injection H as <- <-. split; [apply still_refl|]. exists w'. split; [reflexivity|]. split; [exact A|apply still_refl].
  - cbn zeta in *. apply bind_ok in H. destruct H as ([f2 w2] & E & H). destruct (emit_like _ _ _ _ _ _ _ _ A E) as (S1 & w2' & E' & A' & S1').
    destruct (IH _ _ _ _ _ A' H) as (S2 & w3' & E3 & A3 & S3). split; [eapply still_trans; eauto|]. exists w3'. rewrite E'. cbn [bind]. split; [exact E3|]. split; [exact A3|eapply still_trans; eauto].
Qed.
Lemma adddemand_like : forall c o d t0 t1 fl vol w w' w1, alike w w' -> adddemand c o d t0 t1 fl vol w = Ok w1 ->
  still w w1 /\ follows w' w1 (adddemand c o d t0 t1 fl vol w').
Proof.
  intros c o d t0 t1 fl vol w w' w1 A H. unfold adddemand in *. apply bind_ok in H. destruct H as (q & E & H). apply bind_ok in H. destruct H as ([g w2] & E2 & H). injection H as <-.
  destruct (demand_loop_like _ _ _ _ _ _ _ _ _ _ A E2) as (S1 & w2' & E' & A' & S1'). split; [exact S1|]. exists w2'. rewrite E. cbn [bind]. rewrite E'. cbn [bind]. auto.
Qed.

Lemma fold_left_ext_in : forall A B (f g : A -> B -> A) l a, (forall x b, In b l -> f x b = g x b) -> fold_left f l a = fold_left g l a.
Proof. intros A B f g l; induction l as [|b l IH]; intros a H; cbn; [reflexivity|]. rewrite H by (left; reflexivity). apply IH. intros. apply H. right. auto. Qed.
Lemma like_dict : forall w w', alike w w' -> node_dict w' = node_dict w.
Proof. intros w w' (A1 & _ & A3 & _). unfold node_dict. rewrite A1. apply map_ext_in. intros n Hn. apply in_seq in Hn. rewrite A3 by lia. reflexivity. Qed.
Lemma like_nearest : forall w w' x y, alike w w' -> nearest_node w' x y = nearest_node w x y.
Proof.
  intros w w' x y (A1 & _ & A3 & _). unfold nearest_node. rewrite A1. f_equal. apply fold_left_ext_in. intros b n Hn. apply in_seq in Hn. unfold nearer_node, sqdist. rewrite A3 by lia. reflexivity.
Qed.
Lemma like_area : forall w w' x y r, alike w w' -> in_area w' x y r = in_area w x y r.
Proof. intros w w' x y r (A1 & _ & A3 & _). unfold in_area. rewrite A1. apply filter_ext_in. intros n Hn. apply in_seq in Hn. unfold sqdist. rewrite A3 by lia. reflexivity. Qed.
Lemma like_filter : forall w w' (f : node -> bool) ns, alike w w' -> (forall n, In n ns -> n < w_nn w) -> filter (fun n => f (N w' n)) ns = filter (fun n => f (N w n)) ns.
Proof. intros w w' f ns (_ & _ & A3 & _) H. apply filter_ext_in. intros n Hn. rewrite A3 by auto. reflexivity. Qed.
Lemma area_lt : forall w x y r n, In n (in_area w x y r) -> n < w_nn w.
Proof. intros w x y r n H. apply filter_In in H. destruct H as [H _]. apply in_seq in H. lia. Qed.
Lemma node_ids_lt : forall w ss ns, node_ids w ss = Ok ns -> forall n, In n ns -> n < w_nn w.
Proof.
  intros w ss; induction ss as [|s ss IH]; intros ns H n Hn; cbn in H; [injection H as <-; destruct Hn|].
  apply bind_ok in H. destruct H as (k & E & H). apply bind_ok in H. destruct H as (l & E2 & H). injection H as <-.
  destruct Hn as [<- |Hn]; [|eapply IH; eauto]. apply of_opt_ok in E. apply dict_get_some in E. apply in_map_iff in E. destruct E as (i & E & Hi). injection E as _ <-. apply in_seq in Hi. lia.
Qed.
Lemma like_ids : forall w w' ss, alike w w' -> node_ids w' ss = node_ids w ss.
Proof. intros w w' ss A. induction ss as [|s ss IH]; cbn; [reflexivity|]. rewrite (like_dict _ _ A), IH. reflexivity. Qed.

Lemma pairs_like : forall c t0 t1 fl vol ps w w' w1, alike w w' -> foldM (fun p => adddemand c (fst p) (snd p) t0 t1 fl vol) ps w = Ok w1 ->
  still w w1 /\ follows w' w1 (foldM (fun p => adddemand c (fst p) (snd p) t0 t1 fl vol) ps w').
Proof.
  intros c t0 t1 fl vol ps; induction ps as [|p ps IH]; intros w w' w1 A H; cbn [foldM] in *.
  - injection H as <-. split; [apply still_refl|]. exists w'. split; [reflexivity|]. split; [exact A|apply still_refl].
  - apply bind_ok in H. destruct H as (w2 & E & H). destruct (adddemand_like _ _ _ _ _ _ _ _ _ _ A E) as (S1 & w2' & E' & A' & S1').
    destruct (IH _ _ _ A' H) as (S2 & w3' & E3 & A3 & S3). split; [eapply still_trans; eauto|]. exists w3'. rewrite E'. cbn [bind]. split; [exact E3|]. split; [exact A3|eapply still_trans; eauto].
Qed.
Lemma demand_pairs_like : forall c os ds t0 t1 fl vol w w' w1, alike w w' -> demand_pairs c os ds t0 t1 fl vol w = Ok w1 ->
  still w w1 /\ follows w' w1 (demand_pairs c os ds t0 t1 fl vol w').
Proof.
  intros c os ds t0 t1 fl vol w w' w1 A H. unfold demand_pairs in *. apply bind_ok in H. destruct H as (f & E1 & H). apply bind_ok in H. destruct H as (g & E2 & H).
  rewrite E1. cbn [bind]. rewrite E2. cbn [bind]. apply pairs_like with (w := w); auto.
Qed.
Lemma call_like : forall c d w w' w1, alike w w' -> call_demand c d w = Ok w1 -> still w w1 /\ follows w' w1 (call_demand c d w').
Proof.
  intros c d w w' w1 A H. destruct d; cbn [call_demand] in *.
  - unfold node_id in *. rewrite (like_dict _ _ A). replace (w_nn w') with (w_nn w) by (symmetry; apply A). apply adddemand_like; auto.
  - rewrite !(like_nearest _ _ _ _ A). apply bind_ok in H. destruct H as (o & E1 & H). apply bind_ok in H. destruct H as (d & E2 & H).
    rewrite E1. cbn [bind]. rewrite E2. cbn [bind]. apply adddemand_like; auto.
  - rewrite !(like_area _ _ _ _ _ A). unfold or_nearest in *. rewrite !(like_nearest _ _ _ _ A).
    rewrite (like_filter w w' (fun a => nonempty (n_out a))) by (try exact A; intros n Hn; exact (area_lt _ _ _ _ _ Hn)). rewrite (like_filter w w' (fun a => nonempty (n_in a))) by (try exact A; intros n Hn; exact (area_lt _ _ _ _ _ Hn)).
    apply bind_ok in H. destruct H as (os & E1 & H). apply bind_ok in H. destruct H as (ds & E2 & H). rewrite E1. cbn [bind]. rewrite E2. cbn [bind]. apply demand_pairs_like; auto.
  - rewrite !(like_ids _ _ _ A). apply bind_ok in H. destruct H as (os' & E1 & H). apply bind_ok in H. destruct H as (ds' & E2 & H). rewrite E1. cbn [bind]. rewrite E2. cbn [bind].
    rewrite (like_filter w w' (fun a => nonempty (n_out a))) by (try exact A; intros n Hn; exact (node_ids_lt _ _ _ E1 n Hn)). rewrite (like_filter w w' (fun a => nonempty (n_in a))) by (try exact A; intros n Hn; exact (node_ids_lt _ _ _ E2 n Hn)).
    apply demand_pairs_like; auto.
Qed.
Lemma demands_like : forall c ds w i w' w1 i1, alike w w' -> foldM (perform c) (map ADemand ds) (w, i) = Ok (w1, i1) ->
  still w w1 /\ exists w1', foldM (perform c) (map ADemand ds) (w', i) = Ok (w1', i1) /\ alike w1 w1' /\ still w' w1'.
Proof.
  intros c ds; induction ds as [|d ds IH]; intros w i w' w1 i1 A H; cbn [map foldM] in *.
  - injection H as <- <-. split; [apply still_refl|]. exists w'. split; [reflexivity|]. split; [exact A|apply still_refl].
  - apply bind_ok in H. destruct H as ([w2 i2] & E & H). cbn [perform fst snd] in *. apply bind_ok in E. destruct E as (w3 & E & K). injection K as <- <-.
    destruct (call_like _ _ _ _ _ A E) as (S1 & w2' & E' & A' & S1').
    destruct (IH _ _ _ _ _ A' H) as (S2 & w3' & E3 & A3 & S3). split; [eapply still_trans; eauto|]. exists w3'. rewrite E'. cbn [bind]. split; [exact E3|]. split; [exact A3|eapply still_trans; eauto].
Qed.

(** ** The round trip *)
Lemma still_save : forall w w1 i, still w w1 -> save (w1, i) = mkScenario (sc_nodes (save (w, i))) (sc_links (save (w, i))) i.
Proof. intros w w1 i (A1 & A2 & A3 & A4). unfold save. cbn [fst snd sc_nodes sc_links]. unfold save_link, N, L. rewrite A1, A2, A3, A4. reflexivity. Qed.

Theorem roundtrip_lemma : forall c tm nets ds w i, Forall adds_network nets ->
  foldM (perform c) (nets ++ map ADemand ds) (empty_world tm, []) = Ok (w, i) -> calls_of i = ds ->
  exists w', load c (save (w, i)) (empty_world tm, []) = Ok (w', i) /\ recreated c w w'.
Proof.
  intros c tm nets ds w i F H Hc. rewrite foldM_app' in H. apply bind_ok in H. destruct H as ([w0 i0] & E & H).
  destruct (net_built c nets _ _ F E (built_empty c tm)) as (B & Hr & Hi). cbn [fst snd] in B, Hr, Hi. subst i0.
  destruct (load_nodes c tm w0 B (w_nn w0) ltac:(lia)) as (w1 & E1 & B1 & N1 & L1 & S1 & R1).
  destruct (load_links c w0 w1 B B1 N1 L1 S1 (w_nl w0) ltac:(lia)) as (w2 & E2 & B2 & N2 & L2 & S2 & K2 & R2).
  pose proof (built_same c w0 w2 B B2 N2 L2 S2 K2) as NN.
  assert (A : alike w0 w2) by (split; [exact N2|]; split; [exact L2|]; split; [exact NN|congruence]).
  destruct (demands_like c ds w0 [] w2 w i A H) as (St & w' & E3 & (A1 & A2 & A3 & A4) & St').
  exists w'. split.
  - unfold load. rewrite (still_save _ _ i St). cbn [sc_nodes sc_links sc_demand]. change (fst (empty_world tm, @nil (nat * list dcall))) with (empty_world tm).
    change (sc_nodes (save (w0, i))) with (map (fun n => save_node (N w0 n)) (seq 0 (w_nn w0))). rewrite E1. cbn [bind].
    change (sc_links (save (w0, i))) with (map (fun l => save_link w0 (L w0 l)) (seq 0 (w_nl w0))). rewrite E2. cbn [bind]. rewrite Hc. exact E3.
  - destruct St as (T1 & T2 & T3 & T4). destruct St' as (U1 & U2 & U3 & U4).
    split; [exact A1|]. split; [exact A2|]. split; [exact A3|]. split; [|exact A4]. intros l Hl. unfold L. rewrite U4, T4. apply K2. congruence.
Qed.

Lemma one_kind_calls : forall c ds w i w1 i1, one_kind ds -> foldM (perform c) (map ADemand ds) (w, i) = Ok (w1, i1) ->
  i = [] -> calls_of i1 = ds.
Proof.
  assert (X : forall c ds w i w1 i1, foldM (perform c) (map ADemand ds) (w, i) = Ok (w1, i1) -> forall k es, i = [(k, es)] -> (forall d, In d ds -> kind d = k) -> calls_of i1 = es ++ ds).
  { intros c ds; induction ds as [|d ds IH]; intros w i w1 i1 H k es -> Hk; cbn [map foldM] in H.
    - injection H as <- <-. reflexivity.
    - apply bind_ok in H. destruct H as ([w2 i2] & E & H). cbn [perform fst snd] in E. apply bind_ok in E. destruct E as (w3 & E & K). injection K as <- <-.
      cbn [record_call] in H. rewrite (Hk d) in H by (left; reflexivity). rewrite Nat.eqb_refl in H.
      erewrite IH; [|exact H|reflexivity|intros; apply Hk; right; auto]. rewrite <- app_assoc. reflexivity. }
  intros c ds w i w1 i1 Hk H ->. destruct ds as [|d ds]; cbn [map foldM] in H; [injection H as <- <-; reflexivity|].
  apply bind_ok in H. destruct H as ([w2 i2] & E & H). cbn [perform fst snd] in E. apply bind_ok in E. destruct E as (w3 & E & K). injection K as <- <-.
  cbn [record_call] in H. erewrite X; [|exact H|reflexivity|]; [reflexivity|]. intros e He. apply Hk; cbn; auto.
Qed.
Lemma net_info : forall c nets s s', Forall adds_network nets -> foldM (perform c) nets s = Ok s' -> snd s' = snd s.
Proof.
  intros c nets; induction nets as [|a nets IH]; intros s s' F H; cbn [foldM] in H; [injection H as <-; reflexivity|].
  apply bind_ok in H. destruct H as ([w1 i1] & E & H). inversion F as [|? ? Fa Fn]; subst. rewrite (IH _ _ Fn H). cbn [snd].
  destruct Fa as [[x ->]|[x ->]]; cbn [perform] in E; apply bind_ok in E; destruct E as (w2 & E & K); injection K as <- <-; reflexivity.
Qed.
Theorem one_kind_lemma : forall c tm nets ds w i, Forall adds_network nets -> one_kind ds ->
  foldM (perform c) (nets ++ map ADemand ds) (empty_world tm, []) = Ok (w, i) -> calls_of i = ds.
Proof.
  intros c tm nets ds w i F Hk H. rewrite foldM_app' in H. apply bind_ok in H. destruct H as ([w0 i0] & E & H).
  pose proof (net_info _ _ _ _ F E) as K. cbn in K. subst i0. eapply one_kind_calls; eauto.
Qed.

(** ** With nodes first and given inflow capacities, the loaded World is the same *)
Lemma nodes_again : forall c ns s s', Forall adds_node ns -> foldM (perform c) ns s = Ok s' ->
  foldM (add_node c) (map (fun n => save_node (N (fst s') n)) (seq (w_nn (fst s)) (List.length ns))) (fst s) = Ok (fst s') /\
  w_nn (fst s') = w_nn (fst s) + List.length ns /\ w_nl (fst s') = w_nl (fst s) /\ (forall n, n < w_nn (fst s) -> N (fst s') n = N (fst s) n) /\ (NoDup (node_names (fst s)) -> NoDup (node_names (fst s'))).
Proof.
  intros c ns; induction ns as [|a ns IH]; intros s s' F H; cbn [foldM List.length seq map] in *.
  - injection H as <-. rewrite Nat.add_0_r. repeat split; auto.
  - apply bind_ok in H. destruct H as ([w1 i1] & E & H). inversion F as [|? ? Fa Fn]; subst. destruct Fa as [x ->]. cbn [perform apply_op] in E.
    apply bind_ok in E. destruct E as (w2 & E & K). injection K as <- <-. apply add_node_ok in E. destruct E as (nd & E1 & E2 & ->).
    destruct (IH _ _ Fn H) as (I1 & I2 & I3 & I4 & I5). cbn [fst snd] in *. change (w_nn (with_node nd (fst s))) with (S (w_nn (fst s))) in *.
    destruct (new_node_again _ _ _ E1) as (K1 & _ & _ & K2).
    split.
    { rewrite (I4 (w_nn (fst s))) by lia. rewrite with_node_N, Nat.eqb_refl.
      replace (add_node c (save_node nd) (fst s)) with (Ok (with_node nd (fst s))); [exact I1|]. symmetry. apply add_node_ok. exists nd. cbn [save_node na_name]. rewrite K2. auto. }
    split; [lia|]. split; [exact I3|]. split.
    + intros n Hn. rewrite I4 by lia. rewrite with_node_N. replace (Nat.eqb n (w_nn (fst s))) with false; [reflexivity|symmetry; apply Nat.eqb_neq; lia].
    + intro Nd. apply I5. destruct (with_node_names nd (fst s)) as [-> _]. apply nodup_snoc; [exact Nd|]. rewrite K2. exact E2.
Qed.
Lemma links_again : forall c ls s s', Forall adds_link_cin ls -> NoDup (node_names (fst s)) -> foldM (perform c) ls s = Ok s' ->
  foldM (load_link c) (map (fun l => save_link (fst s') (L (fst s') l)) (seq (w_nl (fst s)) (List.length ls))) (fst s) = Ok (fst s') /\
  w_nl (fst s') = w_nl (fst s) + List.length ls /\ w_nn (fst s') = w_nn (fst s) /\ (forall l, l < w_nl (fst s) -> L (fst s') l = L (fst s) l) /\
  (forall n, save_node (N (fst s') n) = save_node (N (fst s) n)).
Proof.
  intros c ls; induction ls as [|a ls IH]; intros s s' F Nd H; cbn [foldM List.length seq map] in *.
  - injection H as <-. rewrite Nat.add_0_r. repeat split; auto.
  - apply bind_ok in H. destruct H as ([w1 i1] & E & H). inversion F as [|? ? Fa Fn]; subst. destruct Fa as (x & -> & Hx). cbn [perform apply_op] in E.
    apply bind_ok in E. destruct E as (w2 & E & K). injection K as <- <-. apply add_link_ok in E. destruct E as (k & E1 & E2 & E3 & E4 & ->).
    assert (Nd' : NoDup (node_names (with_link k (fst s)))) by (destruct (with_link_names k (fst s)) as [_ ->]; exact Nd).
    destruct (IH (with_link k (fst s), snd s) s' Fn Nd' H) as (I1 & I2 & I3 & I4 & I5). cbn [fst snd] in *. change (w_nl (with_link k (fst s))) with (S (w_nl (fst s))) in *.
    change (w_nn (with_link k (fst s))) with (w_nn (fst s)) in *.
    destruct (new_link_again _ _ _ _ E1) as (K1 & K2 & K3 & K4 & _ & K6). specialize (K6 Hx). rewrite K6 in K1.
    assert (Nm : forall n, n_name (N (fst s') n) = n_name (N (fst s) n)).
    { intro n. transitivity (na_name (save_node (N (fst s') n))); [reflexivity|]. rewrite I5, with_link_save. reflexivity. }
    split.
    { rewrite (I4 (w_nl (fst s))) by lia. rewrite with_link_L, Nat.eqb_refl.
      replace (load_link c (save_link (fst s') k) (fst s)) with (Ok (with_link k (fst s))); [exact I1|]. symmetry.
      unfold load_link, save_link. rewrite !Nm. rewrite !dict_nodes by (auto; rewrite ?K3, ?K4; auto). cbn [of_opt bind].
      apply add_link_ok. exists k. cbn [la_start la_end]. change (link_name_of (fst s) _) with (l_name k). split; [change (new_link c (args_of k) (l_name k) = Ok k); rewrite K2; exact K1|].
      rewrite K3, K4, K2. auto. }
    split; [lia|]. split; [exact I3|]. split.
    + intros l Hl. rewrite I4 by lia. rewrite with_link_L. replace (Nat.eqb l (w_nl (fst s))) with false; [reflexivity|symmetry; apply Nat.eqb_neq; lia].
    + intro n. rewrite I5. apply with_link_save.
Qed.

Theorem identical_lemma : forall c tm ns ls ds w i, Forall adds_node ns -> Forall adds_link_cin ls ->
  foldM (perform c) (ns ++ ls ++ map ADemand ds) (empty_world tm, []) = Ok (w, i) -> calls_of i = ds ->
  load c (save (w, i)) (empty_world tm, []) = Ok (w, i).
Proof.
  intros c tm ns ls ds w i Fn Fl H Hc. rewrite foldM_app' in H. apply bind_ok in H. destruct H as ([w1 i1] & E1 & H).
  rewrite foldM_app' in H. apply bind_ok in H. destruct H as ([w2 i2] & E2 & H).
  destruct (nodes_again _ _ _ _ Fn E1) as (N1 & N2 & N3 & N4 & N5). cbn [fst snd] in *. specialize (N5 ltac:(constructor)).
  destruct (links_again _ _ (w1, i1) (w2, i2) Fl N5 E2) as (L1 & L2 & L3 & L4 & L5). cbn [fst snd] in *.
  assert (Hi : i2 = []).
  { assert (F2 : Forall adds_network (ns ++ ls)).
    { apply Forall_app. split; [eapply Forall_impl; [|exact Fn]; intros a [x ->]; left; eauto|eapply Forall_impl; [|exact Fl]; intros a (x & -> & _); right; eauto]. }
    assert (E : foldM (perform c) (ns ++ ls) (empty_world tm, []) = Ok (w2, i2)) by (rewrite foldM_app', E1; exact E2).
    exact (net_info _ _ _ _ F2 E). }
  subst i2.
  assert (A : alike w2 w2) by (repeat split).
  destruct (demands_like c ds w2 [] w2 w i A H) as (St & _).
  unfold load. rewrite (still_save _ _ i St). cbn [sc_nodes sc_links sc_demand]. change (fst (empty_world tm, @nil (nat * list dcall))) with (empty_world tm).
  change (sc_nodes (save (w2, i))) with (map (fun n => save_node (N w2 n)) (seq 0 (w_nn w2))).
  change (sc_links (save (w2, i))) with (map (fun l => save_link w2 (L w2 l)) (seq 0 (w_nl w2))).
  rewrite L3, N2, L2, N3. change (w_nn (empty_world tm)) with 0 in *. change (w_nl (empty_world tm)) with 0 in *. rewrite !Nat.add_0_l.
  rewrite (map_ext (fun n => save_node (N w2 n)) (fun n => save_node (N w1 n))) by exact L5.
  rewrite N1. cbn [bind]. rewrite N3 in L1. rewrite L1. cbn [bind]. rewrite Hc. exact H.
Qed.
