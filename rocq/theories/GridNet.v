(** * GridNet: the network that generate_grid_network builds (C71). *)
From Coq Require Import Ascii.
From Verif Require Import Base Types Sim Build Heap Lists Inv FrameBase Tac Frame Eff Eff2 Trace InvStep Reach Steps Registry Spec SpecDuo SpecRoutes Grid.
Local Open Scope nat_scope.

(** ** One call of addNode or addLink *)
Definition cell_rec (c : cfg) (p : cell) : node :=
  mkNode (cell_name p) (Qof_nat (fst p)) (Qof_nat (snd p)) [0%Q] 0 0 0 (qsum [0%Q]) [] (Some (16 # 10)) ((16 # 10) * dt c)
    (Some (auto_lanes (16 # 10))) [] [] [] [].
Lemma cell_new : forall c p, new_node c (cell_args p) = Ok (cell_rec c p).
Proof. reflexivity. Qed.
Lemma add_cell : forall c p w, add_node c (cell_args p) w =
  if smem (cell_name p) (node_names w) then Err ValueError else Ok (added_node (cell_rec c p) w).
Proof. intros. unfold add_node. rewrite cell_new. reflexivity. Qed.
Lemma added_node_names : forall nd w, node_names (added_node nd w) = node_names w ++ [n_name nd].
Proof.
  intros nd w. unfold node_names, added_node. cbn [w_nn sw_nn]. rewrite names_snoc. f_equal.
  - apply names_ext. intros i Hi. unfold N; cbn. rewrite upd_other by lia. auto.
  - unfold N; cbn. rewrite upd_same. auto.
Qed.
Lemma added_link_names : forall s e k w, link_names (added_link s e k w) = link_names w ++ [l_name k].
Proof.
  intros s e k w. unfold link_names. change (w_nl (added_link s e k w)) with (S (w_nl w)). rewrite names_snoc. f_equal.
  - apply names_ext. intros i Hi. unfold added_link, L, modn; cbn. rewrite upd_other by lia. auto.
  - unfold added_link, L, modn; cbn. rewrite upd_same. auto.
Qed.

(** what a link made with the keyword arguments is like *)
Record made (kw : link_args) (nm : string) (s e : nid) (k : link) : Prop := {
  md_name : l_name k = nm; md_start : l_start k = s; md_end : l_end k = e;
  md_len : l_len k = la_len kw; md_u : l_u k = la_ffs kw; md_lanes : l_lanes k = la_lanes kw }.
Lemma new_made : forall c kw b jmax e nm k, new_link c (edge_args kw b jmax e) nm = Ok k ->
  made kw nm (cell_node b jmax (fst e)) (cell_node b jmax (snd e)) k.
Proof.
  intros c kw b jmax e nm k E. unfold new_link in E. cbv zeta in E.
  repeat (apply bind_ok in E; let x := fresh "x" in destruct E as (x & _ & E)). injection E as <-. constructor; reflexivity.
Qed.
(** whether the arguments of a link are acceptable does not depend on the nodes or the name *)
Definition acceptable (c : cfg) (kw : link_args) : Prop := exists k, new_link c kw "" = Ok k.
Lemma acceptable_edge : forall c kw b jmax e nm, acceptable c kw -> exists k, new_link c (edge_args kw b jmax e) nm = Ok k.
Proof.
  intros c kw b jmax e nm [k E]. unfold new_link in *. cbv zeta in *.
  cbn [edge_args la_name la_start la_end la_len la_ffs la_jam la_jampl la_lanes la_prio la_group la_cout la_cin la_toll la_eulardx].
  repeat (apply bind_ok in E; let x := fresh "x" in let H := fresh "E" in destruct E as (x & H & E); rewrite H; cbn [bind]).
  eexists. reflexivity.
Qed.

(** ** The nodes *)
Lemma nodes_run : forall c ps w w', foldM (fun p w => add_node c (cell_args p) w) ps w = Ok w' ->
  w_nn w' = w_nn w + List.length ps /\ (forall n, n < w_nn w -> N w' n = N w n) /\
  (forall k p, nth_error ps k = Some p -> N w' (w_nn w + k) = cell_rec c p) /\
  w_nl w' = w_nl w /\ w_links w' = w_links w.
Proof.
  intros c. induction ps as [|p ps IH]; intros w w' E; cbn [foldM] in E.
  - injection E as <-. cbn. split; [lia|]. split; [auto|]. split; [intros [|k] p H; discriminate|auto].
  - apply bind_ok in E. destruct E as (w1 & E1 & E). rewrite add_cell in E1. destruct (smem _ _); [discriminate|]. injection E1 as <-.
    destruct (IH _ _ E) as (A & B & D & F & G). change (w_nn (added_node (cell_rec c p) w)) with (S (w_nn w)) in *.
    split; [cbn; lia|]. split; [|split].
    + intros n Hn. rewrite B by lia. unfold N, added_node; cbn. apply upd_other. lia.
    + intros [|k] q H.
      * injection H as <-. rewrite Nat.add_0_r, B by lia. unfold N, added_node; cbn. apply upd_same.
      * cbn in H. rewrite <- (D k q H). f_equal. lia.
    + auto.
Qed.
Lemma nodes_ok : forall c ps w, NoDup ps -> (forall p, In p ps -> ~ In (cell_name p) (node_names w)) ->
  exists w', foldM (fun p w => add_node c (cell_args p) w) ps w = Ok w'.
Proof.
  intros c. induction ps as [|p ps IH]; intros w Hn H; cbn [foldM]; [eauto|]. inversion Hn as [|? ? Hp Hps]; subst.
  rewrite add_cell, (proj2 (smem_false _ _) (H p (or_introl eq_refl))). cbn [bind]. apply IH; auto.
  intros q Hq. rewrite added_node_names, in_app_iff. intros [K|[K|[]]]; [exact (H q (or_intror Hq) K)|].
  apply cell_name_inj in K. subst. auto.
Qed.

(** ** The links *)
Lemma add_edge : forall c kw b jmax e w w', add_link c (edge_args kw b jmax e) w = Ok w' ->
  exists k, new_link c (edge_args kw b jmax e) (edge_name e) = Ok k /\ ~ In (edge_name e) (link_names w) /\
    cell_node b jmax (fst e) < w_nn w /\ cell_node b jmax (snd e) < w_nn w /\
    w' = added_link (cell_node b jmax (fst e)) (cell_node b jmax (snd e)) k w.
Proof.
  intros c kw b jmax e w w' E. unfold add_link in E.
  destruct (negb _) eqn:Eb; [discriminate|]. apply Bool.negb_false_iff, andb_prop in Eb. destruct Eb as [E1 E2].
  apply Nat.ltb_lt in E1, E2. cbv zeta in E. change (link_name_of w (edge_args kw b jmax e)) with (edge_name e) in E.
  apply bind_ok in E. destruct E as (k & Ek & E). destruct (smem _ _) eqn:Es; [discriminate|]. injection E as <-.
  exists k. split; auto. split; [apply smem_false; auto|]. split; [auto|]. split; [auto|]. reflexivity.
Qed.
Lemma links_run : forall c kw b jmax es w w', foldM (fun e w => add_link c (edge_args kw b jmax e) w) es w = Ok w' ->
  w_nn w' = w_nn w /\ w_nl w' = w_nl w + List.length es /\ (forall l, l < w_nl w -> L w' l = L w l) /\
  (forall n, n < b -> N w' n = N w n) /\
  (forall n, n_name (N w' n) = n_name (N w n) /\ n_x (N w' n) = n_x (N w n) /\ n_y (N w' n) = n_y (N w n) /\
     n_fcap (N w' n) = n_fcap (N w n) /\ n_signal (N w' n) = n_signal (N w n)) /\
  (forall k e, nth_error es k = Some e ->
     made kw (edge_name e) (cell_node b jmax (fst e)) (cell_node b jmax (snd e)) (L w' (w_nl w + k))).
Proof.
  intros c kw b jmax. induction es as [|e es IH]; intros w w' E; cbn [foldM] in E.
  - injection E as <-. cbn. split; [auto|]. split; [lia|]. split; [auto|]. split; [auto|]. split; [auto|]. intros [|k] p H; discriminate.
  - apply bind_ok in E. destruct E as (w1 & E1 & E). apply add_edge in E1. destruct E1 as (k & Ek & _ & _ & _ & ->).
    destruct (IH _ _ E) as (A & B & D & F & G & H). clear IH E.
    change (w_nn (added_link (cell_node b jmax (fst e)) (cell_node b jmax (snd e)) k w)) with (w_nn w) in *.
    change (w_nl (added_link (cell_node b jmax (fst e)) (cell_node b jmax (snd e)) k w)) with (S (w_nl w)) in *.
    split; [auto|]. split; [cbn; lia|]. split; [|split; [|split]].
    + intros l Hl. rewrite D by lia. unfold added_link, L, modn; cbn. apply upd_other. lia.
    + intros n Hn. rewrite F by auto. unfold added_link. rewrite !N_at. unfold cell_node.
      rewrite (proj2 (Nat.eqb_neq n _)) by lia. rewrite (proj2 (Nat.eqb_neq n _)) by lia. reflexivity.
    + intros n. destruct (G n) as (G1 & G2 & G3 & G4 & G5). rewrite G1, G2, G3, G4, G5. unfold added_link. rewrite !N_at.
      destruct (n =? cell_node b jmax (fst e)); destruct (n =? cell_node b jmax (snd e)); auto.
    + intros [|i] f Hf.
      * injection Hf as <-. rewrite Nat.add_0_r, D by lia. unfold added_link, L, modn; cbn. rewrite upd_same. exact (new_made _ _ _ _ _ _ _ Ek).
      * cbn in Hf. replace (w_nl w + Datatypes.S i) with (Datatypes.S (w_nl w) + i) by lia. exact (H i f Hf).
Qed.
Lemma links_ok : forall c kw b jmax es w, acceptable c kw -> NoDup es -> (forall e, In e es -> ~ In (edge_name e) (link_names w)) ->
  (forall e, In e es -> cell_node b jmax (fst e) < w_nn w /\ cell_node b jmax (snd e) < w_nn w) ->
  exists w', foldM (fun e w => add_link c (edge_args kw b jmax e) w) es w = Ok w'.
Proof.
  intros c kw b jmax es w Ha. revert w. induction es as [|e es IH]; intros w Hn H Hb; cbn [foldM]; [eauto|]. inversion Hn as [|? ? Hp Hps]; subst.
  destruct (acceptable_edge c kw b jmax e (edge_name e) Ha) as [k Ek].
  assert (E : add_link c (edge_args kw b jmax e) w = Ok (added_link (cell_node b jmax (fst e)) (cell_node b jmax (snd e)) k w)).
  { unfold add_link. cbn [edge_args la_start la_end]. destruct (Hb e (or_introl eq_refl)) as [H1 H2].
    rewrite (proj2 (Nat.ltb_lt _ _) H1), (proj2 (Nat.ltb_lt _ _) H2). cbv zeta. cbn [negb andb].
    change (link_name_of w _) with (edge_name e). fold (edge_args kw b jmax e). rewrite Ek. cbn [bind].
    rewrite (proj2 (smem_false _ _) (H e (or_introl eq_refl))). reflexivity. }
  rewrite E. cbn [bind]. apply IH; auto.
  - intros f Hf. rewrite added_link_names, in_app_iff. intros [K|[K|[]]]; [exact (H f (or_intror Hf) K)|].
    rewrite (md_name _ _ _ _ _ (new_made _ _ _ _ _ _ _ Ek)) in K. apply edge_name_inj in K. subst. auto.
  - intros f Hf. change (w_nn (added_link (cell_node b jmax (fst e)) (cell_node b jmax (snd e)) k w)) with (w_nn w). apply Hb. right; auto.
Qed.

(** ** The network *)
Record grid_over (imax jmax : nat) (kw : link_args) (w w' : world) : Prop := {
  gr_nn : w_nn w' = w_nn w + imax * jmax;
  gr_nl : w_nl w' = w_nl w + 2 * ((imax - 1) * jmax + imax * (jmax - 1));
  gr_oldn : forall n, n < w_nn w -> N w' n = N w n;
  gr_oldl : forall l, l < w_nl w -> L w' l = L w l;
  gr_node : forall p, in_grid imax jmax p -> let n := N w' (cell_node (w_nn w) jmax p) in
    n_name n = cell_name p /\ n_x n = Qof_nat (fst p) /\ n_y n = Qof_nat (snd p) /\ n_fcap n = Some (16 # 10) /\ n_signal n = [0%Q];
  gr_link : forall k e, nth_error (edges imax jmax) k = Some e ->
    made kw (edge_name e) (cell_node (w_nn w) jmax (fst e)) (cell_node (w_nn w) jmax (snd e)) (L w' (w_nl w + k)) }.

Theorem grid_built : forall c imax jmax kw w w', generate_grid_network c imax jmax kw w = Ok w' -> grid_over imax jmax kw w w'.
Proof.
  intros c imax jmax kw w w' E. unfold generate_grid_network in E. apply bind_ok in E. destruct E as (w1 & E1 & E).
  destruct (nodes_run _ _ _ _ E1) as (A & B & D & F & G). destruct (links_run _ _ _ _ _ _ _ E) as (A' & B' & D' & F' & G' & H').
  rewrite cells_length in A. rewrite edges_length in B'. rewrite F in *. constructor.
  - lia.
  - auto.
  - intros n Hn. rewrite F' by auto. auto.
  - intros l Hl. rewrite D' by auto. unfold L. rewrite G. auto.
  - intros p Hp n. unfold n. destruct (G' (cell_node (w_nn w) jmax p)) as (-> & -> & -> & -> & ->).
    unfold cell_node. rewrite (D _ _ (nth_cells _ _ _ Hp)). cbn. auto.
  - auto.
Qed.

Theorem grid_succeeds : forall c imax jmax kw w, acceptable c kw ->
  (forall p, in_grid imax jmax p -> ~ In (cell_name p) (node_names w)) ->
  (forall e, ~ In (edge_name e) (link_names w)) ->
  exists w', generate_grid_network c imax jmax kw w = Ok w'.
Proof.
  intros c imax jmax kw w Ha Hn Hl. unfold generate_grid_network.
  destruct (nodes_ok c (cells imax jmax) w (nodup_cells _ _)) as [w1 E1]; [intros p Hp; apply Hn, in_cells; auto|]. rewrite E1. cbn [bind].
  destruct (nodes_run _ _ _ _ E1) as (A & _ & _ & F & G). rewrite cells_length in A. apply links_ok; auto.
  - apply nodup_edges.
  - intros e _. unfold link_names. rewrite F. unfold L. rewrite G. apply Hl.
  - intros [p q] He. apply in_edges in He. destruct He as (Hp & Hq & _). cbn [fst snd]. unfold cell_node. rewrite A.
    pose proof (cell_below _ _ _ Hp). pose proof (cell_below _ _ _ Hq). lia.
Qed.

(** ordinary arguments are acceptable *)
Theorem plain_acceptable : forall c kw, (0 < c_react c)%Q -> 1 <= la_lanes kw -> (0 < la_ffs kw)%Q -> (0 < la_jam kw)%Q -> la_jampl kw = None ->
  acceptable c kw.
Proof.
  intros c kw Hr Hm Hu Hk Hp. unfold acceptable, new_link. rewrite Hp. cbv zeta. cbn [bind]. unfold qdiv.
  assert (P : forall q, (0 < q)%Q -> qeq q 0 = false).
  { intros q Hq. destruct (qeq q 0) eqn:E; auto. apply qeq_iff in E. lra. }
  assert (M : (0 < Qof_nat (la_lanes kw))%Q) by (unfold Qof_nat, Qlt; cbn; lia).
  rewrite (P _ M). cbn [bind].
  assert (T : (0 < c_react c / Qof_nat (la_lanes kw))%Q) by (apply Qlt_shift_div_l; auto; lra).
  rewrite (P _ T). cbn [bind].
  assert (I : (0 < 1 / (c_react c / Qof_nat (la_lanes kw)))%Q) by (apply Qlt_shift_div_l; auto; lra).
  rewrite (P _ Hk). cbn [bind]. remember (1 / (c_react c / Qof_nat (la_lanes kw)) / la_jam kw)%Q as ws.
  assert (W : (0 < ws)%Q) by (subst; apply Qlt_shift_div_l; auto; lra).
  rewrite (P (la_ffs kw + ws)%Q) by lra. cbn [bind]. rewrite (P _ Hu). cbn [bind]. eexists. reflexivity.
Qed.

(** ** It is a grid *)
Lemma new_link_edge : forall imax jmax kw w w' l, grid_over imax jmax kw w w' -> w_nl w <= l -> exists_link w' l ->
  exists p q, nth_error (edges imax jmax) (l - w_nl w) = Some (p, q) /\ in_grid imax jmax p /\ in_grid imax jmax q /\ manhattan p q = 1 /\
    l_start (L w' l) = cell_node (w_nn w) jmax p /\ l_end (L w' l) = cell_node (w_nn w) jmax q.
Proof.
  intros imax jmax kw w w' l G Hl He. unfold exists_link in He. rewrite (gr_nl _ _ _ _ _ G) in He.
  destruct (nth_error (edges imax jmax) (l - w_nl w)) as [[p q]|] eqn:E; [|apply nth_error_None in E; rewrite edges_length in E; lia].
  exists p, q. split; auto. pose proof (nth_error_In _ _ E) as Hin. apply in_edges in Hin. destruct Hin as (A & B & M).
  split; auto. split; auto. split; auto. pose proof (gr_link _ _ _ _ _ G _ _ E) as K. replace (w_nl w + (l - w_nl w)) with l in K by lia.
  split; [exact (md_start _ _ _ _ _ K)|exact (md_end _ _ _ _ _ K)].
Qed.

Definition ends_known (w : world) : Prop := forall l, exists_link w l -> l_start (L w l) < w_nn w /\ l_end (L w l) < w_nn w.
Lemma reach_ends : forall c w, reach c w -> ends_known w.
Proof. intros c w R l Hl. destruct (reach_Inv2 _ _ R) as [[T _] _]. apply (t_ends T). exact Hl. Qed.

(** the links between two cells: one in each direction if they are neighbours, none otherwise *)
Theorem grid_links : forall c imax jmax kw w w' p q, reach c w -> generate_grid_network c imax jmax kw w = Ok w' ->
  in_grid imax jmax p -> in_grid imax jmax q ->
  List.length (links_between w' (cell_node (w_nn w) jmax p) (cell_node (w_nn w) jmax q)) = if manhattan p q =? 1 then 1 else 0.
Proof.
  intros c imax jmax kw w w' p q R E Hp Hq. pose proof (reach_ends _ _ R) as En. apply grid_built in E.
  assert (K : forall l, In l (links_between w' (cell_node (w_nn w) jmax p) (cell_node (w_nn w) jmax q)) <->
             exists k, l = w_nl w + k /\ nth_error (edges imax jmax) k = Some (p, q)).
  { intro l. unfold links_between, joins. rewrite filter_In, in_seq, andb_true_iff, !Nat.eqb_eq. split.
    - intros (Hl & H1 & H2). destruct (Nat.lt_ge_cases l (w_nl w)) as [C|C].
      + rewrite (gr_oldl _ _ _ _ _ E l C) in H1. destruct (En l C) as [H _]. unfold cell_node in H1. lia.
      + destruct (new_link_edge _ _ _ _ _ l E C) as (p' & q' & F & Hp' & Hq' & _ & S1 & S2); [unfold exists_link; lia|].
        exists (l - w_nl w). split; [lia|]. rewrite F. f_equal. f_equal; apply (cell_node_inj (w_nn w) imax jmax); auto; congruence.
    - intros (k & -> & F). pose proof (gr_link _ _ _ _ _ E _ _ F) as M. split; [|split; [exact (md_start _ _ _ _ _ M)|exact (md_end _ _ _ _ _ M)]].
      assert (k < List.length (edges imax jmax)) by (apply nth_error_Some; congruence). rewrite edges_length in *. rewrite (gr_nl _ _ _ _ _ E). lia. }
  assert (D : NoDup (links_between w' (cell_node (w_nn w) jmax p) (cell_node (w_nn w) jmax q))) by (apply NoDup_filter, seq_NoDup).
  destruct (links_between w' _ _) as [|l ls].
  - destruct (Nat.eqb_spec (manhattan p q) 1) as [M|M]; auto. exfalso.
    assert (I : In (p, q) (edges imax jmax)) by (apply in_edges; auto). apply In_nth_error in I. destruct I as [k F].
    apply (proj2 (K (w_nl w + k))). eauto.
  - destruct (proj1 (K l) (or_introl eq_refl)) as (k & -> & F).
    pose proof (nth_error_In _ _ F) as I. apply in_edges in I. destruct I as (_ & _ & M). rewrite M. cbn [Nat.eqb List.length].
    destruct ls as [|l' ls]; auto. exfalso.
    destruct (proj1 (K l') (or_intror (or_introl eq_refl))) as (k' & -> & F').
    assert (k = k'). { eapply NoDup_nth_error; [apply (nodup_edges imax jmax)|apply nth_error_Some; congruence|congruence]. }
    subst k'. inversion D as [|? ? Hn _]; subst. apply Hn. left; auto.
Qed.

Lemma manhattan_tri : forall p q r, manhattan p r <= manhattan p q + manhattan q r.
Proof. intros. unfold manhattan, gap. lia. Qed.

(** a route between two cells cannot be shorter than their distance on the grid *)
Theorem grid_route_bound : forall c imax jmax kw w w' p q r, reach c w -> generate_grid_network c imax jmax kw w = Ok w' ->
  in_grid imax jmax p -> in_grid imax jmax q ->
  leads w' (cell_node (w_nn w) jmax p) (cell_node (w_nn w) jmax q) r -> manhattan p q <= List.length r.
Proof.
  intros c imax jmax kw w w' p q r R E Hp Hq. pose proof (reach_ends _ _ R) as En. apply grid_built in E. revert p Hp.
  induction r as [|l r IH]; intros p Hp H; cbn [leads] in H.
  - apply (cell_node_inj (w_nn w) imax jmax) in H; auto. subst q. unfold manhattan, gap. lia.
  - destruct H as (He & Hs & H). destruct (Nat.lt_ge_cases l (w_nl w)) as [C|C].
    + rewrite (gr_oldl _ _ _ _ _ E l C) in Hs. destruct (En l C) as [K _]. unfold cell_node in Hs. lia.
    + destruct (new_link_edge _ _ _ _ _ l E C He) as (p' & q' & F & Hp' & Hq' & M & S1 & S2).
      assert (p' = p) by (apply (cell_node_inj (w_nn w) imax jmax); auto; congruence). subst p'. rewrite S2 in H. specialize (IH q' Hq' H).
      pose proof (manhattan_tri p q' q). cbn [List.length]. lia.
Qed.

(** and there is a route of exactly that length *)
Theorem grid_route : forall c imax jmax kw w w' p q, generate_grid_network c imax jmax kw w = Ok w' ->
  in_grid imax jmax p -> in_grid imax jmax q ->
  exists r, leads w' (cell_node (w_nn w) jmax p) (cell_node (w_nn w) jmax q) r /\ List.length r = manhattan p q.
Proof.
  intros c imax jmax kw w w' p q E Hp Hq. apply grid_built in E. remember (manhattan p q) as n eqn:Hn. revert p Hp Hn.
  induction n as [|n IH]; intros p Hp Hn.
  - exists []. split; auto. cbn. f_equal. destruct p, q. unfold manhattan, gap in Hn. cbn in Hn. f_equal; lia.
  - assert (K : exists p', in_grid imax jmax p' /\ manhattan p p' = 1 /\ n = manhattan p' q).
    { destruct p as [i j], q as [i' j']. unfold manhattan, gap, in_grid in *. cbn [fst snd] in *.
      destruct (Nat.lt_trichotomy i i') as [C|[C|C]].
      - exists (Datatypes.S i, j). cbn [fst snd]. lia.
      - destruct (Nat.lt_trichotomy j j') as [D|[D|D]].
        + exists (i, Datatypes.S j). cbn [fst snd]. lia.
        + lia.
        + exists (i, j - 1). cbn [fst snd]. lia.
      - exists (i - 1, j). cbn [fst snd]. lia. }
    destruct K as (p' & Hp' & M & Hn'). destruct (IH p' Hp' Hn') as (r & Hr & Hl).
    assert (I : In (p, p') (edges imax jmax)) by (apply in_edges; auto). apply In_nth_error in I. destruct I as [k F].
    pose proof (gr_link _ _ _ _ _ E _ _ F) as Md. exists ((w_nl w + k) :: r). split; [|cbn; lia]. cbn [leads].
    split; [|split; [exact (md_start _ _ _ _ _ Md)|rewrite (md_end _ _ _ _ _ Md); exact Hr]].
    unfold exists_link. rewrite (gr_nl _ _ _ _ _ E). assert (k < List.length (edges imax jmax)) by (apply nth_error_Some; congruence).
    rewrite edges_length in *. lia.
Qed.

(** ** Twice *)
Lemma grid_taken : forall c imax jmax kw w, 0 < imax -> 0 < jmax -> In (cell_name (0, 0)) (node_names w) ->
  generate_grid_network c imax jmax kw w = Err ValueError.
Proof.
  intros c imax jmax kw w Hi Hj H. unfold generate_grid_network, cells. destruct imax as [|i]; [lia|]. destruct jmax as [|j]; [lia|].
  cbn [seq list_prod map app foldM]. rewrite add_cell, (proj2 (smem_iff _ _) H). reflexivity.
Qed.
Theorem grid_twice : forall c imax jmax kw imax' jmax' kw' w w', 0 < imax -> 0 < jmax -> 0 < imax' -> 0 < jmax' ->
  generate_grid_network c imax jmax kw w = Ok w' -> generate_grid_network c imax' jmax' kw' w' = Err ValueError.
Proof.
  intros c imax jmax kw imax' jmax' kw' w w' Hi Hj Hi' Hj' E. apply grid_built in E. apply grid_taken; auto.
  assert (Hp : in_grid imax jmax (0, 0)) by (split; auto). destruct (gr_node _ _ _ _ _ E _ Hp) as [K _]. rewrite <- K.
  unfold node_names. apply (in_map (fun n => n_name (N w' n))). apply in_seq. rewrite (gr_nn _ _ _ _ _ E). unfold cell_node. cbn [fst snd]. nia.
Qed.

(** ** The world stays one that the interface can make *)
Theorem grid_reach : forall c imax jmax kw w w', reach c w -> w_final w = false -> generate_grid_network c imax jmax kw w = Ok w' ->
  reach c w' /\ w_final w' = false.
Proof.
  intros c imax jmax kw w w' R Hf E. unfold generate_grid_network in E. apply bind_ok in E. destruct E as (w1 & E1 & E).
  assert (K : reach c w1 /\ w_final w1 = false).
  { clear E. eapply foldM_inv with (I := fun w => reach c w /\ w_final w = false); [|split; [exact R|exact Hf]|exact E1].
    intros p a b _ [Ra Fa] Eb. cbn beta in Eb. split.
    - eapply (rc_op c a (OAddNode (cell_args p))); [exact Ra|exact Fa|discriminate|exact Eb].
    - rewrite add_cell in Eb. destruct (smem _ _); [discriminate|]. injection Eb as <-. exact Fa. }
  eapply foldM_inv with (I := fun w => reach c w /\ w_final w = false); [|exact K|exact E].
  intros e a b _ [Ra Fa] Eb. cbn beta in Eb. split.
  - eapply (rc_op c a (OAddLink _)); [exact Ra|exact Fa|discriminate|exact Eb].
  - apply add_edge in Eb. destruct Eb as (k & _ & _ & _ & _ & ->). exact Fa.
Qed.
