(** * CppAdj: the costs of the route search in the compiled engine, World::update_adj_time_matrix, uxsim/trafficpp/traffi.cpp 1266-1316,
    and the tolls it is given, uxsim_cpp_wrapper.py 1108-1112. *)
From Verif Require Import Base Types Sim Build Heap Lists Inv FrameBase Tac Frame Eff Eff2 Trace InvStep Reach Steps Effects Phases Spec SpecDuo Paths PathsOK Duo Merge FD Bucket Search CppPaths.
Local Open Scope nat_scope.

(** ** The model *)

(** toll_timeseries of the links, set when the scenario is finalized: the toll at the beginning of every timestep; a link without pricing keeps what it has *)
Definition cpp_series (c : cfg) (w : world) (old : lid -> list Q) : lid -> list Q :=
  fun l => match l_toll (L w l) with Some f => map (fun t => f (Qof_nat t * dt c)%Q) (seq 0 (w_tsize w)) | None => old l end.
(** 1281-1284: [traveltime_instant[timestep]], an array of zeros at first *)
Definition cpp_tt (k : link) : Q := if qle (last_tt k) 0 then (l_len k / l_u k)%Q else last_tt k.
(** 1285-1289; route_choice_penalty is a number, so one that equals 0 is 0 *)
Definition cpp_penalty (series : lid -> list Q) (w : world) (l : lid) : Q :=
  if (negb (is_nil (series l)) && Nat.ltb (w_T w) (List.length (series l)))%bool then nth (w_T w) (series l) 0%Q
  else if qeq (l_penalty (L w l)) 0 then 0%Q else l_penalty (L w l).
(** 1277-1315, one link.  Simplification: the number that a link draws from its own generator is the one the Python engine draws for it *)
Definition cpp_adj_step (c : cfg) (w : world) (series : lid -> list Q) (acc : (nid -> nid -> option Q) * (nid -> nid -> nat) * nat) (l : lid)
  : (nid -> nid -> option Q) * (nid -> nid -> nat) * nat :=
  let '(m, cnt, dr) := acc in
  let k := L w l in let i := l_start k in let j := l_end k in
  let '(ntt, dr') :=
    if c_det c then ((cpp_tt k + cpp_penalty series w l)%Q, dr)
    else ((cpp_tt k * (1 + c_duo_noise c * qmax 0 (qmin 1 (c_orcq c dr))) + cpp_penalty series w l)%Q, S dr) in
  let n := Qof_nat (cnt i j) in
  let avg := match m i j with Some q => Some (q * n / (n + 1) + ntt / (n + 1))%Q | None => None end in
  (upd2 m i j (if closed k then None else avg), upd2 cnt i j (S (cnt i j)), dr').
Definition cpp_matrix (c : cfg) (w : world) (series : lid -> list Q) : (nid -> nid -> option Q) * (nid -> nid -> nat) * nat :=
  fold_left (cpp_adj_step c w series) (seq 0 (w_nl w)) (fun _ _ => Some 0%Q, fun _ _ => 0, w_draw w).
Definition cpp_costs (c : cfg) (w : world) (series : lid -> list Q) : nid -> nid -> option Q := fst (fst (cpp_matrix c w series)).
(** route_next[i][k] == j, 1509 *)
Definition cpp_mask (nx : nid -> nid -> option nid) (w : world) (k : nid) (l : lid) : bool := opt_eqb (Some (l_end (L w l))) (nx (l_start (L w l)) k).

(** ** Hypotheses *)
(** the instantaneous travel times are recorded and positive *)
Definition timed (w : world) : Prop := forall l, exists_link w l -> l_tti (L w l) <> [] /\ (0 < last_tt (L w l))%Q.
(** the series were made from the present tolls, for the whole simulation *)
Definition series_ok (c : cfg) (w : world) (series : lid -> list Q) : Prop :=
  w_T w < w_tsize w /\ forall l, exists_link w l -> series l = cpp_series c w (fun _ => []) l.

(** ** Same costs *)
Lemma penalty_same : forall c w series l, series_ok c w series -> exists_link w l -> cpp_penalty series w l = get_toll (L w l) (now c w).
Proof.
  intros c w series l [HT Hs] Hl. unfold cpp_penalty. rewrite (Hs l Hl). unfold cpp_series, get_toll. destruct (l_toll (L w l)) as [f|]; [|reflexivity].
  rewrite map_length, seq_length. destruct (Nat.ltb_spec (w_T w) (w_tsize w)); [|lia]. assert (X : is_nil (map (fun t => f (Qof_nat t * dt c)%Q) (seq 0 (w_tsize w))) = false) by (destruct (w_tsize w); [lia|reflexivity]).
  rewrite X. cbn [negb andb]. rewrite nth_map_seq by assumption. reflexivity.
Qed.
Lemma step_same : forall c w series acc l, timed w -> series_ok c w series -> exists_link w l -> adj_step c w (now c w) acc l = Ok (cpp_adj_step c w series acc l).
Proof.
  intros c w series [[m cnt] dr] l Ht Hs Hl. destruct (Ht l Hl) as [T1 T2]. unfold adj_step, cpp_adj_step. rewrite (penalty_same c w series l Hs Hl). unfold cpp_tt. 
  assert (Q1 : qle (last_tt (L w l)) 0 = false) by (destruct (qle (last_tt (L w l)) 0) eqn:E; [apply qle_iff in E; lra|reflexivity]). rewrite Q1. unfold last_tt. destruct (last_opt (l_tti (L w l))) as [tt|] eqn:E; [|apply last_opt_nil in E; contradiction]. cbn [of_opt bind].
  unfold closed. destruct (c_det c), (l_cin (L w l)); reflexivity.
Qed.
Theorem cpp_matrix_same : forall c w series, timed w -> series_ok c w series ->
  foldM (fun l acc => adj_step c w (now c w) acc l) (seq 0 (w_nl w)) (fun _ _ => Some 0%Q, fun _ _ => 0, w_draw w) = Ok (cpp_matrix c w series).
Proof.
  intros c w series Ht Hs. unfold cpp_matrix. generalize ((fun _ _ : nid => Some 0%Q), (fun _ _ : nid => 0), w_draw w). assert (G : forall ls, Forall (exists_link w) ls -> forall a, foldM (fun l acc => adj_step c w (now c w) acc l) ls a = Ok (fold_left (cpp_adj_step c w series) ls a)).
  { induction ls as [|l ls IH]; intros F a; [reflexivity|]. inversion F; subst. cbn [foldM fold_left]. rewrite (step_same c w series a l Ht Hs) by assumption. cbn [bind]. apply IH. assumption. }
  apply G. apply Forall_forall. intros l Hl. apply in_seq in Hl. unfold exists_link. lia.
Qed.
Lemma matrix_ok : forall c w a, foldM (fun l acc => adj_step c w (now c w) acc l) (seq 0 (w_nl w)) (fun _ _ => Some 0%Q, fun _ _ => 0, w_draw w) = Ok a -> adj_ok c w (w_nl w) a.
Proof.
  intros c w a. generalize (w_nl w). intro n. revert a. induction n as [|n IH]; intros [[m cnt] dr] H1.
  - cbn [seq foldM] in H1. injection H1 as <- <- <-. constructor; cbn; auto; try discriminate; [destruct (c_det c); lia|]. intros. exists 0%Q. split; [reflexivity|]. split; [reflexivity|ring].
  - rewrite seq_S in H1. apply foldM_snoc in H1. destruct H1 as ([[m1 cnt1] dr1] & H1 & H2). eapply adj_step_ok; [exact (IH _ H1)|exact H2].
Qed.
Lemma matrix_nn : forall c w a n, adj_ok c w (w_nl w) a -> (forall l, exists_link w l -> (0 <= link_cost c w l)%Q) -> no_negative n (fst (fst a)).
Proof.
  intros c w a n [A1 A2 A3 A4] Hc i j q _ _ E. destruct (existsb (fun l => closed (L w l)) (between w i j (w_nl w))) eqn:C; [rewrite (A3 i j C) in E; discriminate|].
  destruct (A4 i j C) as (q' & Q1 & Q2 & Q3). rewrite Q1 in E. injection E as ->. destruct (between w i j (w_nl w)) as [|l ls] eqn:B; [rewrite (Q2 eq_refl); lra|].
  assert (S1 : (0 <= qsum (map (link_cost c w) (l :: ls)))%Q).
  { assert (Hin : forall x, In x (l :: ls) -> exists_link w x) by (intros x Hx; rewrite <- B in Hx; apply filter_In in Hx; destruct Hx as [Hx _]; apply in_seq in Hx; unfold exists_link; lia). clear - Hin Hc. induction (l :: ls) as [|x xs IH]; [cbn; lra|]. cbn [map qsum fold_right].
    pose proof (Hc x (Hin x (or_introl eq_refl))). assert (0 <= qsum (map (link_cost c w) xs))%Q by (apply IH; intros y Hy; apply Hin; right; exact Hy). unfold qsum in *. cbn. lra. }
  rewrite <- Q3 in S1. cbn [List.length] in S1. rewrite Qof_S in S1. pose proof (Qof_nn (List.length ls)). destruct (Qlt_le_dec q 0); [|assumption]. exfalso. nra.
Qed.
(** the distances of the compiled search are those of the Python engine, and both next nodes lie on cheapest paths *)
Theorem cpp_search_same : forall c w w' series, correct_routine c -> timed w -> series_ok c w series -> (forall l, exists_link w l -> (0 <= link_cost c w l)%Q) ->
  route_search_all c w = Ok w' ->
  let m := cpp_costs c w series in let d := cpp_dist (w_nn w) m in let nx := no_self (cpp_next (w_nn w) m) in
  cost_matrix c w m /\ forall i k, i < w_nn w -> k < w_nn w ->
    match d i k, w_rcdist w' i k with Some x, Some y => (x == y)%Q | None, None => True | _, _ => False end /\
    (nx i k = None <-> w_rcnext w' i k = None) /\
    forall x, i <> k -> d i k = Some x ->
      exists j q y j' q' y', nx i k = Some j /\ m i j = Some q /\ d j k = Some y /\ (x == q + y)%Q /\ w_rcnext w' i k = Some j' /\ m i j' = Some q' /\ d j' k = Some y' /\ (x == q' + y')%Q.
Proof.
  intros c w w' series Cr Ht Hs Hc H. cbv zeta. pose proof (cpp_matrix_same c w series Ht Hs) as M. pose proof (matrix_ok c w _ M) as A. pose proof (matrix_nn c w _ (w_nn w) A Hc) as NN.
  assert (CM : cost_matrix c w (cpp_costs c w series)).
  { intros i j. destruct A as [A1 A2 A3 A4]. change (links_between w i j) with (between w i j (w_nl w)). unfold cpp_costs. split; [|split].
    - intro E. destruct (A4 i j) as (q & Hm & Hq & _); [rewrite E; reflexivity|]. rewrite Hm, (Hq E). reflexivity.
    - intros (l & Hl & X). apply A3. apply existsb_exists. exists l; auto.
    - intros Hn Hx. destruct (A4 i j) as (q & Hm & _ & Hq).
      { destruct (existsb _ _) eqn:E; auto. apply existsb_exists in E. destruct E as (l & Hl & E). rewrite (Hx _ Hl) in E. discriminate. }
      exists q. split; [exact Hm|]. rewrite <- Hq. field. destruct (between w i j (w_nl w)) as [|a t]; [congruence|]. cbn [List.length]. rewrite Qof_S. pose proof (Qof_nn (List.length t)). lra. }
  split; [exact CM|]. fold (cpp_costs c w series) in NN. unfold route_search_all in H. rewrite M in H. cbn [bind] in H. destruct (cpp_matrix c w series) as [[m cnt] dr] eqn:Em.
  assert (Em' : cpp_costs c w series = m) by (unfold cpp_costs; rewrite Em; reflexivity). rewrite Em' in *. clear Em Em' CM A M. destruct (c_dijkstra c (w_nn w) m) as [d' nx'] eqn:Ed. injection H as <-. cbn [w_rcdist w_rcnext sw_rcrec sw_rcnext sw_rcdist sw_draw].
  pose proof (Cr _ _ _ _ Ed NN) as P'. pose proof (cpp_paths_ok (w_nn w) m NN) as P. intros i k Hi Hk. pose proof (cpp_dist_same (w_nn w) m d' nx' i k NN P' Hi Hk) as Same. split; [exact Same|].
  assert (Next : forall x, i <> k -> cpp_dist (w_nn w) m i k = Some x -> exists j q y j' q' y', no_self (cpp_next (w_nn w) m) i k = Some j /\ m i j = Some q /\ cpp_dist (w_nn w) m j k = Some y /\ (x == q + y)%Q /\
    nx' i k = Some j' /\ m i j' = Some q' /\ cpp_dist (w_nn w) m j' k = Some y' /\ (x == q' + y')%Q).
  { intros x Ne E. rewrite E in Same. destruct (d' i k) as [x'|] eqn:E'; [|destruct Same]. destruct (po_next _ _ _ _ P i k x Hi Hk Ne E) as (j & q & y & J1 & J2 & J3 & J4 & J5 & J6).
    destruct (po_next _ _ _ _ P' i k x' Hi Hk Ne E') as (j' & q' & y' & K1 & K2 & K3 & K4 & K5 & K6). pose proof (cpp_dist_same (w_nn w) m d' nx' j' k NN P' K2 Hk) as S2. rewrite K5 in S2.
    destruct (cpp_dist (w_nn w) m j' k) as [z|] eqn:Ez; [|destruct S2]. exists j, q, y, j', q', z. repeat (split; [assumption|]). lra. }
  split; [|exact Next]. destruct (Nat.eq_dec i k) as [Ei|Ne]; [rewrite (po_stay _ _ _ _ P), (po_stay _ _ _ _ P'); auto; tauto|].
  destruct (cpp_dist (w_nn w) m i k) as [x|] eqn:E.
  - destruct (Next x Ne eq_refl) as (j & q & y & j' & q' & y' & J1 & _ & _ & _ & K1 & _). rewrite J1, K1. split; discriminate.
  - destruct (d' i k) eqn:E'; [destruct Same|]. rewrite (po_stay _ _ _ _ P), (po_stay _ _ _ _ P'); auto. tauto.
Qed.
(** the next node of a node for itself *)
Definition self (s : nid) (st : search) : Prop := x_next st s = Some s /\ exists z, x_dist st s = Some z /\ (z == 0)%Q.
Lemma relax_self : forall s cur dcur e st, (0 <= dcur)%Q -> (0 < snd e)%Q -> self s st -> self s (relax s cur dcur e st).
Proof.
  intros s cur dcur [j q] st Hd Hq (E1 & z & E2 & E3). cbn [snd] in Hq. unfold relax. cbn [fst snd]. destruct (match x_dist st j with Some d => qlt (dcur + q) d | None => true end) eqn:E; [|split; [exact E1|exists z; auto]].
  assert (Ne : s <> j). { intros <-. rewrite E2 in E. apply qlt_iff in E. lra. } apply Nat.eqb_neq in Ne. unfold self. cbn [x_next x_dist]. unfold set_at. rewrite Ne. split; [exact E1|exists z; auto].
Qed.
Lemma relaxes_self : forall s cur dcur es st, (0 <= dcur)%Q -> (forall e, In e es -> (0 < snd e)%Q) -> self s st -> self s (fold_left (fun a e => relax s cur dcur e a) es st).
Proof.
  intros s cur dcur. induction es as [|e es IH]; intros st Hd He H; cbn [fold_left]; [exact H|]. apply IH; [exact Hd|intros x Hx; apply He; right; exact Hx|]. apply relax_self; [exact Hd|apply He; left; reflexivity|exact H].
Qed.
Lemma visit_self : forall n m s cur rest st, inv n m s st -> self s st -> self s (visit n m s cur rest st).
Proof.
  intros n m s cur rest st I H. unfold visit. destruct (existsb (Nat.eqb cur) (x_vis st)); [exact H|]. destruct (x_dist st cur) as [dcur|] eqn:E; [|exact H].
  apply relaxes_self; [exact (proj1 (proj2 (b_path _ _ _ _ (proj1 I) cur dcur E)))| |exact H]. intros [j q] He. apply row_in in He. exact (proj2 (proj2 He)).
Qed.
Lemma loop_self : forall n m s fuel st st', inv n m s st -> self s st -> search_loop n m s fuel st = Some st' -> self s st'.
Proof.
  intros n m s. induction fuel as [|fuel IH]; intros st st' I H E; [discriminate|]. cbn [search_loop] in E. destruct (pop_min (x_pq st)) as [[[d cur] rest]|] eqn:P; [|injection E as <-; exact H].
  exact (IH _ _ (proj1 (visit_inv n m s st d cur rest I P)) (visit_self n m s cur rest st I H) E).
Qed.
Theorem cpp_self : forall n m i, i < n -> cpp_next n m i i = Some i.
Proof.
  intros n m i Hi. unfold cpp_next. destruct (search_ends n m i Hi) as (st & E & _). rewrite E. unfold search_from in E. apply loop_self in E; [exact (proj1 E)|apply start_inv; exact Hi|].
  unfold self. cbn [x_next x_dist]. unfold set_at. rewrite Nat.eqb_refl. split; [reflexivity|]. exists 0%Q. split; [reflexivity|lra].
Qed.
(** the links whose end is the next node for a destination: those by [no_self], apart from links from a node to itself *)
Theorem cpp_mask_same : forall n m w k l, l_start (L w l) < n -> l_start (L w l) <> l_end (L w l) -> cpp_mask (cpp_next n m) w k l = cpp_mask (no_self (cpp_next n m)) w k l.
Proof.
  intros n m w k l Hn Ne. unfold cpp_mask, no_self. destruct (Nat.eqb_spec (l_start (L w l)) k) as [<-|]; [|reflexivity]. rewrite (cpp_self n m _ Hn). unfold opt_eqb. apply Nat.eqb_neq. congruence.
Qed.
