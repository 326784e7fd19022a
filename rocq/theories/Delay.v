(** * Delay: free-flow travel times, delays and distances of od_analysis and basic_analysis (analyzer.py 98-181; C53). *)
From Verif Require Import Base Types Sim Build Heap Lists Inv FrameBase Tac Frame Eff Eff2 Trace InvStep Reach Steps Effects Phases Attr Life Incoming Vev Ride TripLog Route Green Choice Enforce Counts LinkQueries FD NodeCap Origin Bucket Outflow Trials Motion Spacing Spec Distance Totals Paths SpecDuo Duo SpecStats Analyzer SpecRoutes EnumRoutes SpecDelay.
Local Open Scope nat_scope.

(** ** Model *)

(** 144-157: the matrices; a later link between the same nodes overwrites an earlier one. None is inf. After the finalization
    ADJ_MAT is 1 exactly for the pairs of nodes with a link, so the branch 155-157 is not taken.  [link.length/link.u] raises
    for [u] = 0. *)
Definition od_matrix (w : world) (f : lid -> result Q) : result (nid -> nid -> option Q) :=
  foldM (fun l m => q <- f l ;; Ok (fun i j => if joins w i j l then (if closed (L w l) then None else Some q) else m i j))
    (seq 0 (w_nl w)) (fun _ _ => Some 0%Q).
(** 158-159: scipy's floyd_warshall reads an entry 0 of a dense matrix as "no edge", like its dijkstra; both give the least
    costs, so the first component of [c_dijkstra] is used for it *)
Definition free_times (c : cfg) (w : world) : result (nid -> nid -> option Q) :=
  m <- od_matrix w (fun l => qdiv (l_len (L w l)) (l_u (L w l))) ;; Ok (fst (c_dijkstra c (w_nn w) m)).
Definition min_dists (c : cfg) (w : world) : result (nid -> nid -> option Q) :=
  m <- od_matrix w (fun l => Ok (l_len (L w l))) ;; Ok (fst (c_dijkstra c (w_nn w) m)).

(** [od_dist]: the distances of all vehicles with a destination, 161-169 *)
Definition dist_veh (w : world) (t : list (od * list Q)) (v : vid) : list (od * list Q) :=
  match v_dest (V w v) with Some d => od_upd [] (v_orig (V w v), d) (fun l => l ++ [v_dist (V w v)]) t | None => t end.
Definition dist_table (w : world) : list (od * list Q) := fold_left (dist_veh w) (seq 0 (w_nv w)) [].

(** 173-181: only the keys of [od_tt] get values, the other ones have the default 0. [od_tt_free] and [od_dist_ave] *)
Definition key_done (t : od_tab) (k : od) : bool := existsb (od_eqb k) (map fst (t_tt t)).
Definition tt_free (t : od_tab) (d : nid -> nid -> option Q) (k : od) : option Q := if key_done t k then d (fst k) (snd k) else Some 0%Q.
Definition dist_ave (t : od_tab) (u : list (od * list Q)) (k : od) : Q :=
  if key_done t k then let l := od_get [] k u in (qsum l / Qof_nat (List.length l))%Q else 0%Q.
Definition dist_min (t : od_tab) (d : nid -> nid -> option Q) (k : od) : option Q := if key_done t k then d (fst k) (snd k) else Some 0%Q.

(** sums with infinite entries: None is -inf *)
Definition osum (l : list (option Q)) : option Q := fold_right (fun x s => match x, s with Some a, Some b => Some (a + b)%Q | _, _ => None end) (Some 0%Q) l.
(** [basic_analysis], 105 and 107-118: total_distance_traveled, total_delay, average_delay. None is -inf.
    An infinite free travel time occurs only in rows with completed trips, where the product is -inf. *)
Record more_stats := mkMore { ms_dist : Q; ms_delay : option Q; ms_avdelay : option Q }.
Definition more_of (t : od_tab) (u : list (od * list Q)) (d : nid -> nid -> option Q) : more_stats :=
  let ks := map fst (t_trips t) in
  let comp k := od_get 0%Z k (t_comp t) in
  let total := qsum (map (fun k => dist_ave t u k * inject_Z (od_get 0%Z k (t_trips t)))%Q ks) in
  let n := zsum (map comp ks) in
  if Z.eqb n 0 then mkMore total (Some (-1)%Q) (Some (-1)%Q)
  else let delay := osum (map (fun k => match tt_free t d k with Some x => Some (inject_Z (comp k) * (tt_ave t k - x))%Q | None => None end) ks) in
       mkMore total delay (match delay with Some x => Some (x / inject_Z n)%Q | None => None end).
Definition more_stats_of (c : cfg) (w : world) : result more_stats :=
  d <- free_times c w ;; _ <- min_dists c w ;; Ok (more_of (od_compute c w) (dist_table w) d).

(** ** The matrices *)
Lemma joins_iff : forall w i j l, joins w i j l = true <-> l_start (L w l) = i /\ l_end (L w l) = j.
Proof. intros. unfold joins. rewrite andb_true_iff, !Nat.eqb_eq. reflexivity. Qed.
Lemma matrix_fold : forall w f n m, foldM (fun l m => q <- f l ;; Ok (fun i j => if joins w i j l then (if closed (L w l) then None else Some q) else m i j)) (seq 0 n) (fun _ _ => Some 0%Q) = Ok m ->
  forall i j, (m i j = Some 0%Q /\ forall l, l < n -> joins w i j l = false) \/
    (exists l, l < n /\ joins w i j l = true /\ (forall k, l < k -> k < n -> joins w i j k = false) /\ ((closed (L w l) = true /\ m i j = None) \/ (closed (L w l) = false /\ exists q, f l = Ok q /\ m i j = Some q))).
Proof.
  intros w f n. induction n as [|n IH]; intros m H i j.
  - cbn in H. injection H as <-. left. split; [reflexivity|]. intros; lia.
  - rewrite seq_S in H. cbn [Nat.add] in H. rewrite foldM_app in H. apply bind_ok in H. destruct H as (m0 & H0 & H). cbn [foldM] in H. apply bind_ok in H. destruct H as (m1 & H1 & H). injection H as <-. apply bind_ok in H1. destruct H1 as (q & Eq & H1). injection H1 as <-.
    destruct (joins w i j n) eqn:J.
    + right. exists n. split; [lia|]. split; [exact J|]. split; [intros; lia|]. destruct (closed (L w n)) eqn:C; [left; auto|right]. split; [reflexivity|]. exists q. auto.
    + destruct (IH m0 H0 i j) as [[A B]|(l & A & B & C & D)].
      * left. split; [exact A|]. intros l Hl. destruct (Nat.eq_dec l n) as [->|Hn]; [exact J|]. apply B. lia.
      * right. exists l. split; [lia|]. split; [exact B|]. split; [|exact D]. intros k K1 K2. destruct (Nat.eq_dec k n) as [->|Hn]; [exact J|]. apply C; lia.
Qed.
Lemma matrix_total : forall w f, (forall l, exists_link w l -> exists q, f l = Ok q) -> exists m, od_matrix w f = Ok m.
Proof.
  intros w f H. unfold od_matrix. assert (X : forall l, In l (seq 0 (w_nl w)) -> exists q, f l = Ok q) by (intros l Hl; apply in_seq in Hl; apply H; unfold exists_link; lia).
  generalize (fun (_ _ : nid) => Some 0%Q). induction (seq 0 (w_nl w)) as [|l ls IH]; intros m; [exists m; reflexivity|]. cbn [foldM]. destruct (X l (or_introl eq_refl)) as (q & ->). cbn [bind]. apply IH. intros k Hk. apply X. right. exact Hk.
Qed.

(** In a plain network an entry is the cost of the link between the nodes. *)
Lemma matrix_plain : forall w f g m, single_links w -> open_links w -> (forall l, exists_link w l -> f l = Ok (g l)) -> od_matrix w f = Ok m ->
  (forall i j q, m i j = Some q -> ~ (q == 0)%Q -> exists l, exists_link w l /\ l_start (L w l) = i /\ l_end (L w l) = j /\ q = g l) /\
  (forall l, exists_link w l -> m (l_start (L w l)) (l_end (L w l)) = Some (g l)).
Proof.
  intros w f g m S0 O0 F H. split.
  - intros i j q E Nz. destruct (matrix_fold w f _ m H i j) as [[A _]|(l & A & B & _ & [[_ D]|(_ & q' & D & D')])].
    + rewrite A in E. injection E as <-. elim Nz. reflexivity.
    + congruence.
    + exists l. apply joins_iff in B. rewrite (F l A) in D. split; [exact A|]. split; [tauto|]. split; [tauto|]. congruence.
  - intros l Hl. destruct (matrix_fold w f _ m H (l_start (L w l)) (l_end (L w l))) as [[_ A]|(k & A & B & _ & D)].
    + specialize (A l Hl). assert (joins w (l_start (L w l)) (l_end (L w l)) l = true) by (apply joins_iff; auto). congruence.
    + apply joins_iff in B. destruct B as [B1 B2]. assert (k = l) by (apply S0; auto). subst k. destruct D as [[D _]|(_ & q & D & D')]; [rewrite (O0 l Hl) in D; discriminate D|].
      rewrite (F l Hl) in D. congruence.
Qed.

(** ** Least costs *)
Definition rcost (g : lid -> Q) (r : list lid) : Q := qsum (map g r).
Lemma paths_routes : forall w m g, topo w -> (forall l, exists_link w l -> (0 < g l)%Q) ->
  (forall i j q, m i j = Some q -> ~ (q == 0)%Q -> exists l, exists_link w l /\ l_start (L w l) = i /\ l_end (L w l) = j /\ q = g l) ->
  (forall l, exists_link w l -> m (l_start (L w l)) (l_end (L w l)) = Some (g l)) ->
  (forall i k y, path (w_nn w) m i k y -> exists r, leads w i k r /\ (rcost g r == y)%Q) /\
  (forall r i k, i < w_nn w -> leads w i k r -> exists y, path (w_nn w) m i k y /\ (y == rcost g r)%Q).
Proof.
  intros w m g T Pg M1 M2. split.
  - intros i k y P. induction P as [i Hi|i j k q y Hi E Nz P IH]; [exists []; split; reflexivity|]. destruct IH as (r & A & B).
    destruct (M1 i j q E Nz) as (l & X & <- & <- & ->). exists (l :: r). split; [cbn [leads]; auto|]. unfold rcost in *. cbn [map qsum]. rewrite B. reflexivity.
  - induction r as [|l r IH]; intros i k Hi H.
    + cbn in H. subst k. exists 0%Q. split; [constructor; exact Hi|reflexivity].
    + cbn [leads] in H. destruct H as (X & <- & H). destruct (IH _ _ (proj2 (t_ends T X)) H) as (y & A & B). exists (g l + y)%Q. pose proof (Pg l X).
      split; [apply (p_edge _ _ _ (l_end (L w l)) _ (g l) y); auto; lra|]. unfold rcost in *. cbn [map qsum]. rewrite B. reflexivity.
Qed.
Lemma least_routes : forall c w f g, correct_routine c -> reach c w -> single_links w -> open_links w -> (forall l, exists_link w l -> (0 < g l)%Q) -> (forall l, exists_link w l -> f l = Ok (g l)) ->
  exists m, od_matrix w f = Ok m /\ forall i k, exists_node w i -> exists_node w k ->
    (forall x, fst (c_dijkstra c (w_nn w) m) i k = Some x -> (exists r, leads w i k r /\ (rcost g r == x)%Q) /\ (forall r, leads w i k r -> (x <= rcost g r)%Q)) /\
    (fst (c_dijkstra c (w_nn w) m) i k = None -> forall r, ~ leads w i k r).
Proof.
  intros c w f g C R S0 O0 Pg F. destruct (matrix_total w f) as (m & Em); [intros l Hl; exists (g l); auto|]. exists m. split; [exact Em|].
  destruct (matrix_plain w f g m S0 O0 F Em) as [M1 M2]. destruct (paths_routes w m g (reach_topo _ _ R) Pg M1 M2) as [A B]. intros i k Hi Hk.
  destruct (c_dijkstra c (w_nn w) m) as [d nx] eqn:E. cbn [fst].
  assert (Nn : no_negative (w_nn w) m). { intros a b q _ _ Q1. destruct (Qeq_dec q 0) as [Z|Z]; [rewrite Z; lra|]. destruct (M1 a b q Q1 Z) as (l & X & _ & _ & ->). pose proof (Pg l X). lra. }
  destruct (C _ _ _ _ E Nn) as [L1 L2 _ _]. split.
  - intros x Ex. destruct (L1 i k x Hi Hk Ex) as ((y & Py & Ey) & Lb). split.
    + destruct (A i k y Py) as (r & A1 & A2). exists r. split; [exact A1|]. rewrite A2. exact Ey.
    + intros r Hr. destruct (B r i k Hi Hr) as (z & Z1 & Z2). specialize (Lb z Z1). lra.
  - intros Ex r Hr. destruct (B r i k Hi Hr) as (z & Z1 & _). exact (L2 i k z Hi Hk Ex Z1).
Qed.
Theorem free_times_lemma : forall c w, correct_routine c -> reach c w -> plain_net w ->
  exists d, free_times c w = Ok d /\ forall i k, exists_node w i -> exists_node w k ->
    (forall x, d i k = Some x -> fastest w i k x) /\ (d i k = None -> forall r, ~ leads w i k r).
Proof.
  intros c w C R (S0 & O0 & G0 & F0).
  destruct (least_routes c w (fun l => qdiv (l_len (L w l)) (l_u (L w l))) (fun l => (l_len (L w l) / l_u (L w l))%Q) C R S0 O0) as (m & Em & A).
  - intros l Hl. pose proof (G0 l Hl). pose proof (F0 l Hl). apply Qlt_shift_div_l; lra.
  - intros l Hl. unfold qdiv. destruct (qeq (l_u (L w l)) 0) eqn:Z; [|reflexivity]. apply qeq_iff in Z. pose proof (F0 l Hl). lra.
  - unfold free_times. rewrite Em. cbn [bind]. eexists. split; [reflexivity|]. exact A.
Qed.
Theorem min_dists_lemma : forall c w, correct_routine c -> reach c w -> plain_net w ->
  exists d, min_dists c w = Ok d /\ forall i k, exists_node w i -> exists_node w k ->
    (forall x, d i k = Some x -> shortest w i k x) /\ (d i k = None -> forall r, ~ leads w i k r).
Proof.
  intros c w C R (S0 & O0 & G0 & F0).
  destruct (least_routes c w (fun l => Ok (l_len (L w l))) (fun l => l_len (L w l)) C R S0 O0 G0) as (m & Em & A); [reflexivity|].
  unfold min_dists. rewrite Em. cbn [bind]. eexists. split; [reflexivity|]. exact A.
Qed.

(** ** The groups *)
Definition okey (w : world) (v : vid) : od := (v_orig (V w v), match v_dest (V w v) with Some d => d | None => 0 end).
Definition in_group (w : world) (p : vid -> bool) (k : od) (v : vid) : bool := p v && od_eqb k (okey w v).
Lemma tt_group : forall c w vs t k, od_get [] k (t_tt (fold_left (od_veh c w) vs t)) = od_get [] k (t_tt t) ++ map (fun v => v_tt (V w v)) (filter (in_group w (is_done w) k) vs).
Proof.
  intros c w vs. induction vs as [|v vs IH]; intros t k; cbn [fold_left filter map]; [rewrite app_nil_r; reflexivity|]. rewrite IH. unfold od_veh, in_group at 2, is_done, has_dest, okey.
  destruct (v_dest (V w v)) as [d|] eqn:D; [|reflexivity]. destruct (qeq (v_tt (V w v)) (-1)%Q); cbn [negb andb t_tt]; [reflexivity|]. rewrite od_get_upd.
  destruct (od_eqb k (v_orig (V w v), d)) eqn:E; [|reflexivity]. apply od_eqb_iff in E. subst k. cbn [map]. rewrite <- app_assoc. reflexivity.
Qed.
Lemma dist_group : forall w vs t k, od_get [] k (fold_left (dist_veh w) vs t) = od_get [] k t ++ map (fun v => v_dist (V w v)) (filter (in_group w (has_dest w) k) vs).
Proof.
  intros w vs. induction vs as [|v vs IH]; intros t k; cbn [fold_left filter map]; [rewrite app_nil_r; reflexivity|]. rewrite IH. unfold dist_veh, in_group at 2, has_dest, okey.
  destruct (v_dest (V w v)) as [d|] eqn:D; [|reflexivity]. cbn [andb]. rewrite od_get_upd.
  destruct (od_eqb k (v_orig (V w v), d)) eqn:E; [|reflexivity]. apply od_eqb_iff in E. subst k. cbn [map]. rewrite <- app_assoc. reflexivity.
Qed.
Lemma trips_group : forall c w vs t k, od_get 0%Z k (t_trips (fold_left (od_veh c w) vs t)) = (od_get 0%Z k (t_trips t) + c_deltan c * Z.of_nat (List.length (filter (in_group w (has_dest w) k) vs)))%Z.
Proof.
  intros c w vs. induction vs as [|v vs IH]; intros t k; cbn [fold_left filter List.length]; [lia|]. rewrite IH. unfold od_veh, in_group at 2, has_dest, okey.
  destruct (v_dest (V w v)) as [d|] eqn:D; [|reflexivity]. cbn [andb].
  assert (X : od_get 0%Z k (t_trips (if qeq (v_tt (V w v)) (-1)%Q then mkTab (od_upd 0%Z (v_orig (V w v), d) (fun n => n + c_deltan c)%Z (t_trips t)) (t_comp t) (t_tt t)
      else mkTab (od_upd 0%Z (v_orig (V w v), d) (fun n => n + c_deltan c)%Z (t_trips t)) (od_upd 0%Z (v_orig (V w v), d) (fun n => n + c_deltan c)%Z (t_comp t)) (od_upd [] (v_orig (V w v), d) (fun l => l ++ [v_tt (V w v)]) (t_tt t)))) =
      (if od_eqb k (v_orig (V w v), d) then od_get 0%Z (v_orig (V w v), d) (t_trips t) + c_deltan c else od_get 0%Z k (t_trips t))%Z).
  { destruct (qeq _ _); cbn [t_trips]; apply od_get_upd. }
  cbv zeta. rewrite X. destruct (od_eqb k (v_orig (V w v), d)) eqn:E; [|reflexivity]. apply od_eqb_iff in E. subst k. cbn [List.length]. lia.
Qed.
Lemma tt_group0 : forall c w k, od_get [] k (t_tt (od_compute c w)) = map (fun v => v_tt (V w v)) (filter (in_group w (is_done w) k) (vehicles w)).
Proof. intros. unfold od_compute. rewrite tt_group. reflexivity. Qed.
Lemma dist_group0 : forall w k, od_get [] k (dist_table w) = map (fun v => v_dist (V w v)) (filter (in_group w (has_dest w) k) (vehicles w)).
Proof. intros. unfold dist_table. rewrite dist_group. reflexivity. Qed.
Lemma trips_group0 : forall c w k, od_get 0%Z k (t_trips (od_compute c w)) = (c_deltan c * Z.of_nat (List.length (filter (in_group w (has_dest w) k) (vehicles w))))%Z.
Proof. intros. unfold od_compute. rewrite trips_group. reflexivity. Qed.
(** the keys *)
Lemma od_keys : forall c w vs t, (forall k, In k (map fst (t_tt t)) <-> od_get [] k (t_tt t) <> []) -> forall k, In k (map fst (t_tt (fold_left (od_veh c w) vs t))) <-> od_get [] k (t_tt (fold_left (od_veh c w) vs t)) <> [].
Proof.
  intros c w vs. induction vs as [|v vs IH]; intros t H k; cbn [fold_left]; [apply H|]. apply IH. clear k. intro k. unfold od_veh. destruct (v_dest (V w v)) as [d|]; [|apply H]. cbv zeta. destruct (qeq _ _); cbn [t_tt]; [apply H|].
  rewrite od_get_upd, od_upd_keys. destruct (existsb _ _) eqn:E.
  - rewrite H. destruct (od_eqb k (v_orig (V w v), d)) eqn:E2; [|reflexivity]. apply od_eqb_iff in E2. subst k. apply od_in in E. apply H in E. split; [|intros _; exact E]. intros _ K. apply app_eq_nil in K. destruct K; discriminate.
  - rewrite in_app_iff, H. cbn [In]. destruct (od_eqb k (v_orig (V w v), d)) eqn:E2.
    + apply od_eqb_iff in E2. subst k. split; [|auto]. intros _ K. apply app_eq_nil in K. destruct K; discriminate.
    + split; [|auto]. intros [K|[K|[]]]; [exact K|]. subst k. rewrite od_eqb_refl in E2. discriminate.
Qed.
Lemma trip_keys : forall c w vs t k, In k (map fst (t_trips (fold_left (od_veh c w) vs t))) <-> In k (map fst (t_trips t)) \/ exists v, In v vs /\ has_dest w v = true /\ okey w v = k.
Proof.
  intros c w vs. induction vs as [|v vs IH]; intros t k; cbn [fold_left].
  - split; [auto|]. intros [H|(v & [] & _)]. exact H.
  - rewrite IH. unfold od_veh. destruct (v_dest (V w v)) as [d|] eqn:D.
    + assert (X : In k (map fst (t_trips (let k := (v_orig (V w v), d) in let trips := od_upd 0%Z k (fun n => n + c_deltan c)%Z (t_trips t) in
        if qeq (v_tt (V w v)) (-1)%Q then mkTab trips (t_comp t) (t_tt t) else mkTab trips (od_upd 0%Z k (fun n => n + c_deltan c)%Z (t_comp t)) (od_upd [] k (fun l => l ++ [v_tt (V w v)]) (t_tt t))))) <->
        In k (map fst (t_trips t)) \/ okey w v = k).
      { cbv zeta. assert (Y : In k (map fst (od_upd 0%Z (v_orig (V w v), d) (fun n => n + c_deltan c)%Z (t_trips t))) <-> In k (map fst (t_trips t)) \/ okey w v = k).
        { rewrite od_upd_keys. unfold okey. rewrite D. destruct (existsb _ _) eqn:E; [|rewrite in_app_iff; cbn [In]; intuition auto].
          split; [auto|]. intros [H|H]; [exact H|]. subst k. apply od_in. exact E. }
        destruct (qeq _ _); exact Y. }
      rewrite X. split.
      * intros [[H|H]|(u & H1 & H2)]; [auto|right; exists v; split; [left; reflexivity|split; [unfold has_dest; rewrite D; reflexivity|exact H]]|right; exists u; split; [right; exact H1|exact H2]].
      * intros [H|(u & [H1|H1] & H2 & H3)]; [auto|subst u; auto|right; exists u; auto].
    + split.
      * intros [H|(u & H1 & H2)]; [auto|right; exists u; split; [right; exact H1|exact H2]].
      * intros [H|(u & [H1|H1] & H2 & H3)]; [auto| |right; exists u; auto]. subst u. unfold has_dest in H2. rewrite D in H2. discriminate.
Qed.
(** sums over the groups *)
Lemma in_group_snoc : forall w p f k vs v, (qsum (map f (filter (in_group w p k) (vs ++ [v]))) == qsum (map f (filter (in_group w p k) vs)) + (if in_group w p k v then f v else 0))%Q.
Proof. intros. rewrite filter_snoc. destruct (in_group w p k v); [rewrite map_app; apply qsum_snoc|ring]. Qed.
Lemma group_sum : forall w (p : vid -> bool) (f : vid -> Q) ks vs, NoDup ks -> (forall v, In v vs -> p v = true -> In (okey w v) ks) ->
  (ksum (fun k => qsum (map f (filter (in_group w p k) vs))) ks == qsum (map f (filter p vs)))%Q.
Proof.
  intros w p f ks vs Nd. induction vs as [|v vs IH] using rev_ind; intro H.
  - cbn. unfold ksum. induction ks as [|k ks IHk]; cbn; [reflexivity|]. inversion Nd; subst. rewrite IHk; [ring|assumption|]. intros u [].
  - assert (IH' := IH (fun u Hu => H u (in_or_app _ _ _ (or_introl Hu)))). rewrite filter_snoc. destruct (p v) eqn:Pv.
    + rewrite map_app. cbn [map]. rewrite qsum_snoc, <- IH'. apply (ksum_change _ _ ks (okey w v)).
      * exact Nd.
      * apply H; [apply in_or_app; right; left; reflexivity|exact Pv].
      * intros j Hj. rewrite in_group_snoc. unfold in_group at 2. rewrite Pv, (od_eqb_ne _ _ Hj). cbn [andb]. ring.
      * rewrite in_group_snoc. unfold in_group at 2. rewrite Pv, od_eqb_refl. reflexivity.
    + rewrite <- IH'. apply ksum_ext. intros k _. rewrite in_group_snoc. unfold in_group at 2. rewrite Pv. cbn [andb]. ring.
Qed.

(** ** Distances *)
Lemma tt_keys : forall c w k, key_done (od_compute c w) k = true <-> exists u, In u (vehicles w) /\ is_done w u = true /\ okey w u = k.
Proof.
  intros c w k. unfold key_done. rewrite od_in. unfold od_compute. rewrite od_keys; [|intro j; cbn; split; [intros []|intro K; elim K; reflexivity]].
  fold (od_compute c w). rewrite tt_group0. split.
  - intro H. destruct (filter (in_group w (is_done w) k) (vehicles w)) as [|u us] eqn:E; [elim H; reflexivity|]. assert (Hu : In u (filter (in_group w (is_done w) k) (vehicles w))) by (rewrite E; left; reflexivity).
    apply filter_In in Hu. destruct Hu as [H1 H2]. unfold in_group in H2. apply andb_true_iff in H2. destruct H2 as [H2 H3]. apply od_eqb_iff in H3. exists u. auto.
  - intros (u & H1 & H2 & <-) K. apply map_eq_nil in K. assert (Hu : In u (filter (in_group w (is_done w) (okey w u)) (vehicles w))) by (apply filter_In; split; [exact H1|]; unfold in_group; rewrite H2, od_eqb_refl; reflexivity).
    rewrite K in Hu. destruct Hu.
Qed.
Lemma trip_keys0 : forall c w v, In v (vehicles w) -> has_dest w v = true -> In (okey w v) (map fst (t_trips (od_compute c w))).
Proof. intros c w v Hv Hd. unfold od_compute. apply trip_keys. right. exists v. auto. Qed.
Lemma done_dest : forall w v, is_done w v = true -> has_dest w v = true.
Proof. intros w v H. unfold is_done in H. apply andb_true_iff in H. tauto. Qed.
Lemma served_key : forall c w v, (0 <= dt c)%Q -> reach c w -> In v (vehicles w) -> has_dest w v && key_done (od_compute c w) (okey w v) = served w v.
Proof.
  intros c w v Hd R Hv. assert (X : forall u, In u (vehicles w) -> is_done w u = has_ended w u) by (intros u Hu; apply (done_ended c); auto; unfold vehicles in Hu; apply in_seq in Hu; unfold exists_veh; lia).
  apply eq_true_iff_eq. unfold served. rewrite andb_true_iff, tt_keys, existsb_exists. split.
  - intros (D & u & H1 & H2 & H3). exists u. split; [exact H1|]. rewrite <- (X u H1), H2, andb_true_r. pose proof (done_dest w u H2) as D2. unfold same_trip, has_dest, okey in *.
    destruct (v_dest (V w v)); [|discriminate D]. destruct (v_dest (V w u)); [|discriminate D2]. injection H3 as -> ->. rewrite !Nat.eqb_refl. reflexivity.
  - intros (u & H1 & H2). apply andb_true_iff in H2. destruct H2 as [H2 H3]. unfold same_trip in H2. unfold has_dest at 1. destruct (v_dest (V w v)) as [a|] eqn:E1; [|discriminate H2]. destruct (v_dest (V w u)) as [b|] eqn:E2; [|discriminate H2].
    split; [reflexivity|]. exists u. split; [exact H1|]. split; [rewrite (X u H1); exact H3|]. apply andb_true_iff in H2. destruct H2 as [H4 H5]. apply Nat.eqb_eq in H4, H5. unfold okey. rewrite E1, E2, H4, H5. reflexivity.
Qed.
Lemma qsum_len : forall (f : vid -> Q) l, (qsum (map f l) / Qof_nat (List.length (map f l)) * Qof_nat (List.length l) == qsum (map f l))%Q.
Proof.
  intros f l. rewrite map_length. destruct l as [|a l]; [cbn; reflexivity|]. field. apply Qof_nat_pos. discriminate.
Qed.
Lemma filter_group : forall w (p q : vid -> bool) k vs, filter (in_group w (fun v => p v && q v) k) vs = filter (fun v => q v) (filter (in_group w p k) vs).
Proof.
  intros w p q k vs. induction vs as [|v vs IH]; [reflexivity|]. cbn [filter].
  replace (in_group w (fun v => p v && q v) k v) with (p v && q v && od_eqb k (okey w v)) by reflexivity. replace (in_group w p k v) with (p v && od_eqb k (okey w v)) by reflexivity.
  destruct (p v), (od_eqb k (okey w v)), (q v) eqn:Q; cbn [andb filter]; rewrite ?Q, IH; reflexivity.
Qed.
Theorem total_distance_lemma : forall c w d, (0 <= dt c)%Q -> reach c w ->
  (ms_dist (more_of (od_compute c w) (dist_table w) d) == inject_Z (c_deltan c) * served_distance w)%Q.
Proof.
  intros c w d Hd R. set (t := od_compute c w). assert (E : ms_dist (more_of t (dist_table w) d) = qsum (map (fun k => dist_ave t (dist_table w) k * inject_Z (od_get 0%Z k (t_trips t)))%Q (map fst (t_trips t)))) by (unfold more_of; cbv zeta; destruct (Z.eqb _ _); reflexivity).
  rewrite E. clear E. change (qsum (map ?f ?ks)) with (ksum f ks).
  assert (F : filter (served w) (vehicles w) = filter (fun v => has_dest w v && key_done t (okey w v)) (vehicles w)) by (apply filter_ext_in; intros v Hv; symmetry; apply served_key; auto).
  unfold served_distance. rewrite F. clear F. rewrite <- (group_sum w _ (fun v => v_dist (V w v)) (map fst (t_trips t)) (vehicles w)).
  - rewrite <- ksum_scale. apply ksum_ext. intros k _. unfold dist_ave. unfold t at 2. rewrite trips_group0, dist_group0, inject_Z_mult. change (inject_Z (Z.of_nat ?n)) with (Qof_nat n).
    assert (G : filter (in_group w (fun v => has_dest w v && key_done t (okey w v)) k) (vehicles w) = if key_done t k then filter (in_group w (has_dest w) k) (vehicles w) else []).
    { rewrite filter_group. assert (H : forall v, In v (filter (in_group w (has_dest w) k) (vehicles w)) -> okey w v = k) by (intros v Hv; apply filter_In in Hv; destruct Hv as [_ Hv]; unfold in_group in Hv; apply andb_true_iff in Hv; symmetry; apply od_eqb_iff; tauto).
      induction (filter (in_group w (has_dest w) k) (vehicles w)) as [|v vs IH]; [destruct (key_done t k); reflexivity|]. cbn [filter]. rewrite (H v (or_introl eq_refl)). specialize (IH (fun u Hu => H u (or_intror Hu))). destruct (key_done t k); [f_equal|]; exact IH. }
    rewrite G. destruct (key_done t k); [|cbn; ring]. cbv zeta. rewrite <- (qsum_len (fun v => v_dist (V w v))) at 2. ring.
  - apply (to_nd _ _ _ _ (TabOK_compute c w)).
  - intros v Hv H. apply andb_true_iff in H. apply trip_keys0; tauto.
Qed.
Theorem all_distance_lemma : forall c w d, (0 <= dt c)%Q -> reach c w -> (forall v, exists_veh w v -> has_dest w v = true -> served w v = true) ->
  (ms_dist (more_of (od_compute c w) (dist_table w) d) == inject_Z (c_deltan c) * all_distance w)%Q.
Proof.
  intros c w d Hd R H. rewrite total_distance_lemma by assumption. unfold served_distance, all_distance. rewrite (filter_ext_in (served w) (has_dest w)); [reflexivity|].
  intros v Hv. assert (Ev : exists_veh w v) by (unfold vehicles in Hv; apply in_seq in Hv; unfold exists_veh; lia). destruct (has_dest w v) eqn:D; [apply H; auto|]. unfold served. destruct (existsb _ _) eqn:E; [|reflexivity].
  apply existsb_exists in E. destruct E as (u & _ & E). unfold same_trip in E. unfold has_dest in D. destruct (v_dest (V w v)); [discriminate D|discriminate E].
Qed.

(** ** Delays *)
Definition free_of (d : nid -> nid -> option Q) (w : world) (v : vid) : Q := match d (fst (okey w v)) (snd (okey w v)) with Some x => x | None => 0%Q end.
Lemma osum_all : forall A (f : A -> option Q) (g : A -> Q) l, (forall x, In x l -> exists y, f x = Some y /\ (y == g x)%Q) -> exists y, osum (map f l) = Some y /\ (y == qsum (map g l))%Q.
Proof.
  intros A f g l. induction l as [|x l IH]; intro H; [exists 0%Q; split; reflexivity|]. destruct (H x (or_introl eq_refl)) as (y & E & Y). destruct IH as (z & Ez & Z); [intros; apply H; right; auto|].
  cbn [map osum fold_right]. fold (osum (map f l)). rewrite E, Ez. eexists. split; [reflexivity|]. cbn [qsum map fold_right]. rewrite Y, Z. reflexivity.
Qed.
Lemma qsum_minus : forall (f g : vid -> Q) l, (qsum (map (fun v => f v - g v) l) == qsum (map f l) - qsum (map g l))%Q.
Proof. intros f g l. induction l as [|a l IH]; [reflexivity|]. cbn [map qsum fold_right]. rewrite IH. ring. Qed.
Lemma qsum_const : forall (f : vid -> Q) x l, (forall v, In v l -> f v = x) -> (qsum (map f l) == Qof_nat (List.length l) * x)%Q.
Proof.
  intros f x l H. induction l as [|a l IH]; [cbn [map qsum fold_right List.length]; change (Qof_nat 0) with 0%Q; ring|]. cbn [map qsum fold_right List.length]. rewrite (H a (or_introl eq_refl)), IH by (intros; apply H; right; auto). replace (S (List.length l)) with (List.length l + 1) by lia. rewrite Qof_nat_plus1. ring.
Qed.
Lemma in_done : forall c w v, (0 <= dt c)%Q -> reach c w -> In v (done_of w) <-> exists_veh w v /\ v_state (V w v) = End_.
Proof.
  intros c w v Hd R. rewrite (done_all c w Hd R), filter_In. unfold vehicles. rewrite in_seq. unfold exists_veh, has_ended. destruct (v_state (V w v)) eqn:E; intuition (try lia; try discriminate).
Qed.
Theorem delay_sum : forall c w d, (0 <= dt c)%Q -> (0 < c_deltan c)%Z -> reach c w -> completed w <> 0 ->
  (forall v k, exists_veh w v -> v_state (V w v) = End_ -> v_dest (V w v) = Some k -> d (v_orig (V w v)) k <> None) ->
  exists y a, ms_delay (more_of (od_compute c w) (dist_table w) d) = Some y /\ ms_avdelay (more_of (od_compute c w) (dist_table w) d) = Some a /\
    (y == inject_Z (c_deltan c) * qsum (map (fun v => v_tt (V w v) - free_of d w v) (filter (has_ended w) (vehicles w))))%Q /\
    (a == qsum (map (fun v => v_tt (V w v) - free_of d w v) (filter (has_ended w) (vehicles w))) / Qof_nat (completed w))%Q.
Proof.
  intros c w d Hd Hn R Hc Hf. set (t := od_compute c w).
  assert (N : zsum (map (fun k => od_get 0%Z k (t_comp t)) (map fst (t_trips t))) = (c_deltan c * Z.of_nat (completed w))%Z).
  { pose proof (comp_sum c w) as A. unfold od_rows in A. rewrite map_map in A. cbn [fst snd] in A. rewrite map_map. unfold t. rewrite A. rewrite (done_all c w Hd R). reflexivity. }
  assert (K : forall k, In k (map fst (t_trips t)) -> exists y, (match tt_free t d k with Some x => Some (inject_Z (od_get 0%Z k (t_comp t)) * (tt_ave t k - x))%Q | None => None end) = Some y /\
     (y == inject_Z (c_deltan c) * qsum (map (fun v => v_tt (V w v) - free_of d w v) (filter (in_group w (is_done w) k) (vehicles w))))%Q).
  { intros k _. pose proof (to_comp _ _ _ _ (TabOK_compute c w) k) as C. fold t in C. pose proof (tt_group0 c w k) as G. fold t in G. unfold tt_free. destruct (key_done t k) eqn:Kd.
    - apply tt_keys in Kd. destruct Kd as (u & U1 & U2 & U3). assert (Fu : exists x, d (fst k) (snd k) = Some x).
      { assert (Iu : In u (done_of w)) by (apply filter_In; auto). apply (in_done c w u Hd R) in Iu. destruct Iu as [I1 I2]. pose proof (done_dest w u U2) as D. unfold has_dest in D. destruct (v_dest (V w u)) as [b|] eqn:Eb; [|discriminate D].
        specialize (Hf u b I1 I2 Eb). subst k. unfold okey. rewrite Eb. cbn [fst snd]. destruct (d (v_orig (V w u)) b) as [x|]; [exists x; reflexivity|elim Hf; reflexivity]. }
      destruct Fu as (x & Ex). rewrite Ex. eexists. split; [reflexivity|]. rewrite qsum_minus. rewrite (qsum_const (free_of d w) x).
      + rewrite C, G, map_length, inject_Z_mult. unfold tt_ave. rewrite G. change (inject_Z (Z.of_nat ?n)) with (Qof_nat n).
        destruct (filter (in_group w (is_done w) k) (vehicles w)) as [|a l] eqn:El; [cbn; ring|]. cbn [map].
        change (v_tt (V w a) :: map (fun v => v_tt (V w v)) l) with (map (fun v => v_tt (V w v)) (a :: l)). rewrite map_length. field. apply Qof_nat_pos. discriminate.
      + intros v Hv. apply filter_In in Hv. destruct Hv as [_ Hv]. unfold in_group in Hv. apply andb_true_iff in Hv. destruct Hv as [_ Hv]. apply od_eqb_iff in Hv. unfold free_of. rewrite <- Hv, Ex. reflexivity.
    - assert (El : filter (in_group w (is_done w) k) (vehicles w) = []).
      { destruct (filter (in_group w (is_done w) k) (vehicles w)) as [|a l] eqn:El; [reflexivity|]. exfalso. assert (Ha : In a (filter (in_group w (is_done w) k) (vehicles w))) by (rewrite El; left; reflexivity).
        apply filter_In in Ha. destruct Ha as [H1 H2]. unfold in_group in H2. apply andb_true_iff in H2. destruct H2 as [H2 H3]. apply od_eqb_iff in H3.
        assert (key_done t k = true) by (apply tt_keys; exists a; auto). congruence. }
      eexists. split; [reflexivity|]. rewrite C, G, El. cbn. rewrite Z.mul_0_r. change (inject_Z 0) with 0%Q. ring. }
  destruct (osum_all _ _ (fun k => inject_Z (c_deltan c) * qsum (map (fun v => v_tt (V w v) - free_of d w v) (filter (in_group w (is_done w) k) (vehicles w))))%Q (map fst (t_trips t)) K) as (y & Ey & Y).
  change (qsum (map ?f ?ks)) with (ksum f ks) in Y. rewrite ksum_scale, group_sum in Y; [|apply (to_nd _ _ _ _ (TabOK_compute c w))|intros v Hv H; apply trip_keys0; [exact Hv|apply done_dest; exact H]].
  fold (done_of w) in Y. rewrite (done_all c w Hd R) in Y.
  unfold more_of. cbv zeta. rewrite N. destruct (Z.eqb (c_deltan c * Z.of_nat (completed w)) 0) eqn:Z0; [apply Z.eqb_eq in Z0; exfalso; nia|]. cbn [ms_delay ms_avdelay]. rewrite Ey.
  exists y, (y / inject_Z (c_deltan c * Z.of_nat (completed w)))%Q. split; [reflexivity|]. split; [reflexivity|]. split; [exact Y|]. rewrite Y, inject_Z_mult. change (inject_Z (Z.of_nat (completed w))) with (Qof_nat (completed w)). field.
  split; [apply Qof_nat_pos; auto|]. intro E2. change 0%Q with (inject_Z 0) in E2. rewrite inject_Z_injective in E2. lia.
Qed.

(** the route of an ended vehicle leads from its origin to its destination *)
Lemma connected_leads : forall w r i k l, Forall (exists_link w) (r ++ [l]) -> connected w (r ++ [l]) -> (forall a tl, r ++ [l] = a :: tl -> l_start (L w a) = i) -> l_end (L w l) = k -> leads w i k (r ++ [l]).
Proof.
  intros w r. induction r as [|a r IH]; intros i k l F C S0 E; cbn [app] in *.
  - inversion F; subst. cbn [leads]. split; [assumption|]. split; [apply (S0 l []); reflexivity|reflexivity].
  - inversion F; subst. cbn [leads]. split; [assumption|]. split; [apply (S0 a (r ++ [l])); reflexivity|]. apply IH; [assumption| |  |reflexivity].
    + destruct r as [|b r]; cbn [app connected] in *; tauto.
    + intros b tl Eb. destruct r as [|b' r]; cbn [app] in *; injection Eb as <- <-; cbn [connected] in C; symmetry; tauto.
Qed.
Lemma ended_route : forall c w v, reach c w -> exists_veh w v -> v_state (V w v) = End_ -> exists k, v_dest (V w v) = Some k /\ leads w (v_orig (V w v)) k (route_of (V w v)).
Proof.
  intros c w v R Hv E. destruct (traveled_lemma c w v false false R Hv) as (ls & ts & _ & El & A & B & C & D). destruct (D E) as (ls' & l & El' & D2). exists (l_end (L w l)). split; [exact D2|].
  unfold route_of. rewrite <- El, El'. rewrite El' in A, B, C. apply connected_leads; auto.
Qed.
Theorem delay_lemma : forall c w, correct_routine c -> (0 <= dt c)%Q -> (0 < c_deltan c)%Z -> reachP c keep_speed w -> plain_net w -> completed w <> 0 ->
  exists m free y a, more_stats_of c w = Ok m /\ ms_delay m = Some y /\ ms_avdelay m = Some a /\
    (forall v k, exists_veh w v -> v_state (V w v) = End_ -> v_dest (V w v) = Some k -> fastest w (v_orig (V w v)) k (free v) /\ (free v <= v_tt (V w v))%Q) /\
    (y == inject_Z (c_deltan c) * qsum (map (fun v => v_tt (V w v) - free v) (filter (has_ended w) (vehicles w))))%Q /\
    (a == qsum (map (fun v => v_tt (V w v) - free v) (filter (has_ended w) (vehicles w))) / Qof_nat (completed w))%Q /\ (0 <= y)%Q /\ (0 <= a)%Q.
Proof.
  intros c w Cr Hd Hn RP Pl Hc. pose proof (reachP_reach _ _ _ RP) as R. destruct (free_times_lemma c w Cr R Pl) as (d & Ed & D). destruct (min_dists_lemma c w Cr R Pl) as (d2 & Ed2 & _).
  assert (X : forall v k, exists_veh w v -> v_state (V w v) = End_ -> v_dest (V w v) = Some k -> exists x, d (v_orig (V w v)) k = Some x /\ fastest w (v_orig (V w v)) k x /\ (x <= v_tt (V w v))%Q).
  { intros v k Hv He Hk. destruct (ended_route c w v R Hv He) as (k' & Ek & Lr). assert (k' = k) by congruence. subst k'.
    assert (No : exists_node w (v_orig (V w v)) /\ exists_node w k).
    { pose proof (reach_topo _ _ R) as T. destruct (route_of (V w v)) as [|l r] eqn:Er.
      - exfalso. destruct (traveled_lemma c w v false false R Hv) as (ls & ts & _ & El & _ & _ & _ & D3). destruct (D3 He) as (ls' & l & El' & _). unfold route_of in Er. rewrite Er in El. rewrite El' in El. destruct ls'; discriminate El.
      - cbn [leads] in Lr. destruct Lr as (X1 & X2 & X3). split; [rewrite <- X2; apply (t_ends T X1)|].
        assert (Y : forall r i, exists_node w i -> leads w i k r -> exists_node w k). { clear - T. induction r as [|l r IH]; intros i Hi H; [cbn in H; subst; exact Hi|]. cbn [leads] in H. destruct H as (X1 & _ & H). exact (IH _ (proj2 (t_ends T X1)) H). }
        exact (Y r _ (proj2 (t_ends T X1)) X3). }
    destruct (D _ _ (proj1 No) (proj2 No)) as [D1 D2]. destruct (d (v_orig (V w v)) k) as [x|] eqn:Ex; [|elim (D2 eq_refl _ Lr)].
    exists x. split; [reflexivity|]. split; [apply D1; reflexivity|]. pose proof (travel_time_lemma c w v Hd RP (proj2 (proj2 (proj2 Pl))) Hv He) as TT. destruct (D1 x eq_refl) as [_ D3]. specialize (D3 _ Lr). lra. }
  destruct (delay_sum c w d Hd Hn R Hc) as (y & a & Y1 & Y2 & Y3 & Y4).
  { intros v k Hv He Hk. destruct (X v k Hv He Hk) as (x & Ex & _). rewrite Ex. discriminate. }
  exists (more_of (od_compute c w) (dist_table w) d), (free_of d w), y, a. split; [unfold more_stats_of; rewrite Ed, Ed2; reflexivity|]. split; [exact Y1|]. split; [exact Y2|].
  assert (Z : forall v k, exists_veh w v -> v_state (V w v) = End_ -> v_dest (V w v) = Some k -> fastest w (v_orig (V w v)) k (free_of d w v) /\ (free_of d w v <= v_tt (V w v))%Q).
  { intros v k Hv He Hk. destruct (X v k Hv He Hk) as (x & Ex & X1). unfold free_of, okey. rewrite Hk. cbn [fst snd]. rewrite Ex. exact X1. }
  split; [exact Z|]. split; [exact Y3|]. split; [exact Y4|].
  assert (Pz : (0 <= qsum (map (fun v => v_tt (V w v) - free_of d w v) (filter (has_ended w) (vehicles w))))%Q).
  { assert (W : forall v, In v (filter (has_ended w) (vehicles w)) -> (0 <= v_tt (V w v) - free_of d w v)%Q).
    { intros v Hv. rewrite <- (done_all c w Hd R) in Hv. apply (in_done c w v Hd R) in Hv. destruct Hv as [H1 H2]. destruct (ended_route c w v R H1 H2) as (k & Ek & _). destruct (Z v k H1 H2 Ek). lra. }
    clear - W. induction (filter (has_ended w) (vehicles w)) as [|v vs IH]; [cbn; lra|]. cbn [map qsum fold_right]. pose proof (W v (or_introl eq_refl)). specialize (IH (fun u Hu => W u (or_intror Hu))). lra. }
  split.
  - rewrite Y3. apply Qmult_le_0_compat; [|exact Pz]. change 0%Q with (inject_Z 0). rewrite <- Zle_Qle. lia.
  - rewrite Y4. apply Qle_shift_div_l; [|lra]. unfold Qof_nat. change 0%Q with (inject_Z 0). rewrite <- Zlt_Qlt. lia.
Qed.
Theorem no_delay_lemma : forall c w d, (0 <= dt c)%Q -> reach c w -> completed w = 0 ->
  ms_delay (more_of (od_compute c w) (dist_table w) d) = Some (-1)%Q /\ ms_avdelay (more_of (od_compute c w) (dist_table w) d) = Some (-1)%Q.
Proof.
  intros c w d Hd R Hc.
  assert (N : zsum (map (fun k => od_get 0%Z k (t_comp (od_compute c w))) (map fst (t_trips (od_compute c w)))) = 0%Z).
  { pose proof (comp_sum c w) as A. unfold od_rows in A. rewrite map_map in A. cbn [fst snd] in A. rewrite map_map, A, (done_all c w Hd R). fold (completed w). rewrite Hc. apply Z.mul_0_r. }
  unfold more_of. cbv zeta. rewrite N. split; reflexivity.
Qed.
