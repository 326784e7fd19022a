(** * AreaTrips: trips between areas and groups of vehicles (analyzer.py 1682-1808, 1903-1998; C56). *)
From Verif Require Import Base Types Sim Build Heap Lists Inv FrameBase Tac Frame Eff Eff2 Trace InvStep Reach Steps Effects Phases Attr Life Incoming Vev Ride TripLog Route Green Choice Enforce Counts LinkQueries FD NodeCap Origin Bucket Outflow Trials Motion Spacing Spec Distance Totals Paths SpecDuo Duo SpecStats Analyzer SpecRoutes EnumRoutes SpecDelay Delay SpecLinks LinkStats AreaStats SpecTrips.
Local Open Scope nat_scope.

(** ** The model *)

(** The tables of od_analysis (120-181); for a fresh analyzer they are those of the present world. *)
Record od_tables := mkOdt { ot_tab : od_tab; ot_dist : list (od * list Q); ot_free : nid -> nid -> option Q; ot_min : nid -> nid -> option Q }.
Definition od_tables_of (c : cfg) (w : world) : result od_tables :=
  f <- free_times c w ;; m <- min_dists c w ;; Ok (mkOdt (od_compute c w) (dist_table w) f m).

Definition num_of (o : option Q) : num := match o with Some q => Fin q | None => Inf end.
(** [n*x] for a column with infinite entries (None); these occur only with [n] > 0 *)
Definition omul (n : Z) (o : option Q) : option Q := match o with Some x => Some (inject_Z n * x)%Q | None => None end.
Definition odiv (o : option Q) (n : Z) : option Q := match o with Some x => Some (x / inject_Z n)%Q | None => None end.

Record pair_row := mkProw { pr_ij : nat * nat; pr_total : Z; pr_comp : Z; pr_time : num; pr_free : num; pr_dist : num; pr_short : num }.
(** The rows of od_to_pandas between the areas; nodes are compared by name there, by number here (names are unique). *)
Definition key_in (origs dests : list nid) (k : od) : bool := existsb (Nat.eqb (fst k)) origs && existsb (Nat.eqb (snd k)) dests.
(** 1742-1797; without trips the pair is left out (1768); the columns of standard deviations are not returned.  [0/0] is nan. *)
Definition pair_row_of (t : od_tables) (ij : nat * nat) (origs dests : list nid) : option pair_row :=
  let ks := filter (key_in origs dests) (map fst (t_trips (ot_tab t))) in
  let tot k := od_get 0%Z k (t_trips (ot_tab t)) in
  let cmp k := od_get 0%Z k (t_comp (ot_tab t)) in
  let total := zsum (map tot ks) in
  let comp := zsum (map cmp ks) in
  if Z.eqb total 0 then None else
  let time := qsum (map (fun k => inject_Z (cmp k) * tt_ave (ot_tab t) k)%Q ks) in
  let short := osum (map (fun k => omul (tot k) (dist_min (ot_tab t) (ot_min t) k)) ks) in
  let dist := qsum (map (fun k => inject_Z (tot k) * dist_ave (ot_tab t) (ot_dist t) k)%Q ks) in
  let free := osum (map (fun k => omul (cmp k) (tt_free (ot_tab t) (ot_free t) k)) ks) in
  Some (mkProw ij total comp
    (if Z.eqb comp 0 then Nan else Fin (time / inject_Z comp)%Q)
    (if Z.eqb comp 0 then Nan else num_of (odiv free comp))
    (if Z.eqb comp 0 then Nan else Fin (dist / inject_Z total)%Q)
    (num_of (odiv short total))).
(** 1700-1808.  [named]: area_names is given; else the name of the first node of each area is used, which an empty area does
    not have (1733). *)
Definition areas2areas (c : cfg) (w : world) (named : bool) (areas : list (list nid)) : result (list pair_row) :=
  t <- od_tables_of c w ;;
  if negb named && existsb (fun a => match a with [] => true | _ => false end) areas then Err IndexError else
  Ok (flat_map (fun ij => match pair_row_of t ij (nth (fst ij) areas []) (nth (snd ij) areas []) with Some r => [r] | None => [] end)
       (list_prod (seq 0 (List.length areas)) (seq 0 (List.length areas)))).

(** ** Facts *)
Lemma qlen : forall A (l : list A), (Qof_nat (List.length l) == qsum (map (fun _ => 1%Q) l))%Q.
Proof.
  intros A l. induction l as [|a l IH]; [reflexivity|]. cbn [map qsum fold_right List.length]. replace (S (List.length l)) with (List.length l + 1) by lia. rewrite Qof_nat_plus1, IH. fold (qsum (map (fun _ : A => 1%Q) l)). ring.
Qed.
Lemma filter_filter : forall A (p q : A -> bool) l, filter p (filter q l) = filter (fun x => q x && p x) l.
Proof. intros A p q l. induction l as [|a l IH]; [reflexivity|]. cbn [filter]. destruct (q a) eqn:E; cbn [filter andb]; [destruct (p a)|]; rewrite IH; reflexivity. Qed.

(** sums over the rows of the table as sums over the vehicles *)
Lemma pair_sum : forall c w (p : vid -> bool) (f : vid -> Q) (F : od -> Q) a inkey, (forall v, p v = true -> has_dest w v = true) ->
  (forall k, inkey k = true -> (F k == a * qsum (map f (filter (in_group w p k) (vehicles w))))%Q) ->
  (qsum (map F (filter inkey (map fst (t_trips (od_compute c w))))) == a * qsum (map f (filter (fun v => p v && inkey (okey w v)) (vehicles w))))%Q.
Proof.
  intros c w p f F a inkey Hp HF. set (ks := filter inkey (map fst (t_trips (od_compute c w)))).
  assert (Nd : NoDup ks) by (apply NoDup_filter, (to_nd _ _ _ _ (TabOK_compute c w))).
  rewrite <- (group_sum w (fun v => p v && inkey (okey w v)) f ks (vehicles w) Nd).
  - rewrite <- ksum_scale. unfold ksum. change (ksum F ks == ksum (fun k => a * qsum (map f (filter (in_group w (fun v => p v && inkey (okey w v)) k) (vehicles w)))) ks)%Q.
    apply ksum_ext. intros k Hk. apply filter_In in Hk. destruct Hk as [_ Hk]. rewrite (HF k Hk).
    rewrite (filter_ext (in_group w p k) (in_group w (fun v => p v && inkey (okey w v)) k)); [reflexivity|].
    intro v. unfold in_group. destruct (od_eqb k (okey w v)) eqn:E; [|rewrite !andb_false_r; reflexivity]. apply od_eqb_iff in E. rewrite <- E, Hk, !andb_true_r. reflexivity.
  - intros v Hv H. apply andb_true_iff in H. destruct H as [H1 H2]. apply filter_In. split; [apply trip_keys0; [exact Hv|apply Hp; exact H1]|exact H2].
Qed.

(** the six columns *)
Lemma trips_of : forall w origs dests, filter (fun v => has_dest w v && key_in origs dests (okey w v)) (vehicles w) = trips w origs dests.
Proof.
  intros w o d. unfold trips. apply filter_ext. intro v. unfold has_dest, key_in, okey, makes_trip. destruct (v_dest (V w v)); reflexivity.
Qed.
Lemma ended_of : forall c w origs dests, (0 <= dt c)%Q -> reach c w -> filter (fun v => is_done w v && key_in origs dests (okey w v)) (vehicles w) = ended_trips w origs dests.
Proof.
  intros c w o d Hd R. unfold ended_trips, trips. rewrite filter_filter. apply filter_ext_in. intros v Hv.
  assert (Ev : exists_veh w v) by (unfold vehicles in Hv; apply in_seq in Hv; unfold exists_veh; lia).
  rewrite <- (done_ended c w v Hd R Ev). unfold is_done, has_dest, key_in, okey, makes_trip. destruct (v_dest (V w v)); cbn [fst snd andb]; [apply andb_comm|reflexivity].
Qed.
Lemma served_of : forall c w origs dests, (0 <= dt c)%Q -> reach c w ->
  filter (fun v => (has_dest w v && key_done (od_compute c w) (okey w v)) && key_in origs dests (okey w v)) (vehicles w) = served_trips w origs dests.
Proof.
  intros c w o d Hd R. unfold served_trips, trips. rewrite filter_filter. apply filter_ext_in. intros v Hv.
  rewrite <- (served_key c w v Hd R Hv). unfold has_dest, key_in, makes_trip. unfold okey at 2 3. destruct (v_dest (V w v)); cbn [fst snd andb]; [apply andb_comm|reflexivity].
Qed.

Lemma count_sum : forall c w (p : vid -> bool) (F : od -> Z) inkey, (forall v, p v = true -> has_dest w v = true) ->
  (forall k, inkey k = true -> F k = (c_deltan c * Z.of_nat (List.length (filter (in_group w p k) (vehicles w))))%Z) ->
  zsum (map F (filter inkey (map fst (t_trips (od_compute c w))))) = (c_deltan c * Z.of_nat (List.length (filter (fun v => p v && inkey (okey w v)) (vehicles w))))%Z.
Proof.
  intros c w p F inkey Hp HF. apply inject_Z_injective. rewrite zsum_inject, map_map, inject_Z_mult. change (inject_Z (Z.of_nat ?n)) with (Qof_nat n). rewrite qlen.
  apply pair_sum; [exact Hp|]. intros k Hk. rewrite (HF k Hk), inject_Z_mult. change (inject_Z (Z.of_nat ?n)) with (Qof_nat n). rewrite qlen. reflexivity.
Qed.
Lemma total_of : forall c w origs dests,
  zsum (map (fun k => od_get 0%Z k (t_trips (od_compute c w))) (filter (key_in origs dests) (map fst (t_trips (od_compute c w))))) = (c_deltan c * Z.of_nat (List.length (trips w origs dests)))%Z.
Proof.
  intros c w o d. rewrite (count_sum c w (has_dest w)); [rewrite trips_of; reflexivity|auto|]. intros k _. apply trips_group0.
Qed.
Lemma comp_group0 : forall c w k, od_get 0%Z k (t_comp (od_compute c w)) = (c_deltan c * Z.of_nat (List.length (filter (in_group w (is_done w) k) (vehicles w))))%Z.
Proof. intros c w k. rewrite (to_comp _ _ _ _ (TabOK_compute c w) k), tt_group0, map_length. reflexivity. Qed.
Lemma comp_of : forall c w origs dests, (0 <= dt c)%Q -> reach c w ->
  zsum (map (fun k => od_get 0%Z k (t_comp (od_compute c w))) (filter (key_in origs dests) (map fst (t_trips (od_compute c w))))) = (c_deltan c * Z.of_nat (List.length (ended_trips w origs dests)))%Z.
Proof.
  intros c w o d Hd R. rewrite (count_sum c w (is_done w)); [rewrite (ended_of c) by assumption; reflexivity|apply done_dest|]. intros k _. apply comp_group0.
Qed.
Lemma time_of : forall c w origs dests, (0 <= dt c)%Q -> reach c w ->
  (qsum (map (fun k => inject_Z (od_get 0%Z k (t_comp (od_compute c w))) * tt_ave (od_compute c w) k)%Q (filter (key_in origs dests) (map fst (t_trips (od_compute c w))))) ==
   inject_Z (c_deltan c) * qsum (map (fun v => v_tt (V w v)) (ended_trips w origs dests)))%Q.
Proof.
  intros c w o d Hd R. rewrite <- (ended_of c w o d Hd R). apply pair_sum; [apply done_dest|]. intros k _. rewrite comp_group0, inject_Z_mult. change (inject_Z (Z.of_nat ?n)) with (Qof_nat n).
  unfold tt_ave. rewrite tt_group0. destruct (filter (in_group w (is_done w) k) (vehicles w)) as [|a l]; [cbn; ring|]. cbn [map].
  change (v_tt (V w a) :: map (fun v => v_tt (V w v)) l) with (map (fun v => v_tt (V w v)) (a :: l)). rewrite map_length. field. apply Qof_nat_pos. discriminate.
Qed.
Lemma done_group : forall c w k, key_done (od_compute c w) k = false -> filter (in_group w (is_done w) k) (vehicles w) = [].
Proof.
  intros c w k Kd. destruct (filter (in_group w (is_done w) k) (vehicles w)) as [|a l] eqn:El; [reflexivity|]. exfalso. assert (Ha : In a (filter (in_group w (is_done w) k) (vehicles w))) by (rewrite El; left; reflexivity).
  apply filter_In in Ha. destruct Ha as [H1 H2]. unfold in_group in H2. apply andb_true_iff in H2. destruct H2 as [H2 H3]. apply od_eqb_iff in H3.
  assert (key_done (od_compute c w) k = true) by (apply tt_keys; exists a; auto). congruence.
Qed.
Lemma served_group : forall c w k, filter (in_group w (fun v => has_dest w v && key_done (od_compute c w) (okey w v)) k) (vehicles w) =
  if key_done (od_compute c w) k then filter (in_group w (has_dest w) k) (vehicles w) else [].
Proof.
  intros c w k. rewrite filter_group. assert (H : forall v, In v (filter (in_group w (has_dest w) k) (vehicles w)) -> okey w v = k) by (intros v Hv; apply filter_In in Hv; destruct Hv as [_ Hv]; unfold in_group in Hv; apply andb_true_iff in Hv; symmetry; apply od_eqb_iff; tauto).
  induction (filter (in_group w (has_dest w) k) (vehicles w)) as [|v vs IH]; [destruct (key_done _ k); reflexivity|]. cbn [filter]. rewrite (H v (or_introl eq_refl)). specialize (IH (fun u Hu => H u (or_intror Hu))). destruct (key_done _ k); [f_equal|]; exact IH.
Qed.
Lemma dist_of : forall c w origs dests, (0 <= dt c)%Q -> reach c w ->
  (qsum (map (fun k => inject_Z (od_get 0%Z k (t_trips (od_compute c w))) * dist_ave (od_compute c w) (dist_table w) k)%Q (filter (key_in origs dests) (map fst (t_trips (od_compute c w))))) ==
   inject_Z (c_deltan c) * qsum (map (fun v => v_dist (V w v)) (served_trips w origs dests)))%Q.
Proof.
  intros c w o d Hd R. rewrite <- (served_of c w o d Hd R). apply pair_sum; [intros v Hv; apply andb_true_iff in Hv; tauto|]. intros k _. rewrite trips_group0, inject_Z_mult. change (inject_Z (Z.of_nat ?n)) with (Qof_nat n).
  rewrite served_group. unfold dist_ave. rewrite dist_group0. destruct (key_done (od_compute c w) k); [|cbn; ring]. cbv zeta. rewrite <- (qsum_len (fun v => v_dist (V w v))) at 2. ring.
Qed.

(** columns with infinite entries *)
Lemma opt_sum : forall (f : od -> option Q) (g : od -> Q) ks, (forall k, In k ks -> exists y, f k = Some y /\ (y == g k)%Q) ->
  exists y, osum (map f ks) = Some y /\ (y == qsum (map g ks))%Q.
Proof. intros. apply osum_all. assumption. Qed.
Lemma free_of_key : forall d w v x k, od_eqb k (okey w v) = true -> d (fst k) (snd k) = Some x -> free_of d w v = x.
Proof. intros d w v x k H E. apply od_eqb_iff in H. unfold free_of. rewrite <- H, E. reflexivity. Qed.
Lemma free_sum : forall c w d (n : od -> Z) p origs dests, (0 <= dt c)%Q -> reach c w ->
  (forall k, key_done (od_compute c w) k = true -> n k = (c_deltan c * Z.of_nat (List.length (filter (in_group w p k) (vehicles w))))%Z) ->
  (forall k, key_done (od_compute c w) k = false -> filter (in_group w p k) (vehicles w) = []) ->
  (forall v, p v = true -> has_dest w v = true) ->
  (forall v k, exists_veh w v -> v_state (V w v) = End_ -> v_dest (V w v) = Some k -> d (v_orig (V w v)) k <> None) ->
  exists y, osum (map (fun k => omul (n k) (if key_done (od_compute c w) k then d (fst k) (snd k) else Some 0%Q)) (filter (key_in origs dests) (map fst (t_trips (od_compute c w))))) = Some y /\
    (y == inject_Z (c_deltan c) * qsum (map (free_of d w) (filter (fun v => p v && key_in origs dests (okey w v)) (vehicles w))))%Q.
Proof.
  intros c w d n p o ds Hd R Hn H0 Hp Hf.
  destruct (opt_sum (fun k => omul (n k) (if key_done (od_compute c w) k then d (fst k) (snd k) else Some 0%Q))
    (fun k => inject_Z (c_deltan c) * qsum (map (free_of d w) (filter (in_group w p k) (vehicles w))))%Q (filter (key_in o ds) (map fst (t_trips (od_compute c w))))) as (y & Ey & Y).
  - intros k _. destruct (key_done (od_compute c w) k) eqn:Kd.
    + pose proof Kd as Kd'. apply tt_keys in Kd. destruct Kd as (u & U1 & U2 & U3). assert (Fu : exists x, d (fst k) (snd k) = Some x).
      { assert (Iu : In u (done_of w)) by (apply filter_In; auto). apply (in_done c w u Hd R) in Iu. destruct Iu as [I1 I2]. pose proof (done_dest w u U2) as D. unfold has_dest in D. destruct (v_dest (V w u)) as [b|] eqn:Eb; [|discriminate D].
        specialize (Hf u b I1 I2 Eb). subst k. unfold okey. rewrite Eb. cbn [fst snd]. destruct (d (v_orig (V w u)) b) as [x|]; [exists x; reflexivity|elim Hf; reflexivity]. }
      destruct Fu as (x & Ex). rewrite Ex. eexists. split; [reflexivity|]. rewrite (qsum_const (free_of d w) x).
      * rewrite (Hn k Kd'), inject_Z_mult. change (inject_Z (Z.of_nat ?n)) with (Qof_nat n). ring.
      * intros v Hv. apply filter_In in Hv. destruct Hv as [_ Hv]. unfold in_group in Hv. apply andb_true_iff in Hv. apply (free_of_key d w v x k); tauto.
    + rewrite (H0 k Kd). eexists. split; [reflexivity|]. cbn. ring.
  - exists y. split; [exact Ey|]. rewrite Y. apply pair_sum; [exact Hp|]. intros. reflexivity.
Qed.

(** C56: the values of a pair of areas *)
Definition mean_of (w : world) (f : vid -> Q) (vs : list vid) : Q := mean (map f vs).
Theorem pair_row_lemma : forall c w t ij origs dests, (0 <= dt c)%Q -> (0 < c_deltan c)%Z -> reach c w -> od_tables_of c w = Ok t ->
  (trips w origs dests = [] -> pair_row_of t ij origs dests = None) /\
  (trips w origs dests <> [] -> exists r, pair_row_of t ij origs dests = Some r /\ pr_ij r = ij /\
    pr_total r = (c_deltan c * Z.of_nat (List.length (trips w origs dests)))%Z /\
    pr_comp r = (c_deltan c * Z.of_nat (List.length (ended_trips w origs dests)))%Z /\
    (ended_trips w origs dests = [] -> pr_time r = Nan /\ pr_free r = Nan /\ pr_dist r = Nan) /\
    (ended_trips w origs dests <> [] ->
       (exists q, pr_time r = Fin q /\ (q == mean (map (fun v => v_tt (V w v)) (ended_trips w origs dests)))%Q) /\
       (exists q, pr_dist r = Fin q /\ (q == qsum (map (fun v => v_dist (V w v)) (served_trips w origs dests)) / Qof_nat (List.length (trips w origs dests)))%Q))).
Proof.
  intros c w t ij o d Hd Hn R Et. unfold od_tables_of in Et. apply bind_ok in Et. destruct Et as (f & _ & Et). apply bind_ok in Et. destruct Et as (m & _ & Et). injection Et as <-.
  unfold pair_row_of. cbv zeta. cbn [ot_tab ot_dist ot_free ot_min]. rewrite (total_of c w o d), (comp_of c w o d Hd R).
  assert (Z0 : forall n, (c_deltan c * Z.of_nat n =? 0)%Z = (n =? 0)).
  { intro n. destruct n; [rewrite Z.mul_0_r; reflexivity|]. change (S n =? 0) with false. apply Z.eqb_neq. nia. }
  rewrite !Z0. split.
  - intros ->. reflexivity.
  - intro Ht. assert (X : List.length (trips w o d) =? 0 = false) by (destruct (trips w o d); [congruence|reflexivity]). rewrite X.
    eexists. split; [reflexivity|]. cbn [pr_ij pr_total pr_comp pr_time pr_free pr_dist]. split; [reflexivity|]. split; [reflexivity|]. split; [reflexivity|]. split.
    + intros ->. split; [reflexivity|]. split; reflexivity.
    + intro He. assert (Y : List.length (ended_trips w o d) =? 0 = false) by (destruct (ended_trips w o d); [congruence|reflexivity]). rewrite Y.
      assert (Dn : ~ (inject_Z (c_deltan c) == 0)%Q) by (intro E2; change 0%Q with (inject_Z 0) in E2; rewrite inject_Z_injective in E2; lia).
      split.
      * eexists. split; [reflexivity|]. rewrite (time_of c w o d Hd R), inject_Z_mult. change (inject_Z (Z.of_nat ?n)) with (Qof_nat n). unfold mean. rewrite map_length. field. split; [|exact Dn].
        apply Qof_nat_pos. apply Nat.eqb_neq. exact Y.
      * eexists. split; [reflexivity|]. rewrite (dist_of c w o d Hd R), inject_Z_mult. change (inject_Z (Z.of_nat ?n)) with (Qof_nat n). field. split; [|exact Dn].
        apply Qof_nat_pos. apply Nat.eqb_neq. exact X.
Qed.

(** C56: the rows are those of the pairs with trips *)
Theorem areas2areas_lemma : forall c w named areas rows, (0 <= dt c)%Q -> (0 < c_deltan c)%Z -> reach c w -> areas2areas c w named areas = Ok rows ->
  map pr_ij rows = used_pairs w areas.
Proof.
  intros c w named areas rows Hd Hn R H. unfold areas2areas in H. apply bind_ok in H. destruct H as (t & Et & H). destruct (negb named && _); [discriminate H|]. injection H as <-.
  unfold used_pairs. induction (list_prod _ _) as [|ij l IH]; [reflexivity|]. cbn [flat_map filter]. rewrite map_app.
  destruct (pair_row_lemma c w t ij (nth (fst ij) areas []) (nth (snd ij) areas []) Hd Hn R Et) as [A B].
  destruct (trips w _ _) as [|v vs]; cbn [List.length Nat.eqb negb].
  - rewrite (A eq_refl). exact IH.
  - destruct B as (r & Er & Ij & _); [discriminate|]. rewrite Er. cbn [map app]. rewrite Ij. f_equal. exact IH.
Qed.

(** ** Least times and distances *)
Lemma ended_nodes : forall c w v k, reach c w -> exists_veh w v -> v_state (V w v) = End_ -> v_dest (V w v) = Some k ->
  leads w (v_orig (V w v)) k (route_of (V w v)) /\ exists_node w (v_orig (V w v)) /\ exists_node w k.
Proof.
  intros c w v k R Hv He Hk. destruct (ended_route c w v R Hv He) as (k' & Ek & Lr). assert (k' = k) by congruence. subst k'. split; [exact Lr|].
  pose proof (reach_topo _ _ R) as T. destruct (route_of (V w v)) as [|l r] eqn:Er.
  - exfalso. destruct (traveled_lemma c w v false false R Hv) as (ls & ts & _ & El & _ & _ & _ & D3). destruct (D3 He) as (ls' & l & El' & _). unfold route_of in Er. rewrite Er in El. rewrite El' in El. destruct ls'; discriminate El.
  - cbn [leads] in Lr. destruct Lr as (X1 & X2 & X3). split; [rewrite <- X2; apply (t_ends T X1)|].
    assert (Y : forall r i, exists_node w i -> leads w i k r -> exists_node w k). { clear - T. induction r as [|l r IH]; intros i Hi H; [cbn in H; subst; exact Hi|]. cbn [leads] in H. destruct H as (X1 & _ & H). exact (IH _ (proj2 (t_ends T X1)) H). }
    exact (Y r _ (proj2 (t_ends T X1)) X3).
Qed.
Lemma ended_in : forall w origs dests v, In v (ended_trips w origs dests) -> exists_veh w v /\ v_state (V w v) = End_ /\ exists k, v_dest (V w v) = Some k.
Proof.
  intros w o d v H. apply filter_In in H. destruct H as [H1 H2]. apply filter_In in H1. destruct H1 as [H0 H1]. split; [unfold vehicles in H0; apply in_seq in H0; unfold exists_veh; lia|].
  unfold has_ended in H2. split; [destruct (v_state (V w v)); try discriminate H2; reflexivity|]. unfold makes_trip in H1. destruct (v_dest (V w v)) as [k|]; [exists k; reflexivity|discriminate H1].
Qed.
Lemma qsum_le : forall A (f g : A -> Q) l, (forall x, In x l -> (f x <= g x)%Q) -> (qsum (map f l) <= qsum (map g l))%Q.
Proof.
  intros A f g l H. induction l as [|x l IH]; [cbn; lra|]. cbn [map qsum fold_right]. fold (qsum (map f l)). fold (qsum (map g l)). pose proof (H x (or_introl eq_refl)). specialize (IH (fun y Hy => H y (or_intror Hy))). lra.
Qed.
Lemma mean_le : forall A (f g : A -> Q) l, (forall x, In x l -> (f x <= g x)%Q) -> (mean (map f l) <= mean (map g l))%Q.
Proof.
  intros A f g l H. unfold mean. rewrite !map_length. pose proof (qsum_le A f g l H) as L. unfold Qdiv. apply Qmult_le_compat_r; [exact L|].
  apply Qinv_le_0_compat. unfold Qof_nat. change 0%Q with (inject_Z 0). rewrite <- Zle_Qle. lia.
Qed.

(** C56: average free travel time and average shortest distance *)
Theorem pair_free_lemma : forall c w t ij origs dests, correct_routine c -> (0 <= dt c)%Q -> (0 < c_deltan c)%Z -> reachP c keep_speed w -> plain_net w ->
  od_tables_of c w = Ok t -> ended_trips w origs dests <> [] ->
  exists r free len q x, pair_row_of t ij origs dests = Some r /\
    (forall v k, exists_veh w v -> v_state (V w v) = End_ -> v_dest (V w v) = Some k -> fastest w (v_orig (V w v)) k (free v) /\ (free v <= v_tt (V w v))%Q) /\
    (forall v k, exists_veh w v -> served w v = true -> v_dest (V w v) = Some k -> shortest w (v_orig (V w v)) k (len v)) /\
    pr_free r = Fin q /\ (q == mean (map free (ended_trips w origs dests)))%Q /\ (q <= mean (map (fun v => v_tt (V w v)) (ended_trips w origs dests)))%Q /\
    pr_short r = Fin x /\ (x == qsum (map len (served_trips w origs dests)) / Qof_nat (List.length (trips w origs dests)))%Q.
Proof.
  intros c w t ij o d Cr Hd Hn RP Pl Et He. pose proof (reachP_reach _ _ _ RP) as R.
  assert (Ht : trips w o d <> []) by (intro X; unfold ended_trips in He; rewrite X in He; elim He; reflexivity).
  destruct (pair_row_lemma c w t ij o d Hd Hn R Et) as [_ B]. destruct (B Ht) as (r & Er & _ & B1 & B2 & _). clear B. exists r.
  unfold od_tables_of in Et. destruct (free_times_lemma c w Cr R Pl) as (f & Ef & F). destruct (min_dists_lemma c w Cr R Pl) as (m & Em & M). rewrite Ef, Em in Et. cbn [bind] in Et. injection Et as <-.
  assert (XF : forall v k, exists_veh w v -> v_state (V w v) = End_ -> v_dest (V w v) = Some k -> exists x, f (v_orig (V w v)) k = Some x /\ fastest w (v_orig (V w v)) k x /\ (x <= v_tt (V w v))%Q).
  { intros v k Hv Hs Hk. destruct (ended_nodes c w v k R Hv Hs Hk) as (Lr & N1 & N2). destruct (F _ _ N1 N2) as [D1 D2]. destruct (f (v_orig (V w v)) k) as [x|] eqn:Ex; [|elim (D2 eq_refl _ Lr)].
    exists x. split; [reflexivity|]. split; [apply D1; reflexivity|]. pose proof (travel_time_lemma c w v Hd RP (proj2 (proj2 (proj2 Pl))) Hv Hs) as TT. destruct (D1 x eq_refl) as [_ D3]. specialize (D3 _ Lr). lra. }
  assert (XM : forall v k, exists_veh w v -> v_state (V w v) = End_ -> v_dest (V w v) = Some k -> exists x, m (v_orig (V w v)) k = Some x /\ shortest w (v_orig (V w v)) k x).
  { intros v k Hv Hs Hk. destruct (ended_nodes c w v k R Hv Hs Hk) as (Lr & N1 & N2). destruct (M _ _ N1 N2) as [D1 D2]. destruct (m (v_orig (V w v)) k) as [x|] eqn:Ex; [|elim (D2 eq_refl _ Lr)].
    exists x. split; [reflexivity|]. apply D1; reflexivity. }
  destruct (free_sum c w f (fun k => od_get 0%Z k (t_comp (od_compute c w))) (is_done w) o d Hd R) as (y & Ey & Y).
  { intros k _. apply comp_group0. } { intros k Hk. apply done_group with c. exact Hk. } { apply done_dest. }
  { intros v k Hv Hs Hk. destruct (XF v k Hv Hs Hk) as (x & Ex & _). rewrite Ex. discriminate. }
  destruct (free_sum c w m (fun k => od_get 0%Z k (t_trips (od_compute c w))) (fun v => has_dest w v && key_done (od_compute c w) (okey w v)) o d Hd R) as (z & Ez & Zq).
  { intros k Hk. rewrite served_group, Hk. apply trips_group0. } { intros k Hk. rewrite served_group, Hk. reflexivity. } { intros v Hv. apply andb_true_iff in Hv. tauto. }
  { intros v k Hv Hs Hk. destruct (XM v k Hv Hs Hk) as (x & Ex & _). rewrite Ex. discriminate. }
  assert (Dn : ~ (inject_Z (c_deltan c) == 0)%Q) by (intro E2; change 0%Q with (inject_Z 0) in E2; rewrite inject_Z_injective in E2; lia).
  assert (Ln : forall A (l : list A), l <> [] -> ~ (Qof_nat (List.length l) == 0)%Q) by (intros A l Hl; apply Qof_nat_pos; destruct l; [congruence|discriminate]).
  rewrite (ended_of c) in Y by assumption. rewrite (served_of c) in Zq by assumption.
  pose proof Er as Er0. unfold pair_row_of in Er. cbv zeta in Er. cbn [ot_tab ot_dist ot_free ot_min] in Er. unfold tt_free, dist_min in Er. rewrite Ey, Ez in Er.
  rewrite (total_of c w o d), (comp_of c w o d Hd R) in Er.
  assert (Z0 : forall A (l : list A), l <> [] -> (c_deltan c * Z.of_nat (List.length l) =? 0)%Z = false).
  { intros A l Hl. apply Z.eqb_neq. destruct l; [congruence|]. cbn [List.length]. nia. }
  rewrite (Z0 _ _ Ht), (Z0 _ _ He) in Er. injection Er as Er.
  exists (free_of f w), (free_of m w), (y / inject_Z (c_deltan c * Z.of_nat (List.length (ended_trips w o d))))%Q, (z / inject_Z (c_deltan c * Z.of_nat (List.length (trips w o d))))%Q.
  assert (PF : forall v k, exists_veh w v -> v_state (V w v) = End_ -> v_dest (V w v) = Some k -> fastest w (v_orig (V w v)) k (free_of f w v) /\ (free_of f w v <= v_tt (V w v))%Q).
  { intros v k Hv Hs Hk. destruct (XF v k Hv Hs Hk) as (x & Ex & X1). unfold free_of, okey. rewrite Hk. cbn [fst snd]. rewrite Ex. exact X1. }
  split; [exact Er0|].
  split; [exact PF|]. split.
  { intros v k Hv Hs Hk. unfold served in Hs. apply existsb_exists in Hs. destruct Hs as (u & U1 & U2). apply andb_true_iff in U2. destruct U2 as [U2 U3].
    unfold same_trip in U2. rewrite Hk in U2. destruct (v_dest (V w u)) as [b|] eqn:Eb; [|discriminate U2]. apply andb_true_iff in U2. destruct U2 as [U4 U5]. apply Nat.eqb_eq in U4, U5. subst b.
    assert (Ev : exists_veh w u) by (unfold vehicles in U1; apply in_seq in U1; unfold exists_veh; lia).
    assert (Es : v_state (V w u) = End_) by (unfold has_ended in U3; destruct (v_state (V w u)); try discriminate U3; reflexivity).
    destruct (XM u k Ev Es Eb) as (x & Ex & X1). unfold free_of, okey. rewrite Hk. cbn [fst snd]. rewrite U4, Ex. exact X1. }
  rewrite <- Er. cbn [pr_free pr_short odiv num_of]. split; [reflexivity|].
  assert (Eq : (y / inject_Z (c_deltan c * Z.of_nat (List.length (ended_trips w o d))) == mean (map (free_of f w) (ended_trips w o d)))%Q).
  { rewrite Y, inject_Z_mult. change (inject_Z (Z.of_nat ?n)) with (Qof_nat n). unfold mean. rewrite map_length. field. split; [apply Ln; exact He|exact Dn]. }
  split; [exact Eq|]. split; [rewrite Eq; apply mean_le; intros v Hv; destruct (ended_in w o d v Hv) as (V1 & V2 & k & V3); destruct (PF v k V1 V2 V3); assumption|].
  split; [reflexivity|]. rewrite Zq, inject_Z_mult. change (inject_Z (Z.of_nat ?n)) with (Qof_nat n). field. split; [apply Ln; exact Ht|exact Dn].
Qed.

(** ** Groups of vehicles *)

(** [x/y] for numpy numbers with [x] >= 0 and [y] >= 0 or infinite *)
Definition ratio (x : Q) (y : option Q) : num :=
  match y with None => Fin 0 | Some y => if qeq y 0 then (if qeq x 0 then Nan else Inf) else Fin (x / y)%Q end.
(** np.average of a non-empty list *)
Fixpoint nsum (l : list num) : num :=
  match l with
  | [] => Fin 0
  | x :: l => match x, nsum l with Nan, _ | _, Nan => Nan | Inf, _ | _, Inf => Inf | Fin a, Fin b => Fin (a + b)%Q end
  end.
Definition average (l : list num) : num := match nsum l with Fin q => Fin (q / Qof_nat (List.length l))%Q | x => x end.

Record group_row := mkGrow { gr_total : nat; gr_comp : nat; gr_time : num; gr_delay : num; gr_dist : num; gr_detour : num; gr_speed : num }.
(** 1944-1957: travel time, delay, distance, detour and speed of an ended vehicle.  The row of the table is looked up by the
    names of its nodes ([.values[0]] raises IndexError if there is none); the last division is one of Python numbers. *)
Definition veh_values (t : od_tables) (w : world) (v : vid) : result (Q * num * Q * num * Q) :=
  match v_dest (V w v) with
  | None => Err AttributeError
  | Some d =>
      let k := (v_orig (V w v), d) in
      if existsb (od_eqb k) (map fst (t_trips (ot_tab t))) then
        s <- qdiv (v_dist (V w v)) (v_tt (V w v)) ;;
        Ok (v_tt (V w v), ratio (v_tt (V w v)) (tt_free (ot_tab t) (ot_free t) k),
            v_dist (V w v), ratio (v_dist (V w v)) (dist_min (ot_tab t) (ot_min t) k), s)
      else Err IndexError
  end.
(** 1932-1980; vehicles are counted, not multiplied by DELTAN *)
Definition group_row_of (t : od_tables) (w : world) (g : list vid) : result group_row :=
  vs <- mapM (veh_values t w) (filter (has_ended w) g) ;;
  let n := List.length (filter (has_ended w) g) in
  let av f := if Nat.eqb n 0 then Nan else average (map f vs) in
  Ok (mkGrow (List.length g) n (av (fun '(a, _, _, _, _) => Fin a)) (av (fun '(_, a, _, _, _) => a)) (av (fun '(_, _, a, _, _) => Fin a))
       (av (fun '(_, _, _, a, _) => a)) (av (fun '(_, _, _, _, a) => Fin a))).
(** 1903-1998; [names]: the number of given names.  The default names use [groups[0].name], which a list does not have. *)
Definition vehicle_groups (t : od_tables) (w : world) (names : option nat) (groups : list (list vid)) : result (list group_row) :=
  match names, groups with
  | None, _ :: _ => Err AttributeError
  | _, _ =>
    rows <- mapM (group_row_of t w) groups ;;
    if Nat.eqb (match names with Some n => n | None => 0 end) (List.length groups) then Ok rows else Err ValueError
  end.

(** C56: without names the statistics of groups always raise *)
Theorem groups_unnamed : forall t w g groups, vehicle_groups t w None (g :: groups) = Err AttributeError.
Proof. reflexivity. Qed.

Lemma nsum_fin : forall A (f : A -> Q) l, nsum (map (fun x => Fin (f x)) l) = Fin (qsum (map f l)).
Proof. intros A f l. induction l as [|a l IH]; [reflexivity|]. cbn [map nsum]. rewrite IH. reflexivity. Qed.
Lemma average_fin : forall A (f : A -> Q) l, average (map (fun x => Fin (f x)) l) = Fin (mean (map f l)).
Proof. intros A f l. unfold average. rewrite nsum_fin. unfold mean. rewrite !map_length. reflexivity. Qed.
Lemma values_map : forall t w vs us, Forall2 (fun v u => veh_values t w v = Ok u) vs us ->
  map (fun '(a, _, _, _, _) => Fin a) us = map (fun v => Fin (v_tt (V w v))) vs /\
  map (fun '(_, _, a, _, _) => Fin a) us = map (fun v => Fin (v_dist (V w v))) vs /\
  map (fun '(_, _, _, _, a) => Fin a) us = map (fun v => Fin (v_dist (V w v) / v_tt (V w v))%Q) vs.
Proof.
  intros t w vs us H. induction H as [|v u vs us E H (I1 & I2 & I3)]; [split; [|split]; reflexivity|].
  unfold veh_values in E. destruct (v_dest (V w v)) as [d|]; [|discriminate E]. cbv zeta in E. destruct (existsb _ _); [|discriminate E].
  apply bind_ok in E. destruct E as (s & Es & E). injection E as <-. unfold qdiv in Es. destruct (qeq _ _); [discriminate Es|]. injection Es as <-.
  cbn [map]. rewrite I1, I2, I3. split; [|split]; reflexivity.
Qed.
Lemma group_row_ok : forall t w g r, group_row_of t w g = Ok r ->
  gr_total r = List.length g /\ gr_comp r = List.length (filter (has_ended w) g) /\
  (filter (has_ended w) g = [] -> gr_time r = Nan /\ gr_delay r = Nan /\ gr_dist r = Nan /\ gr_detour r = Nan /\ gr_speed r = Nan) /\
  (filter (has_ended w) g <> [] -> gr_time r = Fin (mean (map (fun v => v_tt (V w v)) (filter (has_ended w) g))) /\
     gr_dist r = Fin (mean (map (fun v => v_dist (V w v)) (filter (has_ended w) g))) /\
     gr_speed r = Fin (mean (map (fun v => v_dist (V w v) / v_tt (V w v))%Q (filter (has_ended w) g)))).
Proof.
  intros t w g r H. unfold group_row_of in H. apply bind_ok in H. destruct H as (vs & E & H). cbv zeta in H. apply mapM_forall2 in E. destruct (values_map t w _ _ E) as (A1 & A2 & A3).
  injection H as <-. cbn [gr_total gr_comp gr_time gr_delay gr_dist gr_detour gr_speed]. split; [reflexivity|]. split; [reflexivity|]. split.
  - intros ->. cbn. auto.
  - intro Hn. assert (X : List.length (filter (has_ended w) g) =? 0 = false) by (destruct (filter (has_ended w) g); [congruence|reflexivity]). rewrite X, A1, A2, A3, !average_fin. auto.
Qed.
(** C56: the values of groups *)
Theorem groups_lemma : forall t w n groups rows, vehicle_groups t w (Some n) groups = Ok rows ->
  n = List.length groups /\
  Forall2 (fun g r => gr_total r = List.length g /\ gr_comp r = List.length (filter (has_ended w) g) /\
    (filter (has_ended w) g = [] -> gr_time r = Nan /\ gr_delay r = Nan /\ gr_dist r = Nan /\ gr_detour r = Nan /\ gr_speed r = Nan) /\
    (filter (has_ended w) g <> [] -> gr_time r = Fin (mean (map (fun v => v_tt (V w v)) (filter (has_ended w) g))) /\
       gr_dist r = Fin (mean (map (fun v => v_dist (V w v)) (filter (has_ended w) g))) /\
       gr_speed r = Fin (mean (map (fun v => v_dist (V w v) / v_tt (V w v))%Q (filter (has_ended w) g))))) groups rows.
Proof.
  intros t w n groups rows H. unfold vehicle_groups in H. apply bind_ok in H. destruct H as (rs & E & H). destruct (n =? List.length groups) eqn:En; [|discriminate H]. injection H as <-.
  split; [apply Nat.eqb_eq; exact En|]. apply mapM_forall2 in E. clear En. induction E as [|g r gs rs E H IH]; [constructor|]. constructor; [apply group_row_ok with t; exact E|exact IH].
Qed.

Lemma free_time_pos : forall w r, plain_net w -> (forall l, In l r -> exists_link w l) -> r <> [] -> (0 < free_time w r)%Q.
Proof.
  intros w r (_ & _ & Pl & Pf) H Hn. unfold free_time. destruct r as [|l r]; [congruence|]. clear Hn. revert l H. induction r as [|k r IH]; intros l H.
  - cbn [map qsum fold_right]. pose proof (Pl l (H l (or_introl eq_refl))). pose proof (Pf l (H l (or_introl eq_refl))).
    assert (0 < l_len (L w l) / l_u (L w l))%Q by (apply Qlt_shift_div_l; lra). lra.
  - specialize (IH k (fun x Hx => H x (or_intror Hx))). cbn [map qsum fold_right] in *. pose proof (Pl l (H l (or_introl eq_refl))). pose proof (Pf l (H l (or_introl eq_refl))).
    assert (0 < l_len (L w l) / l_u (L w l))%Q by (apply Qlt_shift_div_l; lra). lra.
Qed.
Lemma leads_links : forall w r i k, leads w i k r -> forall l, In l r -> exists_link w l.
Proof. intros w r. induction r as [|a r IH]; intros i k H l Hl; [destruct Hl|]. cbn [leads] in H. destruct H as (A & _ & B). destruct Hl as [<-|Hl]; [exact A|exact (IH _ _ B l Hl)]. Qed.
Lemma fastest_pos : forall w i k x, plain_net w -> i <> k -> fastest w i k x -> (0 < x)%Q.
Proof.
  intros w i k x Pl Hik ((r & Lr & <-) & _). apply free_time_pos; [exact Pl|exact (leads_links w r i k Lr)|]. intros ->. cbn in Lr. congruence.
Qed.

(** C56: the delays of groups *)
Theorem groups_delay : forall c w t groups, correct_routine c -> (0 <= dt c)%Q -> (0 < c_deltan c)%Z -> reachP c keep_speed w -> plain_net w ->
  od_tables_of c w = Ok t -> Forall (Forall (exists_veh w)) groups ->
  (forall v, exists_veh w v -> v_state (V w v) = End_ -> v_dest (V w v) <> Some (v_orig (V w v))) ->
  exists rows free, vehicle_groups t w (Some (List.length groups)) groups = Ok rows /\
    (forall v k, exists_veh w v -> v_state (V w v) = End_ -> v_dest (V w v) = Some k -> fastest w (v_orig (V w v)) k (free v) /\ (free v <= v_tt (V w v))%Q) /\
    Forall2 (fun g r => filter (has_ended w) g <> [] -> exists q, gr_delay r = Fin q /\ (q == mean (map (fun v => v_tt (V w v) / free v)%Q (filter (has_ended w) g)))%Q /\ (1 <= q)%Q) groups rows.
Proof.
  intros c w t groups Cr Hd Hn RP Pl Et Hg Ho. pose proof (reachP_reach _ _ _ RP) as R.
  unfold od_tables_of in Et. destruct (free_times_lemma c w Cr R Pl) as (f & Ef & F). rewrite Ef in Et. cbn [bind] in Et. apply bind_ok in Et. destruct Et as (m & _ & Et). injection Et as <-.
  assert (XF : forall v k, exists_veh w v -> v_state (V w v) = End_ -> v_dest (V w v) = Some k -> exists x, f (v_orig (V w v)) k = Some x /\ fastest w (v_orig (V w v)) k x /\ (x <= v_tt (V w v))%Q).
  { intros v k Hv Hs Hk. destruct (ended_nodes c w v k R Hv Hs Hk) as (Lr & N1 & N2). destruct (F _ _ N1 N2) as [D1 D2]. destruct (f (v_orig (V w v)) k) as [x|] eqn:Ex; [|elim (D2 eq_refl _ Lr)].
    exists x. split; [reflexivity|]. split; [apply D1; reflexivity|]. pose proof (travel_time_lemma c w v Hd RP (proj2 (proj2 (proj2 Pl))) Hv Hs) as TT. destruct (D1 x eq_refl) as [_ D3]. specialize (D3 _ Lr). lra. }
  assert (PF : forall v k, exists_veh w v -> v_state (V w v) = End_ -> v_dest (V w v) = Some k -> fastest w (v_orig (V w v)) k (free_of f w v) /\ (free_of f w v <= v_tt (V w v))%Q).
  { intros v k Hv Hs Hk. destruct (XF v k Hv Hs Hk) as (x & Ex & X1). unfold free_of, okey. rewrite Hk. cbn [fst snd]. rewrite Ex. exact X1. }
  assert (PV : forall v, exists_veh w v -> has_ended w v = true -> exists u, veh_values (mkOdt (od_compute c w) (dist_table w) f m) w v = Ok u /\
    (let '(_, y, _, _, _) := u in y) = Fin (v_tt (V w v) / free_of f w v)%Q /\ (1 <= v_tt (V w v) / free_of f w v)%Q).
  { intros v Hv He. assert (Es : v_state (V w v) = End_) by (unfold has_ended in He; destruct (v_state (V w v)); try discriminate He; reflexivity).
    destruct (ended_route c w v R Hv Es) as (k & Ek & _). destruct (XF v k Hv Es Ek) as (x & Ex & X1 & X2).
    assert (Px : (0 < x)%Q) by (apply (fastest_pos w (v_orig (V w v)) k); [exact Pl| |exact X1]; intro Q; apply (Ho v Hv Es); congruence).
    assert (Iv : In v (vehicles w)) by (unfold vehicles; apply in_seq; unfold exists_veh in Hv; lia).
    assert (Hdest : has_dest w v = true) by (unfold has_dest; rewrite Ek; reflexivity).
    assert (Hdone : is_done w v = true) by (rewrite (done_ended c w v Hd R Hv); exact He).
    unfold veh_values. rewrite Ek. cbv zeta. cbn [ot_tab ot_free ot_min ot_dist].
    assert (Kv : okey w v = (v_orig (V w v), k)) by (unfold okey; rewrite Ek; reflexivity).
    assert (K1 : existsb (od_eqb (v_orig (V w v), k)) (map fst (t_trips (od_compute c w))) = true) by (apply od_in; rewrite <- Kv; apply trip_keys0; assumption).
    assert (K2 : key_done (od_compute c w) (v_orig (V w v), k) = true) by (apply tt_keys; exists v; auto).
    rewrite K1. unfold qdiv. destruct (qeq (v_tt (V w v)) 0) eqn:E0; [apply qeq_iff in E0; lra|]. cbn [bind]. eexists. split; [reflexivity|].
    assert (Ff : free_of f w v = x) by (unfold free_of; rewrite Kv; cbn [fst snd]; rewrite Ex; reflexivity). rewrite Ff. unfold tt_free. rewrite K2. cbn [fst snd]. rewrite Ex. unfold ratio.
    destruct (qeq x 0) eqn:E1; [apply qeq_iff in E1; lra|]. split; [reflexivity|]. apply Qle_shift_div_l; lra. }
  assert (PG : forall g, In g groups -> exists r, group_row_of (mkOdt (od_compute c w) (dist_table w) f m) w g = Ok r /\
    (filter (has_ended w) g <> [] -> exists q, gr_delay r = Fin q /\ (q == mean (map (fun v => v_tt (V w v) / free_of f w v)%Q (filter (has_ended w) g)))%Q /\ (1 <= q)%Q)).
  { intros g Ig. rewrite Forall_forall in Hg. pose proof (Hg g Ig) as Hv. rewrite Forall_forall in Hv.
    destruct (mapM_ok _ _ (veh_values (mkOdt (od_compute c w) (dist_table w) f m) w) (fun v u => (let '(_, y, _, _, _) := u in y) = Fin (v_tt (V w v) / free_of f w v)%Q /\ (1 <= v_tt (V w v) / free_of f w v)%Q) (filter (has_ended w) g)) as (us & Eu & U).
    { intros v Iv. apply filter_In in Iv. destruct Iv as [I1 I2]. apply PV; [apply Hv; exact I1|exact I2]. }
    unfold group_row_of. rewrite Eu. cbn [bind]. eexists. split; [reflexivity|]. intro Hne. cbn [gr_delay].
    assert (X : List.length (filter (has_ended w) g) =? 0 = false) by (destruct (filter (has_ended w) g); [congruence|reflexivity]). rewrite X.
    assert (Mu : map (fun '(_, a, _, _, _) => a) us = map (fun v => Fin (v_tt (V w v) / free_of f w v)%Q) (filter (has_ended w) g) /\ Forall (fun v => (1 <= v_tt (V w v) / free_of f w v)%Q) (filter (has_ended w) g)).
    { clear - U. induction U as [|v u vs us [E1 E2] U [IH1 IH2]]; [split; [reflexivity|constructor]|]. cbn [map]. rewrite IH1. split; [f_equal; destruct u as [[[[? ?] ?] ?] ?]; exact E1|constructor; assumption]. }
    destruct Mu as [-> M2]. rewrite average_fin. eexists. split; [reflexivity|]. split; [reflexivity|].
    destruct (mean_bounds 1 (qsum (map (fun v => v_tt (V w v) / free_of f w v)%Q (filter (has_ended w) g))) (map (fun v => v_tt (V w v) / free_of f w v)%Q (filter (has_ended w) g))) as [B _]; [destruct (filter (has_ended w) g); [congruence|discriminate]| |exact B].
    apply Forall_forall. intros y Hy. assert (Hy' := Hy). apply in_map_iff in Hy'. destruct Hy' as (v & <- & Iv). rewrite Forall_forall in M2. split; [apply M2; exact Iv|].
    assert (G : forall l, (forall y, In y l -> (1 <= y)%Q) -> forall y, In y l -> (y <= qsum l)%Q).
    { clear. induction l as [|a l IH]; intros H y Hy; [destruct Hy|]. destruct Hy as [->|Hy].
      - cbn [qsum fold_right]. fold (qsum l). assert (0 <= qsum l)%Q by (rewrite <- (map_id l); apply qsum_nonneg'; intros z Hz; specialize (H z (or_intror Hz)); lra). lra.
      - cbn [qsum fold_right]. fold (qsum l). specialize (IH (fun z Hz => H z (or_intror Hz)) y Hy). specialize (H a (or_introl eq_refl)). lra. }
    apply G; [|exact Hy]. intros z Hz. apply in_map_iff in Hz. destruct Hz as (u & <- & Iu). apply M2. exact Iu. }
  destruct (mapM_ok _ _ _ _ groups PG) as (rows & Er & Rw). exists rows, (free_of f w). split; [|split; [exact PF|exact Rw]].
  unfold vehicle_groups. rewrite Er. cbn [bind]. rewrite Nat.eqb_refl. reflexivity.
Qed.
(** C56: when the statistics between areas are total *)
Theorem areas2areas_total : forall c w named areas, correct_routine c -> reach c w -> plain_net w ->
  ((named = true \/ ~ In [] areas) -> exists rows, areas2areas c w named areas = Ok rows) /\
  (named = false -> In [] areas -> areas2areas c w named areas = Err IndexError).
Proof.
  intros c w named areas Cr R Pl. destruct (free_times_lemma c w Cr R Pl) as (f & Ef & _). destruct (min_dists_lemma c w Cr R Pl) as (m & Em & _).
  unfold areas2areas, od_tables_of. rewrite Ef, Em. cbn [bind]. split.
  - intro H. destruct (negb named && existsb _ areas) eqn:E; [|eexists; reflexivity]. apply andb_true_iff in E. destruct E as [E1 E2]. apply existsb_exists in E2. destruct E2 as (a & Ia & Ea). destruct a; [|discriminate Ea].
    destruct H as [->|H]; [discriminate E1|elim (H Ia)].
  - intros -> H. replace (existsb _ areas) with true; [reflexivity|]. symmetry. apply existsb_exists. exists []. auto.
Qed.
