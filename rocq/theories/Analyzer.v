(** * Analyzer: od_analysis, od_to_pandas and basic_analysis, analyzer.py 98-181 and 1682-1699. *)
From Verif Require Import Base Types Sim Build Heap Lists Inv FrameBase Tac Frame Eff Eff2 Trace InvStep Reach Steps Effects Phases Attr Life Incoming Vev Ride TripLog Route Spec SpecStats.
Local Open Scope nat_scope.

(** ** The model *)

(** defaultdicts keyed by (origin, destination), in order of insertion *)
Definition od := (nid * nid)%type.
Definition od_eqb (a b : od) : bool := Nat.eqb (fst a) (fst b) && Nat.eqb (snd a) (snd b).
Fixpoint od_get {A} (z : A) (k : od) (d : list (od * A)) : A :=
  match d with [] => z | (j, x) :: tl => if od_eqb k j then x else od_get z k tl end.
Fixpoint od_upd {A} (z : A) (k : od) (f : A -> A) (d : list (od * A)) : list (od * A) :=
  match d with [] => [(k, f z)] | (j, x) :: tl => if od_eqb k j then (j, f x) :: tl else (j, x) :: od_upd z k f tl end.

(** [od_trips], [od_trips_comp] and [od_tt]; distances and free-flow travel times (floyd_warshall) are left out: they do
    not enter the four statistics, 104-112. *)
Record od_tab := mkTab { t_trips : list (od * Z); t_comp : list (od * Z); t_tt : list (od * list Q) }.
(** one iteration of the loop 159-172; [dn] is DELTAN *)
Definition od_veh (c : cfg) (w : world) (t : od_tab) (v : vid) : od_tab :=
  match v_dest (V w v) with
  | None => t
  | Some d =>
      let k := (v_orig (V w v), d) in
      let trips := od_upd 0%Z k (fun n => n + c_deltan c)%Z (t_trips t) in
      if qeq (v_tt (V w v)) (-1)%Q then mkTab trips (t_comp t) (t_tt t)
      else mkTab trips (od_upd 0%Z k (fun n => n + c_deltan c)%Z (t_comp t)) (od_upd [] k (fun l => l ++ [v_tt (V w v)]) (t_tt t))
  end.
Definition od_compute (c : cfg) (w : world) : od_tab := fold_left (od_veh c w) (seq 0 (w_nv w)) (mkTab [] [] []).

(** The part of an Analyzer object that matters here: the tables once [flag_od_analysis] is set, and the statistics of the
    last [basic_analysis]. *)
Record analyzer := mkAna { a_od : option od_tab; a_basic : option stats }.
Definition new_analyzer : analyzer := mkAna None None.

(** 121-128 *)
Definition od_analysis (c : cfg) (w : world) (a : analyzer) : analyzer :=
  match a_od a with Some _ => a | None => mkAna (Some (od_compute c w)) (a_basic a) end.
(** [od_tt_ave], 173-174: the average for a key of [od_tt], else the default 0 *)
Definition tt_ave (t : od_tab) (k : od) : Q :=
  match od_get [] k (t_tt t) with [] => 0%Q | l => (qsum l / Qof_nat (List.length l))%Q end.
(** rows of the DataFrame of od_to_pandas: total_trips, completed_trips, average_travel_time *)
Definition od_rows (t : od_tab) : list (Z * Z * Q) :=
  map (fun e => (snd e, od_get 0%Z (fst e) (t_comp t), tt_ave t (fst e))) (t_trips t).
Definition zsum (l : list Z) : Z := fold_right Z.add 0%Z l.
(** [basic_analysis], 98-118 *)
Definition stats_of (t : od_tab) : stats :=
  let rows := od_rows t in
  let comp := zsum (map (fun r => snd (fst r)) rows) in
  let all := zsum (map (fun r => fst (fst r)) rows) in
  if Z.eqb comp 0 then mkStats all comp (-1)%Q (-1)%Q
  else let total := qsum (map (fun r => inject_Z (snd (fst r)) * snd r)%Q rows) in mkStats all comp total (total / inject_Z comp)%Q.
Definition basic_analysis (c : cfg) (w : world) (a : analyzer) : analyzer :=
  let a := od_analysis c w a in
  match a_od a with Some t => mkAna (Some t) (Some (stats_of t)) | None => a end.

(** Histories with an Analyzer: finalize_scenario makes a new one (2353); a query is any method that calls [od_analysis]
    (od_to_pandas, basic_analysis, areas2areas_to_pandas, area_to_pandas, output_data). *)
Definition is_final (o : op) : bool := match o with OFinalize _ => true | _ => false end.
Inductive qstep (c : cfg) (P : op -> world -> Prop) : world * analyzer -> world * analyzer -> Prop :=
| qs_step : forall w o w' a, op_ok o w -> P o w -> (forall x, o <> OExec x) -> apply_op c o w = Ok w' ->
    qstep c P (w, a) (w', if is_final o then new_analyzer else a)
| qs_tick : forall w w' a, w_final w = true -> tick c w = Ok w' -> qstep c P (w, a) (w', a)
| qs_time : forall w a, qstep c P (w, a) (sw_TIME (now c w) w, a)
| qs_od : forall w a, qstep c P (w, a) (w, od_analysis c w a)
| qs_basic : forall w a, qstep c P (w, a) (w, basic_analysis c w a).
Inductive qlater (c : cfg) (P : op -> world -> Prop) (s : world * analyzer) : world * analyzer -> Prop :=
| ql_refl : qlater c P s s
| ql_step : forall s1 s2, qlater c P s s1 -> qstep c P s1 s2 -> qlater c P s s2.

(** ** The table *)
Lemma od_eqb_iff : forall a b, od_eqb a b = true <-> a = b.
Proof.
  intros [a1 a2] [b1 b2]. unfold od_eqb. cbn. rewrite andb_true_iff, !Nat.eqb_eq. split; [intros [-> ->]; reflexivity|]. intro H. injection H; auto.
Qed.
Lemma od_eqb_refl : forall a, od_eqb a a = true.
Proof. intro a. apply od_eqb_iff. reflexivity. Qed.
Lemma od_eqb_ne : forall a b, a <> b -> od_eqb a b = false.
Proof. intros a b H. destruct (od_eqb a b) eqn:E; [|reflexivity]. apply od_eqb_iff in E. contradiction. Qed.

Lemma od_get_upd : forall A (z : A) k f d j, od_get z j (od_upd z k f d) = if od_eqb j k then f (od_get z k d) else od_get z j d.
Proof.
  intros A z k f d j. induction d as [|[i x] d IH]; cbn.
  - destruct (od_eqb j k); reflexivity.
  - destruct (od_eqb k i) eqn:E; cbn.
    + apply od_eqb_iff in E. subst i. destruct (od_eqb j k) eqn:E2; reflexivity.
    + destruct (od_eqb j i) eqn:E2.
      * apply od_eqb_iff in E2. subst j. destruct (od_eqb i k) eqn:E3; [|reflexivity]. apply od_eqb_iff in E3. subst i. rewrite od_eqb_refl in E. discriminate.
      * exact IH.
Qed.
Lemma od_upd_keys : forall A (z : A) k f d, map fst (od_upd z k f d) = if existsb (od_eqb k) (map fst d) then map fst d else map fst d ++ [k].
Proof.
  intros A z k f d. induction d as [|[i x] d IH]; cbn; [reflexivity|]. destruct (od_eqb k i); cbn; [reflexivity|]. rewrite IH.
  destruct (existsb _ _); reflexivity.
Qed.
Lemma od_get_none : forall A (z : A) k d, existsb (od_eqb k) (map fst d) = false -> od_get z k d = z.
Proof. intros A z k d H. induction d as [|[i x] d IH]; [reflexivity|]. cbn in *. destruct (od_eqb k i); [discriminate|]. auto. Qed.
Lemma od_in : forall k (ks : list od), existsb (od_eqb k) ks = true <-> In k ks.
Proof.
  intros k ks. rewrite existsb_exists. split; [intros (x & H & E); apply od_eqb_iff in E; subst; exact H|]. intro H. exists k. split; [exact H|apply od_eqb_refl].
Qed.
Lemma zsum_upd : forall k n d, zsum (map snd (od_upd 0%Z k (fun x => x + n)%Z d)) = (zsum (map snd d) + n)%Z.
Proof.
  intros k n d. induction d as [|[i x] d IH]; cbn; [lia|]. destruct (od_eqb k i); cbn; [lia|]. unfold zsum in *. rewrite IH. lia.
Qed.

(** sums of [g] over the keys *)
Definition ksum (g : od -> Q) (ks : list od) : Q := qsum (map g ks).
Lemma ksum_ext : forall f g ks, (forall k, In k ks -> (f k == g k)%Q) -> (ksum f ks == ksum g ks)%Q.
Proof. intros f g ks H. unfold ksum. induction ks as [|a ks IH]; cbn; [reflexivity|]. rewrite (H a) by (left; auto). rewrite IH by (intros; apply H; right; auto). reflexivity. Qed.
Lemma ksum_app : forall g a b, (ksum g (a ++ b) == ksum g a + ksum g b)%Q.
Proof. intros g a b. unfold ksum. induction a as [|x a IH]; cbn; [ring|]. rewrite IH. ring. Qed.
Lemma ksum_change : forall f g ks k x, NoDup ks -> In k ks -> (forall j, j <> k -> (g j == f j)%Q) -> (g k == f k + x)%Q -> (ksum g ks == ksum f ks + x)%Q.
Proof.
  intros f g ks k x Nd Hi H Hk. unfold ksum. induction ks as [|a ks IH]; [destruct Hi|]. inversion Nd; subst. cbn. destruct Hi as [-> |Hi].
  - rewrite Hk. assert (E : (qsum (map g ks) == qsum (map f ks))%Q) by (apply ksum_ext; intros j Hj; apply H; intros ->; contradiction). rewrite E. ring.
  - rewrite (IH H3 Hi), (H a) by (intros ->; contradiction). ring.
Qed.

Definition is_done (w : world) (v : vid) : bool := has_dest w v && negb (qeq (v_tt (V w v)) (-1)%Q).
Record TabOK (c : cfg) (w : world) (vs : list vid) (t : od_tab) : Prop := mkTabOK {
  to_nd : NoDup (map fst (t_trips t));
  to_keys : forall k, od_get [] k (t_tt t) <> [] -> In k (map fst (t_trips t));
  to_comp : forall k, od_get 0%Z k (t_comp t) = (c_deltan c * Z.of_nat (List.length (od_get [] k (t_tt t))))%Z;
  to_all : zsum (map snd (t_trips t)) = (c_deltan c * Z.of_nat (List.length (filter (has_dest w) vs)))%Z;
  to_num : (ksum (fun k => Qof_nat (List.length (od_get [] k (t_tt t)))) (map fst (t_trips t)) == Qof_nat (List.length (filter (is_done w) vs)))%Q;
  to_tt : (ksum (fun k => qsum (od_get [] k (t_tt t))) (map fst (t_trips t)) == qsum (map (fun v => v_tt (V w v)) (filter (is_done w) vs)))%Q }.

Lemma qsum_snoc : forall l x, (qsum (l ++ [x]) == qsum l + x)%Q.
Proof. intros l x. induction l as [|a l IH]; cbn; [ring|]. rewrite IH. ring. Qed.
Lemma Qof_nat_plus1 : forall n, (Qof_nat (n + 1) == Qof_nat n + 1)%Q.
Proof. intro n. unfold Qof_nat. rewrite Nat2Z.inj_add, inject_Z_plus. reflexivity. Qed.
Lemma filter_snoc : forall (A : Type) (p : A -> bool) l x, filter p (l ++ [x]) = if p x then filter p l ++ [x] else filter p l.
Proof. intros A p l x. rewrite filter_app. cbn. destruct (p x); [reflexivity|apply app_nil_r]. Qed.

Lemma keys_upd : forall A (z : A) k f d, NoDup (map fst d) ->
  NoDup (map fst (od_upd z k f d)) /\ In k (map fst (od_upd z k f d)) /\ (forall j, In j (map fst d) -> In j (map fst (od_upd z k f d))) /\
  (In k (map fst d) /\ map fst (od_upd z k f d) = map fst d \/ ~ In k (map fst d) /\ map fst (od_upd z k f d) = map fst d ++ [k]).
Proof.
  intros A z k f d Nd. rewrite od_upd_keys. destruct (existsb (od_eqb k) (map fst d)) eqn:E.
  - apply od_in in E. auto 10.
  - assert (Hn : ~ In k (map fst d)) by (intro H; apply od_in in H; congruence).
    split; [|split; [apply in_or_app; right; left; reflexivity|split; [intros j Hj; apply in_or_app; auto|right; auto]]].
    apply NoDup_app_last; auto.
Qed.

(** the sum of [g] over the keys when the value of [k] changes by [x] *)
Lemma ksum_upd : forall A (z : A) k f d (g h : od -> Q) x, NoDup (map fst d) -> (forall j, j <> k -> (h j == g j)%Q) -> (h k == g k + x)%Q ->
  (~ In k (map fst d) -> (g k == 0)%Q) -> (ksum h (map fst (od_upd z k f d)) == ksum g (map fst d) + x)%Q.
Proof.
  intros A z k f d g h x Nd H Hk H0. destruct (keys_upd A z k f d Nd) as (_ & _ & _ & [[Hi ->]|[Hn ->]]).
  - apply (ksum_change g h _ k); auto.
  - rewrite ksum_app. assert (E : (ksum h (map fst d) == ksum g (map fst d))%Q) by (apply ksum_ext; intros j Hj; apply H; intros ->; contradiction).
    rewrite E. unfold ksum at 2. cbn. rewrite Hk, (H0 Hn). ring.
Qed.
Lemma ksum_upd_same : forall A (z : A) k f d (g : od -> Q), NoDup (map fst d) -> (~ In k (map fst d) -> (g k == 0)%Q) ->
  (ksum g (map fst (od_upd z k f d)) == ksum g (map fst d))%Q.
Proof. intros A z k f d g Nd H0. rewrite (ksum_upd A z k f d g g 0%Q); auto; [ring|reflexivity|ring]. Qed.

Lemma TabOK_step : forall c w vs t v, TabOK c w vs t -> TabOK c w (vs ++ [v]) (od_veh c w t v).
Proof.
  intros c w vs t v [Nd K C A N S]. unfold od_veh.
  destruct (v_dest (V w v)) as [d|] eqn:D.
  2:{ assert (F1 : has_dest w v = false) by (unfold has_dest; rewrite D; reflexivity). assert (F2 : is_done w v = false) by (unfold is_done; rewrite F1; reflexivity).
      constructor; rewrite ?filter_snoc, ?F1, ?F2; auto. }
  assert (F1 : has_dest w v = true) by (unfold has_dest; rewrite D; reflexivity).
  set (k := (v_orig (V w v), d)). cbv zeta.
  destruct (keys_upd Z 0%Z k (fun n => n + c_deltan c)%Z (t_trips t) Nd) as (K1 & K2 & K3 & _).
  assert (Z0 : ~ In k (map fst (t_trips t)) -> od_get [] k (t_tt t) = []).
  { intro Hn. destruct (od_get [] k (t_tt t)) eqn:E; [reflexivity|]. exfalso. apply Hn, K. rewrite E. discriminate. }
  destruct (qeq (v_tt (V w v)) (-1)%Q) eqn:Q1.
  - assert (F2 : is_done w v = false) by (unfold is_done; rewrite F1, Q1; reflexivity).
    constructor; cbn [t_trips t_comp t_tt]; rewrite ?filter_snoc, ?F1, ?F2; auto.
    + rewrite zsum_upd, A, app_length. cbn [List.length]. lia.
    + rewrite ksum_upd_same; auto. intro Hn. rewrite (Z0 Hn). reflexivity.
    + rewrite ksum_upd_same; auto. intro Hn. rewrite (Z0 Hn). reflexivity.
  - assert (F2 : is_done w v = true) by (unfold is_done; rewrite F1, Q1; reflexivity).
    assert (G : forall j, od_get [] j (od_upd [] k (fun l => l ++ [v_tt (V w v)]) (t_tt t)) = if od_eqb j k then od_get [] k (t_tt t) ++ [v_tt (V w v)] else od_get [] j (t_tt t))
      by (intro j; apply od_get_upd).
    constructor; cbn [t_trips t_comp t_tt]; rewrite ?filter_snoc, ?F1, ?F2; auto.
    + intros j Hj. rewrite G in Hj. destruct (od_eqb j k) eqn:E; [apply od_eqb_iff in E; subst j; exact K2|apply K3, K, Hj].
    + intro j. rewrite G, od_get_upd. destruct (od_eqb j k) eqn:E; [|apply C]. rewrite C, app_length. cbn [List.length]. lia.
    + rewrite zsum_upd, A, app_length. cbn [List.length]. lia.
    + rewrite app_length. cbn [List.length]. rewrite Qof_nat_plus1, <- N. apply ksum_upd; auto.
      * intros j Hj. rewrite G, (od_eqb_ne _ _ Hj). reflexivity.
      * rewrite G, od_eqb_refl, app_length. cbn [List.length]. apply Qof_nat_plus1.
      * intro Hn. rewrite (Z0 Hn). reflexivity.
    + rewrite map_app. cbn [map]. rewrite qsum_snoc, <- S. apply ksum_upd; auto.
      * intros j Hj. rewrite G, (od_eqb_ne _ _ Hj). reflexivity.
      * rewrite G, od_eqb_refl. apply qsum_snoc.
      * intro Hn. rewrite (Z0 Hn). reflexivity.
Qed.

Lemma TabOK_fold : forall c w vs vs0 t, TabOK c w vs0 t -> TabOK c w (vs0 ++ vs) (fold_left (od_veh c w) vs t).
Proof.
  intros c w vs. induction vs as [|v vs IH]; intros vs0 t H; cbn [fold_left]; [rewrite app_nil_r; exact H|].
  replace (vs0 ++ v :: vs) with ((vs0 ++ [v]) ++ vs) by (rewrite <- app_assoc; reflexivity). apply IH, TabOK_step, H.
Qed.
Lemma TabOK_compute : forall c w, TabOK c w (vehicles w) (od_compute c w).
Proof.
  intros c w. apply (TabOK_fold c w (vehicles w) []). constructor; cbn; try reflexivity; try (intros; lia); [constructor|intros k H; elim H; reflexivity].
Qed.

(** ** The statistics of the table *)
Lemma zsum_inject : forall l, (inject_Z (zsum l) == qsum (map inject_Z l))%Q.
Proof. intro l. induction l as [|x l IH]; cbn; [reflexivity|]. unfold zsum in IH |- *. cbn [fold_right]. rewrite inject_Z_plus, IH. reflexivity. Qed.
Lemma ksum_scale : forall x g ks, (ksum (fun k => x * g k) ks == x * ksum g ks)%Q.
Proof. intros x g ks. unfold ksum. induction ks as [|a ks IH]; cbn; [ring|]. rewrite IH. ring. Qed.
Lemma Qof_nat_pos : forall n, n <> 0 -> ~ (Qof_nat n == 0)%Q.
Proof. intros n H E. unfold Qof_nat in E. change 0%Q with (inject_Z 0) in E. rewrite inject_Z_injective in E. lia. Qed.

Definition done_of (w : world) : list vid := filter (is_done w) (vehicles w).
Lemma stats_all : forall c w, st_all (stats_of (od_compute c w)) = (c_deltan c * Z.of_nat (with_dest w))%Z.
Proof.
  intros c w. pose proof (to_all _ _ _ _ (TabOK_compute c w)) as A. unfold stats_of, od_rows. cbv zeta. rewrite !map_map. cbn [fst snd].
  destruct (Z.eqb _ 0); exact A.
Qed.
Lemma comp_sum : forall c w, zsum (map (fun r : Z * Z * Q => snd (fst r)) (od_rows (od_compute c w))) = (c_deltan c * Z.of_nat (List.length (done_of w)))%Z.
Proof.
  intros c w. destruct (TabOK_compute c w) as [Nd K C A N S]. unfold od_rows. rewrite map_map. cbn [fst snd].
  apply inject_Z_injective. rewrite zsum_inject, map_map, inject_Z_mult. change (inject_Z (Z.of_nat (List.length (done_of w)))) with (Qof_nat (List.length (done_of w))).
  unfold done_of. rewrite <- N, <- ksum_scale. unfold ksum. rewrite map_map.
  assert (E : forall l : list (od * Z), (qsum (map (fun x => inject_Z (od_get 0%Z (fst x) (t_comp (od_compute c w)))) l) ==
    qsum (map (fun x => inject_Z (c_deltan c) * Qof_nat (List.length (od_get [] (fst x) (t_tt (od_compute c w))))) l))%Q).
  { intro l. induction l as [|x l IH]; cbn; [reflexivity|]. rewrite IH, C, inject_Z_mult. reflexivity. }
  apply E.
Qed.
Lemma total_sum : forall c w, (qsum (map (fun r : Z * Z * Q => inject_Z (snd (fst r)) * snd r) (od_rows (od_compute c w))) ==
  inject_Z (c_deltan c) * qsum (map (fun v => v_tt (V w v)) (done_of w)))%Q.
Proof.
  intros c w. destruct (TabOK_compute c w) as [Nd K C A N S]. unfold od_rows. rewrite map_map. cbn [fst snd].
  unfold done_of. rewrite <- S, <- ksum_scale. unfold ksum. rewrite map_map.
  generalize (t_trips (od_compute c w)) as l. intro l. induction l as [|x l IH]; cbn; [reflexivity|]. rewrite IH. apply Qplus_comp; [|reflexivity].
  rewrite C, inject_Z_mult. unfold tt_ave. destruct (od_get [] (fst x) (t_tt (od_compute c w))) as [|q tl] eqn:E; [cbn; ring|].
  change (inject_Z (Z.of_nat (List.length (q :: tl)))) with (Qof_nat (List.length (q :: tl))). field. apply Qof_nat_pos. discriminate.
Qed.

(** in a reached world the counted vehicles are the ended ones *)
Lemma done_ended : forall c w v, (0 <= dt c)%Q -> reach c w -> exists_veh w v -> is_done w v = has_ended w v.
Proof.
  intros c w v Hd R Hv. destruct (Life.times_lemma c w v R Hv) as (_ & A & _). unfold is_done, has_ended.
  assert (DE : v_state (V w v) = End_ \/ v_state (V w v) <> End_) by (destruct (v_state (V w v)); auto; right; discriminate).
  destruct DE as [E|E].
  - pose proof (tt_nonneg_lemma c w v Hd R Hv E) as B. destruct (traveled_lemma c w v false false R Hv) as (ls & ts & _ & _ & _ & _ & _ & D).
    destruct (D E) as (ls' & l & _ & D2). unfold has_dest. rewrite E, D2. cbn [andb].
    destruct (qeq (v_tt (V w v)) (-1)%Q) eqn:Q1; [|reflexivity]. apply qeq_iff in Q1. rewrite Q1 in B. lra.
  - destruct (A E) as [_ A2]. rewrite A2. change (qeq (-1)%Q (-1)%Q) with true. rewrite andb_false_r. destruct (v_state (V w v)); try reflexivity. contradiction.
Qed.
Lemma done_all : forall c w, (0 <= dt c)%Q -> reach c w -> done_of w = filter (has_ended w) (vehicles w).
Proof.
  intros c w Hd R. unfold done_of. apply filter_ext_in. intros v Hv. apply (done_ended c); auto. unfold vehicles in Hv. apply in_seq in Hv. unfold exists_veh. lia.
Qed.

Theorem stats_right : forall c w, (0 <= dt c)%Q -> (0 < c_deltan c)%Z -> reach c w -> right_stats c w (stats_of (od_compute c w)).
Proof.
  intros c w Hd Hn R. split; [apply stats_all|]. pose proof (comp_sum c w) as A. pose proof (total_sum c w) as B. rewrite (done_all c w Hd R) in A, B.
  fold (completed w) in A. fold (times w) in B. unfold stats_of. cbv zeta. rewrite A.
  destruct (Z.eqb (c_deltan c * Z.of_nat (completed w)) 0) eqn:E; cbn [st_completed st_total st_average].
  - apply Z.eqb_eq in E. assert (completed w = 0) by nia. split; [reflexivity|]. split; [intro; contradiction|auto].
  - apply Z.eqb_neq in E. assert (completed w <> 0) by nia. split; [reflexivity|]. split; [|intro; contradiction].
    intros _. split; [exact B|]. rewrite B, inject_Z_mult. change (inject_Z (Z.of_nat (completed w))) with (Qof_nat (completed w)). field.
    split; [apply Qof_nat_pos; auto|]. intro E2. change 0%Q with (inject_Z 0) in E2. rewrite inject_Z_injective in E2. lia.
Qed.

(** ** Queries *)

(** without an earlier query *)
Theorem basic_right : forall c w a, (0 <= dt c)%Q -> (0 < c_deltan c)%Z -> reach c w -> a_od a = None ->
  exists s, a_basic (basic_analysis c w a) = Some s /\ right_stats c w s.
Proof.
  intros c w a Hd Hn R H. unfold basic_analysis, od_analysis. rewrite H. cbn. eexists. split; [reflexivity|]. apply stats_right; auto.
Qed.

(** [frozen w a]: the tables of [a] are those of some [w0] between the finalization and [w]. *)
Lemma qlater_world : forall c P s s', qlater c P s s' -> later c P (fst s) (fst s').
Proof.
  intros c P s s' H. induction H as [|s1 s2 H IH S]; [constructor|].
  destruct S as [w o w' a H1 H2 H3 H4|w w' a H1 H2|w a|w a|w a]; cbn [fst] in *; auto;
    (eapply lt_step; [exact IH|]); [eapply st_op; eauto|apply st_tick; auto|apply st_time].
Qed.
Theorem frozen_lemma : forall c P w0 w a, qlater c P (w0, new_analyzer) (w, a) ->
  forall t, a_od a = Some t -> exists w1 a1, qlater c P (w0, new_analyzer) (w1, a1) /\ later c P w1 w /\ t = od_compute c w1.
Proof.
  intros c P w0 w a H. remember (w, a) as s eqn:Es. revert w a Es. induction H as [|s1 s2 H IH S]; intros w a Es t Ht.
  { injection Es as <- <-. discriminate. }
  destruct S as [x o x' b H1 H2 H3 H4|x x' b H1 H2|x b|x b|x b]; injection Es as <- <-.
  - assert (Ht2 : a_od b = Some t) by (revert Ht; destruct (is_final o); [discriminate|auto]). clear Ht. rename Ht2 into Ht. destruct (IH _ _ eq_refl t Ht) as (w1 & a1 & K1 & K2 & K3). exists w1, a1. split; [exact K1|]. split; [|exact K3].
    eapply lt_step; [exact K2|]. eapply st_op; eauto.
  - destruct (IH _ _ eq_refl t Ht) as (w1 & a1 & K1 & K2 & K3). exists w1, a1. split; [exact K1|]. split; [|exact K3]. eapply lt_step; [exact K2|]. apply st_tick; auto.
  - destruct (IH _ _ eq_refl t Ht) as (w1 & a1 & K1 & K2 & K3). exists w1, a1. split; [exact K1|]. split; [|exact K3]. eapply lt_step; [exact K2|]. apply st_time.
  - unfold od_analysis in Ht. destruct (a_od b) as [u|] eqn:E.
    + rewrite E in Ht. injection Ht as ->. apply (IH _ _ eq_refl t E).
    + cbn in Ht. injection Ht as <-. exists x, b. split; [exact H|]. split; [constructor|reflexivity].
  - unfold basic_analysis, od_analysis in Ht. destruct (a_od b) as [u|] eqn:E.
    + rewrite E in Ht. cbn in Ht. injection Ht as ->. apply (IH _ _ eq_refl t E).
    + cbn in Ht. injection Ht as <-. exists x, b. split; [exact H|]. split; [constructor|reflexivity].
Qed.

(** The statistics computed at the end are right for the state of the first query since the finalization. *)
Theorem basic_frozen : forall c P tm w a, (0 <= dt c)%Q -> (0 < c_deltan c)%Z -> qlater c P (empty_world tm, new_analyzer) (w, a) ->
  exists w1 s, later c P w1 w /\ a_basic (basic_analysis c w a) = Some s /\ right_stats c w1 s /\ (a_od a = None -> w1 = w).
Proof.
  intros c P tm w a Hd Hn H. pose proof (qlater_world _ _ _ _ H) as LT. cbn [fst] in LT. 
  destruct (a_od a) as [t|] eqn:E.
  - destruct (frozen_lemma _ _ _ _ _ H t E) as (w1 & a1 & K1 & K2 & ->). exists w1, (stats_of (od_compute c w1)). split; [exact K2|].
    split; [unfold basic_analysis, od_analysis; rewrite E; cbn; rewrite E; reflexivity|]. split; [|discriminate].
    apply stats_right; auto. eapply later_reach; [apply rc_init|]. exact (qlater_world _ _ _ _ K1).
  - exists w. destruct (basic_right c w a Hd Hn) as (s & K1 & K2); [eapply later_reach; [apply rc_init|exact LT]|exact E|].
    exists s. split; [constructor|auto].
Qed.
(** asking again does not change anything *)
Theorem basic_again : forall c w w' a, basic_analysis c w' (basic_analysis c w a) = basic_analysis c w a.
Proof. intros c w w' a. unfold basic_analysis, od_analysis. destruct (a_od a) eqn:E; rewrite ?E; cbn; rewrite ?E; reflexivity. Qed.
