(** * AreaStats: statistics of areas, analyzer.py 1569-1612 and 1811-1902 (vehicles_to_pandas, area_to_pandas). *)
From Verif Require Import Base Types Sim Build Heap Lists Inv FrameBase Tac Frame Eff Eff2 Trace InvStep Reach Steps Effects Phases Attr Life Incoming Vev Ride TripLog Route Signal Green Choice Enforce Counts LinkQueries FD NodeCap Origin Bucket Outflow Demand SpecTT TTActual Registry Spec SpecStats SpecLinks LinkStats LogRoute.
Local Open Scope nat_scope.

(** ** The model *)

(** numbers of numpy: nan and infinities are possible results *)
Inductive num := Fin (q : Q) | Nan | Inf.

(** the column 'link' of a logged row, 1596-1604 *)
Definition row_link (w : world) (r : logrow) : string :=
  match g_link r with
  | Some l => l_name (L w l)
  | None => match g_state r with
            | Wait => "waiting_at_origin_node"%string
            | Abort => "trip_aborted"%string
            | _ => "trip_end"%string
            end
  end.
Definition not_home (r : logrow) : bool := match g_state r with Home => false | _ => true end.
(** the columns 'name' and 'link' of vehicles_to_pandas, 1593-1608 *)
Definition veh_rows (w : world) : list (string * string) :=
  flat_map (fun v => map (fun r => (v_name (V w v), row_link w r)) (filter not_home (v_log (V w v)))) (vehicles w).
Lemma pair_dec : forall a b : string * string, {a = b} + {a <> b}.
Proof. decide equality; apply string_dec. Defined.

(** The table is made at the first call and kept (flag_pandas_convert, 1591-1612). *)
Definition table := option (list (string * string)).
Definition vehicles_to_pandas (w : world) (t : table) : list (string * string) := match t with Some rs => rs | None => veh_rows w end.

Record area_row := mkArow { ar_links : nat; ar_volume : Z; ar_remain : Z; ar_time : Q; ar_delay : num; ar_speed : num; ar_density : num }.

(** an area, 1849-1892; areas are given by node numbers.  [max(nan, 0)] is nan. *)
Definition area_row_of (c : cfg) (w : world) (rs : list link_row) (df : list (string * string)) (area : list nid) (border : bool) : area_row :=
  let ls := area_links w area border in
  let rows := map snd (filter (fun lr => of_area w area border (fst lr)) (combine (seq 0 (w_nl w)) rs)) in
  let names := map (fun l => l_name (L w l)) ls in
  let vs := nodup string_dec (map fst (filter (fun p => smem (snd p) names) (nodup pair_dec df))) in
  let volume := (Z.of_nat (List.length vs) * c_deltan c)%Z in
  let remain := fold_right Z.add 0%Z (map r_remain rows) in
  if Z.ltb 0 volume then
    let weight r := inject_Z (r_volume r - r_remain r) in
    let time := qsum (map (fun r => r_ave r * weight r)%Q rows) in
    let free := qsum (map (fun r => r_free r * weight r)%Q rows) in
    let delay := if qeq free 0 then (if qeq time 0 then Nan else if qlt time 0 then Fin 0 else Inf)
                 else Fin (qmax (time / free - 1) 0) in
    let dist := qsum (map (fun r => r_length r * weight r)%Q rows) in
    let len := qsum (map r_length rows) in
    mkArow (List.length ls) volume remain time delay (if qlt 0 time then Fin (dist / time) else Nan)
           (if qlt 0 len then Fin (inject_Z volume / len) else Nan)
  else mkArow (List.length ls) volume remain 0 Nan Nan Nan.
(** 1836-1901 *)
Definition area_to_pandas (c : cfg) (w : world) (t : table) (areas : list (list nid)) (border : bool) : result (list area_row * table) :=
  rs <- link_rows w ;;
  let df := vehicles_to_pandas w t in
  Ok (map (fun area => area_row_of c w rs df area border) areas, Some df).

(** ** Facts *)
Lemma same_set_length : forall A (l m : list A), NoDup l -> NoDup m -> (forall x, In x l <-> In x m) -> List.length l = List.length m.
Proof.
  intros A l m Nl Nm H. apply Nat.le_antisymm; apply NoDup_incl_length; auto; intros x Hx; apply H; exact Hx.
Qed.
Lemma NoDup_map_filter : forall A B (f : A -> B) (h : A -> bool) l, NoDup (map f l) -> NoDup (map f (filter h l)).
Proof.
  intros A B f h l. induction l as [|x l IH]; intro H; [constructor|]. cbn in *. inversion H; subst. destruct (h x); [|auto].
  cbn. constructor; [|auto]. intro K. apply H2. apply in_map_iff in K. destruct K as (y & E & K). apply filter_In in K. rewrite <- E. apply in_map. tauto.
Qed.
Lemma name_inj : forall (f : nat -> string) n i j, NoDup (map f (seq 0 n)) -> i < n -> j < n -> f i = f j -> i = j.
Proof.
  intros f n i j H Hi Hj E.
  assert (Ni : nth_error (map f (seq 0 n)) i = Some (f i)).
  { rewrite nth_error_map, (nth_error_nth' (seq 0 n) 0) by (rewrite seq_length; exact Hi). rewrite seq_nth by exact Hi. reflexivity. }
  assert (Nj : nth_error (map f (seq 0 n)) j = Some (f j)).
  { rewrite nth_error_map, (nth_error_nth' (seq 0 n) 0) by (rewrite seq_length; exact Hj). rewrite seq_nth by exact Hj. reflexivity. }
  eapply (NoDup_nth_error (map f (seq 0 n))); [exact H|rewrite map_length, seq_length; exact Hi|congruence].
Qed.

Lemma route_links_exist : forall c w v l, reach c w -> exists_veh w v -> In l (route_of (V w v)) -> exists_link w l.
Proof.
  intros c w v l R Hv Hl. destruct (traveled_lemma c w v false false R Hv) as (ls & ts & _ & E & F & _).
  rewrite Forall_forall in F. apply F. rewrite E. exact Hl.
Qed.

Lemma area_links_in : forall w area border l, In l (area_links w area border) <-> exists_link w l /\ of_area w area border l = true.
Proof. intros w area border l. unfold area_links, exists_link. rewrite filter_In, in_seq. intuition lia. Qed.

(** the names of the vehicles seen in the area *)
Definition seen_names (w : world) (area : list nid) (border : bool) (df : list (string * string)) : list string :=
  nodup string_dec (map fst (filter (fun p => smem (snd p) (map (fun l => l_name (L w l)) (area_links w area border))) (nodup pair_dec df))).
Lemma seen_names_in : forall w area border df s, In s (seen_names w area border df) <->
  exists l, In (s, l_name (L w l)) df /\ In l (area_links w area border).
Proof.
  intros w area border df s. unfold seen_names. rewrite nodup_In, in_map_iff. split.
  - intros ((n & k) & E & H). cbn in E. subst n. apply filter_In in H. destruct H as [H K]. rewrite nodup_In in H. cbn in K.
    apply smem_iff in K. apply in_map_iff in K. destruct K as (l & E & K). exists l. subst k. auto.
  - intros (l & H & K). exists (s, l_name (L w l)). split; [reflexivity|]. apply filter_In. rewrite nodup_In. split; [exact H|].
    cbn. apply smem_iff. apply in_map_iff. exists l. auto.
Qed.
Lemma veh_rows_in : forall w s k, In (s, k) (veh_rows w) <->
  exists v r, exists_veh w v /\ s = v_name (V w v) /\ In r (v_log (V w v)) /\ g_state r <> Home /\ k = row_link w r.
Proof.
  intros w s k. unfold veh_rows, vehicles. rewrite in_flat_map. split.
  - intros (v & Hv & H). apply in_map_iff in H. destruct H as (r & E & H). apply filter_In in H. destruct H as [H K].
    apply in_seq in Hv. exists v, r. injection E as <- <-. split; [unfold exists_veh; lia|]. repeat split; auto.
    unfold not_home in K. destruct (g_state r); congruence.
  - intros (v & r & Hv & -> & H & K & ->). exists v. split; [apply in_seq; unfold exists_veh in Hv; lia|]. apply in_map_iff. exists r. split; [reflexivity|].
    apply filter_In. split; [exact H|]. unfold not_home. destruct (g_state r); congruence.
Qed.

Definition free_names (w : world) : Prop := forall l, exists_link w l -> ~ reserved (l_name (L w l)).

(** a vehicle counted has the link in its log *)
Lemma counted : forall c w v r l, reach c w -> free_names w -> exists_veh w v -> In r (v_log (V w v)) -> exists_link w l ->
  row_link w r = l_name (L w l) -> g_link r = Some l /\ In l (route_of (V w v)).
Proof.
  intros c w v r l R Fn Hv Hr Hl E. unfold row_link in E. destruct (g_link r) as [k|] eqn:Ek.
  - assert (Hk : In k (route_of (V w v))) by (apply (proj1 (log_route c w v R Hv)); exists r; auto).
    pose proof (route_links_exist c w v k R Hv Hk) as Hx. destruct (unique_lemma c w R) as (_ & Nl & _). unfold link_names in Nl.
    assert (k = l) by (eapply (name_inj (fun l => l_name (L w l))); eauto). subst k. auto.
  - exfalso. apply (Fn l Hl). unfold reserved. destruct (g_state r); rewrite <- E; auto.
Qed.

Lemma volume_le : forall c w area border, reach c w -> free_names w -> List.length (seen_names w area border (veh_rows w)) <= visitors w area border.
Proof.
  intros c w area border R Fn. unfold visitors. rewrite <- (map_length (fun v => v_name (V w v))). apply NoDup_incl_length; [apply NoDup_nodup|].
  intros s H. apply seen_names_in in H. destruct H as (l & H & K). apply veh_rows_in in H. destruct H as (v & r & Hv & -> & Hr & _ & E).
  apply area_links_in in K. destruct K as [K1 K2]. apply in_map_iff. exists v. split; [reflexivity|]. apply filter_In. unfold vehicles.
  split; [apply in_seq; unfold exists_veh in Hv; lia|]. unfold visits. apply existsb_exists. exists l. split; [|exact K2].
  symmetry in E. apply (counted c w v r l R Fn Hv Hr K1 E).
Qed.
Lemma volume_eq : forall c w area border, c_logint c = 1%Z -> reach c w -> free_names w -> List.length (seen_names w area border (veh_rows w)) = visitors w area border.
Proof.
  intros c w area border L1 R Fn. apply Nat.le_antisymm; [eapply volume_le; eauto|].
  unfold visitors. rewrite <- (map_length (fun v => v_name (V w v))). apply NoDup_incl_length.
  - apply NoDup_map_filter. destruct (unique_lemma c w R) as (_ & _ & Nv). exact Nv.
  - intros s H. apply in_map_iff in H. destruct H as (v & <- & H). apply filter_In in H. destruct H as [Hv H]. unfold vehicles in Hv. apply in_seq in Hv.
    assert (Hx : exists_veh w v) by (unfold exists_veh; lia).
    unfold visits in H. apply existsb_exists in H. destruct H as (l & Hl & Ha). apply seen_names_in. exists l.
    split; [|apply area_links_in; split; [eapply route_links_exist; eauto|exact Ha]].
    apply veh_rows_in. destruct (proj2 (log_route c w v R Hx) L1 l Hl) as (r & Hr & Er). exists v, r. split; [exact Hx|]. split; [reflexivity|].
    split; [exact Hr|]. destruct (reach_LR c w R v Hx) as [_ D _ _]. rewrite (D r Hr) by congruence. split; [discriminate|].
    unfold row_link. rewrite Er. reflexivity.
Qed.

(** ** The rows of the links of the area *)
Lemma filter_combine : forall A B (f : A -> bool) (P : A -> B -> Prop) xs ys, Forall2 P xs ys ->
  Forall2 P (filter f xs) (map snd (filter (fun p => f (fst p)) (combine xs ys))).
Proof. intros A B f P xs ys H. induction H as [|x y xs ys H1 H IH]; [constructor|]. cbn. destruct (f x); [constructor|]; assumption. Qed.
Lemma mapM_forall2 : forall A B (f : A -> result B) xs ys, mapM f xs = Ok ys -> Forall2 (fun x y => f x = Ok y) xs ys.
Proof.
  intros A B f xs. induction xs as [|x xs IH]; intros ys H; cbn [mapM] in H; [injection H as <-; constructor|].
  apply bind_ok in H. destruct H as (y & E & H). apply bind_ok in H. destruct H as (zs & E2 & H). injection H as <-. constructor; auto.
Qed.
Definition row_of (w : world) (l : lid) : link_row := match link_row_of (L w l) with Ok r => r | Err _ => mkLrow 0 0 0 None None 0 end.
Lemma rows_map : forall w ls rs, Forall2 (fun l r => link_row_of (L w l) = Ok r) ls rs -> rs = map (row_of w) ls.
Proof. intros w ls rs H. induction H as [|l r ls rs E H IH]; [reflexivity|]. cbn. rewrite <- IH. unfold row_of. rewrite E. reflexivity. Qed.
Lemma area_rows_map : forall w rs area border, link_rows w = Ok rs ->
  map snd (filter (fun lr => of_area w area border (fst lr)) (combine (seq 0 (w_nl w)) rs)) = map (row_of w) (area_links w area border).
Proof.
  intros w rs area border H. apply mapM_forall2 in H. apply rows_map. unfold area_links.
  exact (filter_combine _ _ (of_area w area border) _ _ _ H).
Qed.

Definition weight (w : world) (l : lid) : Q := inject_Z (r_volume (row_of w l) - r_remain (row_of w l)).
(** the values of an area *)
Theorem area_values : forall c w rs df area border, link_rows w = Ok rs ->
  let a := area_row_of c w rs df area border in
  ar_links a = List.length (area_links w area border) /\
  ar_volume a = (c_deltan c * Z.of_nat (List.length (seen_names w area border df)))%Z /\
  ar_remain a = fold_right Z.add 0%Z (map (fun l => r_remain (row_of w l)) (area_links w area border)) /\
  ((0 < ar_volume a)%Z -> ar_time a = qsum (map (fun l => r_ave (row_of w l) * weight w l)%Q (area_links w area border))) /\
  (forall q, ar_delay a = Fin q -> (0 <= q)%Q).
Proof.
  intros c w rs df area border H a. unfold a, area_row_of. rewrite (area_rows_map w rs area border H). cbv zeta.
  fold (seen_names w area border df). rewrite !map_map. destruct (Z.ltb_spec 0 (Z.of_nat (List.length (seen_names w area border df)) * c_deltan c)) as [V|V].
  - cbn [ar_links ar_volume ar_remain ar_time ar_delay]. split; [reflexivity|]. split; [lia|]. split; [reflexivity|]. split; [reflexivity|].
    intros q E. destruct (qeq _ 0) in E.
    + destruct (qeq _ 0) in E; [discriminate E|]. destruct (qlt _ 0) in E; [|discriminate E]. injection E as <-. lra.
    + injection E as <-. unfold qmax. destruct (qle _ 0) eqn:X; [lra|]. apply qle_false in X. lra.
  - cbn [ar_links ar_volume ar_remain ar_time ar_delay]. split; [reflexivity|]. split; [lia|]. split; [reflexivity|]. split; [lia|]. discriminate.
Qed.

Lemma row_remain : forall c w l r, (0 <= c_deltan c)%Z -> reach c w -> exists_link w l -> link_row_of (L w l) = Ok r ->
  r_remain r = (c_deltan c * Z.of_nat (List.length (l_vehs (L w l))))%Z.
Proof.
  intros c w l r Hn R Hl E. destruct (reach_CInv c w Hn R l Hl) as [_ K2 _ _ _]. rewrite Dq_none in K2. unfold link_row_of in E.
  apply bind_ok in E. destruct E as (vol & E1 & E). apply bind_ok in E. destruct E as (arr & E2 & E). apply bind_ok in E. destruct E as (fr & _ & E).
  cbv zeta in E. apply bind_ok in E. destruct E as (ra & _ & E). injection E as <-. cbn [r_remain].
  unfold last0 in K2. destruct (last_opt (l_cd (L w l))); [|discriminate E1]. destruct (last_opt (l_ca (L w l))); [|discriminate E2].
  injection E1 as ->. injection E2 as ->. exact K2.
Qed.
Lemma rows_exist : forall w rs l, link_rows w = Ok rs -> exists_link w l -> link_row_of (L w l) = Ok (row_of w l).
Proof.
  intros w rs l H Hl. apply mapM_forall2 in H. unfold row_of.
  assert (X : exists r, link_row_of (L w l) = Ok r).
  { assert (Hi : In l (seq 0 (w_nl w))) by (apply in_seq; unfold exists_link in Hl; lia). revert Hi. clear Hl. induction H as [|x y xs ys E H IH]; intro Hi; [destruct Hi|]. destruct Hi as [<-|Hi]; eauto. }
  destruct X as (r & ->). reflexivity.
Qed.

(** the vehicles on the links of the area *)
Definition inside (w : world) (area : list nid) (border : bool) : nat :=
  fold_right Nat.add 0 (map (fun l => List.length (l_vehs (L w l))) (area_links w area border)).

(** C55: links, volume and remaining vehicles *)
Theorem area_lemma : forall c w areas border rows t, (0 <= c_deltan c)%Z -> c_logint c = 1%Z -> reach c w -> free_names w ->
  area_to_pandas c w None areas border = Ok (rows, t) ->
  Forall2 (fun area a => ar_links a = List.length (area_links w area border) /\
    ar_volume a = (c_deltan c * Z.of_nat (visitors w area border))%Z /\
    ar_remain a = (c_deltan c * Z.of_nat (inside w area border))%Z /\ (forall q, ar_delay a = Fin q -> (0 <= q)%Q)) areas rows.
Proof.
  intros c w areas border rows t Hn L1 R Fn H. unfold area_to_pandas in H. apply bind_ok in H. destruct H as (rs & E & H). cbv zeta in H.
  injection H as <- _. induction areas as [|area areas IH]; [constructor|]. cbn [map]. constructor; [|exact IH].
  destruct (area_values c w rs (veh_rows w) area border E) as (A1 & A2 & A3 & _ & A5). cbv zeta in *.
  split; [exact A1|]. split; [rewrite <- (volume_eq c w area border L1 R Fn); exact A2|]. split; [|exact A5].
  cbn [vehicles_to_pandas]. rewrite A3. unfold inside.
  assert (K : forall ls, (forall l, In l ls -> exists_link w l) -> fold_right Z.add 0%Z (map (fun l => r_remain (row_of w l)) ls) =
    (c_deltan c * Z.of_nat (fold_right Nat.add 0%nat (map (fun l => List.length (l_vehs (L w l))) ls)))%Z).
  { induction ls as [|l ls IHl]; intro Hls; [cbn; lia|]. cbn [map fold_right]. rewrite IHl by (intros k Hk; apply Hls; right; exact Hk).
    assert (Hl : exists_link w l) by (apply Hls; left; reflexivity).
    rewrite (row_remain c w l _ Hn R Hl (rows_exist w rs l E Hl)). lia. }
  apply K. intros l Hl. apply area_links_in in Hl. tauto.
Qed.

(** C55: with any logging interval the volume is at most the number of visitors *)
Theorem area_bound : forall c w areas border rows t, (0 <= c_deltan c)%Z -> reach c w -> free_names w ->
  area_to_pandas c w None areas border = Ok (rows, t) ->
  Forall2 (fun area a => (ar_volume a <= c_deltan c * Z.of_nat (visitors w area border))%Z) areas rows.
Proof.
  intros c w areas border rows t Hn R Fn H. unfold area_to_pandas in H. apply bind_ok in H. destruct H as (rs & E & H). cbv zeta in H.
  injection H as <- _. induction areas as [|area areas IH]; [constructor|]. cbn [map]. constructor; [|exact IH].
  destruct (area_values c w rs (veh_rows w) area border E) as (_ & A2 & _). cbv zeta in A2. cbn [vehicles_to_pandas]. rewrite A2.
  pose proof (volume_le c w area border R Fn). nia.
Qed.

Lemma qsum_nonneg' : forall A (f : A -> Q) l, (forall x, In x l -> (0 <= f x)%Q) -> (0 <= qsum (map f l))%Q.
Proof.
  intros A f l H. induction l as [|x l IH]; [cbn; lra|]. cbn [map qsum fold_right]. fold (qsum (map f l)).
  specialize (H x (or_introl eq_refl)) as H0. assert (0 <= qsum (map f l))%Q by (apply IH; intros y Hy; apply H; right; exact Hy). lra.
Qed.
Lemma qsum_same : forall A (f g : A -> Q) l, (forall x, In x l -> (f x == g x)%Q) -> (qsum (map f l) == qsum (map g l))%Q.
Proof.
  intros A f g l H. induction l as [|x l IH]; [reflexivity|]. cbn [map qsum fold_right]. fold (qsum (map f l)). fold (qsum (map g l)).
  rewrite (H x (or_introl eq_refl)), IH by (intros y Hy; apply H; right; exact Hy). reflexivity.
Qed.

Lemma mean_nonneg : forall xs, Forall (fun q => (0 <= q)%Q) xs -> (0 <= mean xs)%Q.
Proof.
  intros xs H. unfold mean. destruct xs as [|x xs]; [unfold Qdiv; rewrite Qmult_0_l; lra|].
  assert (P : (0 < Qof_nat (List.length (x :: xs)))%Q) by (unfold Qof_nat; change 0%Q with (inject_Z 0); rewrite <- Zlt_Qlt; cbn [List.length]; lia).
  apply Qle_shift_div_l; [exact P|]. rewrite Qmult_0_l. rewrite Forall_forall in H. rewrite <- (map_id (x :: xs)). apply qsum_nonneg'. exact H.
Qed.

(** C55: the total travel time of an area without vehicles *)
Theorem area_time_lemma : forall c P tm w1 w0 w rs df area border, (0 < dt c)%Q -> (0 < c_deltan c)%Z -> reach c w1 -> w_final w1 = false ->
  finalize c tm w1 = Ok w0 -> 0 < w_tsize w0 -> (forall l, exists_link w1 l -> (0 < l_len (L w1 l))%Q /\ (0 < l_u (L w1 l))%Q) ->
  later c P w0 w -> (forall l, exists_link w l -> (0 < l_len (L w l))%Q /\ (0 < l_u (L w l))%Q) -> 0 < w_T w -> link_rows w = Ok rs ->
  inside w area border = 0 -> (0 < ar_volume (area_row_of c w rs df area border))%Z ->
  (ar_time (area_row_of c w rs df area border) == qsum (map (fun l => r_ave (row_of w l) * inject_Z (r_volume (row_of w l)))%Q (area_links w area border)))%Q /\
  (0 <= ar_time (area_row_of c w rs df area border))%Q.
Proof.
  intros c P tm w1 w0 w rs df area border Hd Hn R1 Hf Ef Ht H1 K H2 HT E Hi Hv.
  assert (R : reach c w).
  { eapply later_reach; [|exact K]. eapply rc_op with (o := OFinalize tm); [exact R1|exact Hf|intros a; discriminate|exact Ef]. }
  destruct (area_values c w rs df area border E) as (_ & _ & _ & A4 & _). cbv zeta in A4. rewrite (A4 Hv).
  assert (Em : forall l, In l (area_links w area border) -> l_vehs (L w l) = []).
  { unfold inside in Hi. clear - Hi. induction (area_links w area border) as [|k ls IH]; intros l Hl; [destruct Hl|]. cbn [map fold_right] in Hi.
    destruct Hl as [<-|Hl]; [apply length_zero_iff_nil; lia|apply IH; [lia|exact Hl]]. }
  assert (Ew : forall l, In l (area_links w area border) -> weight w l = inject_Z (r_volume (row_of w l))).
  { intros l Hl. pose proof (Em l Hl) as Ev. apply area_links_in in Hl. destruct Hl as [Hl _]. unfold weight.
    rewrite (row_remain c w l _ ltac:(lia) R Hl (rows_exist w rs l E Hl)), Ev. cbn [List.length]. f_equal. lia. }
  assert (Es : (qsum (map (fun l => r_ave (row_of w l) * weight w l)%Q (area_links w area border)) ==
    qsum (map (fun l => r_ave (row_of w l) * inject_Z (r_volume (row_of w l)))%Q (area_links w area border)))%Q).
  { apply qsum_same. intros l Hl. rewrite (Ew l Hl). reflexivity. }
  split; [exact Es|]. rewrite Es. apply qsum_nonneg'. intros l Hl. apply area_links_in in Hl. destruct Hl as [Hl _].
  destruct (H2 l Hl) as [Hlen Hu].
  destruct (link_row_lemma c P tm w1 w0 w l Hd Hn R1 Hf Ef K Hl HT Hlen Hu) as (g & r & ff & B1 & B2 & B3 & B4 & B5 & B6 & B7 & B8 & B9).
  assert (Er : row_of w l = r) by (unfold row_of; rewrite B1; reflexivity). rewrite Er.
  destruct g as [|x g].
  - rewrite B5. cbn [List.length]. rewrite Z.mul_0_r. change (inject_Z 0) with 0%Q. rewrite Qmult_0_r. apply Qle_refl.
  - assert (Hl1 : exists_link w1 l).
    { destruct (link_history c P tm w1 w0 w l Hd R1 Hf Ef K Hl) as (g' & n & ff' & _ & _ & _ & X & _). exact X. }
    destruct (H1 l Hl1) as [L1 L2].
    assert (Fp : (0 < ff)%Q) by (rewrite (B4 Ht); apply Qlt_shift_div_l; [exact L2|lra]).
    destruct (link_mean_lemma c (w_tsize w0) ff (x :: g) Hd Ht Fp B3) as [M1 M2].
    specialize (B9 ltac:(discriminate)). rewrite M1 in B9. unfold r_ave. rewrite B9. rewrite B5.
    apply Qmult_le_0_compat.
    + apply (mean_nonneg (map (travel_at c ff (x :: g)) (seq 0 (w_tsize w0)))). apply Forall_forall. intros q Hq. apply in_map_iff in Hq.
      destruct Hq as (j & <- & _). apply (travel_from c ff (x :: g) j (fun q => (0 <= q)%Q)); [lra|].
      eapply Forall_impl; [|exact B3]. intros y Hy. cbv beta in Hy. apply Qle_trans with (dt c); [lra|exact Hy].
    + change 0%Q with (inject_Z 0). rewrite <- Zle_Qle. lia.
Qed.
