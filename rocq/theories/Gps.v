(** * Gps: places of vehicles and the tables of their logs (property C58).

    Models Vehicle.get_xy_coords (uxsim.py 1481-1505), Analyzer.gps_like_log_to_pandas (analyzer.py 1650-1667) and
    Analyzer.vehicle_trip_to_pandas (1620-1648).

    Simplifications: floats are rationals (so int(T*DELTAT/DELTAT) is T); the data frames are lists of rows; W.get_link of a Link of
    the World is that Link; numpy's nan of an empty average is None. *)
From Verif Require Import Base Types Sim Build Heap Lists Inv FrameBase Tac Frame Eff Eff2 Trace InvStep Reach Steps Effects Phases Attr Life Incoming Vev Ride TripLog Route Signal Green Choice Enforce Counts LinkQueries FD NodeCap Origin Bucket Outflow Trials Motion Spacing Spec Distance Totals Paths Demand SpecLogs Logs SpecStats Edie SpecEdie EdieOK Traj SpecDso Dso SpecDelay Delay NodeDistances SpecLinks LinkStats SpecMfd Mfd SpecGps.
From Verif Require Taxi2.
Local Open Scope nat_scope.

(** 1499-1505 *)
Definition coords (w : world) (l : lid) (x : Q) : result (Q * Q) :=
  let a := N w (l_start (L w l)) in
  let b := N w (l_end (L w l)) in
  fx <- qdiv ((n_x b - n_x a) * x) (l_len (L w l)) ;;
  fy <- qdiv ((n_y b - n_y a) * x) (l_len (L w l)) ;;
  Ok (n_x a + fx, n_y a + fy)%Q.
(** 1490-1505; a position of -1 in the log is None *)
Definition get_xy (c : cfg) (w : world) (v : vid) (t : Q) : result (Q * Q) :=
  '(l, x) <- (if qeq t (-1) then Ok (v_link (V w v), Some (v_x (V w v)))
              else a <- qdiv t (dt c) ;; b <- qdiv a (inject_Z (c_logint c)) ;;
                   r <- py_get (v_log (V w v)) (qtrunc b) ;; Ok (g_link r, g_x r)) ;;
  match l with
  | None => Ok nowhere
  | Some l => coords w l (match x with Some x => x | None => (-1)%Q end)
  end.

Record gps_row := mkGps { gp_name : string; gp_t : Q; gp_at : Q * Q; gp_v : option Q }.
(** analyzer.py 1660-1665 *)
Definition gps_row_of (c : cfg) (w : world) (v : vid) (r : logrow) : result (list gps_row) :=
  p <- get_xy c w v (g_t r) ;;
  Ok (if is_nowhere p then [] else [mkGps (v_name (V w v)) (g_t r) p (g_v r)]).
Definition gps_vehicle (c : cfg) (w : world) (v : vid) : result (list gps_row) :=
  rs <- mapM (gps_row_of c w v) (v_log (V w v)) ;; Ok (List.concat rs).
(** 1658-1667 *)
Definition gps_log (c : cfg) (w : world) : result (list gps_row) :=
  rs <- mapM (gps_vehicle c w) (vehicles w) ;; Ok (List.concat rs).

(** 1637-1648 *)
Record trip_row := mkTrip { tr_name : string; tr_orig : nid; tr_dest : option nid; tr_dep : Q; tr_state : vstate; tr_tt : Q; tr_speed : option Q; tr_dist : Q }.
Definition speeds (rows : list logrow) : list Q :=
  flat_map (fun r => match g_v r with Some q => if qeq q (-1) then [] else [q] | None => [] end) rows.
Definition mean_speed (rows : list logrow) : option Q := match speeds rows with [] => None | vs => Some (qsum vs / Qof_nat (List.length vs))%Q end.
Definition trip_row_of (c : cfg) (w : world) (v : vid) : result trip_row :=
  r <- of_opt IndexError (last_opt (v_log (V w v))) ;;
  Ok (mkTrip (v_name (V w v)) (v_orig (V w v)) (v_dest (V w v)) (inject_Z (v_dep (V w v)) * dt c)%Q (g_state r) (v_tt (V w v))
        (mean_speed (v_log (V w v))) (v_dist (V w v))).
Definition trip_table (c : cfg) (w : world) : result (list trip_row) := mapM (trip_row_of c w) (vehicles w).

(** ** Places *)
Lemma qdiv_by : forall a b, ~ (b == 0)%Q -> qdiv a b = Ok (a / b)%Q.
Proof. intros a b H. unfold qdiv. destruct (qeq b 0) eqn:E; [apply qeq_iff in E; contradiction|reflexivity]. Qed.
Lemma coords_ok : forall w l x, ~ (l_len (L w l) == 0)%Q -> coords w l x = Ok (place w l x).
Proof. intros w l x H. unfold coords, place. rewrite !qdiv_by by exact H. reflexivity. Qed.

Lemma place_divides : forall w l x, (0 < l_len (L w l))%Q -> divides w l (place w l x) (x / l_len (L w l)).
Proof. intros w l x H. unfold divides, place. cbn [fst snd]. split; field; lra. Qed.

(** the rows of the log lie within their links *)
Definition Rows (w : world) (v : vid) : Prop := Forall (fun r => forall l x, g_link r = Some l -> g_x r = Some x -> l < w_nl w /\ (0 <= x <= l_len (L w l))%Q) (v_log (V w v)).
Lemma reach_Rows : forall c, c_logint c = 1%Z -> (0 <= dt c)%Q -> forall w, reachP c sound_links w -> forall v, v < w_nv w -> Rows w v.
Proof.
  intros c L1 Hd. apply reachP_ride.
  - intros w w3 w4 w' v R _ Hv I _ F _ J BV.
    destruct (tick_rows c v w w' w3 w4 L1 Hd (reach_Geo c _ (fun _ _ K => K) w R) Hv (reach_Pos c _ Hd (fun _ _ K => K) w R v Hv) I BV) as (rows & E & Fr).
    assert (Same : forall l x, l < w_nl w /\ (0 <= x <= l_len (L w l))%Q -> l < w_nl w' /\ (0 <= x <= l_len (L w' l))%Q).
    { intros l x [A B]. split; [rewrite (fr_w_nl F); exact A|]. rewrite (fr_l_len F). exact B. }
    unfold Rows in *. change (V (sw_T (S (w_T w)) w')) with (V w'). change (L (sw_T (S (w_T w)) w')) with (L w'). change (w_nl (sw_T (S (w_T w)) w')) with (w_nl w').
    rewrite E. apply Forall_app. split.
    + eapply Forall_impl; [|exact J]. cbv beta. intros r Hr l x Hl Hx. apply Same. exact (Hr l x Hl Hx).
    + eapply Forall_impl; [|exact Fr]. cbv beta. intros r Hr l x Hl Hx. apply Same. destruct (Hr l x Hl Hx) as (A & B & _). split; assumption.
  - intros w v J. exact J.
  - intros w o w' v R I Ho Hp Hx H Hv J. destruct (op_keep c o w w' v Ho Hx H Hv) as (Kp & _). unfold vkeep in Kp.
    assert (E3 : v_log (V w' v) = v_log (V w v)) by congruence. clear Kp. destruct (op_nl _ _ _ _ Hx H Ho) as (Hn & _).
    unfold Rows in *. rewrite E3. eapply Forall_impl; [|exact J]. cbv beta. intros r Hr l x Hl Hxx. destruct (Hr l x Hl Hxx) as [A B].
    split; [lia|]. rewrite (op_len c o w w' l Ho Hx H A). exact B.
  - intros w o w' v a nl nm R Ho Hp Hx H H1 H2 Kp. unfold vkeep in Kp.
    assert (E1 : v_log (V w' v) = []) by (change (@nil logrow) with (v_log (new_vehicle c a nl nm)); congruence).
    unfold Rows. rewrite E1. constructor.
Qed.

(** every row with a link has a position; the last row has the state of the vehicle, or the vehicle has just become ready to depart *)
Definition placed (r : logrow) : Prop := g_link r = None \/ exists l x, g_link r = Some l /\ g_x r = Some x.
Definition recent (s : vstate) (r : logrow) : Prop := g_state r = s \/ (g_state r = Home /\ s = Wait).
Definition LastOK (w : world) (v : vid) : Prop :=
  Forall placed (v_log (V w v)) /\ forall r, last_opt (v_log (V w v)) = Some r -> recent (v_state (V w v)) r.
Lemma row_of_placed : forall c w v r, row_of c w v r -> placed r.
Proof. intros c w v r H. destruct H; unfold placed; [subst r; left; reflexivity|right|right|right]; eauto. Qed.
Lemma LastOK_step : forall c w w' v, log_step c w w' v -> LastOK w v -> LastOK w' v.
Proof.
  intros c w w' v H [J1 J2]. destruct H as [r A1 A2 A3 A4 A5 A6|rows A1 A2 A3 A4|A1 A2 A3].
  - split; rewrite A4.
    + apply Forall_app. split; [exact J1|]. constructor; [exact (row_of_placed _ _ _ _ A3)|constructor].
    + intros q E. rewrite last_opt_app in E. injection E as <-. unfold recent. destruct (vstate_dec (g_state r) Run) as [D|D].
      * left. destruct (A6 D) as (B & _). congruence.
      * destruct (A5 D) as [B|[B1 B2]]; [left; congruence|right; split; assumption].
  - rewrite app_assoc in A4. split; rewrite A4.
    + apply Forall_app. split; [apply Forall_app; split; [exact J1|]|].
      * destruct A3 as [-> |(r & -> & _ & B)]; constructor; [exact (row_of_placed _ _ _ _ B)|constructor].
      * constructor; [left; reflexivity|constructor].
    + intros q E. rewrite last_opt_app in E. injection E as <-. left. reflexivity.
  - unfold LastOK. rewrite A2, A3. split; assumption.
Qed.
Lemma reach_LastOK : forall c, c_logint c = 1%Z -> forall w, reachP c any_op w -> forall v, v < w_nv w -> LastOK w v.
Proof.
  intros c L1. apply reachP_ride.
  - intros w w3 w4 w' v R _ Hv I _ F _ J BV. refine (LastOK_step c w w' v _ J). eapply tick_log; eauto.
  - intros w v J. exact J.
  - intros w o w' v R I Ho Hp Hx H Hv J. destruct (op_keep c o w w' v Ho Hx H Hv) as (Kp & _). unfold vkeep in Kp.
    assert (E1 : v_log (V w' v) = v_log (V w v)) by congruence. assert (E2 : v_state (V w' v) = v_state (V w v)) by congruence.
    unfold LastOK in *. rewrite E1, E2. exact J.
  - intros w o w' v a nl nm R Ho Hp Hx H H1 H2 Kp. unfold vkeep in Kp.
    assert (E1 : v_log (V w' v) = []) by (change (@nil logrow) with (v_log (new_vehicle c a nl nm)); congruence).
    unfold LastOK. rewrite E1. split; [constructor|]. intros r E. discriminate E.
Qed.

(** ** Where the log is read *)
Lemma step_index : forall c k, (0 < dt c)%Q -> c_logint c = 1%Z -> exists b, (a <- qdiv (at_step c k) (dt c) ;; qdiv a (inject_Z (c_logint c))) = Ok b /\ qtrunc b = Z.of_nat k.
Proof.
  intros c k Hd L1. exists (at_step c k / dt c / inject_Z (c_logint c))%Q. rewrite (qdiv_by (at_step c k)) by lra. cbn [bind]. split.
  - apply qdiv_by. rewrite L1. discriminate.
  - apply qtrunc_Z. rewrite L1. unfold at_step, Qof_nat. field. lra.
Qed.
Definition read_row (w : world) (r : logrow) : result (Q * Q) :=
  match g_link r with None => Ok nowhere | Some l => coords w l (match g_x r with Some x => x | None => (-1)%Q end) end.
Lemma at_step_nonneg : forall c k, (0 < dt c)%Q -> (0 <= at_step c k)%Q.
Proof. intros c k Hd. unfold at_step. apply Qmult_le_0_compat; [|lra]. unfold Qof_nat. change 0%Q with (inject_Z 0). rewrite <- Zle_Qle. lia. Qed.
Lemma get_xy_step : forall c w v k, (0 < dt c)%Q -> c_logint c = 1%Z ->
  get_xy c w v (at_step c k) = match nth_error (v_log (V w v)) k with Some r => read_row w r | None => Err IndexError end.
Proof.
  intros c w v k Hd L1. unfold get_xy. destruct (qeq (at_step c k) (-1)) eqn:E.
  { apply qeq_iff in E. pose proof (at_step_nonneg c k Hd). lra. }
  destruct (step_index c k Hd L1) as (b & B1 & B2).
  destruct (qdiv (at_step c k) (dt c)) as [a|e]; [|discriminate B1]. cbn [bind] in *. rewrite B1. cbn [bind]. rewrite B2.
  unfold py_get. destruct (0 <=? Z.of_nat k)%Z eqn:Z0; [|lia]. rewrite Nat2Z.id.
  destruct (nth_error (v_log (V w v)) k) as [r|]; reflexivity.
Qed.

(** the rows of the table which a log should give: one for every row with a link *)
Definition shown (w : world) (v : vid) (t : Q) (r : logrow) (s : option Q) : list gps_row :=
  match g_link r, g_x r with
  | Some l, Some x => if is_nowhere (place w l x) then [] else [mkGps (v_name (V w v)) t (place w l x) s]
  | _, _ => []
  end.
Definition own_rows (w : world) (v : vid) : list gps_row := flat_map (fun r => shown w v (g_t r) r (g_v r)) (v_log (V w v)).

Lemma read_ok : forall w r, long_links w -> placed r -> (forall l x, g_link r = Some l -> g_x r = Some x -> l < w_nl w) ->
  exists p, read_row w r = Ok p /\ forall v t s, (if is_nowhere p then [] else [mkGps (v_name (V w v)) t p s]) = shown w v t r s.
Proof.
  intros w r Hl P Hb. unfold read_row, shown. destruct P as [E|(l & x & E1 & E2)].
  - rewrite E. exists nowhere. split; [reflexivity|]. intros v t s. reflexivity.
  - rewrite E1, E2. exists (place w l x). split; [|reflexivity]. apply coords_ok. pose proof (Hl l (Hb l x E1 E2)). lra.
Qed.

Lemma mapM_app : forall A B (f : A -> result B) a b ys zs, mapM f a = Ok ys -> mapM f b = Ok zs -> mapM f (a ++ b) = Ok (ys ++ zs).
Proof.
  intros A B f a. induction a as [|x a IH]; intros b ys zs H K.
  - injection H as <-. exact K.
  - cbn [mapM app] in *. destruct (f x) as [y|e]; [|discriminate H]. cbn [bind] in *. destruct (mapM f a) as [ys'|e] eqn:E; [|discriminate H].
    cbn [bind] in H. injection H as <-. rewrite (IH b ys' zs eq_refl K). reflexivity.
Qed.
Lemma times_nth : forall c b n rows i r, map g_t rows = SpecLogs.times c b n -> nth_error rows i = Some r -> g_t r = at_step c (b + i) /\ List.length rows = n.
Proof.
  intros c b n rows i r H E.
  assert (Len : List.length rows = n) by (rewrite <- (map_length g_t rows), H; unfold SpecLogs.times; rewrite map_length, seq_length; reflexivity).
  split; [|exact Len]. assert (Hi : i < n) by (rewrite <- Len; apply nth_error_Some; congruence).
  pose proof (map_nth_error g_t i rows E) as K. rewrite H in K. unfold SpecLogs.times in K.
  rewrite (map_nth_error (at_step c) i (seq b n) (d := b + i)) in K; [congruence|]. rewrite <- (seq_nth b 0 Hi). apply nth_error_nth'. rewrite seq_length. exact Hi.
Qed.

(** the rows of a log that begins in timestep 0 *)
Lemma regular_rows : forall c w v rows more n, (0 < dt c)%Q -> c_logint c = 1%Z -> long_links w -> Rows w v -> LastOK w v ->
  v_log (V w v) = rows ++ more -> map g_t rows = SpecLogs.times c 0 n ->
  mapM (gps_row_of c w v) rows = Ok (map (fun r => shown w v (g_t r) r (g_v r)) rows).
Proof.
  intros c w v rows more n Hd L1 Hl Hr [Hp _] E Ht. apply mapM_ok. intros r Hin.
  destruct (In_nth_error _ _ Hin) as (i & Hi). destruct (times_nth _ _ _ _ _ _ Ht Hi) as [T _]. cbn in T.
  assert (Hl' : In r (v_log (V w v))) by (rewrite E; apply in_or_app; left; exact Hin).
  unfold gps_row_of. rewrite T at 1. rewrite (get_xy_step c w v i Hd L1), E, nth_error_app1 by (apply nth_error_Some; congruence). rewrite Hi.
  unfold Rows in Hr. rewrite Forall_forall in Hr, Hp.
  destruct (read_ok w r Hl (Hp r Hl') (fun l x A B => proj1 (Hr r Hl' l x A B))) as (p & P1 & P2). rewrite P1. cbn [bind]. rewrite P2. reflexivity.
Qed.

Lemma gps_vehicle_ok : forall c w v, (0 < dt c)%Q -> c_logint c = 1%Z -> long_links w -> Rows w v -> LastOK w v -> log_ok c 0 w v ->
  exists extra, gps_vehicle c w v = Ok (own_rows w v ++ extra) /\
    (extra = [] \/ ~ alive (v_state (V w v)) /\ exists r rows e, v_log (V w v) = rows ++ [r; empty_row (at_step c e) (v_state (V w v))] /\ g_t r = at_step c e /\
       extra = shown w v (at_step c e) r None).
Proof.
  intros c w v Hd L1 Hl Hr Hp [K1 K2 K3]. unfold gps_vehicle, own_rows. rewrite flat_map_concat_map.
  assert (D : alive (v_state (V w v)) \/ ~ alive (v_state (V w v))).
  { unfold alive. destruct (v_state (V w v)); [left|left|left|right|right]; intuition discriminate. }
  destruct D as [D|D].
  - destruct (K2 D) as [T _]. rewrite Nat.sub_0_r in T. exists []. split; [|left; reflexivity].
    rewrite (regular_rows c w v (v_log (V w v)) [] (w_T w) Hd L1 Hl Hr Hp (eq_sym (app_nil_r _)) T). cbn [bind]. rewrite app_nil_r. reflexivity.
  - destruct (K3 D) as (e & rows & E1 & E2 & E3 & E4 & _). pose (last := empty_row (at_step c e) (v_state (V w v))). fold last in E3.
    assert (M : mapM (gps_row_of c w v) rows = Ok (map (fun r => shown w v (g_t r) r (g_v r)) rows)).
    { destruct E4 as [T|T]; eapply regular_rows; eauto. }
    assert (T0 : get_xy c w v (g_t last) = get_xy c w v (at_step c e)) by reflexivity.
    rewrite (get_xy_step c w v e Hd L1) in T0.
    assert (Hlen : forall n, map g_t rows = SpecLogs.times c 0 n -> List.length rows = n).
    { intros n T. rewrite <- (map_length g_t rows), T. unfold SpecLogs.times. rewrite map_length, seq_length. reflexivity. }
    destruct E4 as [T|T].
    + rewrite Nat.sub_0_r in T. pose proof (Hlen _ T) as Len. exists []. split; [|left; reflexivity].
      rewrite E3 in T0. rewrite nth_error_app2 in T0 by lia. replace (e - List.length rows) with 0 in T0 by lia. cbn [nth_error] in T0.
      assert (ML : mapM (gps_row_of c w v) [last] = Ok [[]]).
      { cbn [mapM]. unfold gps_row_of. rewrite T0. reflexivity. }
      rewrite E3, (mapM_app _ _ _ _ _ _ _ M ML). cbn [bind]. rewrite map_app, !app_nil_r. reflexivity.
    + rewrite Nat.sub_0_r in T. pose proof (Hlen _ T) as Len.
      assert (Hne : rows <> []) by (intro X; rewrite X in Len; discriminate Len).
      destruct (exists_last Hne) as (a & r & Ea).
      assert (La : List.length a = e) by (rewrite Ea, app_length in Len; cbn in Len; lia).
      assert (Hi : nth_error rows e = Some r) by (rewrite Ea, nth_error_app2 by lia; replace (e - List.length a) with 0 by lia; reflexivity).
      destruct (times_nth _ _ _ _ _ _ T Hi) as [Tr _]. cbn in Tr.
      rewrite E3 in T0. rewrite nth_error_app1 in T0 by lia. rewrite Hi in T0.
      assert (Hin : In r (v_log (V w v))) by (rewrite E3; apply in_or_app; left; apply (nth_error_In _ _ Hi)).
      pose proof (proj1 Hp) as Hp1. unfold Rows in Hr. rewrite Forall_forall in Hr, Hp1.
      destruct (read_ok w r Hl (Hp1 r Hin) (fun l x A B => proj1 (Hr r Hin l x A B))) as (p & P1 & P2).
      exists (shown w v (at_step c e) r None). split.
      * assert (ML : mapM (gps_row_of c w v) [last] = Ok [shown w v (at_step c e) r None]).
        { cbn [mapM]. unfold gps_row_of at 1. rewrite T0, P1. cbn [bind]. rewrite P2. reflexivity. }
        rewrite E3, (mapM_app _ _ _ _ _ _ _ M ML). cbn [bind]. rewrite map_app, !concat_app. cbn [map List.concat app]. rewrite !app_nil_r. reflexivity.
      * right. split; [exact D|]. exists r, a, e. split; [|split; [exact Tr|reflexivity]]. rewrite E3, Ea. fold last. rewrite <- app_assoc. reflexivity.
Qed.

(** ** The table of places *)
(** the vehicles of [w] were added before the first timestep; [w0] is the world in which they had been added *)
Record at_start (c : cfg) (w0 w : world) : Prop := mkStart {
  as_reach : reach c w0; as_zero : w_T w0 = 0; as_later : later c any_op w0 w; as_all : w_nv w = w_nv w0 }.

Lemma start_log : forall c w0 w v, c_logint c = 1%Z -> at_start c w0 w -> v < w_nv w -> log_ok c 0 w v.
Proof.
  intros c w0 w v L1 [R Z0 K E] Hv. rewrite E in Hv. destruct (log_exists c w0 v L1 R Hv) as (b & B).
  assert (b = 0) by (pose proof (lo_born _ _ _ _ B); lia). subst b. exact (later_log c w0 w v 0 L1 R Hv K B).
Qed.
Lemma sound_any : forall c w, reachP c sound_links w -> reachP c any_op w.
Proof. intros c w (tm & H). exists tm. eapply later_weaken; [|exact H]. intros o x _. exact Logic.I. Qed.

(** the rows of one vehicle: those of its log that have a link; when the trip ended right after a row was written, the place of that row once more, without speed *)
Definition gps_rows (c : cfg) (w : world) (v : vid) (tab : list gps_row) : Prop := exists extra, tab = own_rows w v ++ extra /\
    (extra = [] \/ ~ alive (v_state (V w v)) /\ exists r rows e, v_log (V w v) = rows ++ [r; empty_row (at_step c e) (v_state (V w v))] /\ g_t r = at_step c e /\
       extra = shown w v (at_step c e) r None).

Theorem gps_lemma : forall c w0 w, c_logint c = 1%Z -> (0 < dt c)%Q -> at_start c w0 w -> reachP c sound_links w -> long_links w ->
  exists tabs, gps_log c w = Ok (List.concat tabs) /\ Forall2 (gps_rows c w) (vehicles w) tabs.
Proof.
  intros c w0 w L1 Hd St R Hl. assert (Hd' : (0 <= dt c)%Q) by lra.
  destruct (mapM_exists _ _ (gps_vehicle c w) (gps_rows c w) (vehicles w)) as (tabs & T1 & T2).
  - intros v Hv. apply in_seq in Hv.
    destruct (gps_vehicle_ok c w v Hd L1 Hl (reach_Rows c L1 Hd' w R v ltac:(lia)) (reach_LastOK c L1 w (sound_any _ _ R) v ltac:(lia)) (start_log c w0 w v L1 St ltac:(lia))) as (extra & A & B).
    exists (own_rows w v ++ extra). split; [exact A|]. exists extra. split; [reflexivity|exact B].
  - exists tabs. split; [|exact T2]. unfold gps_log. rewrite T1. reflexivity.
Qed.

Lemma shown_in : forall w v t r s g, In g (shown w v t r s) -> exists l x, g_link r = Some l /\ g_x r = Some x /\ g = mkGps (v_name (V w v)) t (place w l x) s.
Proof.
  intros w v t r s g H. unfold shown in H. destruct (g_link r) as [l|]; [|elim H]. destruct (g_x r) as [x|]; [|elim H].
  destruct (is_nowhere (place w l x)); [elim H|]. destruct H as [<-|[]]. eauto.
Qed.

(** every row of the table is a place on the line between the nodes of the link on which the vehicle was at that time *)
Theorem gps_places : forall c w0 w out g, c_logint c = 1%Z -> (0 < dt c)%Q -> at_start c w0 w -> reachP c sound_links w -> long_links w ->
  gps_log c w = Ok out -> In g out -> exists v r l x, exists_veh w v /\ gp_name g = v_name (V w v) /\ In r (v_log (V w v)) /\ g_t r = gp_t g /\
    g_link r = Some l /\ g_x r = Some x /\ exists_link w l /\ (0 <= x <= l_len (L w l))%Q /\ gp_at g = place w l x /\ divides w l (gp_at g) (x / l_len (L w l)).
Proof.
  intros c w0 w out g L1 Hd St R Hl E Hg. destruct (gps_lemma c w0 w L1 Hd St R Hl) as (tabs & E1 & F). rewrite E1 in E. injection E as <-.
  apply in_concat in Hg. destruct Hg as (tab & Ht & Hg).
  assert (X : exists v, In v (vehicles w) /\ gps_rows c w v tab).
  { clear - F Ht. induction F as [|v t vs ts A F IH]; [elim Ht|]. destruct Ht as [->|Ht]; [exists v; split; [left; reflexivity|exact A]|].
    destruct (IH Ht) as (u & U1 & U2). exists u. split; [right; exact U1|exact U2]. }
  destruct X as (v & Hv & extra & -> & Hx). apply in_seq in Hv.
  assert (Y : exists r s, In r (v_log (V w v)) /\ In g (shown w v (g_t r) r s)).
  { apply in_app_or in Hg. destruct Hg as [Hg|Hg].
    - unfold own_rows in Hg. apply in_flat_map in Hg. destruct Hg as (r & A & B). eauto.
    - destruct Hx as [-> |(_ & r & rows & e & A & B & ->)]; [elim Hg|]. exists r, None. split; [|rewrite B; exact Hg].
      rewrite A. apply in_or_app. right. left. reflexivity. }
  destruct Y as (r & s & Hr & Hs). destruct (shown_in _ _ _ _ _ _ Hs) as (l & x & A & B & ->).
  pose proof (reach_Rows c L1 ltac:(lra) w R v ltac:(lia)) as RW. unfold Rows in RW. rewrite Forall_forall in RW. destruct (RW r Hr l x A B) as [C1 C2].
  exists v, r, l, x. cbn [gp_name gp_t gp_at]. repeat (split; [first [reflexivity|assumption|unfold exists_veh; lia]|]).
  apply place_divides. apply Hl. exact C1.
Qed.

(** ** Vehicles added later *)
Lemma mapM_index : forall A B (f : A -> result B) xs e, (forall x, In x xs -> (exists y, f x = Ok y) \/ f x = Err e) -> (exists x, In x xs /\ f x = Err e) -> mapM f xs = Err e.
Proof.
  intros A B f xs e. induction xs as [|x xs IH]; intros H (y & Hy & E); [elim Hy|]. cbn [mapM].
  destruct (H x (or_introl eq_refl)) as [(z & Z)|Z]; rewrite Z; cbn [bind]; [|reflexivity].
  destruct Hy as [->|Hy]; [congruence|]. rewrite IH; [reflexivity| |exists y; split; assumption].
  intros u Hu. apply H. right. exact Hu.
Qed.
Lemma mapM_either : forall A B (f : A -> result B) xs e, (forall x, In x xs -> (exists y, f x = Ok y) \/ f x = Err e) -> (exists ys, mapM f xs = Ok ys) \/ mapM f xs = Err e.
Proof.
  intros A B f xs e. induction xs as [|x xs IH]; intros H; [left; exists []; reflexivity|]. cbn [mapM].
  destruct (H x (or_introl eq_refl)) as [(z & Z)|Z]; rewrite Z; cbn [bind]; [|right; reflexivity].
  destruct IH as [(ys & E)|E]; [intros u Hu; apply H; right; exact Hu| |]; rewrite E; cbn [bind]; [left; eauto|right; reflexivity].
Qed.

Lemma row_either : forall c w v r, c_logint c = 1%Z -> (0 < dt c)%Q -> long_links w -> Rows w v -> LastOK w v -> (exists k, g_t r = at_step c k) ->
  (exists y, gps_row_of c w v r = Ok y) \/ gps_row_of c w v r = Err IndexError.
Proof.
  intros c w v r L1 Hd Hl Hr [Hp _] (k & T). unfold gps_row_of. rewrite T. rewrite (get_xy_step c w v k Hd L1).
  destruct (nth_error (v_log (V w v)) k) as [q|] eqn:E; [left|right; reflexivity]. apply nth_error_In in E.
  unfold Rows in Hr. rewrite Forall_forall in Hr, Hp.
  destruct (read_ok w q Hl (Hp q E) (fun l x A B => proj1 (Hr q E l x A B))) as (p & P1 & _). rewrite P1. cbn [bind]. eauto.
Qed.
Lemma log_steps : forall c b w v r, log_ok c b w v -> In r (v_log (V w v)) -> exists k, g_t r = at_step c k.
Proof.
  intros c b w v r [K1 K2 K3] Hr.
  assert (Reg : forall n rows, map g_t rows = SpecLogs.times c b n -> In r rows -> exists k, g_t r = at_step c k).
  { intros n rows T H. apply (in_map g_t) in H. rewrite T in H. unfold SpecLogs.times in H. apply in_map_iff in H. destruct H as (k & E & _). exists k. symmetry. exact E. }
  assert (D : alive (v_state (V w v)) \/ ~ alive (v_state (V w v))).
  { unfold alive. destruct (v_state (V w v)); [left|left|left|right|right]; intuition discriminate. }
  destruct D as [D|D].
  - destruct (K2 D) as [T _]. exact (Reg _ _ T Hr).
  - destruct (K3 D) as (e & rows & _ & _ & E3 & E4 & _). rewrite E3 in Hr. apply in_app_or in Hr. destruct Hr as [Hr|[<-|[]]].
    + destruct E4 as [T|T]; exact (Reg _ _ T Hr).
    + exists e. reflexivity.
Qed.

(** a vehicle added in timestep 2 or later whose log is not empty makes the table fail *)
Theorem gps_late : forall c w0 w v, c_logint c = 1%Z -> (0 < dt c)%Q -> reach c w0 -> exists_veh w0 v -> v_log (V w0 v) = [] -> alive (v_state (V w0 v)) -> later c any_op w0 w ->
  2 <= w_T w0 -> w_T w0 < w_T w -> reachP c sound_links w -> long_links w -> gps_log c w = Err IndexError.
Proof.
  intros c w0 w v L1 Hd R0 Hv E0 A0 K T0 T1 R Hl. pose proof (log_lemma c w0 w v L1 R0 Hv K E0 A0) as LO. assert (Hd' : (0 <= dt c)%Q) by lra.
  assert (Hv' : v < w_nv w) by (unfold exists_veh in Hv; pose proof (Taxi2.later_nv c any_op w0 w K); lia).
  assert (Each : forall u, In u (vehicles w) -> forall r, In r (v_log (V w u)) -> (exists y, gps_row_of c w u r = Ok y) \/ gps_row_of c w u r = Err IndexError).
  { intros u Hu r Hr. apply in_seq in Hu. destruct (log_exists c w u L1 (reachP_reach _ _ _ R) ltac:(lia)) as (b & B).
    apply row_either; auto; [apply (reach_Rows c L1 Hd' w R); lia|apply (reach_LastOK c L1 w (sound_any _ _ R)); lia|exact (log_steps _ _ _ _ _ B Hr)]. }
  assert (Bad : gps_vehicle c w v = Err IndexError).
  { unfold gps_vehicle. rewrite (mapM_index _ _ (gps_row_of c w v) (v_log (V w v)) IndexError); [reflexivity|apply Each; apply in_seq; lia|].
    assert (Fail : forall r k, In r (v_log (V w v)) -> g_t r = at_step c k -> List.length (v_log (V w v)) <= k -> exists x, In x (v_log (V w v)) /\ gps_row_of c w v x = Err IndexError).
    { intros r k H1 H2 H3. exists r. split; [exact H1|]. unfold gps_row_of. rewrite H2. rewrite (get_xy_step c w v k Hd L1).
      rewrite (proj2 (nth_error_None _ _) H3). reflexivity. }
    assert (Hlen : forall rows n, map g_t rows = SpecLogs.times c (w_T w0) n -> List.length rows = n).
    { intros rows n T. rewrite <- (map_length g_t rows), T. unfold SpecLogs.times. rewrite map_length, seq_length. reflexivity. }
    destruct LO as [K1 K2 K3].
    assert (D : alive (v_state (V w v)) \/ ~ alive (v_state (V w v))).
    { unfold alive. destruct (v_state (V w v)); [left|left|left|right|right]; intuition discriminate. }
    destruct D as [D|D].
    - destruct (K2 D) as [T _]. pose proof (Hlen _ _ T) as Len.
      destruct (nth_error (v_log (V w v)) (w_T w - w_T w0 - 1)) as [r|] eqn:En; [|apply nth_error_None in En; lia].
      destruct (times_nth _ _ _ _ _ _ T En) as [Tr _]. apply (Fail r _ (nth_error_In _ _ En) Tr). lia.
    - destruct (K3 D) as (e & rows & B1 & B2 & B3 & B4 & _).
      apply (Fail (empty_row (at_step c e) (v_state (V w v))) e); [rewrite B3; apply in_or_app; right; left; reflexivity|reflexivity|].
      rewrite B3, app_length. cbn [List.length]. destruct B4 as [T|T]; rewrite (Hlen _ _ T); lia. }
  unfold gps_log. rewrite (mapM_index _ _ (gps_vehicle c w) (vehicles w) IndexError); [reflexivity| |exists v; split; [apply in_seq; lia|exact Bad]].
  intros u Hu. unfold gps_vehicle. destruct (mapM_either _ _ (gps_row_of c w u) (v_log (V w u)) IndexError (Each u Hu)) as [(ys & ->)| ->]; cbn [bind]; eauto.
Qed.

(** ** The present place *)
Theorem xy_now : forall c w v, (0 <= dt c)%Q -> reachP c sound_links w -> long_links w -> exists_veh w v ->
  (forall l, on_link w v l -> get_xy c w v (-1) = Ok (place w l (v_x (V w v))) /\ divides w l (place w l (v_x (V w v))) (v_x (V w v) / l_len (L w l)) /\
     (0 <= v_x (V w v) <= l_len (L w l))%Q) /\
  (v_state (V w v) <> Run -> get_xy c w v (-1) = Ok nowhere).
Proof.
  intros c w v Hd R Hl Hv. unfold get_xy. change (qeq (-1) (-1)) with true. cbn [bind].
  pose proof (reach_Inv2 _ _ (reachP_reach _ _ _ R)) as [[T I] _]. destruct (s_link I Hv ltac:(discriminate)) as [Z1 Z2]. split.
  - intros l [Hr Hk]. destruct (Z1 Hr) as (k & K1 & K2). assert (k = l) by congruence. subst k. rewrite Hk.
    pose proof (Hl l K2) as Hp. rewrite coords_ok by lra. split; [reflexivity|]. split; [apply place_divides; exact Hp|].
    pose proof (reach_Pos c _ Hd (fun _ _ K => K) w R v Hv) as [_ P]. exact (P Hr l Hk).
  - intros Hr. rewrite (Z2 Hr). reflexivity.
Qed.

(** ** The table of trips *)
Definition trip_of (c : cfg) (w : world) (v : vid) (r : trip_row) : Prop :=
  tr_name r = v_name (V w v) /\ tr_orig r = v_orig (V w v) /\ tr_dest r = v_dest (V w v) /\ tr_dep r = (inject_Z (v_dep (V w v)) * dt c)%Q /\
  (tr_state r = v_state (V w v) \/ tr_state r = Home /\ v_state (V w v) = Wait) /\
  tr_tt r = v_tt (V w v) /\ tr_dist r = v_dist (V w v) /\ tr_speed r = mean_speed (v_log (V w v)).
Theorem trips_lemma : forall c w, c_logint c = 1%Z -> reach c w -> (forall v, exists_veh w v -> v_log (V w v) <> []) ->
  exists rows, trip_table c w = Ok rows /\ Forall2 (trip_of c w) (vehicles w) rows.
Proof.
  intros c w L1 R Hn. apply mapM_exists. intros v Hv. apply in_seq in Hv.
  destruct (exists_last (Hn v ltac:(unfold exists_veh; lia))) as (a & r & E).
  assert (El : last_opt (v_log (V w v)) = Some r) by (rewrite E; apply last_opt_app).
  unfold trip_row_of. rewrite El. cbn [of_opt bind]. eexists. split; [reflexivity|].
  unfold trip_of. cbn [tr_name tr_orig tr_dest tr_dep tr_state tr_tt tr_dist tr_speed]. repeat (split; [reflexivity|]).
  split; [|repeat (split; [reflexivity|]); reflexivity].
  assert (Ra : reachP c any_op w).
  { clear - R. induction R as [tm|x o x' R IH Ho Hx H|x x' R IH Hf H|x R IH].
    - exists tm. apply lt_refl.
    - eapply reachP_step; [exact IH|]. apply st_op with (o := o); auto. exact Logic.I.
    - eapply reachP_step; [exact IH|]. apply st_tick; auto.
    - eapply reachP_step; [exact IH|]. apply st_time. }
  destruct (reach_LastOK c L1 w Ra v ltac:(lia)) as [_ K]. exact (K r El).
Qed.
(** The mean of the logged speeds: the rows of the vehicle on links, the first of them with the speed before it departed. *)
Lemma mean_lemma : forall rows, (forall r, In r rows -> forall q, g_v r = Some q -> (0 <= q)%Q) ->
  mean_speed rows = match flat_map (fun r => match g_v r with Some q => [q] | None => [] end) rows with
                    | [] => None | vs => Some (qsum vs / Qof_nat (List.length vs))%Q end.
Proof.
  intros rows H. unfold mean_speed. replace (speeds rows) with (flat_map (fun r => match g_v r with Some q => [q] | None => [] end) rows); [reflexivity|].
  unfold speeds. induction rows as [|r rows IH]; [reflexivity|]. cbn [flat_map]. rewrite <- IH by (intros x Hx; apply H; right; exact Hx).
  destruct (g_v r) as [q|] eqn:E; [|reflexivity]. destruct (qeq q (-1)) eqn:X; [|reflexivity].
  apply qeq_iff in X. pose proof (H r (or_introl eq_refl) q E). lra.
Qed.

(** it fails as soon as a vehicle has no log yet *)
Theorem trips_empty : forall c w v, exists_veh w v -> v_log (V w v) = [] -> trip_table c w = Err IndexError.
Proof.
  intros c w v Hv E. unfold trip_table. apply mapM_index.
  - intros u _. unfold trip_row_of. destruct (last_opt (v_log (V w u))); cbn [of_opt bind]; [left; eauto|right; reflexivity].
  - exists v. split; [apply in_seq; unfold exists_veh in Hv; lia|]. unfold trip_row_of. rewrite E. reflexivity.
Qed.
