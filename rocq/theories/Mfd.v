(** * Mfd: network-average density and flow, and the table of cumulative counts
    (analyzer.py, compute_mfd 1420-1437, mfd_to_pandas 2000-2019,
    link_cumulative_to_pandas 2054-2067).

    The state of the analyzer that matters is [mstate]: the matrices dn_mat and
    tn_mat of the links, computed once (flag_edie_state_computed, 252-255), and
    the link sets for which W.K_AREA has an entry (a dictionary of arrays that
    are computed anew by each call).  Simplifications: links are given by
    numbers, [None] being all links; floats are rationals; the quotient of a
    numpy number by 0 is [None]; the state after an exception is not modelled. *)
From Verif Require Import Base Types Sim Build Heap Lists Inv FrameBase Tac Frame Eff Eff2 Trace InvStep Reach Steps Effects Phases Attr Life Incoming Vev Ride TripLog Route Signal Green Choice Enforce Counts LinkQueries FD NodeCap Origin Bucket Outflow Trials Motion Spacing Spec Distance Totals Paths Demand Edie SpecEdie EdieOK Traj SpecTT TTActual SpecLinks LinkStats SpecMfd.
Local Open Scope nat_scope.

Record mstate := mkM { ms_cells : option (lid -> cells); ms_asked : list (list lid) }.
Definition fresh_mstate : mstate := mkM None [].

(** the trajectories of a link after compute_accurate_traj *)
Definition traj_of (c : cfg) (w : world) (l : lid) : list (list point) :=
  map (extend (l_u (L w l)) (l_len (L w l)) (dt c)) (recorded w l).
(** edie_dx of a link *)
Definition dx_of (w : world) (l : lid) : Q := match l_ediedx (L w l) with Some q => q | None => 0%Q end.
(** the matrices of one link; edie_dt is EULAR_DT (uxsim.py 630) *)
Definition edie_link (c : cfg) (tmax : Q) (w : world) (l : lid) : result cells :=
  dx <- of_opt AttributeError (l_ediedx (L w l)) ;;
  edie dx (c_eulardt c) (l_len (L w l)) tmax (dN c) (traj_of c w l).
(** compute_edie_state: all links, once *)
Definition edie_state (c : cfg) (tmax : Q) (w : world) (st : mstate) : result (lid -> cells) :=
  match ms_cells st with
  | Some m => Ok m
  | None => ms <- mapM (edie_link c tmax w) (seq 0 (w_nl w)) ;;
            Ok (fun l => nth l ms (fun _ _ => (0, 0)%Q))
  end.

Definition same_key (a b : list lid) : bool := if list_eq_dec Nat.eq_dec a b then true else false.
(** the links of a set, in the order of W.LINKS *)
Definition link_key (w : world) (links : option (list lid)) : list lid :=
  match links with None => seq 0 (w_nl w) | Some ls => filter (fun l => existsb (Nat.eqb l) ls) (seq 0 (w_nl w)) end.

(** the sum of row [i] of a matrix with [nx] columns *)
Definition row_sum (nx : nat) (m : Z -> Z -> Q) (i : nat) : Q := qsum (map (fun j => m (Z.of_nat i) (Z.of_nat j)) (seq 0 nx)).
Definition columns (w : world) (l : lid) : nat := Z.to_nat (qtrunc (l_len (L w l) / dx_of w l)).
(** tn/an: a Python division for an empty set of links, where both are the integer 0, and a numpy division otherwise *)
Definition mfd_div (key : list lid) (x an : Q) : result (option Q) :=
  match key with [] => Err ZeroDivisionError | _ => Ok (if qeq an 0 then None else Some (x / an)%Q) end.

(** K_AREA[links] and Q_AREA[links] *)
Definition mfd_values (c : cfg) (w : world) (m : lid -> cells) (key : list lid) (n : nat) : result (list (option Q * option Q)) :=
  let an := qsum (map (fun l => (l_len (L w l) * c_eulardt c)%Q) key) in
  mapM (fun i =>
    let tn := qsum (map (fun l => row_sum (columns w l) (fun i j => snd (m l i j)) i) key) in
    let dn := qsum (map (fun l => row_sum (columns w l) (fun i j => fst (m l i j)) i) key) in
    k <- mfd_div key tn an ;;
    q <- mfd_div key dn an ;;
    Ok (k, q)) (seq 0 n).

(** compute_mfd *)
Definition compute_mfd (c : cfg) (w : world) (st : mstate) (links : option (list lid)) : result (list (option Q * option Q) * mstate) :=
  tm <- of_opt AttributeError (w_tmax w) ;;
  m <- edie_state c tm w st ;;
  z <- ncells tm (c_eulardt c) ;;
  let key := link_key w links in
  vs <- mfd_values c w m key (Z.to_nat z) ;;
  Ok (vs, mkM (Some m) (if Nat.eqb (Z.to_nat z) 0 then ms_asked st
                        else if existsb (same_key key) (ms_asked st) then ms_asked st else ms_asked st ++ [key])).

(** mfd_to_pandas: one row for each link set asked for so far *)
Definition mfd_to_pandas (c : cfg) (w : world) (st : mstate) (links : option (list lid)) : result (list (Q * option Q * option Q) * mstate) :=
  '(vs, st1) <- compute_mfd c w st links ;;
  rows <- mapM (fun i => kq <- of_opt IndexError (nth_error vs i) ;; Ok ((Qof_nat i * c_eulardt c)%Q, fst kq, snd kq)) (seq 0 (List.length (ms_asked st1))) ;;
  Ok (rows, st1).

(** link_cumulative_to_pandas *)
Record cum_row := mkCum { cu_link : lid; cu_t : Q; cu_arr : Z; cu_dep : Z; cu_tta : Q; cu_tti : Q }.
Definition cum_row_of (c : cfg) (w : world) (l : lid) (i : nat) : result cum_row :=
  a <- of_opt IndexError (nth_error (l_ca (L w l)) i) ;;
  d <- of_opt IndexError (nth_error (l_cd (L w l)) i) ;;
  t <- of_opt IndexError (nth_error (l_tta (L w l)) i) ;;
  q <- of_opt IndexError (nth_error (l_tti (L w l)) i) ;;
  Ok (mkCum l (Qof_nat i * dt c)%Q a d t q).
Definition link_cumulative (c : cfg) (w : world) : result (list (list cum_row)) :=
  mapM (fun l => mapM (cum_row_of c w l) (seq 0 (w_tsize w))) (seq 0 (w_nl w)).

(** ** mapM *)
Lemma mapM_ok : forall A B (f : A -> result B) (g : A -> B) xs, (forall x, In x xs -> f x = Ok (g x)) -> mapM f xs = Ok (map g xs).
Proof.
  intros A B f g xs. induction xs as [|x xs IH]; intros H; [reflexivity|]. cbn [mapM map].
  rewrite (H x) by (left; reflexivity). cbn [bind]. rewrite IH by (intros y Hy; apply H; right; exact Hy). reflexivity.
Qed.
Lemma mapM_exists : forall A B (f : A -> result B) (P : A -> B -> Prop) xs, (forall x, In x xs -> exists y, f x = Ok y /\ P x y) ->
  exists ys, mapM f xs = Ok ys /\ Forall2 P xs ys.
Proof.
  intros A B f P xs. induction xs as [|x xs IH]; intros H; [exists []; split; [reflexivity|constructor]|]. cbn [mapM].
  destruct (H x) as (y & E & Hy); [left; reflexivity|]. rewrite E. cbn [bind].
  destruct IH as (ys & E2 & F); [intros z Hz; apply H; right; exact Hz|]. rewrite E2. cbn [bind].
  exists (y :: ys). split; [reflexivity|constructor; assumption].
Qed.
Lemma mapM_nth : forall A B (f : A -> result B) xs ys, mapM f xs = Ok ys -> List.length ys = List.length xs /\ forall i x, nth_error xs i = Some x -> exists y, nth_error ys i = Some y /\ f x = Ok y.
Proof.
  intros A B f xs. induction xs as [|x xs IH]; intros ys H; cbn [mapM] in H.
  - injection H as <-. split; [reflexivity|]. intros [|i] y E; discriminate E.
  - apply bind_ok in H. destruct H as (y & E & H). apply bind_ok in H. destruct H as (zs & E2 & H). injection H as <-.
    destruct (IH zs E2) as [I1 I2]. split; [cbn; congruence|]. intros [|i] z Ez; cbn in Ez.
    + injection Ez as <-. exists y. split; [reflexivity|exact E].
    + exact (I2 i z Ez).
Qed.
Lemma mapM_err : forall A B (f : A -> result B) xs x e, In x xs -> f x = Err e -> exists e', mapM f xs = Err e'.
Proof.
  intros A B f xs x e. induction xs as [|y xs IH]; intros Hx E; [destruct Hx|]. cbn [mapM]. destruct (f y) as [z|e1] eqn:Ey; cbn [bind]; [|eauto].
  destruct Hx as [->|Hx]; [congruence|]. destruct (IH Hx E) as (e' & E'). rewrite E'. cbn [bind]. eauto.
Qed.

(** ** One row *)
Lemma row_lemma : forall dx dt len tmax dn trs, (0 < dx)%Q -> (0 < dt)%Q -> (0 <= len)%Q -> (0 <= tmax)%Q -> all_forward trs ->
  exists m, edie dx dt len tmax dn trs = Ok m /\
   forall i, (Z.of_nat i < qidiv tmax dt)%Z ->
    (row_sum (Z.to_nat (qidiv len dx)) (fun i j => fst (m i j)) i == dn * total_from (Qof_nat i * dt) (Qof_nat (S i) * dt) (dist_in 0 (inject_Z (qidiv len dx) * dx)) trs)%Q /\
    (row_sum (Z.to_nat (qidiv len dx)) (fun i j => snd (m i j)) i == dn * total_from (Qof_nat i * dt) (Qof_nat (S i) * dt) (time_in 0 (inject_Z (qidiv len dx) * dx)) trs)%Q.
Proof.
  intros dx dt len tmax dn trs Hdx Hdt Hl Ht F. destruct (cell_lemma dx dt len tmax dn trs Hdx Hdt Hl Ht F) as (m & E & A).
  exists m. split; [exact E|]. intros i Hi.
  pose proof (qidiv_nonneg _ _ Hdx Hl) as P1.
  assert (Z1 : Z.of_nat (Z.to_nat (qidiv len dx)) = qidiv len dx) by lia.
  assert (Q1 : Qof_nat (S i) = inject_Z (Z.of_nat i + 1)) by (unfold Qof_nat; f_equal; lia).
  rewrite Q1. unfold Qof_nat. unfold row_sum. split.
  - rewrite (qsum_ext _ _ (fun j => (dn * total_from (inject_Z (Z.of_nat i) * dt) (inject_Z (Z.of_nat i + 1) * dt) (dist_in (inject_Z (Z.of_nat j) * dx) (inject_Z (Z.of_nat j + 1) * dx)) trs)%Q)).
    + rewrite qsum_scale. apply Qmult_comp; [reflexivity|]. unfold total_from. rewrite qsum_swap. apply qsum_ext. intros s Hs.
      apply filter_In in Hs. destruct Hs as [Hs _]. rewrite (dist_columns dx s _ Hdx (in_all_segs _ _ F Hs)), Z1. reflexivity.
    + intros j Hj. apply in_seq in Hj. apply A; lia.
  - rewrite (qsum_ext _ _ (fun j => (dn * total_from (inject_Z (Z.of_nat i) * dt) (inject_Z (Z.of_nat i + 1) * dt) (time_in (inject_Z (Z.of_nat j) * dx) (inject_Z (Z.of_nat j + 1) * dx)) trs)%Q)).
    + rewrite qsum_scale. apply Qmult_comp; [reflexivity|]. unfold total_from. rewrite qsum_swap. apply qsum_ext. intros s Hs.
      apply filter_In in Hs. destruct Hs as [Hs _]. rewrite (time_columns dx s _ Hdx (in_all_segs _ _ F Hs)), Z1. reflexivity.
    + intros j Hj. apply in_seq in Hj. apply A; lia.
Qed.

(** ** The size of the cells *)
Lemma new_link_dx : forall c a nm k dx, new_link c a nm = Ok k -> l_ediedx k = Some dx ->
  dx = if qlt (la_len a / 10) (la_ffs a * dt c) then (la_ffs a * dt c)%Q else (la_len a / 10)%Q.
Proof.
  intros c a nm k dx E. unfold new_link in E. cbv zeta in E.
  repeat (apply bind_ok in E; destruct E as (? & _ & E)). injection E as E. rewrite <- E. cbn [l_ediedx].
  destruct (la_eulardx a); [discriminate|]. intro H. injection H as <-. reflexivity.
Qed.
Lemma change_speed_dx : forall l q w w', change_free_flow_speed l q w = Ok w' -> l_ediedx (L w' l) = l_ediedx (L w l).
Proof.
  intros l q w w' H. unfold change_free_flow_speed in H. destruct (qlt q 0) eqn:E; [injection H as <-; auto|].
  cbv zeta in H. repeat (apply bind_ok in H; destruct H as (? & _ & H)). injection H as H. rewrite <- H.
  rewrite L_at, Nat.eqb_refl. reflexivity.
Qed.
Lemma change_jam_dx : forall l q w w', change_jam_density l q w = Ok w' -> l_ediedx (L w' l) = l_ediedx (L w l).
Proof.
  intros l q w w' H. unfold change_jam_density in H. destruct (qlt q 0) eqn:E; [injection H as <-; auto|].
  cbv zeta in H. repeat (apply bind_ok in H; destruct H as (? & _ & H)). injection H as H. rewrite <- H.
  rewrite L_at, Nat.eqb_refl. reflexivity.
Qed.
(** the cell size of an existing link is never changed *)
Lemma op_dx : forall c o w w' l, op_ok o w -> (forall a, o <> OExec a) -> apply_op c o w = Ok w' -> l < w_nl w' ->
  (l < w_nl w /\ l_ediedx (L w' l) = l_ediedx (L w l)) \/ (exists a nm, o = OAddLink a /\ new_link c a nm = Ok (L w' l)).
Proof.
  intros c o w w' l Ho Hx H Hl.
  destruct (op_link c o w w' l Ho Hx H Hl) as [K1 K2 _ _|a nm -> K1 K2|q -> K|q -> K|q -> K|q -> K]; [|right; eauto|..]; left.
  - split; [exact K1|]. unfold lpar in K2. congruence.
  - split; [exact Ho|]. exact (change_speed_dx _ _ _ _ K).
  - split; [exact Ho|]. exact (change_jam_dx _ _ _ _ K).
  - split; [exact Ho|]. rewrite K. reflexivity.
  - split; [exact Ho|]. rewrite K. reflexivity.
Qed.

Definition DxPos (w : world) : Prop := forall l dx, l < w_nl w -> l_ediedx (L w l) = Some dx -> (0 <= dx)%Q.
Lemma reach_DxPos : forall c (P : op -> world -> Prop), (0 <= dt c)%Q -> (forall o w, P o w -> sound_links o w) -> forall w, reachP c P w -> DxPos w.
Proof.
  intros c P Hd HP w H. apply (reachP_ind' c P DxPos); [|..|exact H].
  - intros tm l dx Hl. cbn in Hl. lia.
  - intros a b R Ha S. destruct S as [a o b K1 K2 K3 K4|a b K1 K2|a].
    + intros l dx Hl E. destruct (op_dx c o a b l K1 K3 K4 Hl) as [[A1 A2]|(x & nm & -> & A2)]; [apply (Ha l); congruence|].
      rewrite (new_link_dx _ _ _ _ _ A2 E). apply HP in K2. destruct K2 as [B1 B2].
      destruct (qlt _ _) eqn:Eq; [nra|]. apply Qle_shift_div_l; [reflexivity|]. lra.
    + apply tick_fr in K2. destruct K2 as (w1 & E & ->). pose proof (body_fr _ _ E) as F. intros l dx Hl Ex. cbn in Hl.
      change (L (sw_T (S (w_T a)) w1) l) with (L w1 l) in Ex. rewrite (fr_w_nl F) in Hl. apply (Ha l); [exact Hl|].
      rewrite <- Ex. symmetry. pose proof (lstat_lpar _ _ F l) as E2. unfold lpar in E2. congruence.
    + exact Ha.
Qed.

(** which operations set the clock *)
Definition frame3 (w : world) := (w_final w, w_tmax w, w_tsize w).
Lemma fold_frame3 : forall A (f : A -> world -> world) xs w, (forall x w, frame3 (f x w) = frame3 w) -> frame3 (fold_left (fun w x => f x w) xs w) = frame3 w.
Proof. intros A f xs. induction xs as [|x xs IH]; intros w H; [reflexivity|]. cbn [fold_left]. rewrite IH by exact H. apply H. Qed.
Lemma add_vehicle_frame3 : forall c a w w', add_vehicle c a w = Ok w' -> frame3 w' = frame3 w.
Proof.
  intros c a w w' H. unfold add_vehicle in H. cbn zeta in H. destruct (negb _); [discriminate H|]. destruct (smem _ _); [discriminate H|]. injection H as <-.
  unfold frame3. destruct (va_pref a); reflexivity.
Qed.
Lemma add_dest_frame3 : forall c v d ord w w', add_dest c v d ord w = Ok w' -> frame3 w' = frame3 w.
Proof.
  intros c v d ord w w' H. unfold add_dest in H. destruct (v_mode (V w v)); [discriminate H|].
  destruct (v_dest (V w v)); [injection H as <-; reflexivity|]. unfold route_pref_update in H. cbn zeta in H. binv H; reflexivity.
Qed.
Lemma op_frame3 : forall c o w w', (forall a, o <> OExec a) -> (forall a, o <> OFinalize a) -> apply_op c o w = Ok w' -> frame3 w' = frame3 w.
Proof.
  intros c o w w' Hx Hf H. destruct o; cbn [apply_op] in H.
  - unfold add_node in H. apply bind_ok in H. destruct H as (nd & E & H). destruct (smem _ _); [discriminate H|]. injection H as <-. reflexivity.
  - unfold add_link in H. cbn zeta in H. destruct (negb _); [discriminate H|]. apply bind_ok in H. destruct H as (k & E & H).
    destruct (smem _ _); [discriminate H|]. injection H as <-. reflexivity.
  - exact (add_vehicle_frame3 _ _ _ _ H).
  - eapply (adddemand_inv (fun x => frame3 x = frame3 w)); [|reflexivity|exact H].
    intros t a b K E. rewrite (add_vehicle_frame3 _ _ _ _ E). exact K.
  - elim (Hf tmax); reflexivity.
  - elim (Hx a); reflexivity.
  - exact (add_dest_frame3 _ _ _ _ _ _ H).
  - unfold enforce_route in H. destruct (negb _); [discriminate H|]. injection H as <-. reflexivity.
  - injection H as <-. reflexivity.
  - injection H as <-. reflexivity.
  - unfold override_signal in H. cbn zeta in H. destruct groups as [gs|]; [|injection H as <-; reflexivity].
    destruct (negb _); [discriminate H|]. destruct (negb _); [discriminate H|]. injection H as <-.
    etransitivity; [apply fold_frame3|reflexivity]. intros x y. destruct (existsb _ _); reflexivity.
  - unfold change_free_flow_speed in H. cbn zeta in H. destruct (qlt _ _); [injection H as <-; reflexivity|].
    repeat (apply bind_ok in H; let x := fresh "x" in destruct H as (x & _ & H)). injection H as <-. reflexivity.
  - unfold change_jam_density in H. cbn zeta in H. destruct (qlt _ _); [injection H as <-; reflexivity|].
    repeat (apply bind_ok in H; let x := fresh "x" in destruct H as (x & _ & H)). injection H as <-. reflexivity.
  - injection H as <-. reflexivity.
  - injection H as <-. reflexivity.
  - injection H as <-. reflexivity.
  - unfold add_trip_request in H. destruct (negb _); [discriminate H|]. injection H as <-. reflexivity.
  - unfold assign_taxi in H. destruct (negb _); [discriminate H|]. apply bind_ok in H. destruct H as (w1 & E & H).
    cbn zeta in H. injection H as <-. apply add_dest_frame3 in E. exact E.
Qed.
Lemma later_tsize : forall c P w0 w, w_final w0 = true -> later c P w0 w -> w_final w = true /\ w_tsize w = w_tsize w0 /\ w_tmax w = w_tmax w0.
Proof.
  intros c P w0 w F0 K. induction K as [|a b K IH S]; [auto|]. destruct IH as (I1 & I2 & I3). rewrite <- I1, <- I2, <- I3.
  destruct S as [a o b Ho Hp Hx E|a b Hf E|a].
  - assert (A : frame3 b = frame3 a).
    { apply (op_frame3 c o); [exact Hx| |exact E]. intros x ->. cbn in Ho. congruence. }
    unfold frame3 in A. split; [|split]; congruence.
  - apply tick_fr in E. destruct E as (w1 & E & ->). pose proof (body_fr _ _ E) as F. cbn. rewrite (fr_w_final F), (fr_w_tsize F), (fr_w_tmax F). auto.
  - auto.
Qed.

Definition Ready (c : cfg) (w : world) : Prop := w_final w = true -> (exists tm, w_tmax w = Some tm) /\
  forall l, l < w_nl w -> ~ (c_eulardt c == 0)%Q /\ exists dx, l_ediedx (L w l) = Some dx /\ ~ (dx == 0)%Q.
Lemma finalize_Ready : forall c tm w w', finalize c tm w = Ok w' -> Ready c w'.
Proof.
  intros c tm w w' H _. unfold finalize in H. cbn zeta in H.
  apply bind_ok in H. destruct H as (w1 & E & H).
  remember (match w_tmax w with Some t => t | None => match tm with Some t => t | None => auto_tmax c w end end) as t0 eqn:Et.
  remember (Z.to_nat (qtrunc (t0 / dt c))) as ts eqn:Ets.
  assert (P : forall ns x, (forall n, L (fold_left (fun w n => adjust_node_capacity c n w) ns x) n = L x n) /\
     w_tmax (fold_left (fun w n => adjust_node_capacity c n w) ns x) = w_tmax x /\ w_nl (fold_left (fun w n => adjust_node_capacity c n w) ns x) = w_nl x).
  { induction ns as [|a ns IH]; intros x; [auto|]. cbn [fold_left]. destruct (IH (adjust_node_capacity c a x)) as (A1 & A2 & A3).
    assert (B : (forall n, L (adjust_node_capacity c a x) n = L x n) /\ w_tmax (adjust_node_capacity c a x) = w_tmax x /\ w_nl (adjust_node_capacity c a x) = w_nl x).
    { unfold adjust_node_capacity. destruct (n_fcap _); [auto|]. destruct (map _ _); [auto|]. destruct (map _ _); auto. }
    destruct B as (B1 & B2 & B3). split; [intro n; rewrite A1; apply B1|]. split; congruence. }
  assert (Q : forall ls x y, foldM (init_after_tmax_fix c t0 ts) ls x = Ok y -> w_tmax y = w_tmax x /\ w_nl y = w_nl x /\
      (forall l, l_ediedx (L y l) = l_ediedx (L x l)) /\
      (forall l, In l ls -> ~ (c_eulardt c == 0)%Q /\ exists dx, l_ediedx (L x l) = Some dx /\ ~ (dx == 0)%Q)).
  { induction ls as [|a ls IH]; intros x y F; cbn [foldM] in F.
    - injection F as <-. split; [reflexivity|]. split; [reflexivity|]. split; [reflexivity|]. intros l [].
    - apply bind_ok in F. destruct F as (z & F1 & F). destruct (IH _ _ F) as (A1 & A2 & A3 & A4).
      unfold init_after_tmax_fix in F1. apply bind_ok in F1. destruct F1 as (x1 & B1 & F1). apply bind_ok in F1. destruct F1 as (x2 & B2 & F1).
      apply bind_ok in F1. destruct F1 as (x3 & B3 & F1). apply bind_ok in F1. destruct F1 as (ff & Eff & F1). injection F1 as <-.
      assert (B : forall k, l_ediedx (L (modl a (sl_tta (repeat ff ts)) x) k) = l_ediedx (L x k)).
      { intro k. rewrite L_at. destruct (Nat.eqb k a); auto. }
      split; [exact A1|]. split; [exact A2|]. split; [intro l; rewrite A3; apply B|]. intros l [<-|Hl]; [|rewrite <- (B l); apply A4; exact Hl].
      unfold qdiv in B2, B3. destruct (qeq (c_eulardt c) 0) eqn:Q1; [discriminate B2|]. destruct (qeq x1 0) eqn:Q2; [discriminate B3|].
      split; [apply qeq_false; exact Q1|]. exists x1. split; [|apply qeq_false; exact Q2]. destruct (l_ediedx (L x a)); [cbn in B1; injection B1 as <-; reflexivity|discriminate B1]. }
  destruct (Q _ _ _ E) as (Q1 & Q2 & Q3 & Q4). injection H as H.
  assert (X : w_tmax w' = Some t0 /\ w_nl w' = w_nl w /\ forall l, l_ediedx (L w' l) = l_ediedx (L w l)).
  { rewrite <- H. cbn in Q1, Q2. destruct (c_adjust c).
    - match goal with |- context [fold_left _ ?ns ?x] => destruct (P ns x) as (P1 & P2 & P3) end.
      split; [etransitivity; [exact P2|exact Q1]|]. split; [etransitivity; [exact P3|exact Q2]|].
      intro l. etransitivity; [exact (f_equal l_ediedx (P1 l))|exact (Q3 l)].
    - split; [exact Q1|]. split; [exact Q2|]. exact Q3. }
  destruct X as (X1 & X2 & X3). split; [eauto|]. intros l Hl. rewrite X3. apply Q4. apply in_seq. cbn. lia.
Qed.
Lemma reach_Ready : forall c w, reach c w -> Ready c w.
Proof.
  intros c w H. induction H as [tm|w o w' H IH Hok Hx E|w w' H IH F E|w H IH].
  - intro F. discriminate F.
  - destruct (match o with OFinalize _ => true | _ => false end) eqn:Eo.
    + destruct o; try discriminate Eo. exact (finalize_Ready _ _ _ _ E).
    + intro F. assert (A : w_final w = true /\ w_tmax w' = w_tmax w).
      { assert (A : frame3 w' = frame3 w) by (apply (op_frame3 c o); [exact Hx|intros a ->; discriminate Eo|exact E]).
        unfold frame3 in A. split; congruence. }
      destruct A as [A1 A2]. destruct (IH A1) as [B1 B2]. rewrite A2. split; [exact B1|]. intros l Hl.
      destruct (op_dx c o w w' l Hok Hx E Hl) as [[C1 C2]|(a & nm & -> & _)]; [rewrite C2; apply B2; exact C1|].
      cbn in Hok. congruence.
  - apply tick_fr in E. destruct E as (w1 & E & ->). pose proof (body_fr _ _ E) as Fr. intros F2. destruct (IH F) as [B1 B2].
    change (w_tmax (sw_T (S (w_T w)) w1)) with (w_tmax w1). change (w_nl (sw_T (S (w_T w)) w1)) with (w_nl w1).
    rewrite (fr_w_tmax Fr). split; [exact B1|]. intros l Hl. rewrite (fr_w_nl Fr) in Hl. destruct (B2 l Hl) as (C1 & dx & C2 & C3). split; [exact C1|].
    exists dx. split; [|exact C3]. change (L (sw_T (S (w_T w)) w1) l) with (L w1 l). rewrite <- C2. pose proof (lstat_lpar _ _ Fr l) as E2. unfold lpar in E2. congruence.
  - exact IH.
Qed.

(** ** Density and flow *)
Lemma columns_ok : forall c (P : op -> world -> Prop) w l, (0 < dt c)%Q -> (forall o w, P o w -> sound_links o w) -> reachP c P w -> w_final w = true -> l < w_nl w ->
  l_ediedx (L w l) = Some (dx_of w l) /\ (0 < dx_of w l)%Q /\ columns w l = Z.to_nat (qidiv (l_len (L w l)) (dx_of w l)) /\ (0 <= l_len (L w l))%Q.
Proof.
  intros c P w l Hd HP R F Hl. destruct (reach_Ready c w (reachP_reach _ _ _ R) F) as [_ A]. destruct (A l Hl) as (_ & dx & A1 & A2).
  assert (Hd' : (0 <= dt c)%Q) by lra.
  pose proof (reach_DxPos c P Hd' HP w R l dx Hl A1) as A3. destruct (reach_Geo c P HP w R l Hl) as [G1 _].
  unfold columns, dx_of. rewrite A1. assert (A4 : (0 < dx)%Q).
  { apply Qle_lteq in A3. destruct A3 as [A3|A3]; [exact A3|]. elim A2. symmetry. exact A3. }
  split; [reflexivity|]. split; [exact A4|]. split; [|exact G1]. f_equal. apply qtrunc_floor. apply Qle_shift_div_l; lra.
Qed.

(** the matrices of all links *)
Lemma edie_state_ok : forall c w tm, c_logint c = 1%Z -> (0 < dt c)%Q -> reachP c keep_speed w -> w_final w = true -> no_loops w -> Singles w ->
  (0 < c_eulardt c)%Q -> (0 <= tm)%Q ->
  exists m, edie_state c tm w fresh_mstate = Ok m /\ forall l, l < w_nl w -> edie_link c tm w l = Ok (m l) /\ 
    forall i, (Z.of_nat i < qidiv tm (c_eulardt c))%Z ->
    (row_sum (columns w l) (fun i j => fst (m l i j)) i == dN c * slice_dist (c_eulardt c) i (covered (l_len (L w l)) (dx_of w l)) (traj_of c w l))%Q /\
    (row_sum (columns w l) (fun i j => snd (m l i j)) i == dN c * slice_time (c_eulardt c) i (covered (l_len (L w l)) (dx_of w l)) (traj_of c w l))%Q.
Proof.
  intros c w tm L1 Hd R F NL Sg HE Ht.
  assert (HS : forall o w, keep_speed o w -> sound_links o w) by (intros o x K; apply K).
  assert (A : forall l, In l (seq 0 (w_nl w)) -> exists m, edie_link c tm w l = Ok m /\ 
    forall i, (Z.of_nat i < qidiv tm (c_eulardt c))%Z ->
    (row_sum (columns w l) (fun i j => fst (m i j)) i == dN c * slice_dist (c_eulardt c) i (covered (l_len (L w l)) (dx_of w l)) (traj_of c w l))%Q /\
    (row_sum (columns w l) (fun i j => snd (m i j)) i == dN c * slice_time (c_eulardt c) i (covered (l_len (L w l)) (dx_of w l)) (traj_of c w l))%Q).
  { intros l Hl. apply in_seq in Hl. assert (Hl' : l < w_nl w) by lia. destruct (columns_ok c keep_speed w l Hd HS R F Hl') as (C1 & C2 & C3 & C4).
    destruct (extended_lemma c w l L1 Hd R NL Sg Hl') as [A _].
    destruct (row_lemma (dx_of w l) (c_eulardt c) (l_len (L w l)) tm (dN c) (traj_of c w l) C2 HE C4 Ht A) as (m & E & B).
    exists m. split; [unfold edie_link; rewrite C1; exact E|]. rewrite C3. intros i Hi. exact (B i Hi). }
  destruct (mapM_exists _ _ _ _ _ A) as (ms & E & B).
  exists (fun l => nth l ms (fun _ _ => (0, 0)%Q)). split; [unfold edie_state; cbn [ms_cells fresh_mstate]; rewrite E; reflexivity|].
  intros l Hl. assert (X : nth_error (seq 0 (w_nl w)) l = Some l).
  { rewrite (nth_error_nth' _ 0) by (rewrite seq_length; exact Hl). rewrite seq_nth by exact Hl. reflexivity. }
  destruct (mapM_nth _ _ _ _ _ E) as [N1 N2]. destruct (N2 l l X) as (m & N3 & N4).
  rewrite (nth_error_nth _ _ _ N3). split; [exact N4|].
  destruct (A l) as (m' & A1 & A2); [apply in_seq; lia|]. rewrite N4 in A1. injection A1 as <-. exact A2.
Qed.

(** the state of the analyzer belongs to this state of the simulation *)
Definition made_in (c : cfg) (w : world) (st : mstate) : Prop :=
  ms_cells st = None \/ exists tm m, w_tmax w = Some tm /\ edie_state c tm w fresh_mstate = Ok m /\ ms_cells st = Some m.
Lemma fresh_made : forall c w, made_in c w fresh_mstate.
Proof. intros. left. reflexivity. Qed.
Lemma made_state : forall c w st tm m, made_in c w st -> w_tmax w = Some tm -> edie_state c tm w fresh_mstate = Ok m -> edie_state c tm w st = Ok m.
Proof.
  intros c w st tm m [E|(tm' & m' & E1 & E2 & E3)] Ht Em; unfold edie_state in *; [rewrite E; exact Em|]. rewrite E3. cbn [ms_cells fresh_mstate] in *. congruence.
Qed.
Lemma compute_made : forall c w st links vs st', made_in c w st -> compute_mfd c w st links = Ok (vs, st') -> made_in c w st'.
Proof.
  intros c w st links vs st' M H. unfold compute_mfd in H. apply bind_ok in H. destruct H as (tm & E1 & H). apply bind_ok in H. destruct H as (m & E2 & H).
  apply bind_ok in H. destruct H as (z & E3 & H). apply bind_ok in H. destruct H as (xs & E4 & H). injection H as <- <-.
  right. exists tm, m. split; [destruct (w_tmax w); [injection E1 as <-; reflexivity|discriminate E1]|]. split; [|reflexivity].
  destruct M as [M|(tm' & m' & M1 & M2 & M3)]; unfold edie_state in *; cbn [ms_cells fresh_mstate] in *.
  - rewrite M in E2. exact E2.
  - rewrite M3 in E2. injection E2 as <-. rewrite M1 in E1. injection E1 as <-. exact M2.
Qed.

Definition area_time (c : cfg) (w : world) (key : list lid) : Q := qsum (map (fun l => (l_len (L w l) * c_eulardt c)%Q) key).
Definition key_sum (c : cfg) (w : world) (f : Q -> nat -> Q -> list (list point) -> Q) (key : list lid) (i : nat) : Q :=
  qsum (map (fun l => f (c_eulardt c) i (covered (l_len (L w l)) (dx_of w l)) (traj_of c w l)) key).

Lemma key_in : forall w links l, In l (link_key w links) -> l < w_nl w.
Proof. intros w [ls|] l H; cbn [link_key] in H; [apply filter_In in H; destruct H as [H _]|]; apply in_seq in H; lia. Qed.

Theorem mfd_lemma : forall c w tm st links, c_logint c = 1%Z -> (0 < dt c)%Q -> reachP c keep_speed w -> w_final w = true -> no_loops w -> Singles w ->
  (0 < c_eulardt c)%Q -> w_tmax w = Some tm -> (0 <= tm)%Q -> made_in c w st ->
  let key := link_key w links in (0 < area_time c w key)%Q ->
  exists vs st', compute_mfd c w st links = Ok (vs, st') /\ List.length vs = Z.to_nat (qidiv tm (c_eulardt c)) /\
    forall i, i < List.length vs -> exists k q, nth_error vs i = Some (Some k, Some q) /\
      (k == dN c * key_sum c w slice_time key i / area_time c w key)%Q /\
      (q == dN c * key_sum c w slice_dist key i / area_time c w key)%Q.
Proof.
  intros c w tm st links L1 Hd R F NL Sg HE Ht Hp M key Ha.
  destruct (edie_state_ok c w tm L1 Hd R F NL Sg HE Hp) as (m & Em & A).
  destruct (ncells_ok tm (c_eulardt c) HE Hp) as [Nz Pz].
  unfold compute_mfd. rewrite Ht. cbn [of_opt bind]. rewrite (made_state _ _ _ _ _ M Ht Em). cbn [bind]. rewrite Nz. cbn [bind]. fold key.
  unfold mfd_values. fold (area_time c w key).
  set (kf := fun i => Some (qsum (map (fun l => row_sum (columns w l) (fun i j => snd (m l i j)) i) key) / area_time c w key)%Q).
  set (qf := fun i => Some (qsum (map (fun l => row_sum (columns w l) (fun i j => fst (m l i j)) i) key) / area_time c w key)%Q).
  assert (Dv : forall x, mfd_div key x (area_time c w key) = Ok (Some (x / area_time c w key)%Q)).
  { intro x. unfold mfd_div. destruct key as [|l0 key']; [cbn in Ha; lra|]. destruct (qeq _ 0) eqn:E; [apply qeq_iff in E; lra|reflexivity]. }
  rewrite (mapM_ok _ _ _ (fun i => (kf i, qf i))) by (intros i _; rewrite !Dv; reflexivity).
  cbn [bind]. eexists. eexists. split; [reflexivity|]. split; [rewrite map_length, seq_length; reflexivity|]. rewrite map_length, seq_length. intros i Hi.
  assert (X : nth_error (seq 0 (Z.to_nat (qidiv tm (c_eulardt c)))) i = Some i).
  { rewrite (nth_error_nth' _ 0) by (rewrite seq_length; exact Hi). rewrite seq_nth by exact Hi. reflexivity. }
  eexists. eexists. split; [rewrite (map_nth_error _ _ _ X); reflexivity|].
  assert (Hz : (Z.of_nat i < qidiv tm (c_eulardt c))%Z) by lia.
  unfold key_sum. rewrite <- !qsum_scale. split; (apply Qmult_comp; [|reflexivity]); apply qsum_ext; intros l Hl; apply key_in in Hl; destruct (A l Hl) as [_ B]; apply B; exact Hz.
Qed.

(** no links: a division by zero as soon as there is a time slice *)
Theorem mfd_empty : forall c w tm st links m, w_tmax w = Some tm -> edie_state c tm w st = Ok m -> (0 < c_eulardt c)%Q -> (c_eulardt c <= tm)%Q ->
  link_key w links = [] -> compute_mfd c w st links = Err ZeroDivisionError.
Proof.
  intros c w tm st links m Ht Em HE Hle K. unfold compute_mfd. rewrite Ht. cbn [of_opt bind]. rewrite Em. cbn [bind].
  assert (Hp : (0 <= tm)%Q) by lra. destruct (ncells_ok tm (c_eulardt c) HE Hp) as [Nz Pz]. rewrite Nz. cbn [bind]. rewrite K.
  assert (Z1 : (1 <= qidiv tm (c_eulardt c))%Z).
  { unfold qidiv. change 1%Z with (Qfloor 1). apply Qfloor_resp_le. apply Qle_shift_div_l; lra. }
  destruct (Z.to_nat (qidiv tm (c_eulardt c))) as [|n] eqn:E; [lia|]. reflexivity.
Qed.

Lemma qsum_nth : forall A (g : A -> Q) (f : nat -> Q) vs n, List.length vs = n -> (forall i, i < n -> exists x, nth_error vs i = Some x /\ (g x == f i)%Q) ->
  (qsum (map g vs) == qsum (map f (seq 0 n)))%Q.
Proof.
  intros A g f vs. revert f. induction vs as [|x vs IH]; intros f n En H; cbn [List.length] in En; subst n; [reflexivity|].
  cbn [seq map qsum]. destruct (H 0) as (y & E & Hy); [lia|]. injection E as <-. rewrite Hy. rewrite <- seq_shift, map_map.
  rewrite <- (IH (fun i => f (S i)) (List.length vs) eq_refl); [reflexivity|]. intros i Hi. apply (H (S i)). lia.
Qed.

(** with cells that cover the links and the time, the total flow is the whole distance driven *)
Theorem mfd_total : forall c w tm st links nt (nx : lid -> nat), c_logint c = 1%Z -> (0 < dt c)%Q -> reachP c keep_speed w -> w_final w = true -> no_loops w -> Singles w ->
  (0 < c_eulardt c)%Q -> w_tmax w = Some tm -> made_in c w st -> (now c w <= tm)%Q -> (tm == Qof_nat nt * c_eulardt c)%Q ->
  let key := link_key w links in (0 < area_time c w key)%Q -> (forall l, In l key -> l_len (L w l) == Qof_nat (nx l) * dx_of w l)%Q ->
  exists vs st', compute_mfd c w st links = Ok (vs, st') /\ List.length vs = nt /\
    (qsum (map (fun kq => match snd kq with Some q => q * area_time c w key | None => 0 end) vs) ==
     dN c * qsum (map (fun l => qsum (map (fun s => px (snd s) - px (fst s)) (all_segs (traj_of c w l)))) key))%Q.
Proof.
  intros c w tm st links nt nx L1 Hd R F NL Sg HE Ht M Hn Et key Ha Hx.
  assert (HN : (0 <= Qof_nat nt)%Q) by (unfold Qof_nat; change 0%Q with (inject_Z 0); rewrite <- Zle_Qle; lia).
  assert (Hp : (0 <= tm)%Q) by nra.
  assert (Nt : qidiv tm (c_eulardt c) = Z.of_nat nt) by (apply qidiv_unique; unfold Qof_nat in Et; lra).
  destruct (mfd_lemma c w tm st links L1 Hd R F NL Sg HE Ht Hp M Ha) as (vs & st' & E & Ln & A). fold key in A.
  rewrite Nt, Nat2Z.id in Ln. exists vs, st'. split; [exact E|]. split; [exact Ln|].
  rewrite (qsum_nth _ _ (fun i => (dN c * key_sum c w slice_dist key i)%Q) vs nt Ln).
  - rewrite qsum_scale. unfold key_sum. rewrite qsum_swap. rewrite <- !qsum_scale. apply qsum_ext. intros l Hl. pose proof (key_in _ _ _ Hl) as Hl'.
    assert (HS : forall o w, keep_speed o w -> sound_links o w) by (intros o x K; apply K).
    destruct (columns_ok c keep_speed w l Hd HS R F Hl') as (C1 & C2 & C3 & C4).
    destruct (extended_lemma c w l L1 Hd R NL Sg Hl') as [Fo Wi]. fold (traj_of c w l) in Fo, Wi.
    destruct (row_lemma (dx_of w l) (c_eulardt c) (l_len (L w l)) tm (dN c) (traj_of c w l) C2 HE C4 Hp Fo) as (m & Em & B).
    assert (Wi' : within (l_len (L w l)) tm (traj_of c w l)). { intros s Hs. destruct (Wi s Hs) as [W1 W2]. split; [exact W1|lra]. }
    destruct (whole_lemma (dx_of w l) (c_eulardt c) (l_len (L w l)) tm (dN c) (traj_of c w l) (nx l) nt C2 HE (Hx l Hl) Et Fo Wi') as (m' & Em' & Dw & _).
    rewrite Em in Em'. injection Em' as <-. rewrite <- Dw. unfold cell_sum. rewrite <- qsum_scale. apply qsum_ext. intros i Hi. apply in_seq in Hi.
    destruct (B i) as [B1 _]; [lia|]. unfold slice_dist, covered. rewrite <- B1. unfold row_sum.
    assert (Nx : qidiv (l_len (L w l)) (dx_of w l) = Z.of_nat (nx l)).
    { apply qidiv_unique; pose proof (Hx l Hl) as X; unfold Qof_nat in X; lra. }
    rewrite Nx, Nat2Z.id. reflexivity.
  - intros i Hi. destruct (A i) as (k & q & A1 & _ & A2); [lia|]. exists (Some k, Some q). split; [exact A1|]. cbn [snd]. rewrite A2. field. lra.
Qed.

(** ** The table *)
Theorem pandas_lemma : forall c w st links vs st', compute_mfd c w st links = Ok (vs, st') ->
  let n := List.length (ms_asked st') in
  (n <= List.length vs -> exists rows, mfd_to_pandas c w st links = Ok (rows, st') /\ List.length rows = n /\
     forall i k q, i < n -> nth_error vs i = Some (k, q) -> nth_error rows i = Some ((Qof_nat i * c_eulardt c)%Q, k, q)) /\
  (List.length vs < n -> mfd_to_pandas c w st links = Err IndexError).
Proof.
  intros c w st links vs st' H n. unfold mfd_to_pandas. rewrite H. cbn [bind]. fold n. split; intro Hn.
  - set (row := fun i => ((Qof_nat i * c_eulardt c)%Q, fst (nth i vs (None, None)), snd (nth i vs (None, None)))).
    rewrite (mapM_ok _ _ _ row).
    + cbn [bind]. eexists. split; [reflexivity|]. split; [rewrite map_length, seq_length; reflexivity|]. intros i k q Hi E.
      assert (X : nth_error (seq 0 n) i = Some i).
      { rewrite (nth_error_nth' _ 0) by (rewrite seq_length; exact Hi). rewrite seq_nth by exact Hi. reflexivity. }
      rewrite (map_nth_error _ _ _ X). unfold row. rewrite (nth_error_nth _ _ _ E). reflexivity.
    + intros i Hi. apply in_seq in Hi. destruct (nth_error vs i) as [kq|] eqn:E; [|apply nth_error_None in E; lia].
      unfold row. rewrite (nth_error_nth _ _ _ E). reflexivity.
  - assert (G : forall k a, a + k = n -> a <= List.length vs -> List.length vs < a + k ->
       mapM (fun i => kq <- of_opt IndexError (nth_error vs i) ;; Ok ((Qof_nat i * c_eulardt c)%Q, fst kq, snd kq)) (seq a k) = Err IndexError).
    { induction k as [|k IH]; intros a Ea Hle Hlt; [lia|]. cbn [seq mapM]. destruct (nth_error vs a) as [kq|] eqn:E; [|reflexivity].
      cbn [of_opt bind]. assert (a < List.length vs) by (apply nth_error_Some; congruence). rewrite IH by lia. reflexivity. }
    rewrite (G n 0) by lia. reflexivity.
Qed.

(** ** Cumulative counts *)
Lemma stays_nth : forall A (l s : list A) i, i < List.length l -> nth_error (l ++ s) i = nth_error l i.
Proof. intros. apply nth_error_app1. assumption. Qed.

Theorem cumulative_lemma : forall c P tm w1 w0 w, (0 < dt c)%Q -> (0 <= c_deltan c)%Z -> reach c w1 -> w_final w1 = false -> finalize c tm w1 = Ok w0 ->
  later c P w0 w -> w_tsize w <= w_T w ->
  exists tabs, link_cumulative c w = Ok tabs /\ List.length tabs = w_nl w /\
    forall l, exists_link w l -> exists rows g ff, nth_error tabs l = Some rows /\ List.length rows = w_tsize w /\
      exits c P l w0 w g /\ (0 < w_tsize w -> ff = (l_len (L w1 l) / l_u (L w1 l))%Q) /\
      (forall i r, nth_error rows i = Some r -> cu_link r = l /\ cu_t r = (Qof_nat i * dt c)%Q /\ (0 <= cu_dep r <= cu_arr r)%Z /\
         cu_tta r = travel_at c ff g i /\ nth_error (l_tti (L w l)) i = Some (cu_tti r) /\
         forall x, later c P w0 x -> later c P x w -> w_T x = S i ->
           (cu_arr r - cu_dep r = c_deltan c * Z.of_nat (List.length (l_vehs (L x l))))%Z) /\
      (forall i j r s, i <= j -> nth_error rows i = Some r -> nth_error rows j = Some s -> (cu_arr r <= cu_arr s /\ cu_dep r <= cu_dep s)%Z).
Proof.
  intros c P tm w1 w0 w Hd Hn R1 Hf Ef K Hc.
  assert (R0 : reach c w0). { eapply rc_op with (o := OFinalize tm); [exact R1|exact Hf|intros a; discriminate|exact Ef]. }
  assert (F0 : w_final w0 = true).
  { unfold finalize in Ef. cbn zeta in Ef. apply bind_ok in Ef. destruct Ef as (x & _ & Ef). injection Ef as <-. reflexivity. }
  assert (R : reach c w) by (eapply later_reach; eauto).
  destruct (later_tsize c P w0 w F0 K) as (_ & Ts & _).
  assert (A : forall l, In l (seq 0 (w_nl w)) -> exists rows, mapM (cum_row_of c w l) (seq 0 (w_tsize w)) = Ok rows /\
     exists g ff, List.length rows = w_tsize w /\ exits c P l w0 w g /\ (0 < w_tsize w -> ff = (l_len (L w1 l) / l_u (L w1 l))%Q) /\
     forall i, i < w_tsize w -> exists r, nth_error rows i = Some r /\ cu_link r = l /\ cu_t r = (Qof_nat i * dt c)%Q /\ nth_error (l_ca (L w l)) i = Some (cu_arr r) /\
       nth_error (l_cd (L w l)) i = Some (cu_dep r) /\ cu_tta r = travel_at c ff g i /\ nth_error (l_tti (L w l)) i = Some (cu_tti r)).
  { intros l Hl. apply in_seq in Hl. assert (Hl' : l < w_nl w) by lia. destruct (reach_TInv c w R) as [_ T]. destruct (T l Hl') as (T1 & T2 & T3).
    destruct (link_history c P tm w1 w0 w l Hd R1 Hf Ef K Hl') as (g & n & ff & G1 & _ & G3 & G4 & G5 & G6 & _).
    assert (B : forall i, In i (seq 0 (w_tsize w)) -> exists r, cum_row_of c w l i = Ok r /\ cu_link r = l /\ cu_t r = (Qof_nat i * dt c)%Q /\ nth_error (l_ca (L w l)) i = Some (cu_arr r) /\
       nth_error (l_cd (L w l)) i = Some (cu_dep r) /\ cu_tta r = travel_at c ff g i /\ nth_error (l_tti (L w l)) i = Some (cu_tti r)).
    { intros i Hi. apply in_seq in Hi. unfold cum_row_of.
      destruct (nth_error (l_ca (L w l)) i) as [a|] eqn:E1; [|apply nth_error_None in E1; lia].
      destruct (nth_error (l_cd (L w l)) i) as [d|] eqn:E2; [|apply nth_error_None in E2; lia].
      destruct (nth_error (l_tti (L w l)) i) as [q|] eqn:E3; [|apply nth_error_None in E3; lia].
      assert (E4 : nth_error (l_tta (L w l)) i = Some (travel_at c ff g i)).
      { rewrite G6. apply map_nth_error. rewrite (nth_error_nth' _ 0) by (rewrite seq_length; lia). rewrite seq_nth by lia. reflexivity. }
      rewrite E4. cbn [of_opt bind]. eexists. split; [reflexivity|]. cbn [cu_link cu_t cu_arr cu_dep cu_tta cu_tti]. repeat (split; [reflexivity|]). reflexivity. }
    destruct (mapM_exists _ _ _ _ _ B) as (rows & E & _). exists rows. split; [exact E|]. exists g, ff. destruct (mapM_nth _ _ _ _ _ E) as [N1 N2]. rewrite seq_length in N1.
    split; [exact N1|]. split; [exact G1|]. split; [intro X; apply G5; lia|]. intros i Hi.
    assert (X : nth_error (seq 0 (w_tsize w)) i = Some i).
    { rewrite (nth_error_nth' _ 0) by (rewrite seq_length; exact Hi). rewrite seq_nth by exact Hi. reflexivity. }
    destruct (N2 i i X) as (r & N3 & N4). exists r. split; [exact N3|]. destruct (B i) as (r' & B1 & B2); [apply in_seq; lia|]. rewrite N4 in B1. injection B1 as <-. exact B2. }
  destruct (mapM_exists _ _ _ _ _ A) as (tabs & E & _). exists tabs. split; [exact E|]. destruct (mapM_nth _ _ _ _ _ E) as [N1 N2]. rewrite seq_length in N1. split; [exact N1|].
  intros l Hl. assert (X : nth_error (seq 0 (w_nl w)) l = Some l).
  { rewrite (nth_error_nth' _ 0) by (rewrite seq_length; exact Hl). rewrite seq_nth by exact Hl. reflexivity. }
  destruct (N2 l l X) as (rows & N3 & N4). destruct (A l) as (rows' & A1 & g & ff & A2 & A3 & A4 & A5); [apply in_seq; unfold exists_link in Hl; lia|].
  rewrite N4 in A1. injection A1 as <-. exists rows, g, ff. split; [exact N3|]. split; [exact A2|]. split; [exact A3|]. split; [exact A4|].
  destruct (curves_lemma c w l Hn R Hl) as [V1 V2 V3 V4 V5 V6].
  assert (D : forall i r, nth_error rows i = Some r -> cu_link r = l /\ cu_t r = (Qof_nat i * dt c)%Q /\ nth_error (l_ca (L w l)) i = Some (cu_arr r) /\
       nth_error (l_cd (L w l)) i = Some (cu_dep r) /\ cu_tta r = travel_at c ff g i /\ nth_error (l_tti (L w l)) i = Some (cu_tti r)).
  { intros i r Er. assert (Hi : i < w_tsize w) by (rewrite <- A2; apply nth_error_Some; congruence). destruct (A5 i Hi) as (r' & Er' & Z). assert (r' = r) by congruence. subst r'. exact Z. }
  split.
  - intros i r Er. destruct (D i r Er) as (D1 & D2 & D3 & D4 & D5 & D6). split; [exact D1|]. split; [exact D2|]. split; [exact (V6 i _ _ D3 D4)|]. split; [exact D5|]. split; [exact D6|].
    intros x K1 K2 Tx. assert (Rx : reach c x) by (eapply later_reach; [exact R0|exact K1]).
    pose proof (later_links c P w0 w l R0 F0 K Hl) as Hl0.
    assert (Hlx : l < w_nl x) by (destruct (later_fifo _ _ _ _ R0 K1); lia).
    destruct (curves_lemma c x l Hn Rx Hlx) as [U1 U2 U3 _ _ _]. destruct (Counts.recorded_stays c P x w Rx K2 l Hlx) as ((s1 & S1) & (s2 & S2) & _).
    rewrite <- U3. rewrite S1, nth_error_app1 in D3 by lia. rewrite S2, nth_error_app1 in D4 by lia.
    assert (La : forall (xs : list Z) z, List.length xs = S i -> nth_error xs i = Some z -> latest xs = z).
    { intros xs z Lx Ex. unfold latest. destruct (exists_last (l := xs)) as (ys & y & ->); [intros ->; discriminate Lx|]. rewrite last_last.
      rewrite app_length in Lx. cbn in Lx. rewrite nth_error_app2 in Ex by lia. replace (i - List.length ys) with 0 in Ex by lia. cbn in Ex. congruence. }
    rewrite (La _ _ (eq_trans U1 Tx) D3), (La _ _ (eq_trans U2 Tx) D4). reflexivity.
  - intros i j r s Hij Er Es. destruct (D i r Er) as (_ & _ & D3 & D4 & _). destruct (D j s Es) as (_ & _ & D5 & D6 & _). split; [eapply V4|eapply V5]; eauto.
Qed.

(** before the end of the simulation *)
Theorem cumulative_early : forall c w l, reach c w -> exists_link w l -> w_T w < w_tsize w -> link_cumulative c w = Err IndexError.
Proof.
  intros c w l R Hl HT. destruct (reach_TInv c w R) as [_ T]. unfold link_cumulative.
  destruct (w_nl w) as [|n] eqn:En; [unfold exists_link in Hl; lia|]. cbn [seq mapM].
  assert (X : mapM (cum_row_of c w 0) (seq 0 (w_tsize w)) = Err IndexError).
  { assert (Y : exists b, b <= w_T w /\ (b = w_T w \/ nth_error (l_tta (L w 0)) b = None) /\ forall i, i < b -> nth_error (l_tta (L w 0)) i <> None).
    { clear. induction (w_T w) as [|t (b & B1 & B2 & B3)]; [exists 0; split; [lia|split; [left; reflexivity|intros i Hi; lia]]|].
      destruct B2 as [->|B2].
      - destruct (nth_error (l_tta (L w 0)) t) eqn:E; [exists (S t); split; [lia|split; [left; reflexivity|]]; intros i Hi; destruct (Nat.eq_dec i t) as [->|]; [congruence|apply B3; lia]|].
        exists t. split; [lia|]. split; [right; exact E|exact B3].
      - exists b. split; [lia|]. split; [right; exact B2|exact B3]. }
    destruct Y as (b & B1 & B2 & B3).
    assert (Z : forall n a, a <= b -> b < a + n -> mapM (cum_row_of c w 0) (seq a n) = Err IndexError).
    { destruct (T 0 ltac:(lia)) as (T1 & T2 & T3). intro n0. induction n0 as [|n0 IH]; intros a Ha Hn; [lia|]. cbn [seq mapM]. unfold cum_row_of at 1.
      destruct (nth_error (l_ca (L w 0)) a) as [x|] eqn:E1; [|reflexivity]. assert (a < w_T w) by (rewrite <- T1; apply nth_error_Some; congruence).
      destruct (nth_error (l_cd (L w 0)) a) as [y|] eqn:E2; [|reflexivity]. destruct (nth_error (l_tta (L w 0)) a) as [z|] eqn:E3; [|reflexivity].
      destruct (nth_error (l_tti (L w 0)) a) as [q|] eqn:E4; [|reflexivity]. cbn [of_opt bind].
      destruct (Nat.eq_dec a b) as [->|Hne]; [destruct B2; [lia|congruence]|]. rewrite IH; [reflexivity|lia|lia]. }
    apply Z; lia. }
  rewrite X. reflexivity.
Qed.
