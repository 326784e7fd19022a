(** * TaxiStats: the statistics of the taxi handler and the names of trip requests (property C52).
    uxsim/TaxiHandler/TaxiHandler.py 84-106 and 129-203. Names are the numbers given by default. *)
From Verif Require Import Base Types Sim Build Heap Lists Inv FrameBase Tac Frame Eff Eff2 Trace InvStep Reach Steps Effects Phases Attr Life Incoming Vev Ride TripLog Route Spec Rounds SpecTaxi Taxi Taxi2 Average Clock.
Local Open Scope nat_scope.

(** ** The model *)

(** the attributes set by compute_stats, 148-168 *)
Record tstats := mkTS { ts_total : Z; ts_done : Z; ts_wait : list Q; ts_travel : list Q; ts_ride : list Q; ts_taxis : Z }.
Definition is_taxi (w : world) (v : vid) : bool := match v_mode (V w v) with Taxi => true | _ => false end.
(** one iteration of the loop 161-168; subtracting [None] raises a TypeError *)
Definition stats_step (c : cfg) (w : world) (r : rid) (s : tstats) : result tstats :=
  let q := R w r in
  s <- match r_arrived q with
       | None => Ok s
       | Some a =>
           g <- of_opt TypeError (r_geton q) ;;
           Ok (mkTS (ts_total s) (ts_done s + c_deltan c)%Z (ts_wait s) (ts_travel s ++ [(a - r_depart q)%Q]) (ts_ride s ++ [(a - g)%Q]) (ts_taxis s))
       end ;;
  Ok match r_geton q with
     | None => s
     | Some g => mkTS (ts_total s) (ts_done s) (ts_wait s ++ [(g - r_depart q)%Q]) (ts_travel s) (ts_ride s) (ts_taxis s)
     end.
Definition compute_stats (c : cfg) (w : world) : result tstats :=
  foldM (stats_step c w) (seq 0 (w_nr w))
    (mkTS (Z.of_nat (w_nr w) * c_deltan c) 0 [] [] [] (Z.of_nat (List.length (filter (is_taxi w) (seq 0 (w_nv w)))) * c_deltan c)).

(** the averages of basic_to_pandas, 170-182 *)
Definition mean0 (xs : list Q) : Q := match xs with [] => 0%Q | _ => (qsum xs / Qof_nat (List.length xs))%Q end.
(** print_stats, 184-196: the two ratios that are printed *)
Definition print_stats (c : cfg) (w : world) : result (Q * Q) :=
  s <- compute_stats c w ;;
  a <- (if Z.ltb 0 (ts_total s) then qdiv (inject_Z (ts_done s)) (inject_Z (ts_total s)) else Ok 0%Q) ;;
  b <- qdiv (inject_Z (ts_done s)) (inject_Z (ts_taxis s)) ;;
  Ok (a, b).
(** the row of a request in trips_to_pandas, 198-214: travel time, waiting time, taxi *)
Definition trip_row (w : world) (r : rid) : option Q * option Q * option vid :=
  let q := R w r in
  (match r_arrived q with Some a => Some (a - r_depart q)%Q | None => None end,
   match r_geton q with Some g => Some (g - r_depart q)%Q | None => None end,
   r_taxi q).

(** add_trip_request 84-106 with the default name: the names of the requests after the operations *)
Fixpoint names (c : cfg) (os : list op) (w : world) (ns : list nat) : option (world * list nat) :=
  match os with
  | [] => Some (w, ns)
  | o :: tl =>
      match apply_op c o w with
      | Ok w' => names c tl w' (match o with OAddRequest _ _ _ => ns ++ [List.length (w_pending w)] | _ => ns end)
      | Err _ => None
      end
  end.
(** get_trip by name, 129-145 *)
Fixpoint get_trip (ns : list nat) (k : nat) (r : rid) : result rid :=
  match ns with [] => Err Exception_ | n :: tl => if Nat.eqb k n then Ok r else get_trip tl k (S r) end.

(** ** Specification *)
Definition delivered (w : world) (r : rid) : bool := match r_arrived (R w r) with Some _ => true | None => false end.
Definition got_on (w : world) (r : rid) : bool := match r_geton (R w r) with Some _ => true | None => false end.
Definition odef (o : option Q) : Q := match o with Some q => q | None => 0%Q end.
Definition wait_of (w : world) (r : rid) : Q := (odef (r_geton (R w r)) - r_depart (R w r))%Q.
Definition ride_of (w : world) (r : rid) : Q := (odef (r_arrived (R w r)) - odef (r_geton (R w r)))%Q.
Definition trip_of (w : world) (r : rid) : Q := (odef (r_arrived (R w r)) - r_depart (R w r))%Q.
(** requests are assigned only when they are due *)
Definition on_time (o : op) (w : world) : Prop := forall v r, o = OAssignTaxi v r -> due w r.

(** ** Proofs *)
Lemma stats_fold : forall c w rs s, (forall r, In r rs -> delivered w r = true -> got_on w r = true) ->
  foldM (stats_step c w) rs s = Ok (mkTS (ts_total s) (ts_done s + c_deltan c * Z.of_nat (List.length (filter (delivered w) rs)))%Z
    (ts_wait s ++ map (wait_of w) (filter (got_on w) rs)) (ts_travel s ++ map (trip_of w) (filter (delivered w) rs))
    (ts_ride s ++ map (ride_of w) (filter (delivered w) rs)) (ts_taxis s)).
Proof.
  intros c w rs. induction rs as [|r rs IH]; intros s H.
  - cbn. rewrite !app_nil_r, Z.mul_0_r, Z.add_0_r. destruct s; reflexivity.
  - cbn [foldM]. pose proof (H r (or_introl eq_refl)) as Hr.
    assert (E : stats_step c w r s = Ok (mkTS (ts_total s) (if delivered w r then ts_done s + c_deltan c else ts_done s)%Z
      (if got_on w r then ts_wait s ++ [wait_of w r] else ts_wait s) (if delivered w r then ts_travel s ++ [trip_of w r] else ts_travel s)
      (if delivered w r then ts_ride s ++ [ride_of w r] else ts_ride s) (ts_taxis s))).
    { unfold stats_step, delivered, got_on, wait_of, trip_of, ride_of in *.
      destruct (r_arrived (R w r)) as [a|]; destruct (r_geton (R w r)) as [g|]; cbn; try reflexivity; [discriminate (Hr eq_refl)|destruct s; reflexivity]. }
    rewrite E. cbn [bind]. rewrite IH by (intros; apply H; [right|]; assumption). cbn [ts_total ts_done ts_wait ts_travel ts_ride ts_taxis filter].
    destruct (delivered w r), (got_on w r); cbn [map List.length]; rewrite <- ?app_assoc; cbn [app]; do 2 f_equal; lia.
Qed.

Theorem stats_lemma : forall c w, (0 <= dt c)%Q -> reach c w ->
  let rs := seq 0 (w_nr w) in
  compute_stats c w = Ok (mkTS (c_deltan c * Z.of_nat (w_nr w)) (c_deltan c * Z.of_nat (List.length (filter (delivered w) rs)))
    (map (wait_of w) (filter (got_on w) rs)) (map (trip_of w) (filter (delivered w) rs)) (map (ride_of w) (filter (delivered w) rs))
    (c_deltan c * Z.of_nat (List.length (filter (is_taxi w) (seq 0 (w_nv w)))))).
Proof.
  intros c w Hdt Rc. cbv zeta. unfold compute_stats. rewrite stats_fold.
  - cbn [ts_total ts_done ts_wait ts_travel ts_ride ts_taxis app]. do 2 f_equal; lia.
  - intros r Hr Hd. apply in_seq in Hr. unfold delivered, got_on in *. destruct (stages_lemma c w r Hdt Rc ltac:(lia)) as [A B C D|v A B C D E F|v t A B C D E F G|v t t' A B C D E F G J];
      rewrite ?D, ?E, ?F in *; try discriminate; reflexivity.
Qed.
(** more trips are requested than completed; passengers who arrived had got on; a ride takes no negative time *)
Theorem bounds_lemma : forall c w s, (0 <= dt c)%Q -> (0 <= c_deltan c)%Z -> reach c w -> compute_stats c w = Ok s ->
  (ts_done s <= ts_total s)%Z /\ List.length (ts_travel s) = List.length (ts_ride s) /\
  List.length (ts_ride s) <= List.length (ts_wait s) <= w_nr w /\ (forall q, In q (ts_ride s) -> (0 <= q)%Q).
Proof.
  intros c w s Hdt Hn Rc E. rewrite (stats_lemma c w Hdt Rc) in E. injection E as <-. cbn [ts_total ts_done ts_wait ts_travel ts_ride ts_taxis].
  assert (A : forall p : rid -> bool, List.length (filter p (seq 0 (w_nr w))) <= w_nr w).
  { intro p. rewrite <- (seq_length (w_nr w) 0) at 2. induction (seq 0 (w_nr w)); cbn; [auto|]. destruct (p a); cbn; lia. }
  assert (B : forall r, In r (seq 0 (w_nr w)) -> delivered w r = true -> got_on w r = true /\ (0 <= ride_of w r)%Q).
  { intros r Hr Hd. apply in_seq in Hr. unfold delivered, got_on, ride_of in *. destruct (stages_lemma c w r Hdt Rc ltac:(lia)) as [S1 S2 S3 S4|v S1 S2 S3 S4 S5 S6|v t S1 S2 S3 S4 S5 S6 S7|v t t' S1 S2 S3 S4 S5 S6 S7 S8];
      rewrite ?S4, ?S5, ?S6 in *; try discriminate. split; [reflexivity|]. cbn. lra. }
  rewrite !map_length. split; [specialize (A (delivered w)); nia|]. split; [reflexivity|]. split; [split; [|apply A]|].
  - clear A. induction (seq 0 (w_nr w)) as [|r rs IH]; [auto|]. cbn. pose proof (B r (or_introl eq_refl)) as Br.
    specialize (IH ltac:(intros; apply B; [right|]; assumption)). destruct (delivered w r); destruct (got_on w r) eqn:G; cbn; try lia.
  - intros q Hq. apply in_map_iff in Hq. destruct Hq as (r & <- & Hr). apply filter_In in Hr. apply B; tauto.
Qed.
(** [mean0] of a list of equal length: the whole trip is the wait and the ride *)
Lemma trip_split : forall w r, (trip_of w r == wait_of w r + ride_of w r)%Q.
Proof. intros. unfold trip_of, wait_of, ride_of. ring. Qed.
Lemma mean0_sum : forall (A : Type) (f g h : A -> Q) l, (forall x, f x == g x + h x)%Q -> (mean0 (map f l) == mean0 (map g l) + mean0 (map h l))%Q.
Proof.
  intros A f g h l H. assert (S : (qsum (map f l) == qsum (map g l) + qsum (map h l))%Q).
  { induction l as [|x l IH]; cbn; [ring|]. rewrite IH, H. ring. }
  unfold mean0. destruct l as [|x l]; [cbn; ring|]. cbn [map List.length] in *. rewrite S, !map_length. unfold Qdiv. ring.
Qed.
Theorem average_lemma : forall c w s, (0 <= dt c)%Q -> reach c w -> compute_stats c w = Ok s ->
  (mean0 (ts_travel s) == mean0 (map (wait_of w) (filter (delivered w) (seq 0 (w_nr w)))) + mean0 (ts_ride s))%Q.
Proof.
  intros c w s Hdt Rc E. rewrite (stats_lemma c w Hdt Rc) in E. injection E as <-. cbn [ts_travel ts_ride]. apply mean0_sum. apply trip_split.
Qed.

(** ** Requests that are assigned when due *)
Definition timely (w : world) (r : rid) : Prop :=
  (r_taxi (R w r) <> None -> due w r) /\ (forall t, r_geton (R w r) = Some t -> (r_depart (R w r) <= t)%Q).
Definition Timely (w : world) : Prop := forall r, r < w_nr w -> timely w r.

Lemma timely_same : forall w w' r, R w' r = R w r -> (w_TIME w <= w_TIME w')%Q -> timely w r -> timely w' r.
Proof. intros w w' r E Ht [A B]. unfold timely, due in *. rewrite E. split; [intro K; specialize (A K); lra|exact B]. Qed.

Lemma mstep_timely : forall c e w p w' p', Inv2 w p -> TX c w -> mstep c e w p w' p' -> Timely w -> Timely w'.
Proof.
  intros c e w p w' p' I T M D r Hr. rewrite (fr_w_nr (mstep_fr M)) in Hr. specialize (D r Hr).
  destruct (match e with VEvent _ _ | VTime => false | _ => true end) eqn:Ek.
  { apply (timely_same w); [|rewrite (mstep_time c e w p w' p'); [apply Qle_refl|destruct e; try discriminate Ek; discriminate|exact M]|exact D].
    apply (mstep_req c e w p w' p' I M). destruct e; try discriminate Ek; intros; discriminate. }
  destruct e; try discriminate Ek; clear Ek.
  - pose proof (mstep_eff c _ w p w' p' I M) as Hx. cbn [eff] in Hx. destruct Hx as (_ & _ & _ & _ & (l & Ha & Hd) & Hr').
    apply Taxi.dget_in in Hd. pose proof (tx_ev _ _ T v _ e Hd) as X.
    apply event_ok in Hr'. destruct Hr' as (W & WL & WN & Hr'). unfold wtx in W. injection W as W1 W2 W3 W4 W5 W6.
    destruct e as [k|k]; cbn [evok] in X.
    + destruct X as (X1 & X2 & X3 & X4). destruct Hr' as (u & H1 & H2 & H3 & H4 & H5 & _). destruct D as [A B].
      unfold timely, due in *. rewrite H5, W4. destruct (Nat.eqb r k) eqn:E; [|split; [exact A|exact B]]. apply Nat.eqb_eq in E. subst k. cbn.
      split; [exact A|]. intros t Et. injection Et as <-. apply A. congruence.
    + destruct Hr' as (u & H1 & H3 & H4 & H5 & _). destruct D as [A B].
      unfold timely, due in *. rewrite H5, W4. destruct (Nat.eqb r k) eqn:E; [|split; [exact A|exact B]]. cbn. split; [exact A|exact B].
  - inversion M; subst. apply (timely_same w); [reflexivity| |exact D]. apply (tx_time _ _ T).
Qed.

Lemma step_timely : forall c w w', (0 <= dt c)%Q -> reach c w -> step c on_time w w' -> Timely w -> Timely w'.
Proof.
  intros c w w' Hdt Rc S D. pose proof (reach_TX _ _ Hdt Rc) as T. pose proof (reach_Inv2 _ _ Rc) as I.
  destruct S as [a o b K1 K2 K3 K4|a b K1 K2|a].
  - destruct (op_taxi c o a b K1 K3 K4) as [o Q E|u d i E|oo d t E|u k Hu E].
    + intros r Hr. rewrite (q_nr _ _ Q) in Hr. apply (timely_same a); [apply (q_R _ _ Q)| |apply D; exact Hr].
      destruct (q_T _ _ Q) as [(_ & -> & _)|(F & -> & _)]; [apply Qle_refl|]. destruct (tx_time _ _ T) as (_ & _ & F' & _). specialize (F' F). lra.
    + apply add_dest_ok in E. destruct E as (_ & _ & _ & B & A & _). unfold wtx in A. injection A as A1 A2 A3 A4 _ _. intros r Hr. rewrite A2 in Hr.
      apply (timely_same a); [unfold R; rewrite B; reflexivity|rewrite A4; apply Qle_refl|apply D; exact Hr].
    + unfold add_trip_request in E. destruct (negb _); [discriminate|]. injection E as <-. intros r Hr. cbn in Hr.
      destruct (Nat.eq_dec r (w_nr a)) as [-> | Hne].
      * unfold timely, R. cbn. rewrite upd_same. cbn. split; [congruence|discriminate].
      * apply (timely_same a); [unfold R; cbn; apply upd_other; auto|apply Qle_refl|apply D; lia].
    + pose proof (K2 u k eq_refl) as Kd. apply assign_ok in E. destruct E as (A1 & _ & _ & _ & A2 & _ & A3 & A4 & A5 & _). intros r Hr. rewrite A3 in Hr.
      destruct (D r Hr) as [X Y]. unfold timely, due in *. rewrite A2, A5. destruct (Nat.eqb r k) eqn:Ek; [|split; [exact X|exact Y]].
      apply Nat.eqb_eq in Ek. subst r. cbn. split; [intro; exact Kd|exact Y].
  - apply tick_fr in K2. destruct K2 as (w1 & Hb & ->). change (Timely w1). pose proof (body_run _ _ Hb) as Rn.
    destruct (run_with c (fun x _ => TX c x /\ Timely x) k_all) with (w := a) (w' := w1) as (_ & _ & Z); auto.
    intros e x p x' p' _ Ix [Tx Dx] M. split; [apply (mstep_TX c e x p x' p' Ix Tx M)|eapply mstep_timely; eauto].
  - intros r Hr. apply (timely_same a); [reflexivity| |apply D; exact Hr]. apply (tx_time _ _ T).
Qed.
Theorem reach_timely : forall c w, (0 <= dt c)%Q -> reachP c on_time w -> Timely w.
Proof.
  intros c w Hdt (tm & H). assert (R0 : reach c (empty_world tm)) by constructor.
  induction H as [|a b H IH S]; [intros r Hr; cbn in Hr; lia|]. eapply step_timely; [exact Hdt| |exact S|exact IH]. eapply later_reach; [exact R0|exact H].
Qed.
Theorem waiting_lemma : forall c w s, (0 <= dt c)%Q -> reachP c on_time w -> compute_stats c w = Ok s ->
  (forall q, In q (ts_wait s) -> (0 <= q)%Q) /\ (forall q, In q (ts_travel s) -> (0 <= q)%Q) /\ (mean0 (ts_ride s) <= mean0 (ts_travel s))%Q.
Proof.
  intros c w s Hdt Rc E. pose proof (reach_timely c w Hdt Rc) as D. pose proof (reachP_reach _ _ _ Rc) as R0.
  assert (W : forall r, In r (seq 0 (w_nr w)) -> got_on w r = true -> (0 <= wait_of w r)%Q).
  { intros r Hr G. apply in_seq in Hr. destruct (D r ltac:(lia)) as [_ B]. unfold got_on, wait_of in *. destruct (r_geton (R w r)) as [t|]; [|discriminate]. specialize (B t eq_refl). cbn. lra. }
  assert (V : forall r, In r (seq 0 (w_nr w)) -> delivered w r = true -> (0 <= wait_of w r)%Q /\ (0 <= ride_of w r)%Q).
  { intros r Hr Hd. assert (Hr' : r < w_nr w) by (apply in_seq in Hr; lia).
    assert (G : got_on w r = true /\ (0 <= ride_of w r)%Q).
    { unfold delivered, got_on, ride_of in *. destruct (stages_lemma c w r Hdt R0 Hr') as [S1 S2 S3 S4|v S1 S2 S3 S4 S5 S6|v t S1 S2 S3 S4 S5 S6 S7|v t t' S1 S2 S3 S4 S5 S6 S7 S8];
      rewrite ?S4, ?S5, ?S6 in *; try discriminate. split; [reflexivity|]. cbn. lra. }
    split; [apply W; tauto|apply G]. }
  pose proof (average_lemma c w s Hdt R0 E) as Av. rewrite (stats_lemma c w Hdt R0) in E. injection E as <-. cbn [ts_wait ts_travel ts_ride] in *.
  split; [|split].
  - intros q Hq. apply in_map_iff in Hq. destruct Hq as (r & <- & Hr). apply filter_In in Hr. apply W; tauto.
  - intros q Hq. apply in_map_iff in Hq. destruct Hq as (r & <- & Hr). apply filter_In in Hr. rewrite trip_split. destruct (V r) as [A B]; [tauto..|]. lra.
  - rewrite Av. enough (0 <= mean0 (map (wait_of w) (filter (delivered w) (seq 0 (w_nr w)))))%Q by lra.
    assert (P : forall q, In q (map (wait_of w) (filter (delivered w) (seq 0 (w_nr w)))) -> (0 <= q)%Q).
    { intros q Hq. apply in_map_iff in Hq. destruct Hq as (r & <- & Hr). apply filter_In in Hr. apply V; tauto. }
    revert P. generalize (map (wait_of w) (filter (delivered w) (seq 0 (w_nr w)))). intros l P. unfold mean0. destruct l as [|x l]; [lra|].
    apply Qle_shift_div_l; [unfold Qof_nat; change 0%Q with (inject_Z 0); rewrite <- Zlt_Qlt; cbn [List.length]; lia|].
    rewrite Qmult_0_l. clear - P. induction (x :: l) as [|y k IH]; cbn; [lra|]. pose proof (P y (or_introl eq_refl)). specialize (IH ltac:(intros; apply P; right; assumption)). lra.
Qed.

(** ** Printing, and the rows of the table *)
Theorem print_lemma : forall c w, (0 <= dt c)%Q -> (0 < c_deltan c)%Z -> reach c w ->
  ((exists v, v < w_nv w /\ v_mode (V w v) = Taxi) -> exists a b, print_stats c w = Ok (a, b) /\ (0 <= a <= 1)%Q /\
     (a * Qof_nat (w_nr w) == Qof_nat (List.length (filter (delivered w) (seq 0 (w_nr w)))))%Q /\
     (b * Qof_nat (List.length (filter (is_taxi w) (seq 0 (w_nv w)))) == Qof_nat (List.length (filter (delivered w) (seq 0 (w_nr w)))))%Q) /\
  ((forall v, v < w_nv w -> v_mode (V w v) <> Taxi) -> print_stats c w = Err ZeroDivisionError).
Proof.
  intros c w Hdt Hn Rc. pose proof (stats_lemma c w Hdt Rc) as E. cbv zeta in E.
  assert (B : (0 <= Z.of_nat (List.length (filter (delivered w) (seq 0 (w_nr w)))) <= Z.of_nat (w_nr w))%Z).
  { split; [lia|]. clear E. apply Nat2Z.inj_le. rewrite <- (seq_length (w_nr w) 0) at 2. induction (seq 0 (w_nr w)); cbn; [auto|]. destruct (delivered w a); cbn; lia. }
  assert (A : exists a, (if Z.ltb 0 (c_deltan c * Z.of_nat (w_nr w)) then qdiv (inject_Z (c_deltan c * Z.of_nat (List.length (filter (delivered w) (seq 0 (w_nr w)))))) (inject_Z (c_deltan c * Z.of_nat (w_nr w))) else Ok 0%Q) = Ok a /\ (0 <= a <= 1)%Q /\
      (a * Qof_nat (w_nr w) == Qof_nat (List.length (filter (delivered w) (seq 0 (w_nr w)))))%Q).
  { destruct (Z.ltb_spec 0 (c_deltan c * Z.of_nat (w_nr w))) as [K|K].
    2:{ exists 0%Q. split; [reflexivity|]. split; [lra|]. assert (w_nr w = 0) by nia. replace (List.length (filter (delivered w) (seq 0 (w_nr w)))) with 0 by lia. reflexivity. }
    assert (K' : (0 < inject_Z (c_deltan c * Z.of_nat (w_nr w)))%Q) by (change 0%Q with (inject_Z 0); rewrite <- Zlt_Qlt; exact K).
    unfold qdiv. destruct (qeq _ 0) eqn:Z0; [apply qeq_iff in Z0; lra|]. eexists. split; [reflexivity|]. split; [split|].
    - apply Qle_shift_div_l; [exact K'|]. rewrite Qmult_0_l. change 0%Q with (inject_Z 0). rewrite <- Zle_Qle. nia.
    - apply Qle_shift_div_r; [exact K'|]. rewrite Qmult_1_l, <- Zle_Qle. nia.
    - rewrite !inject_Z_mult in *. unfold Qof_nat. field. split; intro X; rewrite X in K'; [rewrite Qmult_0_r in K'|rewrite Qmult_0_l in K']; discriminate K'. }
  destruct A as (a & A1 & A2 & A3). unfold print_stats. rewrite E. cbn [bind ts_total ts_done ts_taxis]. rewrite A1. cbn [bind].
  split.
  - intros (v & Hv & Hm). unfold qdiv. destruct (qeq _ 0) eqn:Z0.
    2:{ cbn. eexists; eexists; split; [reflexivity|]. split; [exact A2|]. split; [exact A3|]. rewrite !inject_Z_mult in *. unfold Qof_nat. field.
        split; intro X; rewrite <- Bool.not_true_iff_false, qeq_iff in Z0; apply Z0; rewrite X; ring. }
    exfalso.
    apply qeq_iff in Z0. change 0%Q with (inject_Z 0) in Z0. rewrite inject_Z_injective in Z0.
    assert (In v (filter (is_taxi w) (seq 0 (w_nv w)))) by (apply filter_In; split; [apply in_seq; lia|unfold is_taxi; rewrite Hm; reflexivity]).
    destruct (filter (is_taxi w) (seq 0 (w_nv w))); [contradiction|]. cbn [List.length] in Z0. lia.
  - intro Hm. assert (F : filter (is_taxi w) (seq 0 (w_nv w)) = []).
    { destruct (filter (is_taxi w) (seq 0 (w_nv w))) as [|v l] eqn:F; [reflexivity|]. exfalso. assert (In v (filter (is_taxi w) (seq 0 (w_nv w)))) by (rewrite F; left; reflexivity).
      apply filter_In in H. destruct H as [H1 H2]. apply in_seq in H1. apply (Hm v); [lia|]. unfold is_taxi in H2. destruct (v_mode (V w v)); [discriminate|reflexivity]. }
    rewrite F. cbn [List.length]. rewrite Z.mul_0_r. reflexivity.
Qed.
Theorem row_lemma : forall c w r, (0 <= dt c)%Q -> reach c w -> r < w_nr w ->
  (delivered w r = true <-> fst (fst (trip_row w r)) <> None) /\ (got_on w r = true <-> snd (fst (trip_row w r)) <> None) /\
  (delivered w r = true -> fst (fst (trip_row w r)) = Some (trip_of w r)) /\ (got_on w r = true -> snd (fst (trip_row w r)) = Some (wait_of w r)) /\
  (snd (trip_row w r) = None <-> pending w r).
Proof.
  intros c w r Hdt Rc Hr. unfold trip_row, delivered, got_on, trip_of, wait_of. cbn [fst snd].
  split; [destruct (r_arrived _); split; congruence|]. split; [destruct (r_geton _); split; congruence|].
  split; [destruct (r_arrived _); [reflexivity|discriminate]|]. split; [destruct (r_geton _); [reflexivity|discriminate]|].
  symmetry. apply (pending_lemma c w Hdt Rc). exact Hr.
Qed.

(** ** Names *)
Lemma iter_pending : forall c k w w', iterM (tick c) k w = Ok w' -> w_pending w' = w_pending w /\ w_nr w' = w_nr w.
Proof.
  intros c k; induction k; intros w w' H; cbn in H; [injection H as <-; auto|]. apply bind_ok in H. destruct H as (a & E & H).
  apply IHk in H. apply tick_fr in E. destruct E as (w1 & E & ->). destruct H as [-> ->].
  split; [exact (fr_w_pending (body_fr _ _ E))|exact (fr_w_nr (body_fr _ _ E))].
Qed.
Lemma finalize_pending : forall c tm w w', finalize c tm w = Ok w' -> w_pending w' = w_pending w /\ w_nr w' = w_nr w.
Proof. intros c tm w w' H. apply finalize_ok in H. pose proof (fz_cnt _ _ _ H) as Z. injection Z as Z1 Z2 Z3 Z4 Z5 Z6 Z7 Z8 Z9. auto. Qed.
Lemma exec_pending : forall c a w w', apply_op c (OExec a) w = Ok w' -> w_pending w' = w_pending w /\ w_nr w' = w_nr w.
Proof.
  intros c a w w' E. cbn in E. apply bind_ok in E. destruct E as ([r w1] & E & E1). injection E1 as <-.
  unfold exec_simulation in E. apply bind_ok in E. destruct E as (w2 & E2 & E).
  assert (F : w_pending w2 = w_pending w /\ w_nr w2 = w_nr w).
  { destruct (w_final w); [injection E2 as <-; auto|]. eapply finalize_pending; eauto. }
  assert (G : forall z, exec_until c z w2 = Ok (r, w1) -> w_pending w1 = w_pending w2 /\ w_nr w1 = w_nr w2).
  { intros z H. unfold exec_until in H. cbn zeta in H. destruct (_ && _); [injection H as _ <-; auto|]. destruct (Z.ltb _ _); [discriminate|].
    apply bind_ok in H. destruct H as (w3 & E3 & H). injection H as _ <-. apply iter_pending in E3. exact E3. }
  destruct F as [<- <-]. eapply G; eauto.
Qed.
Definition is_assign (o : op) : bool := match o with OAssignTaxi _ _ => true | _ => false end.
Lemma op_pending : forall c o w w', op_ok o w -> is_assign o = false -> apply_op c o w = Ok w' ->
  match o with OAddRequest _ _ _ => w_pending w' = w_pending w ++ [w_nr w] /\ w_nr w' = S (w_nr w) | _ => w_pending w' = w_pending w /\ w_nr w' = w_nr w end.
Proof.
  intros c o w w' Ho Ha H. destruct (match o with OExec _ => true | _ => false end) eqn:Ex.
  { destruct o; try discriminate Ex. eapply exec_pending; eauto. }
  assert (Hx : forall a, o <> OExec a) by (intros a ->; discriminate Ex).
  destruct (op_taxi c o w w' Ho Hx H) as [o Q E|v d i E|oo d t E|v r Hv E]; try discriminate Ha.
  - destruct o; try (split; [apply (q_pd _ _ Q)|apply (q_nr _ _ Q)]). cbn in H. unfold add_trip_request in H. destruct (negb _); [discriminate|]. injection H as <-. auto.
  - apply add_dest_ok in E. destruct E as (_ & _ & _ & B & A & _). unfold wtx in A. injection A as A1 A2 A3 _ _ _. auto.
  - unfold add_trip_request in E. destruct (negb _); [discriminate|]. injection E as <-. auto.
Qed.
(** [valid c os w]: the operations are well formed when they are carried out *)
Fixpoint valid (c : cfg) (os : list op) (w : world) : Prop :=
  match os with [] => True | o :: tl => op_ok o w /\ match apply_op c o w with Ok w' => valid c tl w' | Err _ => True end end.
Lemma names_inv : forall c os w w' n ns, valid c os w -> forallb (fun o => negb (is_assign o)) os = true ->
  w_pending w = seq 0 n -> w_nr w = n -> ns = seq 0 n -> forall ns', names c os w ns = Some (w', ns') -> w_pending w' = ns' /\ ns' = seq 0 (w_nr w').
Proof.
  intros c os. induction os as [|o os IH]; intros w w' n ns Hv Ha Hp Hn Hs ns' H.
  - injection H as <- <-. subst. auto.
  - cbn [names] in H. destruct Hv as [Ho Hv]. cbn [forallb] in Ha. apply andb_true_iff in Ha. destruct Ha as [Ha1 Ha2]. apply negb_true_iff in Ha1.
    destruct (apply_op c o w) as [w1|] eqn:E; [|discriminate]. pose proof (op_pending c o w w1 Ho Ha1 E) as P.
    destruct (match o with OAddRequest _ _ _ => true | _ => false end) eqn:Er.
    + destruct o; try discriminate Er. destruct P as [P1 P2]. eapply (IH w1 w' (S n) _ Hv Ha2); [| | |exact H].
      * rewrite P1, Hp, Hn, seq_S. reflexivity.
      * lia.
      * rewrite Hs, Hp, seq_length, seq_S. reflexivity.
    + assert (P' : w_pending w1 = w_pending w /\ w_nr w1 = w_nr w) by (destruct o; try exact P; discriminate Er). destruct P' as [P1 P2].
      eapply (IH w1 w' n ns Hv Ha2); [congruence|congruence|exact Hs|]. destruct o; try exact H; discriminate Er.
Qed.
Lemma get_trip_seq : forall n i r k, i <= k < i + n -> get_trip (seq i n) k r = Ok (r + (k - i)).
Proof.
  induction n as [|n IH]; intros i r k H; [lia|]. cbn. destruct (Nat.eqb_spec k i) as [-> |Hne]; [f_equal; lia|].
  rewrite IH by lia. f_equal. lia.
Qed.
(** as long as no request has been assigned, every request is found under its name *)
Theorem names_lemma : forall c os tm w ns, valid c os (empty_world tm) -> forallb (fun o => negb (is_assign o)) os = true ->
  names c os (empty_world tm) [] = Some (w, ns) ->
  NoDup ns /\ List.length ns = w_nr w /\ forall r, r < w_nr w -> exists k, nth_error ns r = Some k /\ get_trip ns k 0 = Ok r.
Proof.
  intros c os tm w ns Hv Ha H. destruct (names_inv c os (empty_world tm) w 0 [] Hv Ha eq_refl eq_refl eq_refl ns H) as [_ ->].
  split; [apply seq_NoDup|]. split; [apply seq_length|]. intros r Hr. exists r. split.
  - rewrite (nth_error_nth' _ 0) by (rewrite seq_length; exact Hr). rewrite seq_nth by exact Hr. reflexivity.
  - rewrite get_trip_seq by lia. f_equal. lia.
Qed.
