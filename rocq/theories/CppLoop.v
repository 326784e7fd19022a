(** * CppLoop: how the compiled engine is driven: [exec_simulation] of uxsim_cpp_wrapper.py 1165-1202, the bounds of [World::main_loop]
    (traffi.cpp 1642-1662, 1683) and the departure buckets (1664-1676, 1800-1809).  Simplifications: times are exact rationals, and the
    timestep itself is a parameter [tk] (for the rules of a timestep see Cpp.v). *)
From Coq Require Import Bool ZifyBool.
From Verif Require Import Base Types Sim Build Heap Lists Inv FrameBase Tac Frame Eff Eff2 Trace InvStep Reach Steps Counts Cpp CppOK2.
Local Open Scope nat_scope.

(** ** The timesteps of a call *)

(** [main_loop], 1643-1661: the timestep at which the loop stops; [time] is the member of this name *)
Definition main_end (c : cfg) (total : nat) (time duration until : Q) : result Z :=
  e <- (if qlt duration 0 && qlt until 0 then Ok (Z.of_nat total)
        else if qle 0 duration && qlt until 0 then Ok (Qfloor ((duration + time) / dt c) + 1)%Z
        else if qlt duration 0 && qle 0 until then Ok (Qfloor (until / dt c) + 1)%Z
        else Err Exception_) ;;
  Ok (if Z.ltb (Z.of_nat total) e then Z.of_nat total else e).
(** the loop runs the timesteps [start .. e - 1] *)
Definition main_steps (start : nat) (e : Z) : nat := Z.to_nat (e - Z.of_nat start).

(** [exec_simulation] of the wrapper, 1170-1202, for a finalized World; [time] is the member [time] of the C++ World *)
Definition cpp_exec (tk : world -> result world) (c : cfg) (time : Q) (a : exec_arg) (w : world) : result (Z * world) :=
  let start := Z.of_nat (w_T w) in
  let tsize := Z.of_nat (w_tsize w) in
  let end0 := end_of_arg c w a in
  let end_ts := if Z.ltb tsize end0 then tsize else end0 in
  if Z.eqb start end_ts && Z.eqb end_ts tsize then Ok (1%Z, w)
  else if Z.ltb end_ts start then Err Exception_
  else
    e <- main_end c (w_tsize w) time (-1) (inject_Z end_ts * dt c) ;;
    w1 <- iterM tk (main_steps (w_T w) e) w ;;
    let w2 := sw_TIME (now c w1) w1 in
    Ok (if Z.leb tsize (Z.of_nat (w_T w2)) then 1%Z else 0%Z, w2).
(** [exec_simulation] of uxsim.py with the timestep as a parameter *)
Definition exec_with (tk : world -> result world) (c : cfg) (a : exec_arg) (w : world) : result (Z * world) :=
  let start := Z.of_nat (w_T w) in
  let tsize := Z.of_nat (w_tsize w) in
  let end0 := end_of_arg c w a in
  let end_ts := if Z.ltb tsize end0 then tsize else end0 in
  if Z.eqb start end_ts && Z.eqb end_ts tsize then Ok (1%Z, w)
  else if Z.ltb end_ts start then Err Exception_
  else
    let last := if Z.leb (tsize - 1) end_ts && Z.leb start (tsize - 1) then (tsize - 1)%Z else end_ts in
    w1 <- iterM tk (Z.to_nat (last - start + 1)) w ;;
    let w2 := sw_TIME (now c w1) w1 in
    Ok (if Z.eqb (Z.of_nat (w_T w2)) tsize then 1%Z else 0%Z, w2).
Lemma exec_with_python : forall c a w, exec_with (tick c) c a w = exec_until c (end_of_arg c w a) w.
Proof. reflexivity. Qed.

Definition advances (tk : world -> result world) : Prop := forall w w', tk w = Ok w' -> w_T w' = S (w_T w) /\ w_tsize w' = w_tsize w.
Lemma iter_T : forall tk n w w', advances tk -> iterM tk n w = Ok w' -> w_T w' = w_T w + n.
Proof.
  intros tk n. induction n as [|n IH]; intros w w' A H; cbn [iterM] in H; [injection H as <-; lia|].
  apply bind_ok in H. destruct H as (w1 & H1 & H2). apply A in H1. apply IH in H2; [|exact A]. lia.
Qed.
Lemma floor_step : forall c n, (0 < dt c)%Q -> Qfloor (inject_Z n * dt c / dt c) = n.
Proof. intros c n D. rewrite <- (Qfloor_Z n) at 2. apply Qfloor_comp. field. lra. Qed.
Lemma main_end_until : forall c total time e, (0 < dt c)%Q -> (0 <= e)%Z -> main_end c total time (-1) (inject_Z e * dt c) = Ok (Z.min (e + 1) (Z.of_nat total)).
Proof.
  intros c total time e D E. assert (P : (0 <= inject_Z e * dt c)%Q) by (apply Qmult_le_0_compat; [change 0%Q with (inject_Z 0); rewrite <- Zle_Qle; exact E|lra]).
  unfold main_end. rewrite (floor_step c e D). change (qlt (-1) 0) with true. change (qle 0 (-1)) with false. cbn [andb].
  destruct (qlt (inject_Z e * dt c) 0) eqn:Q; [exfalso; apply qlt_iff in Q; lra|]. rewrite (proj2 (qle_iff 0 _) P). cbn [bind]. f_equal. destruct (Z.ltb_spec (Z.of_nat total) (e + 1)); lia.
Qed.

(** A call runs the same timesteps and returns the same number in both engines. *)
Theorem exec_agrees : forall tk c time a w, (0 < dt c)%Q -> advances tk -> w_T w <= w_tsize w -> cpp_exec tk c time a w = exec_with tk c a w.
Proof.
  intros tk c time a w D Ad Hb. unfold cpp_exec, exec_with. set (e0 := end_of_arg c w a). clearbody e0. cbv zeta.
  set (e := if Z.ltb (Z.of_nat (w_tsize w)) e0 then Z.of_nat (w_tsize w) else e0). assert (He : (e <= Z.of_nat (w_tsize w))%Z) by (unfold e; destruct (Z.ltb_spec (Z.of_nat (w_tsize w)) e0); lia). clearbody e.
  destruct (Z.eqb (Z.of_nat (w_T w)) e && Z.eqb e (Z.of_nat (w_tsize w))) eqn:Q1; [reflexivity|]. destruct (Z.ltb_spec e (Z.of_nat (w_T w))) as [Q2|Q2]; [reflexivity|].
  rewrite main_end_until by (try exact D; lia). cbn [bind].
  assert (Ln : main_steps (w_T w) (Z.min (e + 1) (Z.of_nat (w_tsize w))) = Z.to_nat ((if Z.leb (Z.of_nat (w_tsize w) - 1) e && Z.leb (Z.of_nat (w_T w)) (Z.of_nat (w_tsize w) - 1) then (Z.of_nat (w_tsize w) - 1)%Z else e) - Z.of_nat (w_T w) + 1)).
  { unfold main_steps. destruct (Z.leb (Z.of_nat (w_tsize w) - 1) e && Z.leb (Z.of_nat (w_T w)) (Z.of_nat (w_tsize w) - 1)) eqn:Q3; lia. }
  rewrite <- Ln. destruct (iterM tk _ w) as [w1|x] eqn:E; [|reflexivity]. cbn [bind]. apply iter_T in E; [|exact Ad].
  change (w_T (sw_TIME (now c w1) w1)) with (w_T w1). f_equal. f_equal. unfold main_steps in E. clear Ln.
  destruct (Z.leb_spec (Z.of_nat (w_tsize w)) (Z.of_nat (w_T w1))), (Z.eqb_spec (Z.of_nat (w_T w1)) (Z.of_nat (w_tsize w))); try reflexivity; lia.
Qed.

(** both timesteps advance the clock by one and keep everything static *)
Lemma tick_advances : forall c, advances (tick c).
Proof. intros c w w' H. apply tick_fr in H. destruct H as (w1 & H & ->). apply body_fr in H. cbn. split; [reflexivity|exact (fr_w_tsize H)]. Qed.
Lemma cpp_link_fr : forall c l w w', cpp_link_update c l w = Ok w' -> fr w w'.
Proof. intros c l w w' H. unfold cpp_link_update in H. injection H as <-. apply frs_fr, frs_modl. cbn. unfold cpp_caps. cbv zeta. repeat match goal with |- context [if ?b then _ else _] => destruct b end; cbn; repeat match goal with |- context [match l_cin ?k with _ => _ end] => destruct (l_cin k) end; try reflexivity; repeat match goal with |- context [if ?b then _ else _] => destruct b end; reflexivity. Qed.
Lemma cpp_signal_stat : forall c nd nd', cpp_signal_update c nd = Ok nd' -> nstat nd' = nstat nd /\ n_queue nd' = n_queue nd /\ n_incoming nd' = n_incoming nd.
Proof.
  intros c nd nd' H. unfold cpp_signal_update in H. apply bind_ok in H. destruct H as (n1 & H & E). injection E as <-. destruct (1 <? _).
  - apply bind_ok in H. destruct H as (g & _ & H). cbv zeta in H. destruct (qlt g (n_sigt nd)); injection H as <-; repeat split; reflexivity.
  - injection H as <-. repeat split; reflexivity.
Qed.
Lemma cpp_fcap_stat : forall c nd, nstat (cpp_flow_capacity_update c nd) = nstat nd /\ n_queue (cpp_flow_capacity_update c nd) = n_queue nd /\ n_incoming (cpp_flow_capacity_update c nd) = n_incoming nd.
Proof. intros c nd. unfold cpp_flow_capacity_update. destruct (n_fcap nd); [|repeat split; reflexivity]. cbv zeta. match goal with |- context [if ?b then _ else _] => destruct b end; repeat split; reflexivity. Qed.
Lemma cpp_node_fr : forall c n w w', cpp_node_step c n w = Ok w' -> fr w w'.
Proof.
  intros c n w w' H. unfold cpp_node_step in H. apply bind_ok in H. destruct H as (w1 & G & H). apply bind_ok in H. destruct H as (nd & S1 & H). injection H as <-.
  apply generate_frs, frs_fr in G. apply cpp_signal_stat in S1. eapply fr_trans; [exact G|]. apply fr_modn. rewrite (proj1 (cpp_fcap_stat c nd)). apply S1.
Qed.
Lemma cpp_transfer_fr : forall c n w w', cpp_transfer c n w = Ok w' -> fr w w'.
Proof. intros c n w w' H. unfold cpp_transfer in H. apply transfer_frs, frs_fr in H. eapply fr_trans; [|exact H]. apply fr_modn. reflexivity. Qed.
Lemma cpp_follow_fr : forall c v w w', cpp_follow c v w = Ok w' -> fr w w'.
Proof. intros c v w w' H. unfold cpp_follow in H. apply bind_ok in H. destruct H as (l & _ & H). cbv zeta in H. injection H as <-. apply frs_fr, frs_modv. match goal with |- context [if qlt ?a ?b then sv_xnext _ _ else _] => destruct (qlt a b) end; reflexivity. Qed.
Lemma cpp_body_fr : forall c w w', cpp_body c w = Ok w' -> fr w w'.
Proof.
  intros c w w' H. unfold cpp_body in H.
  apply bind_ok in H. destruct H as (w1 & H1 & H). apply bind_ok in H. destruct H as (w2 & H2 & H). apply bind_ok in H. destruct H as (w3 & H3 & H).
  apply bind_ok in H. destruct H as (w4 & H4 & H). apply bind_ok in H. destruct H as (w5 & H5 & H). apply bind_ok in H. destruct H as (w6 & H6 & H). injection H as <-.
  apply foldM_rel with (Rel := fr) in H1; [|apply fr_refl|apply fr_trans|intros; eapply cpp_link_fr; eauto].
  apply foldM_rel with (Rel := fr) in H2; [|apply fr_refl|apply fr_trans|intros; eapply cpp_node_fr; eauto].
  apply foldM_rel with (Rel := fr) in H3; [|apply fr_refl|apply fr_trans|intros; eapply cpp_transfer_fr; eauto].
  unfold cpp_phase_follow in H4. apply foldM_rel with (Rel := fr) in H4; [|apply fr_refl|apply fr_trans|intros; eapply cpp_follow_fr; eauto].
  assert (H5' : fr w4 w5).
  { unfold cpp_phase_vehicles in H5. apply bind_ok in H5. destruct H5 as (x1 & A1 & H5). apply bind_ok in H5. destruct H5 as (x2 & A2 & H5).
    assert (G : forall vs x x', foldM (veh_update c) vs x = Ok x' -> fr x x').
    { intros vs x x' X. apply foldM_rel with (Rel := fr) in X; [exact X|apply fr_refl|apply fr_trans|]. intros. apply frs_fr. eapply veh_update_frs; eauto. }
    apply foldM_rel with (Rel := fr) in A1; [|apply fr_refl|apply fr_trans|intros; eapply G; eauto]. apply foldM_rel with (Rel := fr) in A2; [|apply fr_refl|apply fr_trans|intros; eapply G; eauto].
    apply G in H5. eapply fr_trans; [exact A1|]. eapply fr_trans; [exact A2|exact H5]. }
  apply route_phase_frs, frs_fr in H6. eapply fr_trans; [exact H1|]. eapply fr_trans; [exact H2|]. eapply fr_trans; [exact H3|]. eapply fr_trans; [exact H4|]. eapply fr_trans; [exact H5'|].
  eapply fr_trans; [exact H6|]. apply frs_fr, frs_sw_TIME.
Qed.
Lemma cpp_tick_advances : forall c, advances (cpp_tick c).
Proof. intros c w w' H. unfold cpp_tick in H. apply bind_ok in H. destruct H as (w1 & H & E). injection E as <-. apply cpp_body_fr in H. cbn. rewrite (fr_w_T H). split; [reflexivity|exact (fr_w_tsize H)]. Qed.
Theorem exec_agrees_both : forall c time a w, (0 < dt c)%Q -> w_T w <= w_tsize w ->
  cpp_exec (tick c) c time a w = exec_until c (end_of_arg c w a) w /\ cpp_exec (cpp_tick c) c time a w = exec_with (cpp_tick c) c a w.
Proof. intros c time a w D H. split; [rewrite <- exec_with_python|]; apply exec_agrees; auto; [apply tick_advances|apply cpp_tick_advances]. Qed.

(** the durations of [main_loop] itself *)
Theorem main_duration : forall c total n d, (0 < dt c)%Q -> (0 <= d)%Q -> n + Z.to_nat (Qfloor (d / dt c)) < total ->
  (main_end c total 0 d (-1) = Ok (Qfloor (d / dt c) + 1)%Z) /\
  (main_end c total (Qof_nat n * dt c) d (-1) = Ok (Z.of_nat (S n) + Qfloor (d / dt c))%Z).
Proof.
  intros c total n d D P Hn. assert (N0 : (0 <= Qfloor (d / dt c))%Z). { change 0%Z with (Qfloor 0). apply Qfloor_resp_le. apply Qle_shift_div_l; lra. }
  assert (F : forall k, Qfloor ((d + Qof_nat k * dt c) / dt c) = (Z.of_nat k + Qfloor (d / dt c))%Z).
  { intro k. assert (E : ((d + Qof_nat k * dt c) / dt c == inject_Z (Z.of_nat k) + d / dt c)%Q) by (unfold Qof_nat; field; lra). rewrite (Qfloor_comp _ _ E).
    pose proof (Qfloor_le (d / dt c)) as L1. pose proof (Qlt_floor (d / dt c)) as L2. set (f := Qfloor (d / dt c)) in *. rewrite inject_Z_plus in L2.
    set (g := Qfloor (inject_Z (Z.of_nat k) + d / dt c)). pose proof (Qfloor_le (inject_Z (Z.of_nat k) + d / dt c)) as G1. pose proof (Qlt_floor (inject_Z (Z.of_nat k) + d / dt c)) as G2. fold g in G1, G2.
    rewrite inject_Z_plus in G2. assert (A1 : (inject_Z g < inject_Z (Z.of_nat k + f + 1))%Q) by (rewrite !inject_Z_plus; lra). assert (A2 : (inject_Z (Z.of_nat k + f) < inject_Z (g + 1))%Q) by (rewrite !inject_Z_plus; lra).
    rewrite <- Zlt_Qlt in A1, A2. lia. }
  unfold main_end. assert (Q1 : qlt d 0 = false) by (destruct (qlt d 0) eqn:Q; [apply qlt_iff in Q; lra|reflexivity]). rewrite Q1, (proj2 (qle_iff 0 d) P). change (qlt (-1) 0) with true. cbn [andb bind]. split.
  - assert (E : ((d + 0) / dt c == (d + Qof_nat 0 * dt c) / dt c)%Q) by (unfold Qof_nat; field; lra). rewrite (Qfloor_comp _ _ E), F. f_equal. destruct (Z.ltb_spec (Z.of_nat total) (Z.of_nat 0 + Qfloor (d / dt c) + 1)); lia.
  - rewrite F. f_equal. destruct (Z.ltb_spec (Z.of_nat total) (Z.of_nat n + Qfloor (d / dt c) + 1)); lia.
Qed.

(** ** Departures *)

(** [homes] are the vehicles at home when [main_loop] starts, in the order of their ids, with their departure times *)
Definition departs (c : cfg) (start total : nat) (d : Q) (ts : nat) : bool :=
  match cpp_departure c d with
  | Some t0 => let t1 := if Z.ltb t0 (Z.of_nat start) then Z.of_nat start else t0 in Z.eqb t1 (Z.of_nat ts) && Z.ltb t1 (Z.of_nat total)
  | None => false
  end.
Definition bucket (c : cfg) (start total : nat) (homes : list (vid * Q)) (ts : nat) : list vid :=
  map fst (filter (fun h => departs c start total (snd h) ts) homes).
(** the rule of the vehicle itself, 838: in every timestep all vehicles at home whose departure time has come *)
Definition due (c : cfg) (ts : nat) (h : vid * Q) : bool := qle (snd h) (Qof_nat ts * dt c).
Fixpoint scan (c : cfg) (ts n : nat) (homes : list (vid * Q)) : list (list vid) :=
  match n with
  | 0 => []
  | S n => map fst (filter (due c ts) homes) :: scan c (S ts) n (filter (fun h => negb (due c ts h)) homes)
  end.
(** who is still at home after [n] timesteps *)
Fixpoint still (c : cfg) (ts n : nat) (homes : list (vid * Q)) : list (vid * Q) :=
  match n with 0 => homes | S n => still c (S ts) n (filter (fun h => negb (due c ts h)) homes) end.

Lemma due_step : forall c d, (0 < dt c)%Q -> (0 <= d)%Q -> exists t0, cpp_departure c d = Some t0 /\ forall ts v, due c ts (v, d) = Z.leb t0 (Z.of_nat ts).
Proof.
  intros c d D P. destruct (cpp_departure_first c d D P) as (t0 & E & F & G & _). exists t0. split; [exact E|]. intros ts v. unfold due. cbn [snd].
  destruct (Z.leb_spec t0 (Z.of_nat ts)) as [K|K].
  - apply qle_iff. apply (Qle_trans _ (inject_Z t0 * dt c)); [exact F|]. unfold Qof_nat. apply Qmult_le_compat_r; [rewrite <- Zle_Qle; exact K|lra].
  - destruct (qle d (Qof_nat ts * dt c)) eqn:Q; [|reflexivity]. apply qle_iff in Q. apply G in Q. lia.
Qed.
Lemma filter_ext_in2 : forall A (f g : A -> bool) l, (forall x, In x l -> f x = g x) -> filter f l = filter g l.
Proof. intros A f g l H. apply filter_ext_in. exact H. Qed.
Lemma filter_twice : forall A (f g : A -> bool) l, (forall x, In x l -> f x = true -> g x = true) -> filter f l = filter f (filter g l).
Proof.
  intros A f g l. induction l as [|x l IH]; intro H; [reflexivity|]. cbn [filter]. destruct (g x) eqn:G; cbn [filter].
  - rewrite IH by (intros y Hy; apply H; right; exact Hy). reflexivity.
  - destruct (f x) eqn:F; [rewrite (H x (or_introl eq_refl) F) in G; discriminate|]. apply IH. intros y Hy. apply H. right. exact Hy.
Qed.
Lemma buckets_from : forall c start total n ts homes, (0 < dt c)%Q -> Forall (fun h => (0 <= snd h)%Q) homes -> start <= ts -> ts + n <= total ->
  Forall (fun h => ts = start \/ forall u, u < ts -> due c u h = false) homes -> map (bucket c start total homes) (seq ts n) = scan c ts n homes.
Proof.
  intros c start total n. induction n as [|n IH]; intros ts homes D P H1 H2 Hh; [reflexivity|]. cbn [seq map scan]. rewrite Forall_forall in P, Hh. f_equal.
  - unfold bucket. f_equal. apply filter_ext_in. intros [v d] Hv. destruct (due_step c d D (P _ Hv)) as (t0 & E & Du). unfold departs. cbn [snd]. rewrite E, Du.
    assert (K : ts = start \/ (Z.of_nat ts <= t0)%Z). { destruct (Hh _ Hv) as [K|K]; [left; exact K|]. destruct ts as [|t]; [left; lia|right]. specialize (K t (Nat.lt_succ_diag_r t)). rewrite Du in K. lia. }
    destruct (Z.ltb_spec t0 (Z.of_nat start)); lia.
  - rewrite <- (IH (S ts) (filter (fun h => negb (due c ts h)) homes)); [|exact D| | |lia|].
    + apply map_ext_in. intros u Hu. apply in_seq in Hu. unfold bucket. f_equal. apply filter_twice. intros [v d] Hv X. destruct (due_step c d D (P _ Hv)) as (t0 & E & Du). rewrite Du. unfold departs in X. cbn [snd] in X. rewrite E in X.
      destruct (Z.ltb_spec t0 (Z.of_nat start)); lia.
    + apply Forall_forall. intros h Hh'. apply filter_In in Hh'. apply P. tauto.
    + lia.
    + apply Forall_forall. intros [v d] Hh'. apply filter_In in Hh'. destruct Hh' as [Hv X]. right. intros u Hu. destruct (due_step c d D (P _ Hv)) as (t0 & E & Du). rewrite Du in *. lia.
Qed.
(** The buckets let the vehicles depart by the rule of the vehicle, in the order of their ids. *)
Theorem buckets_scan : forall c start total n homes, (0 < dt c)%Q -> Forall (fun h => (0 <= snd h)%Q) homes -> start + n <= total ->
  map (bucket c start total homes) (seq start n) = scan c start n homes.
Proof. intros. apply buckets_from; auto. apply Forall_forall. intros h _. left. reflexivity. Qed.
Lemma scan_app : forall c n m ts homes, scan c ts (n + m) homes = scan c ts n homes ++ scan c (ts + n) m (still c ts n homes).
Proof.
  intros c n m. induction n as [|n IH]; intros ts homes; cbn [Nat.add scan still app]; [rewrite Nat.add_0_r; reflexivity|]. rewrite IH. replace (S ts + n) with (ts + S n) by lia. reflexivity.
Qed.
Lemma still_In : forall c n ts homes h, In h (still c ts n homes) -> In h homes.
Proof. intros c n. induction n as [|n IH]; intros ts homes h H; [exact H|]. cbn [still] in H. apply IH in H. apply filter_In in H. tauto. Qed.
(** Splitting a call into two does not change the departures: the buckets are built anew from the vehicles still at home. *)
Theorem buckets_split : forall c start total n m homes, (0 < dt c)%Q -> Forall (fun h => (0 <= snd h)%Q) homes -> start + (n + m) <= total ->
  map (bucket c start total homes) (seq start (n + m)) =
  map (bucket c start total homes) (seq start n) ++ map (bucket c (start + n) total (still c start n homes)) (seq (start + n) m).
Proof.
  intros c start total n m homes D P H. rewrite !buckets_scan; auto; try lia; [apply scan_app|]. rewrite Forall_forall in *. intros h Hh. apply P. eapply still_In; eauto.
Qed.
(** when a vehicle departs: in the first timestep of the call, if its time has come, otherwise in the first timestep not before its time *)
Theorem bucket_when : forall c start total homes ts v d, (0 < dt c)%Q -> (0 <= d)%Q -> In (v, d) homes -> start <= ts -> ts < total ->
  (d <= Qof_nat ts * dt c)%Q -> (forall u, start <= u -> u < ts -> (Qof_nat u * dt c < d)%Q) -> In v (bucket c start total homes ts).
Proof.
  intros c start total homes ts v d D P Hv H1 H2 L1 L2. unfold bucket. apply in_map_iff. exists (v, d). split; [reflexivity|]. apply filter_In. split; [exact Hv|]. cbn [snd].
  destruct (due_step c d D P) as (t0 & E & Du). unfold departs. rewrite E. assert (X : due c ts (v, d) = true) by (apply qle_iff; exact L1). rewrite Du in X.
  assert (Y : ts = start \/ (Z.of_nat ts <= t0)%Z). { destruct (Nat.eq_dec ts start) as [|N]; [left; assumption|right]. destruct ts as [|t]; [lia|]. assert (Z : due c t (v, d) = false). { unfold due. cbn [snd]. destruct (qle d (Qof_nat t * dt c)) eqn:Q; [|reflexivity]. apply qle_iff in Q. specialize (L2 t ltac:(lia) ltac:(lia)). lra. } rewrite Du in Z. lia. }
  destruct (Z.ltb_spec t0 (Z.of_nat start)); lia.
Qed.
(** nobody departs twice in a call, and nobody before the time *)
Theorem bucket_once : forall c start total d t1 t2, (0 < dt c)%Q -> (0 <= d)%Q ->
  departs c start total d t1 = true -> t1 < total /\ start <= t1 /\ (d <= Qof_nat t1 * dt c)%Q /\ (departs c start total d t2 = true -> t2 = t1).
Proof.
  intros c start total d t1 t2 D P H1. destruct (due_step c d D P) as (t0 & E & Du). unfold departs in *. rewrite E in *.
  assert (X : due c t1 (0, d) = true) by (rewrite Du; destruct (Z.ltb_spec t0 (Z.of_nat start)); lia). apply qle_iff in X. cbn [snd] in X.
  split; [destruct (Z.ltb_spec t0 (Z.of_nat start)); lia|]. split; [destruct (Z.ltb_spec t0 (Z.of_nat start)); lia|]. split; [exact X|]. intro H2. destruct (Z.ltb_spec t0 (Z.of_nat start)); lia.
Qed.
