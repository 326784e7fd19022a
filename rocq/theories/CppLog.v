(** * CppLog: the logs of vehicles in the compiled engine: what is stored (traffi.cpp 1060-1109), how the times, the states and the links
    entered are read off it (1117-1133, 1965-2080), and what uxsim_cpp_wrapper.py 1309-1367 adds; compared with the logs of the Python
    engine. *)
From Coq Require Import Bool.
From Verif Require Import Base Types Sim Build Heap Lists Inv FrameBase Tac Frame Eff Eff2 Trace InvStep Reach Steps Effects Phases Attr Life Incoming Vev Ride TripLog Route Signal Green Choice Enforce Counts LinkQueries FD NodeCap Origin Bucket Outflow Trials Motion Spacing Spec Distance Totals SpecLogs Logs LogRoute.
Local Open Scope nat_scope.

(** ** The model *)

(** What [Vehicle::log_data] keeps: the columns, the first and the last timestep and two counters; times and states are not stored. *)
Definition cols : Type := (option lid * option Q * option Q * option nat * option Q)%type.
Definition cols_of (r : logrow) : cols := (g_link r, g_x r, g_v r, g_lane r, g_s r).
Record crec := mkCrec { k_cols : list cols; k_first : nat; k_last : nat; k_wait : nat; k_end : nat }.
Definition crec0 : crec := mkCrec [] 0 0 0 0.
(** [log_data] in timestep [ts], 1075-1108; the row is what the Python engine would log *)
Definition note (k : crec) (e : nat * logrow) : crec :=
  mkCrec (k_cols k ++ [cols_of (snd e)])
    (match k_cols k with [] => fst e | _ => k_first k end) (fst e)
    (match g_state (snd e) with Wait => S (k_wait k) | _ => k_wait k end)
    (match g_state (snd e) with End_ | Abort => S (k_end k) | _ => k_end k end).
Definition noted (es : list (nat * logrow)) : crec := fold_left note es crec0.
(** [log_t_at], 1117-1122, and [log_state_at], 1128-1133; [st] is the state of the vehicle *)
Definition k_size (k : crec) : nat := List.length (k_cols k).
Definition cpp_ts (k : crec) (i : nat) : nat := if i <? k_size k - k_end k then k_first k + i else k_last k.
Definition cpp_state (k : crec) (st : vstate) (i : nat) : vstate :=
  if (0 <? k_end k) && (k_size k - k_end k <=? i) then st
  else if i =? 0 then Home
  else if i <? 1 + k_wait k then Wait else Run.
(** one row of [build_all_vehicle_logs_flat_compact], 2037-2050 *)
Definition cpp_row (c : cfg) (k : crec) (st : vstate) (i : nat) : logrow :=
  let s := cpp_state k st i in
  match nth i (k_cols k) (None, None, None, None, None) with
  | (l, x, v, ln, sp) => mkLog (at_step c (cpp_ts k i)) s l (match s with Run => x | _ => None end) (match s with Run => v | _ => None end) ln sp
  end.
Definition cpp_rows (c : cfg) (k : crec) (st : vstate) : list logrow := map (cpp_row c k st) (seq 0 (k_size k)).
(** [n_missing], 2002-2005, and the rows that the wrapper puts before, 1341-1356 *)
Definition n_missing (c : cfg) (k : crec) : nat :=
  if (0 <? k_size k) && qlt 0 (at_step c (cpp_ts k 0)) then Z.to_nat (qtrunc (at_step c (cpp_ts k 0) / dt c)) else 0.
Definition cpp_log (c : cfg) (k : crec) (st : vstate) : list logrow :=
  map (fun j => empty_row (at_step c j) Home) (seq 0 (n_missing c k)) ++ cpp_rows c k st.

(** the links entered, 2060-2072 (the same loop as 1970-1981): a row on another link than the last one with a link *)
Fixpoint link_rows (prev : option lid) (rows : list logrow) : list (Q * place) :=
  match rows with
  | [] => []
  | r :: tl =>
      match g_link r with
      | Some l => if opt_eqb (Some l) prev then link_rows prev tl else (g_t r, PLink l) :: link_rows (Some l) tl
      | None => link_rows prev tl
      end
  end.
(** [log_t_link], 2053-2078, of a vehicle whose rows are [rows]; [arr] is its arrival time *)
Definition cpp_log_t_link (dep arr : Q) (st : vstate) (rows : list logrow) : list (Q * place) :=
  (dep, PHome) :: link_rows None rows ++ match st with End_ => [(if qle 0 arr then arr else (-1)%Q, PEnd)] | _ => [] end.

(** In the compiled engine a vehicle is not visited before it departs: of the rows at home only the one of the departure is logged. *)
Fixpoint departed_rows (rows : list logrow) : list logrow :=
  match rows with
  | r :: ((r' :: _) as tl) => match g_state r, g_state r' with Home, Home => departed_rows tl | _, _ => rows end
  | _ => rows
  end.

(** what the compiled engine has stored of a vehicle whose log in the Python engine is [v_log a] *)
Definition stored_rows (a : vehicle) : list logrow := match v_state a with Home => [] | _ => departed_rows (v_log a) end.

(** ** Reading what was noted *)
Definition fin (st : vstate) (m : nat) : list vstate := repeat st m.
(** the states of a log: home once, then waiting, then driving, then at most one final row *)
Record ride_shape (st : vstate) (rows : list logrow) (k m e : nat) : Prop := mkShape {
  sh_states : map g_state rows = Home :: repeat Wait k ++ repeat Run m ++ repeat st e;
  sh_end : e = 0 \/ e = 1 /\ (st = End_ \/ st = Abort);
  sh_empty : Forall (fun r => g_state r <> Run -> r = empty_row (g_t r) (g_state r)) rows }.

Lemma noted_snoc : forall es e, noted (es ++ [e]) = note (noted es) e.
Proof. intros. unfold noted. rewrite fold_left_app. reflexivity. Qed.
Lemma noted_cols : forall es, k_cols (noted es) = map (fun e => cols_of (snd e)) es.
Proof. intro es. induction es as [|e es IH] using rev_ind; [reflexivity|]. rewrite noted_snoc, map_app. cbn [k_cols note]. rewrite IH. reflexivity. Qed.
Lemma noted_first : forall e es, k_first (noted (e :: es)) = fst e.
Proof.
  intros e es. induction es as [|x es IH] using rev_ind; [reflexivity|]. change (e :: es ++ [x]) with ((e :: es) ++ [x]). rewrite noted_snoc. cbn [k_first note].
  rewrite noted_cols. cbn [map]. exact IH.
Qed.
Lemma noted_last : forall es x, k_last (noted (es ++ [x])) = fst x.
Proof. intros. rewrite noted_snoc. reflexivity. Qed.
Definition is_wait (s : vstate) : bool := match s with Wait => true | _ => false end.
Definition is_over (s : vstate) : bool := match s with End_ | Abort => true | _ => false end.
Lemma noted_wait : forall es, k_wait (noted es) = List.length (filter is_wait (map (fun e => g_state (snd e)) es)).
Proof.
  intro es. induction es as [|e es IH] using rev_ind; [reflexivity|]. rewrite noted_snoc, map_app, filter_app, app_length. cbn [k_wait note]. rewrite IH.
  destruct (g_state (snd e)) eqn:E; cbn; rewrite E; cbn; lia.
Qed.
Lemma noted_end : forall es, k_end (noted es) = List.length (filter is_over (map (fun e => g_state (snd e)) es)).
Proof.
  intro es. induction es as [|e es IH] using rev_ind; [reflexivity|]. rewrite noted_snoc, map_app, filter_app, app_length. cbn [k_end note]. rewrite IH.
  destruct (g_state (snd e)) eqn:E; cbn; rewrite E; cbn; lia.
Qed.
Lemma filter_repeat : forall (f : vstate -> bool) s n, List.length (filter f (repeat s n)) = if f s then n else 0.
Proof. intros f s n. induction n as [|n IH]; [destruct (f s); reflexivity|]. cbn. destruct (f s); cbn; rewrite IH; reflexivity. Qed.
Lemma nth_repeat_app : forall A (a : A) n l d i, nth i (repeat a n ++ l) d = if i <? n then a else nth (i - n) l d.
Proof.
  intros A a n l d. induction n as [|n IH]; intro i; cbn [repeat app]; [rewrite Nat.sub_0_r; reflexivity|].
  destruct i as [|i]; [reflexivity|]. cbn [nth]. rewrite IH. reflexivity.
Qed.

(** Reading the stored columns gives the rows that were noted. *)
Theorem read_back : forall c st es k m e b ends, ride_shape st (map snd es) k m e ->
  map fst es = seq b (1 + k + m) ++ ends -> List.length ends = e -> Forall (fun x => g_t (snd x) = at_step c (fst x)) es ->
  cpp_rows c (noted es) st = map snd es.
Proof.
  intros c st es k m e b ends [S1 S2 S3] T1 T2 T3.
  assert (Len : List.length es = 1 + k + m + e).
  { rewrite <- (map_length fst), T1, app_length, seq_length, T2. reflexivity. }
  rewrite map_map in S1.
  assert (Kw : k_wait (noted es) = k).
  { rewrite noted_wait, S1. cbn [filter is_wait]. rewrite !filter_app, !app_length, !filter_repeat. cbn [is_wait]. destruct S2 as [-> |(-> & [-> | ->])]; [destruct (is_wait st)| |]; cbn; lia. }
  assert (Ke : k_end (noted es) = e).
  { rewrite noted_end, S1. cbn [filter is_over]. rewrite !filter_app, !app_length, !filter_repeat. cbn [is_over]. destruct S2 as [-> |(-> & [-> | ->])]; [destruct (is_over st)| |]; cbn; lia. }
  assert (Ks : k_size (noted es) = 1 + k + m + e) by (unfold k_size; rewrite noted_cols, map_length; exact Len).
  assert (Kf : k_first (noted es) = b).
  { destruct es as [|x es]; [cbn in Len; lia|]. rewrite noted_first. cbn [map] in T1. cbn in T1. injection T1. intros _ ->. reflexivity. }
  apply (nth_ext _ _ (empty_row 0 Home) (empty_row 0 Home)).
  - unfold cpp_rows. rewrite !map_length, seq_length, Ks. lia.
  - intros i Hi. unfold cpp_rows in *. rewrite map_length, seq_length in Hi. rewrite (nth_indep _ _ (cpp_row c (noted es) st 0)) by (rewrite map_length, seq_length; exact Hi).
    rewrite map_nth, seq_nth by exact Hi. cbn [Nat.add]. rewrite Ks in Hi.
    destruct (nth_error es i) as [[t r]|] eqn:E; [|apply nth_error_None in E; lia].
    assert (Er : nth i (map snd es) (empty_row 0 Home) = r) by (apply nth_error_nth; rewrite nth_error_map, E; reflexivity). rewrite Er.
    assert (Est : g_state r = nth i (Home :: repeat Wait k ++ repeat Run m ++ repeat st e) Home).
    { rewrite <- S1. symmetry. apply nth_error_nth. rewrite nth_error_map, E. reflexivity. }
    assert (Et : t = nth i (seq b (1 + k + m) ++ ends) 0).
    { rewrite <- T1. symmetry. apply nth_error_nth. rewrite nth_error_map, E. reflexivity. }
    assert (Hst : cpp_state (noted es) st i = g_state r).
    { unfold cpp_state. rewrite Ks, Ke, Kw, Est. destruct i as [|i].
      - cbn [nth]. destruct (Nat.leb_spec (1 + k + m + e - e) 0); [lia|]. rewrite andb_false_r. reflexivity.
      - cbn [nth]. rewrite !nth_repeat_app. change (S i =? 0) with false. cbn [negb]. replace (S i <? 1 + k) with (i <? k) by (destruct (Nat.ltb_spec i k), (Nat.ltb_spec (S i) (1 + k)); lia).
        destruct (Nat.leb_spec (1 + k + m + e - e) (S i)).
        + destruct S2 as [-> |(-> & S2)]; [lia|]. change (0 <? 1) with true. cbn [andb]. destruct (Nat.ltb_spec i k); [lia|]. destruct (Nat.ltb_spec (i - k) m); [lia|]. replace (i - k - m) with 0 by lia. reflexivity.
        + rewrite andb_false_r. destruct (Nat.ltb_spec i k); [reflexivity|]. destruct (Nat.ltb_spec (i - k) m); [reflexivity|lia]. }
    assert (Hts : cpp_ts (noted es) i = t).
    { unfold cpp_ts. rewrite Ks, Ke, Kf, Et. destruct (Nat.ltb_spec i (1 + k + m + e - e)) as [Hl|Hl].
      - rewrite app_nth1 by (rewrite seq_length; lia). rewrite seq_nth by lia. reflexivity.
      - rewrite app_nth2 by (rewrite seq_length; lia). rewrite seq_length. destruct S2 as [-> |(-> & _)]; [lia|].
        destruct ends as [|x [|? ?]]; try discriminate T2. replace (i - (1 + k + m)) with 0 by lia. cbn [nth].
        assert (El : exists es' y, es = es' ++ [y] /\ fst y = x).
        { destruct (@exists_last _ es ltac:(intro; subst; cbn in Len; lia)) as (es' & z & Ez). exists es', z. split; [exact Ez|]. rewrite Ez in T1. rewrite map_app in T1. cbn [map] in T1. apply app_inj_tail in T1. apply T1. }
        destruct El as (es' & y & -> & <-). apply noted_last. }
    unfold cpp_row. rewrite Hst, Hts, noted_cols.
    rewrite (nth_error_nth (map (fun e0 => cols_of (snd e0)) es) i (None, None, None, None, None) (x := cols_of r)) by (rewrite nth_error_map, E; reflexivity).
    pose proof (nth_error_In _ _ E) as Hin. rewrite Forall_forall in T3, S3. pose proof (T3 _ Hin) as Gt. cbn [fst snd] in Gt.
    pose proof (S3 r (in_map snd _ _ Hin)) as Ge. unfold cols_of. destruct r as [rt rs rl rx rv rln rsp]. cbn [g_t g_state g_link g_x g_v g_lane g_s] in *.
    destruct rs; try (assert (X : Run <> Run -> False) by tauto; specialize (Ge ltac:(discriminate)); unfold empty_row in Ge; injection Ge as -> -> -> -> ->; rewrite Gt; reflexivity).
    rewrite Gt. reflexivity.
Qed.

(** ** The rows of the Python engine *)

(** the states of a whole log: at home until the departure *)
Definition log_shape (a : vehicle) : Prop :=
  Forall (fun r => g_state r <> Run -> r = empty_row (g_t r) (g_state r)) (v_log a) /\
  match v_state a with
  | Home => exists h, map g_state (v_log a) = repeat Home h
  | Wait => exists h k, map g_state (v_log a) = repeat Home (S h) ++ repeat Wait k
  | Run => exists h k m, map g_state (v_log a) = repeat Home (S h) ++ repeat Wait k ++ repeat Run m
  | st => exists h k m, map g_state (v_log a) = repeat Home (S h) ++ repeat Wait k ++ repeat Run m ++ [st]
  end.
Lemma repeat_snoc : forall A (x : A) n, repeat x n ++ [x] = repeat x (S n).
Proof. intros A x n. induction n as [|n IH]; [reflexivity|]. cbn [repeat app]. rewrite IH. reflexivity. Qed.
Lemma row_empty : forall c w v r, row_of c w v r -> g_state r <> Run -> r = empty_row (g_t r) (g_state r).
Proof. intros c w v r [H ->|l H H0 H1 H2 H3 H4|out H H0 H1 H2 H3 H4|il out x H H0 H1 H2 H3 H4 H5 H6] K; try contradiction. reflexivity. Qed.
Lemma row_state : forall c w v r, row_of c w v r -> g_state r = v_state (V w v) \/ v_state (V w v) = Wait /\ g_state r = Run.
Proof. intros c w v r [H ->|l H H0 H1 H2 H3 H4|out H H0 H1 H2 H3 H4|il out x H H0 H1 H2 H3 H4 H5 H6]; cbn; auto; left; congruence. Qed.
Lemma shape_step : forall c w w' v, log_step c w w' v -> log_shape (V w v) -> log_shape (V w' v).
Proof.
  intros c w w' v St [Se Sh]. destruct St as [r A1 A2 A3 A4 A5 A6|rows A1 A2 A3 A4|A1 A2 A3].
  - split.
    { rewrite A4. apply Forall_app. split; [exact Se|]. constructor; [|constructor]. apply (row_empty c w v r A3). }
    rewrite A4, map_app. cbn [map]. destruct (row_state c w v r A3) as [Er|[Ew Er]].
    + destruct (v_state (V w v)) eqn:S0.
      * destruct Sh as (h & ->). rewrite Er in *. rewrite repeat_snoc. destruct (A5 ltac:(discriminate)) as [-> |[_ ->]]; [eauto|]. exists h, 0. cbn [repeat]. rewrite app_nil_r. reflexivity.
      * destruct Sh as (h & k & ->). rewrite Er in *. destruct (A5 ltac:(discriminate)) as [-> |[X _]]; [|discriminate]. exists h, (S k). rewrite <- app_assoc, repeat_snoc. reflexivity.
      * destruct Sh as (h & k & m & ->). rewrite Er in *. destruct (A6 eq_refl) as [-> _]. exists h, k, (S m). rewrite <- !app_assoc, repeat_snoc. reflexivity.
      * exfalso. unfold alive in A1. intuition discriminate.
      * exfalso. unfold alive in A1. intuition discriminate.
    + rewrite Ew in Sh. destruct Sh as (h & k & ->). rewrite Er. destruct (A6 Er) as [-> _]. exists h, k, 1. rewrite <- app_assoc. reflexivity.
  - assert (Rw : Forall (fun r => g_state r = Run) rows) by (destruct A3 as [-> |(r & -> & X & _)]; [constructor|constructor; [exact X|constructor]]).
    assert (Rl : map g_state rows = repeat Run (List.length rows)).
    { clear -Rw. induction Rw as [|r rs E H IH]; [reflexivity|]. cbn. rewrite E, IH. reflexivity. }
    assert (Sd : exists h k m, map g_state (v_log (V w v)) = repeat Home (S h) ++ repeat Wait k ++ repeat Run m).
    { destruct A1 as [E|E]; rewrite E in Sh; [exact Sh|]. destruct Sh as (h & k & ->). exists h, k, 0. cbn [repeat]. rewrite app_nil_r. reflexivity. }
    split.
    { rewrite A4. apply Forall_app. split; [exact Se|]. apply Forall_app. split; [|constructor; [intros _; reflexivity|constructor]].
      eapply Forall_impl; [|exact Rw]. intros r Er X. congruence. }
    destruct Sd as (h & k & m & Sd). rewrite A4, !map_app, Sd, Rl. cbn [map empty_row g_state].
    assert (G : exists h0 k0 m0, (repeat Home (S h) ++ repeat Wait k ++ repeat Run m) ++ repeat Run (List.length rows) ++ [v_state (V w' v)] = repeat Home (S h0) ++ repeat Wait k0 ++ repeat Run m0 ++ [v_state (V w' v)]).
    { exists h, k, (m + List.length rows). rewrite repeat_app, <- !app_assoc. reflexivity. }
    destruct (v_state (V w' v)) eqn:S'; try exact G; exfalso; apply A2; unfold alive; tauto.
  - rewrite <- A2 in Sh. unfold log_shape. rewrite A3. split; [exact Se|exact Sh].
Qed.
Definition created (c : cfg) (w : world) (v : vid) (b : nat) : Prop := log_ok c b w v /\ log_shape (V w v).
Theorem reach_created : forall c w v, c_logint c = 1%Z -> reach c w -> v < w_nv w -> exists b, created c w v b.
Proof.
  intros c w v L1 R Hv.
  refine (reachP_ride c any_op (fun x u => exists b, created c x u b) _ _ _ _ w _ v Hv).
  - intros x w3 w4 x' u _ _ Hx I _ _ _ (b & J & J') BV. exists b. pose proof (tick_log c u x x' w3 w4 L1 Hx I BV) as St. split; [apply log_ok_step; auto|].
    change (V (sw_T (S (w_T x)) x') u) with (V x' u). eapply shape_step; eauto.
  - intros x u (b & J & J'). exists b. split; [apply (log_ok_same c b x); auto|exact J'].
  - intros x o x' u Rx I Ho _ Hx H Hvx (b & J & J'). exists b. destruct (op_keep c o x x' u Ho Hx H Hvx) as (Kp & _). unfold vkeep in Kp. split.
    + apply (log_ok_same c b x); auto; try congruence. exact (op_clock _ _ _ _ (reachP_reach _ _ _ Rx) Ho Hx H).
    + unfold log_shape in *. replace (v_log (V x' u)) with (v_log (V x u)) by congruence. replace (v_state (V x' u)) with (v_state (V x u)) by congruence. exact J'.
  - intros x o x' u a nl nm Rx Ho _ Hx H H1 H2 Kp. exists (w_T x').
    assert (A1 : v_log (V x' u) = v_log (new_vehicle c a nl nm)) by (unfold vkeep in Kp; congruence).
    assert (A2 : v_state (V x' u) = v_state (new_vehicle c a nl nm)) by (unfold vkeep in Kp; congruence).
    split; [apply log_start; [rewrite A1; reflexivity|rewrite A2; unfold alive; cbn; tauto]|].
    split; [rewrite A1; constructor|]. rewrite A2, A1. cbn. exists 0. reflexivity.
  - clear v Hv. induction R as [tm|x o x' R IH Ho Hx H|x x' R IH Hf H|x R IH].
    + exists tm. apply lt_refl.
    + eapply reachP_step; [exact IH|]. apply st_op with (o := o); auto. exact Logic.I.
    + eapply reachP_step; [exact IH|]. apply st_tick; auto.
    + eapply reachP_step; [exact IH|]. apply st_time.
Qed.

(** ** The logs of the two engines *)
Lemma departed_split : forall h log rest, map g_state log = repeat Home (S h) ++ rest -> (forall s tl, rest = s :: tl -> s <> Home) -> departed_rows log = skipn h log.
Proof.
  induction h as [|h IH]; intros log rest E Hr; cbn [repeat app] in E.
  - destruct log as [|r [|r' log]]; [reflexivity|reflexivity|]. cbn [map] in E. injection E as E1 E2. cbn [skipn departed_rows]. rewrite E1.
    destruct (g_state r') eqn:E3; try reflexivity. exfalso. apply (Hr (g_state r') (map g_state log)); [symmetry; rewrite E3; exact E2|exact E3].
  - destruct log as [|r [|r' log]]; cbn [map] in E; try discriminate. injection E as E1 E2 E3.
    transitivity (departed_rows (r' :: log)); [change (match g_state r, g_state r' with Home, Home => departed_rows (r' :: log) | _, _ => r :: r' :: log end = departed_rows (r' :: log)); rewrite E1, E2; reflexivity|]. cbn [skipn].
    apply (IH (r' :: log) rest); [|exact Hr]. cbn [map repeat app]. rewrite E2, E3. reflexivity.
Qed.
Lemma states_len : forall (log : list logrow) xs, map g_state log = xs -> List.length log = List.length xs.
Proof. intros log xs <-. rewrite map_length. reflexivity. Qed.
Lemma firstn_home : forall c b log h rest, map g_state log = repeat Home h ++ rest -> Forall (fun r => g_state r <> Run -> r = empty_row (g_t r) (g_state r)) log ->
  (exists n ts, h <= n /\ map g_t log = times c b n ++ ts) -> firstn h log = map (fun j => empty_row (at_step c j) Home) (seq b h).
Proof.
  intros c b log h rest E Se (n & ts & Hn & T). revert b log n ts rest E Se Hn T. induction h as [|h IH]; intros b log n ts rest E Se Hn T; [reflexivity|].
  destruct log as [|r log]; [discriminate|]. cbn [map repeat app] in E. injection E as E1 E2. destruct n as [|n]; [lia|]. unfold times in T. cbn [seq map app] in T. injection T as T1 T2.
  inversion Se as [|? ? Q1 Q2]; subst. cbn [firstn seq map]. f_equal.
  - rewrite (Q1 ltac:(rewrite E1; discriminate)), T1, E1. reflexivity.
  - apply (IH (S b) log n ts rest E2 Q2 ltac:(lia)). exact T2.
Qed.
Lemma log_times : forall c b w v, log_ok c b w v -> exists n ts, map g_t (v_log (V w v)) = map (at_step c) (seq b n ++ ts) /\
  (alive (v_state (V w v)) -> ts = []) /\ (~ alive (v_state (V w v)) -> List.length ts = 1).
Proof.
  intros c b w v [K1 K2 K3]. assert (D : alive (v_state (V w v)) \/ ~ alive (v_state (V w v))) by (unfold alive; destruct (v_state (V w v)); intuition congruence).
  destruct D as [D|D].
  - destruct (K2 D) as [Q1 _]. exists (w_T w - b), []. rewrite app_nil_r. split; [exact Q1|]. split; [auto|intro X; contradiction].
  - destruct (K3 D) as (e & rows & _ & _ & -> & Q & _). assert (exists n, map g_t rows = times c b n) as (n & Qn) by (destruct Q; eauto).
    exists n, [e]. rewrite map_app, Qn. split; [unfold times; rewrite map_app; reflexivity|]. split; [intro X; contradiction|reflexivity].
Qed.
Lemma dt_steps : forall c n, (0 < dt c)%Q -> qtrunc (at_step c n / dt c) = Z.of_nat n.
Proof.
  intros c n Hd. assert (E : (at_step c n / dt c == inject_Z (Z.of_nat n))%Q) by (unfold at_step, Qof_nat; field; lra).
  destruct (at_step c n / dt c)%Q as [a d]. unfold Qeq in E. cbn in E. unfold qtrunc. cbn [Qnum Qden]. replace a with (Z.of_nat n * Zpos d)%Z by lia. apply Z.quot_mul. discriminate.
Qed.
Lemma combine_fst : forall A B (l : list A) (m : list B), List.length l = List.length m -> map fst (combine l m) = l.
Proof. intros A B l. induction l as [|a l IH]; intros [|b m] H; try discriminate; [reflexivity|]. cbn. rewrite IH by (cbn in H; lia). reflexivity. Qed.
Lemma combine_snd : forall A B (l : list A) (m : list B), List.length l = List.length m -> map snd (combine l m) = m.
Proof. intros A B l. induction l as [|a l IH]; intros [|b m] H; try discriminate; [reflexivity|]. cbn. rewrite IH by (cbn in H; lia). reflexivity. Qed.
Lemma combine_times : forall c ts (rows : list logrow), map g_t rows = map (at_step c) ts -> Forall (fun x => g_t (snd x) = at_step c (fst x)) (combine ts rows).
Proof. intros c ts. induction ts as [|t ts IH]; intros [|r rows] H; try constructor; cbn [map] in H; injection H as H1 H2; [exact H1|apply IH; exact H2]. Qed.

Theorem cpp_log_python : forall c w v b, (0 < dt c)%Q -> created c w v b -> v_state (V w v) <> Home ->
  exists ts, map (at_step c) ts = map g_t (departed_rows (v_log (V w v))) /\
    cpp_log c (noted (combine ts (departed_rows (v_log (V w v))))) (v_state (V w v)) = map (fun j => empty_row (at_step c j) Home) (seq 0 b) ++ v_log (V w v).
Proof.
  intros c w v b Hd [Lo [Se Sh]] Hh. destruct (log_times c b w v Lo) as (n & ends & T1 & T2 & T3). set (log := v_log (V w v)) in *. set (st := v_state (V w v)) in *.
  assert (G : exists h k m e, map g_state log = repeat Home (S h) ++ repeat Wait k ++ repeat Run m ++ repeat st e /\ (e = 0 /\ ends = [] \/ e = 1 /\ List.length ends = 1 /\ (st = End_ \/ st = Abort))).
  { destruct st; [congruence| | | |].
    - destruct Sh as (h & k & E). exists h, k, 0, 0. cbn [repeat app]. rewrite app_nil_r. split; [exact E|left]. split; [reflexivity|apply T2; unfold alive; tauto].
    - destruct Sh as (h & k & m & E). exists h, k, m, 0. cbn [repeat]. rewrite app_nil_r. split; [exact E|left]. split; [reflexivity|apply T2; unfold alive; tauto].
    - destruct Sh as (h & k & m & E). exists h, k, m, 1. split; [exact E|right]. split; [reflexivity|]. split; [apply T3; unfold alive; intuition discriminate|auto].
    - destruct Sh as (h & k & m & E). exists h, k, m, 1. split; [exact E|right]. split; [reflexivity|]. split; [apply T3; unfold alive; intuition discriminate|auto]. }
  clear Sh T2 T3 Hh Lo. destruct G as (h & k & m & e & E & Hend). clearbody log st.
  assert (Len : List.length log = S h + k + m + e) by (rewrite (states_len _ _ E), !app_length, !repeat_length; lia).
  assert (Le : List.length ends = e) by (destruct Hend as [[-> ->]|(-> & X & _)]; [reflexivity|exact X]).
  assert (Hn : n = S h + k + m).
  { assert (X : List.length (map g_t log) = List.length (map (at_step c) (seq b n ++ ends))) by (rewrite T1; reflexivity). rewrite !map_length, app_length, seq_length in X. lia. }
  subst n. rewrite (departed_split h log (repeat Wait k ++ repeat Run m ++ repeat st e) E).
  2:{ intros s tl X. destruct k; [destruct m; [destruct e|]|]; cbn in X; try discriminate; injection X as <- _; try discriminate. destruct Hend as [[? _]|(_ & _ & [-> | ->])]; discriminate. }
  exists (seq (b + h) (1 + k + m) ++ ends).
  assert (Ts : map g_t (skipn h log) = map (at_step c) (seq (b + h) (1 + k + m) ++ ends)).
  { rewrite <- skipn_map, T1, skipn_map. f_equal. replace (S h + k + m) with (h + (1 + k + m)) by lia. rewrite seq_app, <- app_assoc, skipn_app, skipn_all2 by (rewrite seq_length; lia).
    rewrite seq_length, Nat.sub_diag. reflexivity. }
  split; [symmetry; exact Ts|]. set (D := skipn h log) in *. set (ts := seq (b + h) (1 + k + m) ++ ends) in *.
  assert (Ld : List.length ts = List.length D) by (rewrite <- (map_length (at_step c)), <- Ts, map_length; reflexivity).
  assert (Sd : ride_shape st D k m e).
  { constructor.
    - unfold D. rewrite <- skipn_map, E. replace (repeat Home (S h)) with (repeat Home h ++ [Home]) by (rewrite repeat_snoc; reflexivity).
      rewrite <- app_assoc, skipn_app, skipn_all2 by (rewrite repeat_length; lia). rewrite repeat_length, Nat.sub_diag. reflexivity.
    - destruct Hend as [[-> _]|(-> & _ & X)]; auto.
    - unfold D. rewrite <- (firstn_skipn h log) in Se. apply Forall_app in Se. apply Se. }
  unfold cpp_log. rewrite (read_back c st (combine ts D) k m e (b + h) ends); [|rewrite combine_snd by exact Ld; exact Sd|rewrite combine_fst by exact Ld; reflexivity|exact Le|apply combine_times; exact Ts].
  rewrite combine_snd by exact Ld.
  assert (Nm : n_missing c (noted (combine ts D)) = b + h).
  { assert (Sz : k_size (noted (combine ts D)) = 1 + k + m + e).
    { unfold k_size. rewrite noted_cols, map_length, combine_length, Ld, Nat.min_id, <- Ld. unfold ts. rewrite app_length, seq_length. lia. }
    assert (T0 : cpp_ts (noted (combine ts D)) 0 = b + h).
    { unfold cpp_ts. rewrite Sz. assert (Ke : k_end (noted (combine ts D)) <= e).
      { rewrite noted_end, <- (map_map snd g_state), combine_snd by exact Ld. destruct Sd as [-> _ _]. cbn [filter is_over]. rewrite !filter_app, !app_length, !filter_repeat. cbn [is_over]. destruct (is_over st); lia. }
      destruct (Nat.ltb_spec 0 (1 + k + m + e - k_end (noted (combine ts D)))); [|lia]. rewrite Nat.add_0_r.
      destruct D as [|d D'] eqn:ED; [exfalso; unfold ts in Ld; rewrite app_length, seq_length in Ld; cbn in Ld; lia|]. unfold ts. cbn [Nat.add seq app combine]. apply noted_first. }
    unfold n_missing. rewrite Sz, T0. change (0 <? 1 + k + m + e) with true. cbn [andb]. destruct (qlt 0 (at_step c (b + h))) eqn:Q0; [rewrite dt_steps by exact Hd; lia|].
    apply qlt_false in Q0. destruct (b + h) as [|n]; [reflexivity|]. exfalso.
    assert (P : (0 < at_step c (S n))%Q); [|lra]. unfold at_step. assert (0 < Qof_nat (S n))%Q by (unfold Qof_nat; change 0%Q with (inject_Z 0); rewrite <- Zlt_Qlt; lia). nra. }
  rewrite Nm, seq_app, map_app, <- app_assoc. f_equal. cbn [Nat.add].
  rewrite <- (firstn_home c b log h (Home :: repeat Wait k ++ repeat Run m ++ repeat st e)); [apply firstn_skipn| |exact Se|].
  - rewrite E, <- repeat_snoc, <- app_assoc. reflexivity.
  - exists (S h + k + m), (map (at_step c) ends). split; [lia|]. rewrite T1, map_app. reflexivity.
Qed.

(** ** The links entered *)
Fixpoint prev_link (p : option lid) (rows : list logrow) : option lid :=
  match rows with [] => p | r :: tl => prev_link (match g_link r with Some l => Some l | None => p end) tl end.
Lemma link_rows_app : forall a b p, link_rows p (a ++ b) = link_rows p a ++ link_rows (prev_link p a) b.
Proof.
  induction a as [|r a IH]; intros b p; [reflexivity|]. cbn [app link_rows prev_link]. destruct (g_link r) as [l|]; [|apply IH].
  destruct (opt_eqb (Some l) p) eqn:E; [|cbn [app]; rewrite IH; reflexivity]. apply LogRoute.opt_eqb_some in E. rewrite <- E. apply IH.
Qed.
Lemma prev_link_app : forall a b p, prev_link p (a ++ b) = prev_link (prev_link p a) b.
Proof. induction a as [|r a IH]; intros b p; [reflexivity|]. cbn [app prev_link]. apply IH. Qed.
Lemma link_rows_none : forall rows p, Forall (fun r => g_link r = None) rows -> link_rows p rows = [] /\ prev_link p rows = p.
Proof. induction rows as [|r rows IH]; intros p H; [split; reflexivity|]. inversion H as [|? ? A B]; subst. cbn [link_rows prev_link]. rewrite A. apply IH, B. Qed.
Definition entries (tl : list (Q * place)) : list (Q * place) := filter (fun e => match snd e with PLink _ => true | _ => false end) tl.
Lemma entries_app : forall a b, entries (a ++ b) = entries a ++ entries b.
Proof. intros. apply filter_app. Qed.

Record TL (a : vehicle) : Prop := mkTL {
  tl_rows : entries (v_tlog a) = link_rows None (v_log a);
  tl_prev : alive (v_state a) -> v_linkold a = prev_link None (v_log a);
  tl_home : v_state a = Home \/ v_state a = Wait -> v_linkold a = None }.
Lemma TL_eq : forall a b, v_log a = v_log b -> v_tlog a = v_tlog b -> v_linkold a = v_linkold b -> (v_state a = v_state b \/ v_state a = Run /\ v_state b = Wait \/ v_state a = Wait /\ v_state b = Home) -> TL b -> TL a.
Proof.
  intros a b E1 E2 E3 E4 [A B C]. assert (Al : alive (v_state a) -> alive (v_state b)) by (unfold alive; destruct E4 as [-> |[[-> ->]|[-> ->]]]; tauto).
  constructor; rewrite ?E1, ?E2, ?E3; auto. intro X. apply C. destruct E4 as [<- |[[? ?]|[? ?]]]; auto.
Qed.
Lemma TL_vride : forall a b, vride a = vride b -> TL b -> TL a.
Proof. intros a b E. apply vride_eq in E. apply TL_eq; try (intuition congruence). Qed.

Lemma TL_logged : forall c w v, c_logint c = 1%Z -> (v_state (V w v) <> Run -> v_link (V w v) = None) -> (v_state (V w v) = Run -> v_link (V w v) <> None) ->
  alive (v_state (V w v)) -> TL (V w v) -> TL (logged c w v false).
Proof.
  intros c w v L1 Hn Hr Al [A B C]. specialize (B Al). destruct (vstate_dec (v_state (V w v)) Run) as [S1|S1].
  - destruct (log_rowsR c w v L1 S1) as (r & R1 & R2 & R3 & R4 & _). destruct (v_link (V w v)) as [l|] eqn:El; [|exfalso; apply (Hr S1); reflexivity].
    unfold logged. constructor; cbn [v_tlog v_linkold v_log v_state sv_linkold sv_tlog sv_log]; rewrite ?R1, ?El, ?S1.
    + rewrite entries_app, A, link_rows_app. f_equal. cbn [link_rows]. rewrite R4, <- B. unfold tlog_rows. rewrite El, S1. destruct (opt_eqb _ _); [reflexivity|]. rewrite R2. reflexivity.
    + intros _. rewrite prev_link_app. cbn [prev_link]. rewrite R4. reflexivity.
    + intros [X|X]; discriminate.
  - assert (Ho : v_linkold (V w v) = None) by (apply C; unfold alive in Al; tauto).
    unfold logged. constructor; cbn [v_tlog v_linkold v_log v_state sv_linkold sv_tlog sv_log]; rewrite ?(log_rows1 c w v L1 S1).
    + rewrite entries_app, A, link_rows_app. f_equal. unfold tlog_rows. rewrite (Hn S1), Ho. reflexivity.
    + intros _. rewrite prev_link_app. cbn [prev_link empty_row g_link]. rewrite (Hn S1), <- B. symmetry. exact Ho.
    + intros _. exact (Hn S1).
Qed.
Lemma TL_ended : forall a b rs ts, v_log b = v_log a ++ rs -> v_tlog b = v_tlog a ++ ts -> ~ alive (v_state b) ->
  Forall (fun r => g_link r = None) rs -> entries ts = [] -> TL a -> TL b.
Proof.
  intros a b rs ts E1 E2 E3 Hr Ht [A B C]. constructor.
  - rewrite E1, E2, entries_app, link_rows_app, Ht, A. rewrite (proj1 (link_rows_none rs _ Hr)). reflexivity.
  - intro X. contradiction.
  - intro X. exfalso. apply E3. unfold alive. tauto.
Qed.

Lemma TL_step : forall c e w p w' p', c_logint c = 1%Z -> Inv2 w p -> (forall v, v < w_nv w -> TL (V w v)) -> mstep c e w p w' p' ->
  forall v, v < w_nv w' -> TL (V w' v).
Proof.
  intros c e w p w' p' L1 I H M v Hv.
  assert (Hv0 : v < w_nv w) by (rewrite <- (fr_w_nv (mstep_fr M)); exact Hv).
  specialize (H v Hv0). destruct (mstep_vev c e w p w' p' I M v) as
    [E|n out q E2 E3 E4 E5 E6 E7 E8 E9|n out il q ld ln E2 E3 E4 E5 E6 E7 E8 E9 E10 E11 E12|l tl lg E2 E3 E4 E5 E6 E7 E8 E9|l E2 E3 E4|E2 E3 E4|E2 E3 E4 E5 E6|E2 E3 E4 E5|l E2 E3 E4 E5|l E2 E3 E4 E5 E6 E7|l nx E2 E3 E4 E5 E6].
  - eapply TL_vride; eauto.
  - rewrite E9. apply (TL_eq _ (V w v)); [reflexivity..| |exact H]. right; left. split; [reflexivity|exact E5].
  - rewrite E12. apply (TL_eq _ (V w v)); [reflexivity..| |exact H]. left. reflexivity.
  - apply ended_fields in E9. destruct E9 as (B1 & B2 & B3 & B4 & B5 & B6 & B7 & B8 & B9 & B10 & B11 & B12 & B13 & B14 & B15).
    eapply TL_ended; [| | | | |exact H].
    + etransitivity; [|exact E7]. assumption.
    + etransitivity; [|exact E8]. assumption.
    + rewrite B14. unfold alive. destruct (v_aborted (V w v)); intuition discriminate.
    + destruct (negb _); repeat constructor.
    + destruct (opt_eqb _ _); [reflexivity|]. destruct (v_aborted _); reflexivity.
  - rewrite E4. apply (TL_eq _ (V w v)); [..|exact H]; unfold followed; destruct (qlt _ _); try left; reflexivity.
  - subst e. rewrite E4. inversion M; subst. destruct I as [[T J] _]. destruct (s_link J Hv0) as [J1 J2]; [discriminate|].
    apply TL_logged; auto; [intro X; destruct (J1 X) as (l & -> & _); discriminate|apply (s_living J) in E3; tauto].
  - rewrite E6. apply (TL_eq _ (V w v)); [reflexivity..| |exact H]. right; right. split; [reflexivity|exact E4].
  - rewrite E5. apply (TL_eq _ (V w v)); [reflexivity..| |exact H]. left. reflexivity.
  - rewrite E5. apply (TL_eq _ (V w v)); [reflexivity..| |exact H]. left. reflexivity.
  - rewrite E7. apply (TL_eq _ (V w v)); [reflexivity..| |exact H]. left. reflexivity.
  - rewrite E6. apply (TL_eq _ (V w v)); [reflexivity..| |exact H]. left. reflexivity.
Qed.

Theorem reach_TL : forall c w, c_logint c = 1%Z -> reach c w -> forall v, v < w_nv w -> TL (V w v).
Proof.
  intros c w L1 R. pose (A := fun (w : world) (p : pend) => forall v, v < w_nv w -> TL (V w v)).
  change (A w None). apply (reach_phase c A A A); try exact R; unfold A; clear - L1.
  - intros e w p w' p' _ I H M. eapply TL_step; eauto.
  - auto.
  - intros e w p w' p' _ I H M. eapply TL_step; eauto.
  - auto.
  - intros e w p w' p' _ I H M. eapply TL_step; eauto.
  - intros tm v H. cbn in H. lia.
  - intros w _ _ H v Hv. exact (H v Hv).
  - intros w w' I Cl IH O v Hv.
    destruct O; unfold wkeep in *.
    + apply IH; auto.
    + apply IH; auto.
    + cbn in Hv. destruct (Nat.eq_dec v (w_nv w)) as [-> | Hne].
      * unfold V; cbn. rewrite upd_same. cbn. constructor; cbn; reflexivity.
      * assert (Ev : V (added_veh (new_vehicle c a nl nm) pv w) v = V w v) by (unfold V; cbn; rewrite upd_other by auto; reflexivity).
        rewrite Ev. apply IH. lia.
    + pose proof (finalize_ok _ _ _ _ H0) as Z. assert (Ev : V w' v = V w v) by (unfold V; rewrite (fz_V _ _ _ Z); reflexivity).
      pose proof (fz_cnt _ _ _ Z) as Zc. rewrite Ev. apply IH. replace (w_nv w) with (w_nv w') by congruence. exact Hv.
    + apply (TL_eq _ (V w v)); [..|apply IH; replace (w_nv w) with (w_nv w') by congruence; exact Hv]; specialize (H v); unfold vkeep in H; try left; congruence.
    + assert (Ev : V w' v = V w v) by (unfold V; rewrite H; reflexivity). rewrite Ev. apply IH.
      replace (w_nv w) with (w_nv w') by congruence. exact Hv.
Qed.

(** The list of the links entered that the compiled engine reads off the log is the list that the Python engine keeps. *)
Theorem entered_links : forall c w v, (0 < dt c)%Q -> c_logint c = 1%Z -> reach c w -> v < w_nv w ->
  exists t0, v_tlog (V w v) = cpp_log_t_link t0 (inject_Z (v_arr (V w v)) * dt c) (v_state (V w v)) (v_log (V w v)).
Proof.
  intros c w v Hd L1 R Hv. destruct (reach_TL c w L1 R v Hv) as [A _ _]. destruct (reach_trip c w R v Hv) as (es & [(t0 & T0) _ _ _ _ _ _ _ _ Te _]).
  exists t0. unfold cpp_log_t_link. rewrite T0 in A. assert (E1 : entries (rows c es) = rows c es) by (clear; unfold entries, rows; induction es as [|e es IH]; [reflexivity|cbn [map filter snd]; rewrite IH; reflexivity]).
  assert (E2 : entries (end_row c (V w v)) = []) by (unfold end_row; destruct (v_state (V w v)); reflexivity).
  assert (E3 : entries ((t0, PHome) :: rows c es ++ end_row c (V w v)) = rows c es).
  { change (entries ((t0, PHome) :: rows c es ++ end_row c (V w v))) with (entries (rows c es ++ end_row c (V w v))). rewrite entries_app, E1, E2, app_nil_r. reflexivity. }
  rewrite E3 in A. rewrite <- A, T0. f_equal. f_equal.
  unfold end_row. destruct (v_state (V w v)) eqn:Es; try reflexivity. destruct (Te eq_refl) as (_ & es' & t & l & _ & _ & Ha).
  assert (0 <= inject_Z (v_arr (V w v)))%Q by (change 0%Q with (inject_Z 0); rewrite <- Zle_Qle; lia).
  destruct (qle _ _) eqn:Q; [reflexivity|]. apply qle_false in Q. nra.
Qed.

(** The two together: of a vehicle still at home the compiled engine has no rows at all; the log of every other vehicle is that of the
    Python engine, after rows at home for the timesteps before the vehicle was created. *)
Definition home_rows (c : cfg) (b : nat) : list logrow := map (fun j => empty_row (at_step c j) Home) (seq 0 b).
Theorem cpp_log_exact : forall c w v b, (0 < dt c)%Q -> created c w v b ->
  exists ts, map (at_step c) ts = map g_t (stored_rows (V w v)) /\
    cpp_log c (noted (combine ts (stored_rows (V w v)))) (v_state (V w v)) =
      match v_state (V w v) with Home => [] | _ => home_rows c b ++ v_log (V w v) end.
Proof.
  intros c w v b Hd Cr. unfold stored_rows. destruct (vstate_dec (v_state (V w v)) Home) as [E|E].
  - exists []. rewrite E. split; reflexivity.
  - destruct (cpp_log_python c w v b Hd Cr E) as (ts & A & B). exists ts. destruct (v_state (V w v)); [congruence|split; assumption..].
Qed.
Lemma home_rows_none : forall c b, Forall (fun r => g_link r = None) (home_rows c b).
Proof. intros c b. unfold home_rows. apply Forall_forall. intros r H. apply in_map_iff in H. destruct H as (j & <- & _). reflexivity. Qed.
Lemma link_rows_home : forall c b rows, link_rows None (home_rows c b ++ rows) = link_rows None rows.
Proof. intros c b rows. rewrite link_rows_app. destruct (link_rows_none _ None (home_rows_none c b)) as [-> ->]. reflexivity. Qed.

(** the links entered, read off what the compiled engine has stored *)
Theorem cpp_entered : forall c w v, (0 < dt c)%Q -> c_logint c = 1%Z -> reach c w -> v < w_nv w ->
  exists t0 ts, map (at_step c) ts = map g_t (stored_rows (V w v)) /\
    cpp_log_t_link t0 (inject_Z (v_arr (V w v)) * dt c) (v_state (V w v)) (cpp_rows c (noted (combine ts (stored_rows (V w v)))) (v_state (V w v))) = v_tlog (V w v).
Proof.
  intros c w v Hd L1 R Hv. destruct (entered_links c w v Hd L1 R Hv) as (t0 & E). destruct (reach_created c w v L1 R Hv) as (b & Cr).
  destruct (cpp_log_exact c w v b Hd Cr) as (ts & A & B). exists t0, ts. split; [exact A|]. rewrite E. unfold cpp_log_t_link. f_equal. f_equal.
  unfold cpp_log in B. destruct (vstate_dec (v_state (V w v)) Home) as [Eh|Eh].
  - unfold stored_rows. rewrite Eh in *. destruct ts; [|unfold stored_rows in A; rewrite Eh in A; discriminate]. cbn [combine]. change (cpp_rows c (noted []) Home) with (@nil logrow).
    destruct Cr as (_ & Se & Sh). rewrite Eh in Sh. cbn [link_rows]. symmetry. refine (proj1 (link_rows_none _ None _)).
    rewrite Forall_forall in *. intros r Hr. rewrite (Se r Hr); [reflexivity|]. destruct Sh as (h & Sh). assert (X : In (g_state r) (repeat Home h)) by (rewrite <- Sh; apply in_map, Hr).
    apply repeat_spec in X. congruence.
  - rewrite <- (link_rows_home c b (v_log (V w v))). rewrite <- (link_rows_home c (n_missing c (noted (combine ts (stored_rows (V w v)))))).
    unfold home_rows at 1. rewrite B. destruct (v_state (V w v)); [congruence|reflexivity..].
Qed.
