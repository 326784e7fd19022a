(** * Dso: one day of SolverDSO_D2D (DTAsolvers.py 379-632), congestion externalities (Utilities.py 433-515), and the figures of a day
    of both solvers. *)
From Verif Require Import Base Types Sim Build Heap Lists Inv FrameBase Tac Frame Eff Eff2 Trace InvStep Reach Steps Effects Phases Attr Life Incoming Vev Ride TripLog Counts Registry LinkQueries Route Spec SpecDue Due Demand Average SpecDso.
Local Open Scope nat_scope.

(** ** The model *)

(** indexing of a Python list *)
Definition py_get {A} (l : list A) (i : Z) : result A :=
  let n := Z.of_nat (List.length l) in
  if (0 <=? i)%Z then of_opt IndexError (nth_error l (Z.to_nat i))
  else if (- n <=? i)%Z then of_opt IndexError (nth_error l (Z.to_nat (n + i)))
  else Err IndexError.

(** [range(a, b, 1)] and [range(a, 0, -1)] *)
Definition up (a b : Z) : list Z := map (fun j => (a + Z.of_nat j)%Z) (seq 0 (Z.to_nat (b - a))).
Definition down (a : Z) : list Z := map (fun j => (a - Z.of_nat j)%Z) (seq 0 (Z.to_nat a)).

(** the loop 457-463: [ts_end] *)
Fixpoint ext_end (c : cfg) (k : link) (ts : list Z) (e : Z) : result Z :=
  match ts with
  | [] => Ok e
  | i :: tl =>
      x <- py_get (l_tta k) i ;;
      f <- qdiv (l_len k) (l_u k) ;;
      if qlt (f * (101 # 100)) x then
        a <- py_get (l_ca k) (i + qtrunc (x / dt c))%Z ;;
        d <- py_get (l_cd k) (i + qtrunc (x / dt c))%Z ;;
        if (0 <? a - d)%Z then ext_end c k tl i else Ok e
      else Ok e
  end.
(** the loop 473-476: [ts_out_leader] *)
Fixpoint ext_leader (k : link) (o : Z) (ts : list Z) : result Z :=
  match ts with
  | [] => Ok o
  | i :: tl => x <- py_get (l_cd k) i ;; m <- py_get (l_cd k) o ;; if (x <? m)%Z then Ok i else ext_leader k o tl
  end.
(** 452-480 *)
Definition ext_try (c : cfg) (k : link) (t : Q) : result Q :=
  let ts := qtrunc (t / dt c) in
  e <- ext_end c k (up ts (Z.of_nat (List.length (l_tta k)))) ts ;;
  a1 <- py_get (l_ca k) e ;;
  a0 <- py_get (l_ca k) ts ;;
  x <- py_get (l_tta k) ts ;;
  let o := (ts + qtrunc (x / dt c) + 1)%Z in
  g <- ext_leader k o (down o) ;;
  Ok (inject_Z (o - g) * dt c * inject_Z (a1 - a0))%Q.
(** [estimate_congestion_externality_link], 433-488: every exception is turned into 0 (with a warning) *)
Definition ext_link (c : cfg) (k : link) (t : Q) : Q := match ext_try c k t with Ok x => x | Err _ => 0%Q end.
(** [estimate_congestion_externality_route], 490-515 *)
Fixpoint ext_sum (c : cfg) (w : world) (ls : list lid) (tts : list Q) (t : Q) : result Q :=
  match ls, tts with
  | [], _ => Ok 0%Q
  | l :: tl, x :: xs => y <- ext_sum c w tl xs (t + x)%Q ;; Ok (ext_link c (L w l) t + y)%Q
  | _ :: _, [] => Err IndexError
  end.
Definition ext_route (c : cfg) (w : world) (ls : list lid) (t : Q) : result Q := tts <- details c w ls t ;; ext_sum c w ls tts t.
(** [cost_current] and [cost_alt], 582-593: the same formula for the traveled route and the others *)
Definition dso_cost (c : cfg) (w : world) (ls : list lid) (t : Q) : result Q :=
  e <- ext_route c w ls t ;; p <- route_time c w ls t ;; Ok (p + e)%Q.

(** The two solvers differ in the costs only: [altf t0] of a route in the set, [ownf] of the traveled route with its times. *)
Definition try_f (f : list lid -> result Q) (flag : bool) (alt : list lid) (s : loop) : result loop :=
  x <- f alt ;;
  if qlt x (p_cost s) then
    Ok (if flag then mkLoop (Some alt) x (p_cost s - x) true else mkLoop (p_best s) (p_cost s) (p_cost s - x) true)
  else Ok s.
Definition day_vehicle (c : cfg) (w : world) (altf : Q -> list lid -> result Q) (ownf : list lid -> list Q -> result Q)
    (rs : nid -> nid -> option (list (list key))) (forced : bool) (flag : vid -> bool) (v : vid) (u : due) : result due :=
  d <- of_opt AttributeError (v_dest (V w v)) ;;
  rt <- traveled_route w v true false ;;
  t0 <- of_opt IndexError (nth_error (snd rt) 0) ;;
  match v_state (V w v) with
  | End_ =>
      ks <- of_opt KeyError (rs (v_orig (V w v)) d) ;;
      alts <- mapM (route_new w) ks ;;
      if forced && negb (existsb (route_eqb w (fst rt)) alts) then
        r0 <- of_opt IndexError (nth_error alts 0) ;; Ok (mkDue (u_spec u ++ [(v, r0)]) (u_nswap u) (u_pot u) (u_gap u))
      else
        x <- ownf (fst rt) (snd rt) ;;
        s <- foldM (try_f (altf t0) (flag v)) alts (mkLoop None x 0 false) ;;
        let pot := if p_pot s then (u_pot u + c_deltan c)%Z else u_pot u in
        match p_best s with
        | Some a => Ok (mkDue (u_spec u ++ [(v, a)]) (u_nswap u + c_deltan c)%Z pot (u_gap u + p_gap s)%Q)
        | None => Ok (mkDue (u_spec u ++ [(v, fst rt)]) (u_nswap u) pot (u_gap u + p_gap s)%Q)
        end
  | _ => Ok u
  end.
Definition day_of (c : cfg) (w : world) (altf : Q -> list lid -> result Q) (ownf : list lid -> list Q -> result Q)
    (rs : nid -> nid -> option (list (list key))) (forced : bool) (flag : vid -> bool) : result due :=
  u <- foldM (day_vehicle c w altf ownf rs forced flag) (seq 0 (w_nv w)) (mkDue [] 0%Z 0%Z 0%Q) ;;
  _ <- qdiv (u_gap u) (Qof_nat (w_nv w)) ;; Ok u.
Definition dso_own (c : cfg) (w : world) (ls : list lid) (ts : list Q) : result Q := t0 <- of_opt IndexError (nth_error ts 0) ;; dso_cost c w ls t0.
(** The body of the loop over the days, 548-607 (the simulation itself is the world [w]). *)
Definition dso_day (c : cfg) (w : world) (rs : nid -> nid -> option (list (list key))) (forced : bool) (flag : vid -> bool) : result due :=
  day_of c w (fun t a => dso_cost c w a t) (dso_own c w) rs forced flag.

(** [W_intermid_solution] over the days, 540-544, and [W_sol], 631: a day is given by whether all trips were completed, and the average
    travel time; the result is the number of the day. *)
Fixpoint best_day (days : list (bool * Q)) (i : nat) (best : option (nat * Q)) : option (nat * Q) :=
  match days with
  | [] => best
  | (done, avg) :: tl =>
      best_day tl (S i) (if done then match best with None => Some (i, avg) | Some (_, a) => if qlt avg a then Some (i, avg) else best end else best)
  end.

(** the DUE day of Due.v is an instance *)
Lemma due_is_day : forall c w rs forced flag, due_day c w rs forced flag = day_of c w (fun t a => alt_cost c w a t) (current_cost c w) rs forced flag.
Proof. intros. reflexivity. Qed.

(** ** The loop over the routes *)
Record LoopF (f : list lid -> result Q) (x : Q) (flag : bool) (seen : list (list lid)) (s : loop) : Prop := mkLoopF {
  lf_off : flag = false -> p_best s = None /\ p_cost s = x;
  lf_none : p_best s = None -> p_cost s = x /\ (flag = true -> forall b, In b seen -> ~ improves f x b);
  lf_best : forall a, p_best s = Some a -> In a seen /\ f a = Ok (p_cost s) /\ (p_cost s < x)%Q;
  lf_low : forall b z, flag = true -> In b seen -> f b = Ok z -> (p_cost s <= z)%Q;
  lf_le : (p_cost s <= x)%Q;
  lf_pot : p_pot s = true <-> exists b, In b seen /\ improves f x b;
  lf_gap0 : p_pot s = false -> p_gap s = 0%Q;
  lf_gap : p_pot s = true -> exists b y, In b seen /\ f b = Ok y /\ (0 < p_gap s)%Q /\ (p_gap s <= x - y)%Q }.
Lemma LoopF_step : forall f x flag seen s alt s', LoopF f x flag seen s -> try_f f flag alt s = Ok s' -> LoopF f x flag (seen ++ [alt]) s'.
Proof.
  intros f x flag seen s alt s' [A1 A2 A3 A4 A5 A6 A7 A8] H. unfold try_f in H. destruct (f alt) as [q|] eqn:Q1; [|discriminate]. cbn [bind] in H.
  assert (In1 : forall b, In b (seen ++ [alt]) -> In b seen \/ b = alt) by (intros b Hb; apply in_app_iff in Hb; destruct Hb as [Hb|[<-|[]]]; auto).
  assert (InA : In alt (seen ++ [alt])) by (apply in_or_app; right; left; reflexivity).
  destruct (qlt q (p_cost s)) eqn:C.
  - apply qlt_iff in C. assert (Cx : improves f x alt) by (exists q; split; [exact Q1|lra]).
    assert (Pt : true = true <-> exists b, In b (seen ++ [alt]) /\ improves f x b) by (split; [intros _; exists alt; split; [exact InA|exact Cx]|auto]).
    destruct flag; injection H as <-.
    + constructor; cbn [p_best p_cost p_gap p_pot]; try discriminate.
      * intros a Ea. injection Ea as <-. split; [exact InA|]. split; [exact Q1|lra].
      * intros b z _ Hb Hz. apply In1 in Hb. destruct Hb as [Hb| ->]; [pose proof (A4 b z eq_refl Hb Hz); lra|]. rewrite Q1 in Hz. injection Hz as <-. apply Qle_refl.
      * lra.
      * exact Pt.
      * intros _. exists alt, q. split; [exact InA|]. split; [exact Q1|]. split; lra.
    + destruct (A1 eq_refl) as [N Ex]. constructor; cbn [p_best p_cost p_gap p_pot]; auto; try discriminate.
      * intro N2. split; [apply A2; exact N2|discriminate].
      * intros a Ea. congruence.
      * intros _. exists alt, q. split; [exact InA|]. split; [exact Q1|]. split; lra.
  - apply qlt_false in C. injection H as <-.
    assert (Cx : ~ improves f (p_cost s) alt) by (intros (y' & Y' & L1); rewrite Q1 in Y'; injection Y' as <-; lra).
    constructor; auto.
    + intro N. destruct (A2 N) as [B1 B2]. split; [exact B1|]. intros F b Hb. apply In1 in Hb. destruct Hb as [Hb| ->]; [auto|]. rewrite <- B1. exact Cx.
    + intros a Ea. destruct (A3 a Ea) as (B1 & B2 & B3). split; [apply in_or_app; auto|auto].
    + intros b z F Hb Hz. apply In1 in Hb. destruct Hb as [Hb| ->]; [eauto|]. rewrite Q1 in Hz. injection Hz as <-. exact C.
    + rewrite A6. split; [intros (b & B1 & B2); exists b; split; [apply in_or_app; auto|exact B2]|]. intros (b & Hb & B2). apply In1 in Hb. destruct Hb as [Hb| ->]; [eauto|].
      destruct (p_best s) as [a|] eqn:Eb; [destruct (A3 a eq_refl) as (B3 & B4 & B5); exists a; split; [exact B3|]; exists (p_cost s); auto|]. exfalso. destruct (A2 eq_refl) as [B _]. apply Cx. rewrite B. exact B2.
    + intro Hp. destruct (A8 Hp) as (b & y & B1 & B2 & B3 & B4). exists b, y. split; [apply in_or_app; auto|auto].
Qed.
Lemma LoopF_fold : forall f x flag alts seen s s', LoopF f x flag seen s -> foldM (try_f f flag) alts s = Ok s' -> LoopF f x flag (seen ++ alts) s'.
Proof.
  intros f x flag alts. induction alts as [|a alts IH]; intros seen s s' A H; cbn [foldM] in H.
  - injection H as <-. rewrite app_nil_r. exact A.
  - destruct (try_f f flag a s) as [s1|] eqn:E; [|discriminate]. cbn [bind] in H. pose proof (LoopF_step _ _ _ _ _ _ _ A E) as B.
    replace (seen ++ a :: alts) with ((seen ++ [a]) ++ alts) by (rewrite <- app_assoc; reflexivity). eapply IH; eauto.
Qed.
Lemma LoopF_start : forall f x flag, LoopF f x flag [] (mkLoop None x 0 false).
Proof.
  intros. constructor; cbn; auto; try discriminate; try contradiction; try apply Qle_refl.
  split; [discriminate|]. intros (b & [] & _).
Qed.

(** ** The day *)

(** what is decided for one vehicle *)
Record choice := mkChoice { x_veh : vid; x_route : list lid; x_swap : bool; x_could : bool; x_gap : Q }.
Inductive chosen (altf : Q -> list lid -> result Q) (ownf : list lid -> list Q -> result Q) (alts : list (list lid)) (forced outside flag : bool) (r : list lid) (ts : list Q) :
  list lid -> bool -> bool -> Q -> Prop :=
| ch_forced : forall r0, forced = true -> outside = true -> nth_error alts 0 = Some r0 -> chosen altf ownf alts forced outside flag r ts r0 false false 0%Q
| ch_loop : forall t0 x s, forced = false \/ outside = false -> nth_error ts 0 = Some t0 -> ownf r ts = Ok x -> LoopF (altf t0) x flag alts s ->
    chosen altf ownf alts forced outside flag r ts (match p_best s with Some a => a | None => r end) (match p_best s with Some _ => true | None => false end) (p_pot s) (p_gap s).

Record DayF (c : cfg) (w : world) altf ownf (rs : nid -> nid -> option (list (list key))) (forced : bool) (flag : vid -> bool) (vs : list vid) (u : due) (ds : list choice) : Prop := mkDayF {
  df_vs : map x_veh ds = filter (ended_b w) vs;
  df_spec : u_spec u = map (fun d => (x_veh d, x_route d)) ds;
  df_nswap : u_nswap u = (c_deltan c * Z.of_nat (List.length (filter x_swap ds)))%Z;
  df_pot : u_pot u = (c_deltan c * Z.of_nat (List.length (filter x_could ds)))%Z;
  df_gap : (u_gap u == qsum (map x_gap ds))%Q;
  df_dec : forall x, In x ds -> exists d ks alts r ts, v_dest (V w (x_veh x)) = Some d /\ rs (v_orig (V w (x_veh x))) d = Some ks /\ mapM (route_new w) ks = Ok alts /\
    traveled_route w (x_veh x) true false = Ok (r, ts) /\
    chosen altf ownf alts forced (negb (existsb (route_eqb w r) alts)) (flag (x_veh x)) r ts (x_route x) (x_swap x) (x_could x) (x_gap x) }.

Lemma day_vehicle_step : forall c w altf ownf rs forced flag vs u ds v u', DayF c w altf ownf rs forced flag vs u ds -> day_vehicle c w altf ownf rs forced flag v u = Ok u' ->
  exists ds', DayF c w altf ownf rs forced flag (vs ++ [v]) u' ds'.
Proof.
  intros c w altf ownf rs forced flag vs u ds v u' [A1 A2 A3 A5 A6 A4] H. unfold day_vehicle in H.
  destruct (v_dest (V w v)) as [d|] eqn:D; [|discriminate]. cbn [of_opt bind] in H.
  destruct (traveled_route w v true false) as [[r ts]|] eqn:R; [|discriminate]. cbn [bind fst snd] in H.
  destruct (nth_error ts 0) as [t0|] eqn:T0; [|discriminate]. cbn [of_opt bind] in H.
  destruct (ended_b w v) eqn:E.
  2:{ exists ds. replace u' with u by (unfold ended_b in E; destruct (v_state (V w v)); try discriminate; injection H as ->; reflexivity).
      constructor; auto. rewrite A1, filter_app. cbn [filter]. rewrite E. symmetry. apply app_nil_r. }
  assert (E2 : v_state (V w v) = End_) by (unfold ended_b in E; destruct (v_state (V w v)); try discriminate; reflexivity). rewrite E2 in H.
  destruct (rs (v_orig (V w v)) d) as [ks|] eqn:K; [|discriminate]. cbn [of_opt bind] in H.
  destruct (mapM (route_new w) ks) as [alts|] eqn:M; [|discriminate]. cbn [bind] in H.
  assert (G : forall r' b p g, u_spec u' = u_spec u ++ [(v, r')] -> u_nswap u' = (u_nswap u + if b : bool then c_deltan c else 0)%Z ->
    u_pot u' = (u_pot u + if p : bool then c_deltan c else 0)%Z -> (u_gap u' == u_gap u + g)%Q ->
    chosen altf ownf alts forced (negb (existsb (route_eqb w r) alts)) (flag v) r ts r' b p g ->
    exists ds', DayF c w altf ownf rs forced flag (vs ++ [v]) u' ds').
  { intros r' b p g G1 G2 G4 G5 G3. exists (ds ++ [mkChoice v r' b p g]). constructor.
    - rewrite map_app, A1, filter_app. cbn [filter map x_veh]. rewrite E. reflexivity.
    - rewrite G1, A2, map_app. reflexivity.
    - rewrite G2, A3, filter_app, app_length. cbn [filter x_swap]. destruct b; cbn [List.length]; lia.
    - rewrite G4, A5, filter_app, app_length. cbn [filter x_could]. destruct p; cbn [List.length]; lia.
    - rewrite G5, A6, map_app, Average.qsum_app. cbn [map x_gap qsum]. ring.
    - intros x Hi. apply in_app_iff in Hi. destruct Hi as [Hi|[Hi|[]]]; [eauto|]. subst x. cbn [x_veh x_route x_swap x_could x_gap]. exists d, ks, alts, r, ts. auto. }
  destruct (forced && negb (existsb (route_eqb w r) alts)) eqn:F.
  - apply andb_true_iff in F. destruct F as [F1 F2]. destruct (nth_error alts 0) as [r0|] eqn:N0; [|discriminate]. cbn [of_opt bind] in H. injection H as <-.
    apply (G r0 false false 0%Q); cbn [u_spec u_nswap u_pot u_gap]; [reflexivity|lia|lia|ring|]. apply ch_forced; auto.
  - apply andb_false_iff in F.
    destruct (ownf r ts) as [x|] eqn:C; [|discriminate]. cbn [bind] in H.
    destruct (foldM (try_f (altf t0) (flag v)) alts (mkLoop None x 0 false)) as [s|] eqn:S; [|discriminate]. cbn [bind] in H.
    pose proof (LoopF_fold _ _ _ _ _ _ _ (LoopF_start (altf t0) x (flag v)) S) as B. cbn [app] in B.
    apply (G _ _ _ _) with (5 := ch_loop altf ownf alts forced _ (flag v) r ts t0 x s F T0 C B); destruct (p_best s); injection H as <-; cbn [u_spec u_nswap u_pot u_gap]; try reflexivity; try lia; destruct (p_pot s); lia.
Qed.
Lemma day_of_fold : forall c w altf ownf rs forced flag vs vs0 u ds u', DayF c w altf ownf rs forced flag vs0 u ds -> foldM (day_vehicle c w altf ownf rs forced flag) vs u = Ok u' ->
  exists ds', DayF c w altf ownf rs forced flag (vs0 ++ vs) u' ds'.
Proof.
  intros c w altf ownf rs forced flag vs. induction vs as [|v vs IH]; intros vs0 u ds u' A H; cbn [foldM] in H.
  - injection H as <-. rewrite app_nil_r. eauto.
  - destruct (day_vehicle c w altf ownf rs forced flag v u) as [u1|] eqn:E; [|discriminate]. cbn [bind] in H. destruct (day_vehicle_step _ _ _ _ _ _ _ _ _ _ _ _ A E) as (ds1 & B).
    replace (vs0 ++ v :: vs) with ((vs0 ++ [v]) ++ vs) by (rewrite <- app_assoc; reflexivity). eapply IH; eauto.
Qed.
Theorem day_lemma : forall c w altf ownf rs forced flag u, day_of c w altf ownf rs forced flag = Ok u ->
  exists ds, DayF c w altf ownf rs forced flag (seq 0 (w_nv w)) u ds.
Proof.
  intros c w altf ownf rs forced flag u H. unfold day_of in H. destruct (foldM _ _ _) as [u1|] eqn:E; [|discriminate]. cbn [bind] in H.
  destruct (qdiv (u_gap u1) (Qof_nat (w_nv w))); [|discriminate]. cbn [bind] in H. injection H as <-.
  apply (day_of_fold c w altf ownf rs forced flag (seq 0 (w_nv w)) [] (mkDue [] 0%Z 0%Z 0%Q) [] u1); [|exact E]. constructor; cbn; auto; try lia; try contradiction. reflexivity.
Qed.

(** ** The figures of a day *)

(** vehicle [v] completed its trip, and (with the costs of the solver) a route of its set is cheaper than the one it traveled; with given
    route sets, vehicles outside their set are not considered *)
Definition could (w : world) (altf : Q -> list lid -> result Q) (ownf : list lid -> list Q -> result Q) (rs : nid -> nid -> option (list (list key))) (forced : bool) (v : vid) : Prop :=
  ended_b w v = true /\ exists d ks alts r ts t0 x, v_dest (V w v) = Some d /\ rs (v_orig (V w v)) d = Some ks /\ mapM (route_new w) ks = Ok alts /\
    traveled_route w v true false = Ok (r, ts) /\ (forced = false \/ existsb (route_eqb w r) alts = true) /\ nth_error ts 0 = Some t0 /\ ownf r ts = Ok x /\
    exists b, In b alts /\ improves (altf t0) x b.
Lemma choice_unique : forall (ds : list choice) a b, NoDup (map x_veh ds) -> In a ds -> In b ds -> x_veh a = x_veh b -> a = b.
Proof.
  intro ds. induction ds as [|y ds IH]; intros a b N Ha Hb E; [destruct Ha|]. cbn [map] in N. inversion N as [|? ? N1 N2]; subst.
  destruct Ha as [Ha|Ha], Hb as [Hb|Hb]; [congruence| | |auto].
  - exfalso. apply N1. subst y. rewrite E. apply in_map. exact Hb.
  - exfalso. apply N1. subst y. rewrite <- E. apply in_map. exact Ha.
Qed.
Lemma NoDup_sub : forall (p : choice -> bool) ds, NoDup (map x_veh ds) -> NoDup (map x_veh (filter p ds)).
Proof.
  intros p ds. induction ds as [|a l IH]; intro N; cbn in *; [constructor|]. inversion N; subst. destruct (p a); cbn; [|auto]. constructor; [|auto].
  intro K. apply H1. apply in_map_iff in K. destruct K as (b & K1 & K2). apply filter_In in K2. apply in_map_iff. exists b. split; [exact K1|apply K2].
Qed.
Lemma in_sub : forall (p : choice -> bool) ds x, NoDup (map x_veh ds) -> In x ds -> (In (x_veh x) (map x_veh (filter p ds)) <-> p x = true).
Proof.
  intros p ds x N Hi. split.
  - intro K. apply in_map_iff in K. destruct K as (y & K1 & K2). apply filter_In in K2. destruct K2 as [K2 K3]. rewrite <- (choice_unique ds y x N K2 Hi K1). exact K3.
  - intro K. apply in_map. apply filter_In. auto.
Qed.
Lemma gap_cases : forall altf ownf alts forced outside flag r ts r' b p g, chosen altf ownf alts forced outside flag r ts r' b p g ->
  (p = false -> g = 0%Q) /\ (p = true -> (0 < g)%Q) /\ (b = true -> p = true).
Proof.
  intros altf ownf alts forced outside flag r ts r' b p g H. inversion H as [|t0 x s F T0 O [A1 A2 A3 A4 A5 A6 A7 A8]]; subst; [repeat split; auto; discriminate|].
  split; [exact A7|]. split; [intro K; destruct (A8 K) as (? & ? & _ & _ & K2 & _); exact K2|]. intro K. destruct (p_best s) as [a|] eqn:E; [|discriminate].
  apply A6. destruct (A3 a eq_refl) as (B1 & B2 & B3). exists a. split; [exact B1|]. exists (p_cost s). auto.
Qed.
Theorem day_figures : forall c w altf ownf rs forced flag u, (0 <= c_deltan c)%Z -> day_of c w altf ownf rs forced flag = Ok u ->
  exists vs, NoDup vs /\ (forall v, In v vs <-> exists_veh w v /\ could w altf ownf rs forced v) /\
    u_pot u = (c_deltan c * Z.of_nat (List.length vs))%Z /\ (0 <= u_nswap u <= u_pot u)%Z /\ (0 <= u_gap u)%Q /\ ((u_gap u == 0)%Q <-> vs = []).
Proof.
  intros c w altf ownf rs forced flag u Hd H. destruct (day_lemma _ _ _ _ _ _ _ _ H) as (ds & [A1 A2 A3 A5 A6 A4]).
  assert (Nd : NoDup (map x_veh ds)) by (rewrite A1; apply NoDup_filter, seq_NoDup).
  assert (GC : forall x, In x ds -> (x_could x = false -> x_gap x = 0%Q) /\ (x_could x = true -> (0 < x_gap x)%Q) /\ (x_swap x = true -> x_could x = true)).
  { intros x Hx. destruct (A4 x Hx) as (d & ks & alts & r & ts & _ & _ & _ & _ & Hc). exact (gap_cases _ _ _ _ _ _ _ _ _ _ _ _ Hc). }
  exists (map x_veh (filter x_could ds)). split; [apply NoDup_sub, Nd|]. split; [|split; [rewrite map_length; exact A5|split; [|]]].
  - intro v. split.
    + intro K. apply in_map_iff in K. destruct K as (x & <- & K). apply filter_In in K. destruct K as [K1 K2].
      assert (E : In (x_veh x) (filter (ended_b w) (seq 0 (w_nv w)))) by (rewrite <- A1; apply in_map; exact K1). apply filter_In in E. destruct E as [E1 E2]. apply in_seq in E1.
      split; [unfold exists_veh; lia|]. split; [exact E2|]. destruct (A4 x K1) as (d & ks & alts & r & ts & B1 & B2 & B3 & B4 & Hc).
      inversion Hc as [|t0 y s F T0 O LF]; [congruence|]. exists d, ks, alts, r, ts, t0, y. repeat (split; [assumption|]).
      split; [destruct F as [F|F]; [auto|apply negb_false_iff in F; auto]|]. split; [exact T0|]. split; [exact O|]. apply (lf_pot _ _ _ _ _ LF). congruence.
    + intros [Hv (E & d & ks & alts & r & ts & t0 & y & B1 & B2 & B3 & B4 & F & T0 & O & K)].
      assert (Hi : In v (map x_veh ds)) by (rewrite A1; apply filter_In; split; [apply in_seq; unfold exists_veh in Hv; lia|exact E]).
      apply in_map_iff in Hi. destruct Hi as (x & <- & Hi). apply (in_sub x_could ds x Nd Hi). destruct (A4 x Hi) as (d' & ks' & alts' & r' & ts' & B1' & B2' & B3' & B4' & Hc).
      rewrite B1 in B1'. injection B1' as <-. rewrite B2 in B2'. injection B2' as <-. rewrite B3 in B3'. injection B3' as <-. rewrite B4 in B4'. injection B4' as <- <-.
      inversion Hc as [r0 F1 F2|t0' y' s F' T0' O' LF]; [destruct F as [F|F]; [congruence|rewrite F in F2; discriminate]|].
      rewrite T0 in T0'. injection T0' as <-. rewrite O in O'. injection O' as <-. apply (lf_pot _ _ _ _ _ LF). exact K.
  - rewrite A3, A5. assert (K : List.length (filter x_swap ds) <= List.length (filter x_could ds)).
    { clear - GC. induction ds as [|x ds IH]; [cbn; lia|]. cbn [filter]. pose proof (IH (fun y Hy => GC y (or_intror Hy))). destruct (GC x (or_introl eq_refl)) as (_ & _ & G).
      destruct (x_swap x); [rewrite (G eq_refl); cbn; lia|]. destruct (x_could x); cbn [List.length]; lia. }
    split; [lia|]. apply Z.mul_le_mono_nonneg_l; lia.
  - assert (K : (0 <= qsum (map x_gap ds))%Q /\ ((qsum (map x_gap ds) == 0)%Q <-> filter x_could ds = [])).
    { clear - GC. induction ds as [|x ds IH]; [cbn; split; [apply Qle_refl|split; [auto|reflexivity]]|]. destruct (IH (fun y Hy => GC y (or_intror Hy))) as [I1 I2]. destruct (GC x (or_introl eq_refl)) as (G1 & G2 & _).
      cbn [map qsum filter]. destruct (x_could x).
      - pose proof (G2 eq_refl). split; [lra|]. split; [intro; lra|discriminate].
      - rewrite (G1 eq_refl). split; [lra|]. rewrite <- I2. split; intro; lra. }
    destruct K as [K1 K2]. split; [rewrite A6; exact K1|]. rewrite A6, K2. destruct (filter x_could ds); cbn; split; auto; discriminate.
Qed.

(** ** The swaps of a DSO day *)
Theorem dso_swaps : forall c w rs flag u, reach c w -> dso_day c w rs false flag = Ok u ->
  map fst (u_spec u) = filter (ended_b w) (seq 0 (w_nv w)) /\
  exists swapped, NoDup swapped /\ u_nswap u = (c_deltan c * Z.of_nat (List.length swapped))%Z /\ incl swapped (map fst (u_spec u)) /\
    forall v r', In (v, r') (u_spec u) ->
      exists d ks alts ts t0 x, v_dest (V w v) = Some d /\ rs (v_orig (V w v)) d = Some ks /\ mapM (route_new w) ks = Ok alts /\
        traveled_route w v true false = Ok (traveled w v, ts) /\ nth_error ts 0 = Some t0 /\ dso_cost c w (traveled w v) t0 = Ok x /\
        (In v swapped <-> r' <> traveled w v) /\
        (In v swapped -> flag v = true /\ improves (fun a => dso_cost c w a t0) x r' /\ least (fun a => dso_cost c w a t0) alts r') /\
        (~ In v swapped -> flag v = true -> forall b, In b alts -> ~ improves (fun a => dso_cost c w a t0) x b).
Proof.
  intros c w rs flag u R H. destruct (day_lemma _ _ _ _ _ _ _ _ H) as (ds & [A1 A2 A3 A5 A6 A4]).
  assert (Nd : NoDup (map x_veh ds)) by (rewrite A1; apply NoDup_filter, seq_NoDup).
  assert (Ev : map fst (u_spec u) = map x_veh ds) by (rewrite A2, map_map; reflexivity).
  split; [rewrite Ev; exact A1|]. exists (map x_veh (filter x_swap ds)). split; [apply NoDup_sub, Nd|]. split; [rewrite map_length; exact A3|].
  split. { intros v Hv. rewrite Ev. apply in_map_iff in Hv. destruct Hv as (x & <- & K). apply filter_In in K. apply in_map, K. }
  intros v r' Hi. rewrite A2 in Hi. apply in_map_iff in Hi. destruct Hi as (x & Hx & Hi). injection Hx as <- <-.
  assert (Hv : exists_veh w (x_veh x)).
  { assert (E : In (x_veh x) (filter (ended_b w) (seq 0 (w_nv w)))) by (rewrite <- A1; apply in_map; exact Hi). apply filter_In in E. destruct E as [E1 _]. apply in_seq in E1. unfold exists_veh; lia. }
  destruct (A4 x Hi) as (d & ks & alts & r & ts & B1 & B2 & B3 & B4 & Hc). destruct (traveled_shape c w (x_veh x) r ts R Hv B4) as [Er _]. fold (traveled w (x_veh x)) in Er. subst r.
  inversion Hc as [|t0 y s F T0 O LF E1 E2 E3 E4]; [discriminate|]. unfold dso_own in O. rewrite T0 in O. cbn [of_opt bind] in O.
  exists d, ks, alts, ts, t0, y. repeat (split; [assumption|]). destruct LF as [C1 C2 C3 C4 C5 C6 C7 C8].
  pose proof (in_sub x_swap ds x Nd Hi) as Sw. destruct (p_best s) as [a|] eqn:Eb.
  - destruct (C3 a eq_refl) as (D1 & D2 & D3). assert (Hs : In (x_veh x) (map x_veh (filter x_swap ds))) by (apply Sw; congruence). split; [|split].
    + split; [|intros _; exact Hs]. intros _ Ea. rewrite Ea, O in D2. injection D2 as D2. rewrite <- D2 in D3. revert D3. apply Qlt_irrefl.
    + intros _. assert (Fl : flag (x_veh x) = true) by (destruct (flag (x_veh x)); [reflexivity|destruct (C1 eq_refl); congruence]). split; [exact Fl|]. split; [exists (p_cost s); auto|].
      split; [exact D1|]. exists (p_cost s). split; [exact D2|]. intros b z Hb Hz. exact (C4 b z Fl Hb Hz).
    + intro K. exfalso. exact (K Hs).
  - assert (Hs : ~ In (x_veh x) (map x_veh (filter x_swap ds))) by (intro K; apply Sw in K; congruence). split; [split; [intro K; exfalso; exact (Hs K)|intro K; exfalso; apply K; reflexivity]|].
    split; [intro K; exfalso; exact (Hs K)|]. intros _. exact (proj2 (C2 eq_refl)).
Qed.
Theorem dso_forced : forall c w rs flag u v r', reach c w -> dso_day c w rs true flag = Ok u -> In (v, r') (u_spec u) ->
  exists d ks alts, v_dest (V w v) = Some d /\ rs (v_orig (V w v)) d = Some ks /\ mapM (route_new w) ks = Ok alts /\
    (existsb (route_eqb w (traveled w v)) alts = false -> nth_error alts 0 = Some r') /\ In r' (traveled w v :: alts).
Proof.
  intros c w rs flag u v r' R H Hi. destruct (day_lemma _ _ _ _ _ _ _ _ H) as (ds & [A1 A2 A3 A5 A6 A4]).
  rewrite A2 in Hi. apply in_map_iff in Hi. destruct Hi as (x & Hx & Hi). injection Hx as <- <-.
  assert (Hv : exists_veh w (x_veh x)).
  { assert (E : In (x_veh x) (filter (ended_b w) (seq 0 (w_nv w)))) by (rewrite <- A1; apply in_map; exact Hi). apply filter_In in E. destruct E as [E1 _]. apply in_seq in E1. unfold exists_veh; lia. }
  destruct (A4 x Hi) as (d & ks & alts & r & ts & B1 & B2 & B3 & B4 & Hc). destruct (traveled_shape c w (x_veh x) r ts R Hv B4) as [Er _]. fold (traveled w (x_veh x)) in Er. subst r.
  exists d, ks, alts. repeat (split; [assumption|]). inversion Hc as [r0 F1 F2 N|t0 y s F T0 O LF E1 E2 E3 E4].
  - split; [auto|]. right. eapply nth_error_In; eauto.
  - split; [intro K; rewrite K in F; destruct F; discriminate|]. destruct (p_best s) as [a|] eqn:Eb; [|left; reflexivity]. right. exact (proj1 (lf_best _ _ _ _ _ LF a Eb)).
Qed.

(** the cost of a route: link by link the travel time and the externality, at the time of entering *)
Fixpoint marginal (c : cfg) (w : world) (ls : list lid) (t : Q) : result Q :=
  match ls with
  | [] => Ok 0%Q
  | l :: tl => x <- actual_travel_time c (L w l) t ;; y <- marginal c w tl (t + x)%Q ;; Ok (x + ext_link c (L w l) t + y)%Q
  end.
Theorem dso_cost_lemma : forall c w ls t x, dso_cost c w ls t = Ok x -> exists y, marginal c w ls t = Ok y /\ (x == y)%Q.
Proof.
  intros c w ls. induction ls as [|l ls IH]; intros t x H; unfold dso_cost, ext_route in H; cbn [details] in H.
  { cbn in H. injection H as <-. eexists. split; reflexivity. }
  destruct (actual_travel_time c (L w l) t) as [a|] eqn:A; [|discriminate]. cbn [bind] in H.
  destruct (details c w ls (t + a)) as [tts|] eqn:D; [|discriminate]. cbn [bind ext_sum] in H.
  destruct (ext_sum c w ls tts (t + a)) as [e|] eqn:E; [|discriminate]. cbn [bind] in H.
  destruct (route_time c w (l :: ls) t) as [tt|] eqn:R; [|discriminate]. cbn [bind] in H. injection H as <-.
  unfold route_time in R. cbn [route_time_from] in R. rewrite A in R. cbn [bind] in R.
  destruct (time_shift c w ls (t + a) (t + a) (0 + a) tt ltac:(reflexivity) R) as (b & B & Eb).
  destruct (IH (t + a)%Q (b + e)%Q) as (y & Y & Ey). { unfold dso_cost, ext_route. rewrite D. cbn [bind]. rewrite E. cbn [bind]. rewrite B. reflexivity. }
  cbn [marginal]. rewrite A. cbn [bind]. rewrite Y. cbn [bind]. eexists. split; [reflexivity|]. rewrite Eb, <- Ey. ring.
Qed.

(** the day does not fail *)
Lemma ext_sum_ok : forall c w ls t tts, details c w ls t = Ok tts -> forall t', exists x, ext_sum c w ls tts t' = Ok x.
Proof.
  intros c w ls. induction ls as [|l ls IH]; intros t tts H t'; cbn [details] in H; [injection H as <-; eexists; reflexivity|].
  destruct (actual_travel_time c (L w l) t) as [a|]; [|discriminate]. cbn [bind] in H. destruct (details c w ls (t + a)) as [xs|] eqn:D; [|discriminate]. cbn [bind] in H. injection H as <-.
  cbn [ext_sum]. destruct (IH _ _ D (t' + a)%Q) as (y & ->). eexists. reflexivity.
Qed.
Lemma dso_cost_ok : forall c w ls t, (forall l, In l ls -> l_tta (L w l) <> []) -> exists x, dso_cost c w ls t = Ok x.
Proof.
  intros c w ls t H. destruct (times_ok c w ls t 0%Q H) as [[x X] [ts T]]. unfold dso_cost, ext_route. rewrite T. cbn [bind]. destruct (ext_sum_ok c w ls t ts T t) as (y & ->). cbn [bind].
  unfold route_time. rewrite X. eexists. reflexivity.
Qed.
Theorem dso_total : forall c w rs forced flag, reach c w -> w_nv w <> 0 -> (forall l, exists_link w l -> l_tta (L w l) <> []) -> routes_ok w rs ->
  exists u, dso_day c w rs forced flag = Ok u.
Proof.
  intros c w rs forced flag R Hn Ht Ho. unfold dso_day, day_of.
  assert (G : forall vs u, (forall v, In v vs -> exists_veh w v) -> exists u', foldM (day_vehicle c w (fun t a => dso_cost c w a t) (dso_own c w) rs forced flag) vs u = Ok u').
  { intro vs. induction vs as [|v vs IH]; intros u Hv; cbn [foldM]; [eexists; reflexivity|].
    assert (G1 : exists u1, day_vehicle c w (fun t a => dso_cost c w a t) (dso_own c w) rs forced flag v u = Ok u1).
    { pose proof (Hv v (or_introl eq_refl)) as Ev. destruct (Ho v Ev) as (d & ks & alts & D & K & M & Na & Hl).
      destruct (traveled_lemma c w v true false R Ev) as (ls & ts & T & El & Fl & _). destruct (traveled_shape c w v ls ts R Ev T) as [_ Hlen].
      unfold day_vehicle. rewrite D, T. cbn [of_opt bind fst snd]. destruct ts as [|t0 ts]; [discriminate|]. cbn [nth_error of_opt bind].
      destruct (v_state (V w v)); try (eexists; reflexivity). rewrite K. cbn [of_opt bind]. rewrite M. cbn [bind]. destruct (forced && _).
      - destruct alts as [|a alts]; [contradiction|]. cbn. eexists. reflexivity.
      - unfold dso_own. cbn [nth_error of_opt bind].
        destruct (dso_cost_ok c w ls t0 ltac:(intros l Hi; apply Ht; rewrite Forall_forall in Fl; apply Fl; exact Hi)) as (x & ->). cbn [bind].
        assert (S : forall s, exists s', foldM (try_f (fun a => dso_cost c w a t0) (flag v)) alts s = Ok s').
        { clear - Ht Hl. induction alts as [|a alts IH]; intro s; cbn [foldM]; [eexists; reflexivity|]. unfold try_f at 1.
          destruct (dso_cost_ok c w a t0 ltac:(intros l Hi; apply Ht, (Hl a l (or_introl eq_refl) Hi))) as (x & ->). cbn [bind].
          destruct (qlt _ _); cbn [bind]; apply IH; intros a' l Ha; apply Hl; right; exact Ha. }
        destruct (S (mkLoop None x 0 false)) as (s & ->). cbn [bind]. destruct (p_best s); eexists; reflexivity. }
    destruct G1 as (u1 & ->). cbn [bind]. apply IH. intros; apply Hv; right; auto. }
  destruct (G (seq 0 (w_nv w)) (mkDue [] 0%Z 0%Z 0%Q)) as (u & ->). { intros v Hv. apply in_seq in Hv. unfold exists_veh. lia. } cbn [bind].
  unfold qdiv. destruct (qeq (Qof_nat (w_nv w)) 0) eqn:E; [|eexists; reflexivity]. exfalso. apply qeq_iff in E. unfold Qof_nat in E. change 0%Q with (inject_Z 0) in E. rewrite inject_Z_injective in E. lia.
Qed.

(** ** The solution *)
Lemma best_day_fold : forall days i best, (forall j a, best = Some (j, a) -> j < i) ->
  match best_day days i best with
  | None => best = None /\ forall a, ~ In (true, a) days
  | Some (j, a) => (best = Some (j, a) \/ i <= j /\ nth_error days (j - i) = Some (true, a)) /\
      (forall k b, nth_error days k = Some (true, b) -> (a <= b)%Q /\ (i + k < j -> (a < b)%Q)) /\
      (forall j0 a0, best = Some (j0, a0) -> (a <= a0)%Q /\ (i <= j -> (a < a0)%Q))
  end.
Proof.
  intro days. induction days as [|[done avg] days IH]; intros i best Hb; cbn [best_day].
  - destruct best as [[j a]|]; [|split; auto]. split; [auto|]. split; [intros [|k] b K; discriminate|]. intros j0 a0 E. injection E as <- <-. split; [apply Qle_refl|]. pose proof (Hb j a eq_refl). lia.
  - destruct done.
    + set (nb := match best with None => Some (i, avg) | Some (_, a) => if qlt avg a then Some (i, avg) else best end).
      assert (N1 : forall j a, nb = Some (j, a) -> j < S i).
      { intros j a E. unfold nb in E. destruct best as [[j0 a0]|]; [destruct (qlt avg a0)|]; [injection E as <- <-; lia|pose proof (Hb _ _ E); lia|injection E as <- <-; lia]. }
      specialize (IH (S i) nb N1). destruct (best_day days (S i) nb) as [[j a]|].
      * destruct IH as (I1 & I2 & I3).
        assert (Ia : (a <= avg)%Q /\ (i < j -> (a < avg)%Q)).
        { unfold nb in I3, I1. destruct best as [[j0 a0]|].
          - destruct (qlt avg a0) eqn:C.
            + destruct (I3 _ _ eq_refl) as [X Y]. split; [exact X|]. intro. apply Y. lia.
            + apply qlt_false in C. destruct (I3 _ _ eq_refl) as [X Y]. split; [lra|]. intro Hj. pose proof (Y ltac:(lia)). lra.
          - destruct (I3 _ _ eq_refl) as [X Y]. split; [exact X|]. intro. apply Y. lia. }
        split; [|split].
        -- destruct I1 as [I1|[I1 I1']].
           ++ unfold nb in I1. destruct best as [[j0 a0]|]; [destruct (qlt avg a0)|].
              ** injection I1 as <- <-. right. split; [lia|]. rewrite Nat.sub_diag. reflexivity.
              ** left. exact I1.
              ** injection I1 as <- <-. right. split; [lia|]. rewrite Nat.sub_diag. reflexivity.
           ++ right. split; [lia|]. replace (j - i) with (S (j - S i)) by lia. exact I1'.
        -- intros [|k] b K.
           ++ cbn in K. injection K as <-. split; [apply Ia|]. intro. apply Ia. lia.
           ++ cbn in K. destruct (I2 k b K) as [X Y]. split; [exact X|]. intro. apply Y. lia.
        -- intros j0 a0 E. subst best. pose proof (Hb _ _ eq_refl). unfold nb in *. destruct (qlt avg a0) eqn:C.
           ++ apply qlt_iff in C. split; [lra|]. intro. lra.
           ++ destruct (I3 _ _ eq_refl) as [X Y]. split; [exact X|]. intro Hj.
              destruct I1 as [I1|[I1 _]]; [injection I1 as -> ->; lia|]. apply Y. exact I1.
      * exfalso. destruct IH as [I1 _]. unfold nb in I1. destruct best as [[j0 a0]|]; [destruct (qlt avg a0)|]; discriminate.
    + assert (N1 : forall j a, best = Some (j, a) -> j < S i) by (intros j a E; pose proof (Hb _ _ E); lia).
      specialize (IH (S i) best N1). destruct (best_day days (S i) best) as [[j a]|].
      * destruct IH as (I1 & I2 & I3). split; [|split].
        -- destruct I1 as [I1|[I1 I1']]; [auto|]. right. split; [lia|]. replace (j - i) with (S (j - S i)) by lia. exact I1'.
        -- intros [|k] b K; [discriminate|]. cbn in K. destruct (I2 k b K) as [X Y]. split; [exact X|]. intro. apply Y. lia.
        -- intros j0 a0 E. destruct (I3 _ _ E) as [X Y]. split; [exact X|]. intro Hj. destruct I1 as [I1|[I1 _]]; [|apply Y; exact I1]. pose proof (Hb _ _ I1). lia.
      * destruct IH as [I1 I2]. split; [exact I1|]. intros a [K|K]; [discriminate|]. exact (I2 a K).
Qed.
(** the first of the days with the least average travel time, among those in which all trips were completed *)
Theorem best_day_lemma : forall days,
  (forall j a, best_day days 0 None = Some (j, a) -> nth_error days j = Some (true, a) /\
     forall k b, nth_error days k = Some (true, b) -> (a <= b)%Q /\ (k < j -> (a < b)%Q)) /\
  (best_day days 0 None = None <-> forall a, ~ In (true, a) days).
Proof.
  intro days. pose proof (best_day_fold days 0 None ltac:(discriminate)) as K. destruct (best_day days 0 None) as [[j a]|].
  - destruct K as ([K1|[_ K1]] & K2 & _); [discriminate|]. rewrite Nat.sub_0_r in K1. split.
    + intros j0 a0 E. injection E as <- <-. split; [exact K1|exact K2].
    + split; [discriminate|]. intro N. exfalso. eapply N, nth_error_In, K1.
  - destruct K as [_ K]. split; [discriminate|]. split; auto.
Qed.

(** ** Externalities *)
Lemma py_get_nat : forall A (l : list A) i x, py_get l (Z.of_nat i) = Ok x -> nth_error l i = Some x.
Proof.
  intros A l i x H. unfold py_get in H. destruct (Z.leb_spec 0 (Z.of_nat i)); [|lia]. rewrite Nat2Z.id in H. destruct (nth_error l i); cbn in H; [injection H as ->; reflexivity|discriminate].
Qed.
Lemma qtrunc_nonneg : forall q, (0 <= q)%Q -> (0 <= qtrunc q)%Z.
Proof. intros q H. rewrite qtrunc_floor by exact H. change 0%Z with (Qfloor 0). apply Qfloor_resp_le. exact H. Qed.
(** the loop stops at the last timestep up to which entering means waiting *)
Lemma ext_end_spec : forall c k n i e r, (0 < dt c)%Q -> (0 <= l_len k / l_u k)%Q -> List.length (l_tta k) <= i + n ->
  ext_end c k (map (fun j => (Z.of_nat i + Z.of_nat j)%Z) (seq 0 n)) e = Ok r ->
  r = e /\ ~ queued c k i \/ exists m, r = Z.of_nat m /\ i <= m < i + n /\ (forall j, i <= j <= m -> queued c k j) /\ ~ queued c k (S m).
Proof.
  intros c k n. induction n as [|n IH]; intros i e r Hd Hu Hlen H; cbn [seq map ext_end] in H.
  { injection H as <-. left. split; [reflexivity|]. intros (x & _ & _ & X & _). apply nth_error_lt in X. lia. }
  replace (Z.of_nat i + Z.of_nat 0)%Z with (Z.of_nat i) in H by lia.
  destruct (py_get (l_tta k) (Z.of_nat i)) as [x|] eqn:X; [|discriminate]. cbn [bind] in H. apply py_get_nat in X.
  unfold qdiv in H. destruct (qeq (l_u k) 0) eqn:U; [discriminate|]. cbn [bind] in H.
  destruct (qlt (l_len k / l_u k * (101 # 100)) x) eqn:C.
  2:{ injection H as <-. left. split; [reflexivity|]. apply qlt_false in C. intros (x' & a & d & X' & C' & _). rewrite X in X'. injection X' as <-. lra. }
  apply qlt_iff in C.
  assert (Hx : (0 <= qtrunc (x / dt c))%Z) by (apply qtrunc_nonneg; apply Qle_shift_div_l; [exact Hd|]; nra).
  assert (Ei : (Z.of_nat i + qtrunc (x / dt c))%Z = Z.of_nat (i + Z.to_nat (qtrunc (x / dt c)))) by lia. rewrite Ei in H.
  destruct (py_get (l_ca k) _) as [a|] eqn:A; [|discriminate]. cbn [bind] in H. apply py_get_nat in A.
  destruct (py_get (l_cd k) _) as [d|] eqn:D; [|discriminate]. cbn [bind] in H. apply py_get_nat in D.
  destruct (Z.ltb_spec 0 (a - d)) as [P|P].
  2:{ injection H as <-. left. split; [reflexivity|]. intros (x' & a' & d' & X' & _ & A' & D' & K). rewrite X in X'. injection X' as <-. rewrite A in A'. injection A' as <-. rewrite D in D'. injection D' as <-. lia. }
  assert (Q0 : queued c k i) by (exists x, a, d; repeat (split; [assumption|]); lia).
  rewrite <- seq_shift, map_map in H.
  rewrite (map_ext (fun j => (Z.of_nat i + Z.of_nat (S j))%Z) (fun j => (Z.of_nat (S i) + Z.of_nat j)%Z)) in H by (intro; lia).
  right. destruct (IH (S i) (Z.of_nat i) r Hd Hu ltac:(lia) H) as [[-> Nq]|(m & -> & Hm & Hq & Nq)].
  - exists i. split; [reflexivity|]. split; [lia|]. split; [|exact Nq]. intros j Hj. replace j with i by lia. exact Q0.
  - exists m. split; [reflexivity|]. split; [lia|]. split; [|exact Nq]. intros j Hj. destruct (Nat.eq_dec j i) as [-> |]; [exact Q0|]. apply Hq. lia.
Qed.
(** the last earlier timestep with fewer departures *)
Lemma ext_leader_spec : forall k o n s r, (forall i j a b, i <= j -> nth_error (l_cd k) i = Some a -> nth_error (l_cd k) j = Some b -> (a <= b)%Z) ->
  s + n = o -> (forall m j x, nth_error (l_cd k) o = Some m -> o - s < j <= o -> nth_error (l_cd k) j = Some x -> x = m) ->
  ext_leader k (Z.of_nat o) (map (fun j => (Z.of_nat o - Z.of_nat j)%Z) (seq s n)) = Ok r ->
  exists h, r = Z.of_nat (o - h) /\ headway k o h.
Proof.
  intros k o n. induction n as [|n IH]; intros s r Hmono Hs Hj H; cbn [seq map ext_leader] in H.
  - injection H as <-. exists 0. split; [lia|]. split; [lia|]. intros m Hm. split; [intros; lia|]. left. split; [reflexivity|].
    intros j x Hx K. apply (Hj m j x); [exact Hm|lia|exact K].
  - replace (Z.of_nat o - Z.of_nat s)%Z with (Z.of_nat (o - s)) in H by lia.
    destruct (py_get (l_cd k) (Z.of_nat (o - s))) as [x|] eqn:X; [|discriminate]. apply py_get_nat in X. cbn [bind] in H.
    destruct (py_get (l_cd k) (Z.of_nat o)) as [m|] eqn:M; [|discriminate]. apply py_get_nat in M. cbn [bind] in H.
    destruct (Z.ltb_spec x m) as [P|P].
    + injection H as <-. exists s. split; [lia|]. split; [lia|]. intros m' Hm'. split; [intros j y; apply Hj; exact Hm'|]. right. exists x. split; [exact X|congruence].
    + apply (IH (S s) r Hmono); [lia| |exact H]. intros m' j y Hm' Hy K. rewrite M in Hm'. injection Hm' as <-. destruct (Nat.eq_dec j (o - s)) as [-> |]; [|apply (Hj m j y M); [lia|exact K]].
      pose proof (Hmono (o - s) o y m ltac:(lia) K M). rewrite X in K. injection K as <-. lia.
Qed.

Theorem ext_lemma : forall c w l t, (0 < dt c)%Q -> (0 <= c_deltan c)%Z -> reach c w -> exists_link w l -> (0 <= l_len (L w l) / l_u (L w l))%Q -> (0 <= t)%Q ->
  let k := L w l in let i := Z.to_nat (qtrunc (t / dt c)) in
  (0 <= ext_link c k t)%Q /\
  (~ queued c k i -> (ext_link c k t == 0)%Q) /\
  ((ext_link c k t == 0)%Q \/
   exists x n h, nth_error (l_tta k) i = Some x /\ behind c k i n /\ headway k (i + Z.to_nat (qtrunc (x / dt c)) + 1) h /\ (0 < n)%Z /\ 0 < h /\
     (ext_link c k t == Qof_nat h * dt c * inject_Z n)%Q).
Proof.
  intros c w l t Hd Hn R Hl Hu Ht k i. pose proof (curves_lemma c w l Hn R Hl) as [_ _ _ Ca Cd _]. fold k in Hu, Ca, Cd.
  assert (Hi : (0 <= qtrunc (t / dt c))%Z) by (apply qtrunc_nonneg; apply Qle_shift_div_l; [exact Hd|]; nra).
  assert (Ei : qtrunc (t / dt c) = Z.of_nat i) by (unfold i; lia).
  unfold ext_link. destruct (ext_try c k t) as [q|] eqn:E; [|split; [apply Qle_refl|split; [reflexivity|left; reflexivity]]].
  unfold ext_try in E. rewrite Ei in E.
  destruct (ext_end c k _ _) as [e|] eqn:Ee; [|discriminate]. cbn [bind] in E. unfold up in Ee. apply (ext_end_spec c k (Z.to_nat (Z.of_nat (List.length (l_tta k)) - Z.of_nat i)) i _ _ Hd Hu ltac:(lia)) in Ee.
  destruct (py_get (l_ca k) e) as [a1|] eqn:A1; [|discriminate]. cbn [bind] in E.
  destruct (py_get (l_ca k) (Z.of_nat i)) as [a0|] eqn:A0; [|discriminate]. cbn [bind] in E.
  destruct (py_get (l_tta k) (Z.of_nat i)) as [x|] eqn:X; [|discriminate]. cbn [bind] in E.
  destruct (ext_leader k _ _) as [g|] eqn:G; [|discriminate]. cbn [bind] in E. injection E as <-.
  destruct Ee as [[-> _]|(m & -> & Hm & Hq & Nq)].
  { rewrite A1 in A0. injection A0 as ->. assert (Z0 : (inject_Z (Z.of_nat i + qtrunc (x / dt c) + 1 - g) * dt c * inject_Z (a0 - a0) == 0)%Q) by (rewrite Z.sub_diag; ring).
    rewrite Z0. split; [apply Qle_refl|]. split; [reflexivity|left; reflexivity]. }
  apply py_get_nat in A1, A0, X. pose proof (Hq i ltac:(lia)) as Q0.
  assert (Hx : (0 <= qtrunc (x / dt c))%Z).
  { destruct Q0 as (x' & a & d & X' & C & _). rewrite X in X'. injection X' as <-. apply qtrunc_nonneg. apply Qle_shift_div_l; [exact Hd|]. nra. }
  set (o := i + Z.to_nat (qtrunc (x / dt c)) + 1) in *.
  assert (Eo : (Z.of_nat i + qtrunc (x / dt c) + 1)%Z = Z.of_nat o) by (unfold o; lia). rewrite Eo in *.
  unfold down in G. rewrite Nat2Z.id in G.
  destruct (ext_leader_spec k o o 0 g Cd ltac:(lia) ltac:(intros; lia) G) as (h & -> & Hh). assert (Hho : h <= o) by apply Hh.
  assert (Eh : (inject_Z (Z.of_nat o - Z.of_nat (o - h)) == Qof_nat h)%Q) by (unfold Qof_nat; replace (Z.of_nat o - Z.of_nat (o - h))%Z with (Z.of_nat h) by lia; reflexivity).
  pose proof (Ca i m a0 a1 ltac:(lia) A0 A1) as Hle.
  assert (Bh : behind c k i (a1 - a0)) by (exists m, a0, a1; split; [lia|]; split; [exact Hq|]; split; [exact Nq|]; auto).
  assert (P1 : (0 <= inject_Z (a1 - a0))%Q) by (change 0%Q with (inject_Z 0); rewrite <- Zle_Qle; lia).
  assert (P2 : (0 <= Qof_nat h)%Q) by (unfold Qof_nat; change 0%Q with (inject_Z 0); rewrite <- Zle_Qle; lia).
  split; [rewrite Eh; apply Qmult_le_0_compat; [apply Qmult_le_0_compat; [exact P2|lra]|exact P1]|]. split; [intro N; contradiction|].
  destruct (Z.eq_dec a1 a0) as [-> |Na]; [left; rewrite Z.sub_diag; ring|]. destruct (Nat.eq_dec h 0) as [-> |Nh].
  - left. rewrite Eh. change (Qof_nat 0) with 0%Q. ring.
  - right. exists x, (a1 - a0)%Z, h. split; [exact X|]. split; [exact Bh|]. split; [exact Hh|]. split; [lia|]. split; [lia|]. rewrite Eh. reflexivity.
Qed.

(** the same for SolverDUE *)
Theorem due_figures : forall c w rs forced flag u, (0 <= c_deltan c)%Z -> due_day c w rs forced flag = Ok u ->
  exists vs, NoDup vs /\ (forall v, In v vs <-> exists_veh w v /\ could w (fun t a => alt_cost c w a t) (current_cost c w) rs forced v) /\
    u_pot u = (c_deltan c * Z.of_nat (List.length vs))%Z /\ (0 <= u_nswap u <= u_pot u)%Z /\ (0 <= u_gap u)%Q /\ ((u_gap u == 0)%Q <-> vs = []).
Proof. intros c w rs forced flag u Hd H. rewrite due_is_day in H. exact (day_figures c w _ _ rs forced flag u Hd H). Qed.
Theorem dso_figures : forall c w rs forced flag u, (0 <= c_deltan c)%Z -> dso_day c w rs forced flag = Ok u ->
  exists vs, NoDup vs /\ (forall v, In v vs <-> exists_veh w v /\ could w (fun t a => dso_cost c w a t) (dso_own c w) rs forced v) /\
    u_pot u = (c_deltan c * Z.of_nat (List.length vs))%Z /\ (0 <= u_nswap u <= u_pot u)%Z /\ (0 <= u_gap u)%Q /\ ((u_gap u == 0)%Q <-> vs = []).
Proof. intros c w rs forced flag u Hd H. exact (day_figures c w _ _ rs forced flag u Hd H). Qed.
Theorem due_costs : forall c w ls t ts x, proper_tolls w ->
  (alt_cost c w ls t = Ok x -> exists y, day_cost c w ls t = Ok y /\ (x == y)%Q) /\ (current_cost c w ls ts = Ok x -> own_cost c w ls ts x).
Proof. intros c w ls t ts x P. split; [apply alt_cost_spec; exact P|apply current_cost_spec]. Qed.
Lemma no_solution : exists days : list (bool * Q), days <> [] /\ best_day days 0 None = None.
Proof. exists [(false, 100%Q)]. split; [discriminate|reflexivity]. Qed.
