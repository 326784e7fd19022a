(** * Due: the route swaps of one day of SolverDUE, DTAsolvers.py 145-240. *)
From Verif Require Import Base Types Sim Build Heap Lists Inv FrameBase Tac Frame Eff Eff2 Trace InvStep Reach Steps Effects Phases Attr Life Incoming Vev Ride TripLog Registry LinkQueries Route Spec SpecDue.
Local Open Scope nat_scope.

(** ** The model *)

(** [Route.actual_travel_time] with details: the second component *)
Fixpoint details (c : cfg) (w : world) (ls : list lid) (t : Q) : result (list Q) :=
  match ls with
  | [] => Ok []
  | l :: tl => x <- actual_travel_time c (L w l) t ;; xs <- details c w tl (t + x)%Q ;; Ok (x :: xs)
  end.
(** [cost_alt], 212-213 *)
Definition alt_cost (c : cfg) (w : world) (ls : list lid) (t0 : Q) : result Q :=
  tts <- details c w ls t0 ;;
  tt <- route_time c w ls t0 ;;
  Ok (tt + qsum (map (fun p => get_toll (L w (snd p)) (t0 + qsum (firstn (fst p) tts))) (combine (seq 0 (List.length ls)) ls)))%Q.
(** [cost_current], 208: [ts[i]] for every link *)
Fixpoint own_tolls (w : world) (ls : list lid) (ts : list Q) : result Q :=
  match ls, ts with
  | [], _ => Ok 0%Q
  | l :: tl, t :: ts' => x <- own_tolls w tl ts' ;; Ok (get_toll (L w l) t + x)%Q
  | _ :: _, [] => Err IndexError
  end.
Definition current_cost (c : cfg) (w : world) (ls : list lid) (ts : list Q) : result Q :=
  t0 <- of_opt IndexError (nth_error ts 0) ;;
  tt <- route_time c w ls t0 ;;
  x <- own_tolls w ls ts ;; Ok (tt + x)%Q.

(** the loop 211-221: [route_changed] (set iff [flag_route_changed]), [cost_current], [t_gap], and whether
    [potential_n_swap_updated] was raised *)
Record loop := mkLoop { p_best : option (list lid); p_cost : Q; p_gap : Q; p_pot : bool }.
Definition try_alt (c : cfg) (w : world) (t0 : Q) (flag : bool) (alt : list lid) (s : loop) : result loop :=
  x <- alt_cost c w alt t0 ;;
  if qlt x (p_cost s) then
    Ok (if flag then mkLoop (Some alt) x (p_cost s - x) true else mkLoop (p_best s) (p_cost s) (p_cost s - x) true)
  else Ok s.

(** [routes_specified] (a vehicle is set at most once), [n_swap], [potential_n_swap], [total_t_gap] *)
Record due := mkDue { u_spec : list (vid * list lid); u_nswap : Z; u_pot : Z; u_gap : Q }.
(** The body of the loop over the vehicles, 186-229. [rs o d]: the routes given for the OD pair (None: no entry), converted by
    W.defRoute in the code before the simulation; [forced]: the solver was given [route_sets]; [flag]: [random.random() < swap_prob].
    The logs route_actual and cost_actual are left out. *)
Definition due_vehicle (c : cfg) (w : world) (rs : nid -> nid -> option (list (list key))) (forced : bool) (flag : vid -> bool) (v : vid) (u : due) : result due :=
  d <- of_opt AttributeError (v_dest (V w v)) ;;
  rt <- traveled_route w v true false ;;
  t0 <- of_opt IndexError (nth_error (snd rt) 0) ;;
  match v_state (V w v) with
  | End_ =>
      ks <- of_opt KeyError (rs (v_orig (V w v)) d) ;;
      alts <- mapM (route_new w) ks ;;
      if forced && negb (existsb (route_eqb w (fst rt)) alts) then
        r0 <- of_opt IndexError (nth_error alts 0) ;; Ok (mkDue (u_spec u ++ [(v, r0)]) (u_nswap u) (u_pot u) (u_gap u))
      else
        x <- current_cost c w (fst rt) (snd rt) ;;
        s <- foldM (try_alt c w t0 (flag v)) alts (mkLoop None x 0 false) ;;
        let pot := if p_pot s then (u_pot u + c_deltan c)%Z else u_pot u in
        match p_best s with
        | Some a => Ok (mkDue (u_spec u ++ [(v, a)]) (u_nswap u + c_deltan c)%Z pot (u_gap u + p_gap s)%Q)
        | None => Ok (mkDue (u_spec u ++ [(v, fst rt)]) (u_nswap u) pot (u_gap u + p_gap s)%Q)
        end
  | _ => Ok u
  end.
(** One day on the simulated world [w]; the mean gap (231) raises ZeroDivisionError without vehicles. *)
Definition due_day (c : cfg) (w : world) (rs : nid -> nid -> option (list (list key))) (forced : bool) (flag : vid -> bool) : result due :=
  u <- foldM (due_vehicle c w rs forced flag) (seq 0 (w_nv w)) (mkDue [] 0%Z 0%Z 0%Q) ;;
  _ <- qdiv (u_gap u) (Qof_nat (w_nv w)) ;; Ok u.

(** ** Costs *)

Lemma time_shift : forall c w ls t t' a x, (t == t')%Q -> route_time_from c w ls t a = Ok x -> exists y, route_time c w ls t' = Ok y /\ (x == a + y)%Q.
Proof.
  intros c w ls t t' a x E H. pose proof (time_from_shift c w ls t a) as K. rewrite H in K. pose proof (time_from_eq c w ls t t' 0 0 E ltac:(reflexivity)) as K2.
  unfold route_time. destruct (route_time_from c w ls t 0) as [z|]; cbn [bind same_time] in K; [|contradiction].
  destruct (route_time_from c w ls t' 0) as [z'|]; cbn [same_time] in K2; [|contradiction]. exists z'. split; [reflexivity|]. rewrite K, K2. reflexivity.
Qed.
Lemma day_eq : forall c w ls t t' x, proper_tolls w -> (t == t')%Q -> day_cost c w ls t = Ok x -> exists y, day_cost c w ls t' = Ok y /\ (x == y)%Q.
Proof.
  intros c w ls. induction ls as [|l ls IH]; intros t t' x P E H; cbn [day_cost] in *; [injection H as <-; eexists; split; reflexivity|].
  rewrite <- (att_eq c (L w l) t t' E). destruct (actual_travel_time c (L w l) t) as [a|]; [|discriminate]. cbn [bind] in *.
  destruct (day_cost c w ls (t + a)) as [b|] eqn:D; [|discriminate]. cbn [bind] in *. injection H as <-.
  destruct (IH (t + a)%Q (t' + a)%Q b P ltac:(rewrite E; reflexivity) D) as (y & -> & Ey). cbn [bind]. eexists. split; [reflexivity|].
  rewrite (P l t t' E), Ey. reflexivity.
Qed.

(** the tolls along the hypothetical times *)
Lemma qsum_ext : forall A (f g : A -> Q) l, (forall x, In x l -> (f x == g x)%Q) -> (qsum (map f l) == qsum (map g l))%Q.
Proof. intros A f g l H. induction l as [|a l IH]; cbn; [reflexivity|]. rewrite (H a) by (left; auto). rewrite IH by (intros; apply H; right; auto). reflexivity. Qed.
Lemma alt_cost_spec : forall c w ls t x, proper_tolls w -> alt_cost c w ls t = Ok x -> exists y, day_cost c w ls t = Ok y /\ (x == y)%Q.
Proof.
  intros c w ls. induction ls as [|l ls IH]; intros t x P H; unfold alt_cost in H.
  { cbn in H. injection H as <-. eexists. split; reflexivity. }
  cbn [details] in H. destruct (actual_travel_time c (L w l) t) as [a|] eqn:A; [|discriminate]. cbn [bind] in H.
  destruct (details c w ls (t + a)) as [tts|] eqn:D; [|discriminate]. cbn [bind] in H.
  destruct (route_time c w (l :: ls) t) as [tt|] eqn:R; [|discriminate]. cbn [bind] in H. injection H as <-.
  unfold route_time in R. cbn [route_time_from] in R. rewrite A in R. cbn [bind] in R.
  destruct (time_shift c w ls (t + a) (t + a) (0 + a) tt ltac:(reflexivity) R) as (b & B & Eb).
  assert (K : exists y, alt_cost c w ls (t + a)%Q = Ok y /\ (y == b + qsum (map (fun p => get_toll (L w (snd p)) (t + a + qsum (firstn (fst p) tts))) (combine (seq 0 (List.length ls)) ls)))%Q).
  { unfold alt_cost. rewrite D, B. cbn [bind]. eexists. split; reflexivity. }
  destruct K as (y & K1 & K2). destruct (IH (t + a)%Q y P K1) as (z & Z & Ez). exists (a + get_toll (L w l) t + z)%Q. cbn [day_cost]. rewrite A. cbn [bind]. rewrite Z. cbn [bind].
  split; [reflexivity|]. rewrite <- Ez, K2, Eb. cbn [List.length seq combine map qsum fst snd firstn fold_right].
  rewrite (P l (t + 0)%Q t ltac:(ring)). rewrite <- seq_shift.
  assert (C : forall (f : nat * lid -> Q) (g : nat -> nat) is_ (js : list lid), map f (combine (map g is_) js) = map (fun p => f (g (fst p), snd p)) (combine is_ js)).
  { intros f g is_. induction is_ as [|i is_ IHi]; intros [|j js]; cbn; try reflexivity. rewrite IHi. reflexivity. }
  rewrite C. cbn [fst snd firstn].
  assert (E : (qsum (map (fun p => get_toll (L w (snd p)) (t + qsum (a :: firstn (fst p) tts))) (combine (seq 0 (List.length ls)) ls)) ==
    qsum (map (fun p => get_toll (L w (snd p)) (t + a + qsum (firstn (fst p) tts))) (combine (seq 0 (List.length ls)) ls)))%Q).
  { apply qsum_ext. intros p _. apply P. cbn. ring. }
  fold (@qsum). rewrite E. ring.
Qed.
Lemma own_tolls_sum : forall w ls ts x, own_tolls w ls ts = Ok x -> (x == qsum (map (fun p => get_toll (L w (fst p)) (snd p)) (combine ls ts)))%Q /\ List.length ls <= List.length ts.
Proof.
  intros w ls. induction ls as [|l ls IH]; intros ts x H; cbn [own_tolls] in H.
  - injection H as <-. cbn. split; [reflexivity|lia].
  - destruct ts as [|t ts]; [discriminate|]. destruct (own_tolls w ls ts) as [y|] eqn:E; [|discriminate]. cbn [bind] in H. injection H as <-.
    destruct (IH ts y E) as [A B]. cbn. split; [rewrite A; reflexivity|lia].
Qed.
Lemma current_cost_spec : forall c w ls ts x, current_cost c w ls ts = Ok x -> own_cost c w ls ts x.
Proof.
  intros c w ls ts x H. unfold current_cost in H. destruct (nth_error ts 0) as [t0|] eqn:E0; [|discriminate]. cbn [of_opt bind] in H.
  destruct (route_time c w ls t0) as [y|] eqn:R; [|discriminate]. cbn [bind] in H. destruct (own_tolls w ls ts) as [z|] eqn:O; [|discriminate]. cbn [bind] in H.
  injection H as <-. destruct (own_tolls_sum _ _ _ _ O) as [A _]. exists t0, y. split; [exact E0|]. split; [exact R|]. rewrite A. reflexivity.
Qed.
(** with tolls that do not depend on the time the two costs of a route are the same *)
Lemma day_flat : forall c w ls t x, flat_tolls w ls -> day_cost c w ls t = Ok x ->
  exists y, route_time c w ls t = Ok y /\ (x == y + qsum (map (fun l => get_toll (L w l) 0) ls))%Q.
Proof.
  intros c w ls. induction ls as [|l ls IH]; intros t x F H; cbn [day_cost] in H.
  - injection H as <-. exists 0%Q. split; [reflexivity|]. cbn. ring.
  - destruct (actual_travel_time c (L w l) t) as [a|] eqn:A; [|discriminate]. cbn [bind] in H.
    destruct (day_cost c w ls (t + a)) as [b|] eqn:D; [|discriminate]. cbn [bind] in H. injection H as <-.
    destruct (IH (t + a)%Q b ltac:(intros j u u' Hj; apply F; right; exact Hj) D) as (y & Y & Ey).
    unfold route_time. cbn [route_time_from]. rewrite A. cbn [bind]. pose proof (time_from_shift c w ls (t + a)%Q (0 + a)%Q) as S. unfold route_time in Y. rewrite Y in S. cbn [bind] in S.
    destruct (route_time_from c w ls (t + a) (0 + a)) as [z|]; cbn [same_time] in S; [|contradiction]. exists z. split; [reflexivity|].
    rewrite S, Ey. cbn. rewrite (F l t 0%Q) by (left; reflexivity). unfold qsum. ring.
Qed.
Lemma own_flat : forall c w ls ts t0 x y, flat_tolls w ls -> List.length ls <= List.length ts -> nth_error ts 0 = Some t0 -> own_cost c w ls ts x -> day_cost c w ls t0 = Ok y -> (x == y)%Q.
Proof.
  intros c w ls ts t0 x y F Hl Ht (t1 & z & Ht1 & R & E) D. rewrite Ht in Ht1. injection Ht1 as <-. destruct (day_flat c w ls t0 y F D) as (z' & R' & E').
  rewrite R in R'. injection R' as <-. rewrite E, E'. assert (K : (qsum (map (fun p => get_toll (L w (fst p)) (snd p)) (combine ls ts)) == qsum (map (fun l => get_toll (L w l) 0) ls))%Q); [|rewrite K; reflexivity].
  clear - F Hl. revert ts Hl. induction ls as [|l ls IH]; intros ts Hl; [reflexivity|]. destruct ts as [|t ts]; [cbn in Hl; lia|]. cbn.
  rewrite (F l t 0%Q) by (left; reflexivity). rewrite IH; [reflexivity| |cbn in Hl; lia]. intros j u u' Hj. apply F. right. exact Hj.
Qed.

(** ** The loop over the routes *)
Record LoopOK (c : cfg) (w : world) (t0 x : Q) (flag : bool) (seen : list (list lid)) (s : loop) : Prop := mkLoopOK {
  lo_noflag : flag = false -> p_best s = None /\ p_cost s = x;
  lo_none : p_best s = None -> p_cost s = x /\ (flag = true -> forall b, In b seen -> ~ cheaper c w t0 x b);
  lo_best : forall a, p_best s = Some a -> cheapest c w t0 seen a /\ cheaper c w t0 x a /\ exists y, day_cost c w a t0 = Ok y /\ (y == p_cost s)%Q;
  lo_low : forall b z, flag = true -> In b seen -> day_cost c w b t0 = Ok z -> (p_cost s <= z)%Q;
  lo_le : (p_cost s <= x)%Q;
  lo_pot : p_pot s = true <-> exists b, In b seen /\ cheaper c w t0 x b }.
Lemma LoopOK_step : forall c w t0 x flag seen s alt s', proper_tolls w -> LoopOK c w t0 x flag seen s -> try_alt c w t0 flag alt s = Ok s' ->
  LoopOK c w t0 x flag (seen ++ [alt]) s' /\ exists y, day_cost c w alt t0 = Ok y.
Proof.
  intros c w t0 x flag seen s alt s' P [A1 A2 A3 A4 A5 A6] H. unfold try_alt in H. destruct (alt_cost c w alt t0) as [q|] eqn:Q1; [|discriminate]. cbn [bind] in H.
  destruct (alt_cost_spec c w alt t0 q P Q1) as (y & Y & Ey). split; [|eauto].
  assert (In1 : forall b, In b (seen ++ [alt]) -> In b seen \/ b = alt) by (intros b Hb; apply in_app_iff in Hb; destruct Hb as [Hb|[<-|[]]]; auto).
  destruct (qlt q (p_cost s)) eqn:C.
  - apply qlt_iff in C. assert (Cx : cheaper c w t0 x alt) by (exists y; split; [exact Y|rewrite <- Ey; lra]).
    assert (Pt : true = true <-> exists b, In b (seen ++ [alt]) /\ cheaper c w t0 x b) by (split; [intros _; exists alt; split; [apply in_or_app; right; left; reflexivity|exact Cx]|auto]).
    destruct flag; injection H as <-.
    + constructor; cbn [p_best p_cost p_gap p_pot].
      * discriminate.
      * discriminate.
      * intros a Ea. injection Ea as <-. split; [|split; [exact Cx|exists y; split; [exact Y|rewrite Ey; reflexivity]]].
        split; [apply in_or_app; right; left; reflexivity|]. exists y. split; [exact Y|]. intros b z Hb Hz. apply In1 in Hb. destruct Hb as [Hb| ->].
        -- pose proof (A4 b z eq_refl Hb Hz). rewrite <- Ey. lra.
        -- rewrite Y in Hz. injection Hz as <-. apply Qle_refl.
      * intros b z _ Hb Hz. apply In1 in Hb. destruct Hb as [Hb| ->]; [pose proof (A4 b z eq_refl Hb Hz); lra|]. rewrite Y in Hz. injection Hz as <-. rewrite Ey. apply Qle_refl.
      * lra.
      * exact Pt.
    + constructor; cbn [p_best p_cost p_gap p_pot]; auto.
      * intro N. split; [apply A2; exact N|discriminate].
      * intros a Ea. destruct (A1 eq_refl) as [N _]. congruence.
      * discriminate.
  - apply qlt_false in C. injection H as <-.
    assert (Cx : ~ cheaper c w t0 (p_cost s) alt) by (intros (y' & Y' & L1); rewrite Y in Y'; injection Y' as <-; rewrite <- Ey in L1; lra).
    constructor; auto.
    + intro N. destruct (A2 N) as [B1 B2]. split; [exact B1|]. intros F b Hb. apply In1 in Hb. destruct Hb as [Hb| ->]; [auto|]. rewrite <- B1. exact Cx.
    + intros a Ea. destruct (A3 a Ea) as ((B1 & y' & B2 & B3) & B4 & y2 & B5 & B6). split; [|eauto]. split; [apply in_or_app; auto|]. exists y'. split; [exact B2|].
      intros b z Hb Hz. apply In1 in Hb. destruct Hb as [Hb| ->]; [eauto|]. rewrite B2 in B5. injection B5 as <-. rewrite Y in Hz. injection Hz as <-. rewrite B6, <- Ey. exact C.
    + intros b z F Hb Hz. apply In1 in Hb. destruct Hb as [Hb| ->]; [eauto|]. rewrite Y in Hz. injection Hz as <-. rewrite <- Ey. exact C.
    + rewrite A6. split; [intros (b & B1 & B2); exists b; split; [apply in_or_app; auto|exact B2]|]. intros (b & Hb & B2). apply In1 in Hb. destruct Hb as [Hb| ->]; [eauto|].
      destruct (p_best s) as [a|] eqn:Eb; [destruct (A3 a eq_refl) as ((B3 & _) & B4 & _); eauto|]. exfalso. destruct (A2 eq_refl) as [B _]. apply Cx. rewrite B. exact B2.
Qed.
Lemma LoopOK_fold : forall c w t0 x flag alts seen s s', proper_tolls w -> LoopOK c w t0 x flag seen s -> foldM (try_alt c w t0 flag) alts s = Ok s' ->
  LoopOK c w t0 x flag (seen ++ alts) s'.
Proof.
  intros c w t0 x flag alts. induction alts as [|a alts IH]; intros seen s s' P A H; cbn [foldM] in H.
  - injection H as <-. rewrite app_nil_r. exact A.
  - destruct (try_alt c w t0 flag a s) as [s1|] eqn:E; [|discriminate]. cbn [bind] in H. destruct (LoopOK_step _ _ _ _ _ _ _ _ _ P A E) as [B _].
    replace (seen ++ a :: alts) with ((seen ++ [a]) ++ alts) by (rewrite <- app_assoc; reflexivity). eapply IH; eauto.
Qed.
Lemma LoopOK_start : forall c w t0 x flag, LoopOK c w t0 x flag [] (mkLoop None x 0 false).
Proof.
  intros. constructor; cbn; auto; try discriminate; try contradiction; try apply Qle_refl.
  split; [discriminate|]. intros (b & [] & _).
Qed.

(** ** The day *)

(** What the day decides for an ended vehicle [v] that traveled [r] with the times [ts]: *)
Inductive decision (c : cfg) (w : world) (alts : list (list lid)) (forced flag : bool) (r : list lid) (ts : list Q) : list lid -> bool -> Prop :=
| de_forced : forall r0, forced = true -> existsb (route_eqb w r) alts = false -> nth_error alts 0 = Some r0 ->
    decision c w alts forced flag r ts r0 false
| de_keep : forall t0 x, forced = false \/ existsb (route_eqb w r) alts = true -> nth_error ts 0 = Some t0 -> own_cost c w r ts x ->
    (flag = true -> forall b, In b alts -> ~ cheaper c w t0 x b) -> decision c w alts forced flag r ts r false
| de_swap : forall t0 x r', forced = false \/ existsb (route_eqb w r) alts = true -> nth_error ts 0 = Some t0 -> own_cost c w r ts x ->
    flag = true -> In r' alts -> cheaper c w t0 x r' -> cheapest c w t0 alts r' -> decision c w alts forced flag r ts r' true.

Definition ended_b (w : world) (v : vid) : bool := match v_state (V w v) with End_ => true | _ => false end.
(** [DayOK vs u ds]: [ds] are the decisions for the ended vehicles of [vs], in order. *)
Record DayOK (c : cfg) (w : world) (rs : nid -> nid -> option (list (list key))) (forced : bool) (flag : vid -> bool) (vs : list vid)
    (u : due) (ds : list (vid * list lid * bool)) : Prop := mkDayOK {
  da_vs : map (fun d => fst (fst d)) ds = filter (ended_b w) vs;
  da_spec : u_spec u = map fst ds;
  da_nswap : u_nswap u = (c_deltan c * Z.of_nat (List.length (filter snd ds)))%Z;
  da_dec : forall v r' b, In (v, r', b) ds -> exists d ks alts r ts, v_dest (V w v) = Some d /\ rs (v_orig (V w v)) d = Some ks /\ mapM (route_new w) ks = Ok alts /\
    traveled_route w v true false = Ok (r, ts) /\ decision c w alts forced (flag v) r ts r' b }.

Lemma due_vehicle_day : forall c w rs forced flag vs u ds v u', proper_tolls w -> DayOK c w rs forced flag vs u ds -> due_vehicle c w rs forced flag v u = Ok u' ->
  exists ds', DayOK c w rs forced flag (vs ++ [v]) u' ds'.
Proof.
  intros c w rs forced flag vs u ds v u' P [A1 A2 A3 A4] H. unfold due_vehicle in H.
  destruct (v_dest (V w v)) as [d|] eqn:D; [|discriminate]. cbn [of_opt bind] in H.
  destruct (traveled_route w v true false) as [[r ts]|] eqn:R; [|discriminate]. cbn [bind fst snd] in H.
  destruct (nth_error ts 0) as [t0|] eqn:T0; [|discriminate]. cbn [of_opt bind] in H.
  destruct (ended_b w v) eqn:E.
  2:{ exists ds. replace u' with u by (unfold ended_b in E; destruct (v_state (V w v)); try discriminate; injection H as ->; reflexivity).
      constructor; auto. rewrite A1, filter_app. cbn [filter]. rewrite E. symmetry. apply app_nil_r. }
  assert (E2 : v_state (V w v) = End_) by (unfold ended_b in E; destruct (v_state (V w v)); try discriminate; reflexivity). rewrite E2 in H.
  destruct (rs (v_orig (V w v)) d) as [ks|] eqn:K; [|discriminate]. cbn [of_opt bind] in H.
  destruct (mapM (route_new w) ks) as [alts|] eqn:M; [|discriminate]. cbn [bind] in H.
  assert (G : forall r' b, u_spec u' = u_spec u ++ [(v, r')] -> u_nswap u' = (u_nswap u + if b : bool then c_deltan c else 0)%Z -> decision c w alts forced (flag v) r ts r' b ->
    exists ds', DayOK c w rs forced flag (vs ++ [v]) u' ds').
  { intros r' b G1 G2 G3. exists (ds ++ [(v, r', b)]). constructor.
    - rewrite map_app, A1, filter_app. cbn [filter map fst]. rewrite E. reflexivity.
    - rewrite G1, A2, map_app. reflexivity.
    - rewrite G2, A3, filter_app, app_length. cbn [filter snd]. destruct b; cbn [List.length]; lia.
    - intros v0 r0 b0 Hi. apply in_app_iff in Hi. destruct Hi as [Hi|[Hi|[]]]; [eauto|]. injection Hi as <- <- <-. exists d, ks, alts, r, ts. auto. }
  destruct (forced && negb (existsb (route_eqb w r) alts)) eqn:F.
  - apply andb_true_iff in F. destruct F as [F1 F2]. apply negb_true_iff in F2. destruct (nth_error alts 0) as [r0|] eqn:N0; [|discriminate]. cbn [of_opt bind] in H. injection H as <-.
    apply (G r0 false); cbn [u_spec u_nswap]; [reflexivity|lia|]. apply de_forced; auto.
  - assert (F1 : forced = false \/ existsb (route_eqb w r) alts = true).
    { apply andb_false_iff in F. destruct F as [F|F]; [auto|]. apply negb_false_iff in F. auto. }
    destruct (current_cost c w r ts) as [x|] eqn:C; [|discriminate]. cbn [bind] in H. apply current_cost_spec in C.
    destruct (foldM (try_alt c w t0 (flag v)) alts (mkLoop None x 0 false)) as [s|] eqn:S; [|discriminate]. cbn [bind] in H.
    pose proof (LoopOK_fold _ _ _ _ _ _ _ _ _ P (LoopOK_start c w t0 x (flag v)) S) as [B1 B2 B3 B4 B5 B6]. cbn [app] in *.
    destruct (p_best s) as [a|] eqn:Eb; injection H as <-.
    + destruct (B3 a eq_refl) as (C1 & C2 & _). apply (G a true); cbn [u_spec u_nswap]; [reflexivity|lia|]. eapply de_swap; eauto.
      * destruct (flag v) eqn:Fl; [reflexivity|]. destruct (B1 eq_refl). discriminate.
      * apply C1.
    + destruct (B2 eq_refl) as [_ C2]. apply (G r false); cbn [u_spec u_nswap]; [reflexivity|lia|]. eapply de_keep; eauto.
Qed.
Lemma day_fold : forall c w rs forced flag vs vs0 u ds u', proper_tolls w -> DayOK c w rs forced flag vs0 u ds -> foldM (due_vehicle c w rs forced flag) vs u = Ok u' ->
  exists ds', DayOK c w rs forced flag (vs0 ++ vs) u' ds'.
Proof.
  intros c w rs forced flag vs. induction vs as [|v vs IH]; intros vs0 u ds u' P A H; cbn [foldM] in H.
  - injection H as <-. rewrite app_nil_r. eauto.
  - destruct (due_vehicle c w rs forced flag v u) as [u1|] eqn:E; [|discriminate]. cbn [bind] in H. destruct (due_vehicle_day _ _ _ _ _ _ _ _ _ _ P A E) as (ds1 & B).
    replace (vs0 ++ v :: vs) with ((vs0 ++ [v]) ++ vs) by (rewrite <- app_assoc; reflexivity). eapply IH; eauto.
Qed.

(** C42: the decisions of a day *)
Theorem due_lemma : forall c w rs forced flag u, proper_tolls w -> due_day c w rs forced flag = Ok u ->
  exists ds, DayOK c w rs forced flag (seq 0 (w_nv w)) u ds.
Proof.
  intros c w rs forced flag u P H. unfold due_day in H. destruct (foldM _ _ _) as [u1|] eqn:E; [|discriminate]. cbn [bind] in H.
  destruct (qdiv (u_gap u1) (Qof_nat (w_nv w))); [|discriminate]. cbn [bind] in H. injection H as <-.
  apply (day_fold c w rs forced flag (seq 0 (w_nv w)) [] (mkDue [] 0%Z 0%Z 0%Q) [] u1 P); [|exact E]. constructor; cbn; auto; try lia; try contradiction.
Qed.

(** With tolls that do not depend on the time a vehicle never swaps to the route it traveled: the swapped vehicles are those that get
    another route. *)
Theorem swap_changes : forall c w alts forced flag r ts r', flat_tolls w r -> List.length r <= List.length ts -> decision c w alts forced flag r ts r' true -> r' <> r.
Proof.
  intros c w alts forced flag r ts r' F Hl H E. subst r'. inversion H; subst. destruct H5 as (y & Y & L1). pose proof (own_flat c w r ts t0 x y F Hl H1 H2 Y) as K. lra.
Qed.
Lemma tlog_times_length : forall log, List.length (links_of log) = List.length (log_times false log).
Proof.
  intro log. unfold links_of, log_times. induction log as [|[t p] log IH]; cbn; [reflexivity|]. destruct p; cbn; auto.
Qed.
Lemma traveled_shape : forall c w v r ts, reach c w -> exists_veh w v -> traveled_route w v true false = Ok (r, ts) ->
  r = links_of (v_tlog (V w v)) /\ List.length ts = S (List.length r).
Proof.
  intros c w v r ts R Hv H. destruct (traveled_lemma c w v true false R Hv) as (ls & ts' & K & -> & _). rewrite H in K. injection K as -> ->. split; [reflexivity|].
  unfold traveled_route in H. destruct (last_opt (v_tlog (V w v))) as [e|]; [|discriminate]. cbn [of_opt bind] in H.
  destruct (route_new w (map KOwn (links_of (v_tlog (V w v))))); [|discriminate]. cbn [bind] in H. injection H as _ <-.
  rewrite app_length, tlog_times_length. cbn [List.length]. lia.
Qed.

(** what the vehicle traveled *)
Definition traveled (w : world) (v : vid) : list lid := links_of (v_tlog (V w v)).

Theorem due_swaps : forall c w rs flag u, reach c w -> proper_tolls w -> due_day c w rs false flag = Ok u ->
  map fst (u_spec u) = filter (ended_b w) (seq 0 (w_nv w)) /\
  exists swapped, NoDup swapped /\ u_nswap u = (c_deltan c * Z.of_nat (List.length swapped))%Z /\ incl swapped (map fst (u_spec u)) /\
    forall v r', In (v, r') (u_spec u) ->
      exists d ks alts ts t0 x, v_dest (V w v) = Some d /\ rs (v_orig (V w v)) d = Some ks /\ mapM (route_new w) ks = Ok alts /\
        traveled_route w v true false = Ok (traveled w v, ts) /\ nth_error ts 0 = Some t0 /\ own_cost c w (traveled w v) ts x /\
        (In v swapped -> flag v = true /\ In r' alts /\ cheaper c w t0 x r' /\ cheapest c w t0 alts r') /\
        (~ In v swapped -> r' = traveled w v /\ (flag v = true -> forall b, In b alts -> ~ cheaper c w t0 x b)) /\
        (flat_tolls w (traveled w v) -> (In v swapped <-> r' <> traveled w v)).
Proof.
  intros c w rs flag u R P H. destruct (due_lemma c w rs false flag u P H) as (ds & [A1 A2 A3 A4]).
  assert (Ev : map fst (u_spec u) = filter (ended_b w) (seq 0 (w_nv w))) by (rewrite A2, map_map; exact A1).
  split; [exact Ev|].
  assert (Nd : NoDup (map (fun d : vid * list lid * bool => fst (fst d)) ds)) by (rewrite A1; apply NoDup_filter, seq_NoDup).
  exists (map (fun d => fst (fst d)) (filter snd ds)).
  assert (Nf : forall (l : list (vid * list lid * bool)), NoDup (map (fun d => fst (fst d)) l) -> NoDup (map (fun d => fst (fst d)) (filter snd l))).
  { intro l. induction l as [|a l IH]; intro N; cbn in *; [constructor|]. inversion N; subst. destruct (snd a); cbn; [|auto]. constructor; [|auto].
    intro K. apply H2. apply in_map_iff in K. destruct K as (b & K1 & K2). apply filter_In in K2. apply in_map_iff. exists b. split; [exact K1|apply K2]. }
  split; [apply Nf, Nd|]. split; [rewrite A3, map_length; reflexivity|]. split.
  { intros v Hv. rewrite Ev, <- A1. apply in_map_iff in Hv. destruct Hv as (b & K1 & K2). apply filter_In in K2. apply in_map_iff. exists b. split; [exact K1|apply K2]. }
  intros v r' Hi. rewrite A2 in Hi. apply in_map_iff in Hi. destruct Hi as ([[v1 r1] b] & Hi1 & Hi). cbn [fst] in Hi1. injection Hi1 as -> ->.
  assert (Sw : In v (map (fun d => fst (fst d)) (filter snd ds)) <-> b = true).
  { split.
    - intro K. apply in_map_iff in K. destruct K as ([[v2 r2] b2] & K1 & K2). cbn [fst] in K1. subst v2. apply filter_In in K2. destruct K2 as [K2 K3]. cbn [snd] in K3.
      clear - Nd K2 K3 Hi. induction ds as [|a ds IH]; [destruct Hi|]. cbn [map] in Nd. inversion Nd; subst.
      destruct Hi as [Hi|Hi], K2 as [K2|K2]; [congruence| | |auto].
      + exfalso. apply H1. subst a. cbn [fst]. apply in_map_iff. eexists. split; [|exact K2]. reflexivity.
      + exfalso. apply H1. subst a. cbn [fst]. apply in_map_iff. eexists. split; [|exact Hi]. reflexivity.
    - intros ->. apply in_map_iff. exists (v, r', true). split; [reflexivity|]. apply filter_In. auto. }
  assert (Hv : exists_veh w v).
  { assert (K : In v (filter (ended_b w) (seq 0 (w_nv w)))) by (rewrite <- A1; apply in_map_iff; exists (v, r', b); auto). apply filter_In in K. destruct K as [K _]. apply in_seq in K. unfold exists_veh. lia. }
  destruct (A4 v r' b Hi) as (d & ks & alts & r & ts & B1 & B2 & B3 & B4 & B5). destruct (traveled_shape c w v r ts R Hv B4) as [Er El]. fold (traveled w v) in Er. subst r.
  assert (Hl : List.length (traveled w v) <= List.length ts) by lia.
  exists d, ks, alts, ts. inversion B5 as [r0 F|t0 x F T0 O N Er Eb|t0 x r2 F T0 O Fl Ia Ch Cp Er Eb]; [discriminate|subst b r'|subst b r2]; exists t0, x; (split; [exact B1|]); (split; [exact B2|]); (split; [exact B3|]); (split; [exact B4|]); (split; [exact T0|]); (split; [exact O|]).
  - split; [intro K; apply Sw in K; discriminate|]. split; [auto|]. intros _. split; [intro K; apply Sw in K; discriminate|intro K; contradiction].
  - split; [auto|]. split; [intro K; exfalso; apply K, Sw; reflexivity|]. intro Ft. split; [|intro; apply Sw; reflexivity]. intros _. apply (swap_changes c w alts false (flag v) (traveled w v) ts r' Ft Hl B5).
Qed.

(** Given [route_sets], a vehicle whose traveled route is not in the set gets the first route of the set, without being counted. *)
Theorem due_forced : forall c w rs flag u v r', reach c w -> proper_tolls w -> due_day c w rs true flag = Ok u -> In (v, r') (u_spec u) ->
  exists d ks alts, v_dest (V w v) = Some d /\ rs (v_orig (V w v)) d = Some ks /\ mapM (route_new w) ks = Ok alts /\
    (existsb (route_eqb w (traveled w v)) alts = false -> nth_error alts 0 = Some r') /\ In r' (traveled w v :: alts).
Proof.
  intros c w rs flag u v r' R P H Hi. destruct (due_lemma c w rs true flag u P H) as (ds & [A1 A2 A3 A4]).
  rewrite A2 in Hi. apply in_map_iff in Hi. destruct Hi as ([[v1 r1] b] & Hi1 & Hi). cbn [fst] in Hi1. injection Hi1 as -> ->.
  assert (Hv : exists_veh w v).
  { assert (K : In v (filter (ended_b w) (seq 0 (w_nv w)))) by (rewrite <- A1; apply in_map_iff; exists (v, r', b); auto). apply filter_In in K. destruct K as [K _]. apply in_seq in K. unfold exists_veh. lia. }
  destruct (A4 v r' b Hi) as (d & ks & alts & r & ts & B1 & B2 & B3 & B4 & B5). destruct (traveled_shape c w v r ts R Hv B4) as [Er El]. fold (traveled w v) in Er. subst r.
  exists d, ks, alts. split; [exact B1|]. split; [exact B2|]. split; [exact B3|].
  inversion B5 as [r0 F Fn N0|t0 x F T0 O N Er Eb|t0 x r2 F T0 O Fl Ia Ch Cp Er Eb]; [subst|subst|subst].
  - split; [auto|]. right. eapply nth_error_In; eauto.
  - split; [|left; reflexivity]. intro K. destruct F; congruence.
  - split; [|right; exact Ia]. intro K. destruct F; congruence.
Qed.

(** the day does not fail: every link has recorded travel times, every vehicle has a destination and a route set of valid routes *)
Lemma clamp_ok : forall A (l : list A) z, l <> [] -> exists x, clamp_get l z = Ok x.
Proof.
  intros A l z H. unfold clamp_get. destruct (Z.leb_spec (Z.of_nat (List.length l)) z).
  - destruct (last_opt l) eqn:E; [eexists; reflexivity|]. exfalso. apply H, last_opt_nil, E.
  - destruct (Z.ltb_spec z 0).
    + destruct l as [|a l]; [contradiction|]. eexists. reflexivity.
    + destruct (nth_error l (Z.to_nat z)) eqn:E; [eexists; reflexivity|]. apply nth_error_None in E. lia.
Qed.
Lemma times_ok : forall c w ls t a, (forall l, In l ls -> l_tta (L w l) <> []) -> (exists x, route_time_from c w ls t a = Ok x) /\ exists ts, details c w ls t = Ok ts.
Proof.
  intros c w ls. induction ls as [|l ls IH]; intros t a H; cbn [route_time_from details]; [split; eexists; reflexivity|].
  destruct (clamp_ok Q (l_tta (L w l)) (slot c t) (H l (or_introl eq_refl))) as (x & E). unfold actual_travel_time at 1 2. rewrite E. cbn [bind].
  destruct (IH (t + x)%Q (a + x)%Q ltac:(intros; apply H; right; auto)) as [[y Y] [ts T]]. rewrite T. cbn [bind]. split; [eauto|eexists; reflexivity].
Qed.

Definition routes_ok (w : world) (rs : nid -> nid -> option (list (list key))) : Prop :=
  forall v, exists_veh w v -> exists d ks alts, v_dest (V w v) = Some d /\ rs (v_orig (V w v)) d = Some ks /\ mapM (route_new w) ks = Ok alts /\ alts <> [] /\
    forall a l, In a alts -> In l a -> exists_link w l.
Lemma own_tolls_ok : forall w ls ts, List.length ls <= List.length ts -> exists x, own_tolls w ls ts = Ok x.
Proof.
  intros w ls. induction ls as [|l ls IH]; intros ts H; cbn [own_tolls]; [eexists; reflexivity|]. destruct ts as [|t ts]; [cbn in H; lia|].
  destruct (IH ts ltac:(cbn in H; lia)) as (x & ->). eexists. reflexivity.
Qed.
Lemma try_ok : forall c w t0 flag alts s, (forall a l, In a alts -> In l a -> l_tta (L w l) <> []) -> exists s', foldM (try_alt c w t0 flag) alts s = Ok s'.
Proof.
  intros c w t0 flag alts. induction alts as [|a alts IH]; intros s H; cbn [foldM]; [eexists; reflexivity|]. unfold try_alt at 1. unfold alt_cost.
  destruct (times_ok c w a t0 0%Q ltac:(intros l Hl; apply (H a); [left; reflexivity|exact Hl])) as [[x X] [ts T]]. rewrite T. cbn [bind]. unfold route_time. rewrite X. cbn [bind].
  destruct (qlt _ _); cbn [bind]; apply IH; intros; eapply H; eauto; right; auto.
Qed.
Theorem due_total : forall c w rs forced flag, reach c w -> w_nv w <> 0 -> (forall l, exists_link w l -> l_tta (L w l) <> []) -> routes_ok w rs ->
  exists u, due_day c w rs forced flag = Ok u.
Proof.
  intros c w rs forced flag R Hn Ht Ho. unfold due_day.
  assert (G : forall vs u, (forall v, In v vs -> exists_veh w v) -> exists u', foldM (due_vehicle c w rs forced flag) vs u = Ok u').
  { intro vs. induction vs as [|v vs IH]; intros u Hv; cbn [foldM]; [eexists; reflexivity|].
    assert (G1 : exists u1, due_vehicle c w rs forced flag v u = Ok u1).
    { pose proof (Hv v (or_introl eq_refl)) as Ev. destruct (Ho v Ev) as (d & ks & alts & D & K & M & Na & Hl).
      destruct (traveled_lemma c w v true false R Ev) as (ls & ts & T & El & Fl & _). destruct (traveled_shape c w v ls ts R Ev T) as [_ Hlen].
      unfold due_vehicle. rewrite D, T. cbn [of_opt bind fst snd]. destruct ts as [|t0 ts]; [discriminate|]. cbn [nth_error of_opt bind].
      destruct (v_state (V w v)); try (eexists; reflexivity). rewrite K. cbn [of_opt bind]. rewrite M. cbn [bind]. destruct (forced && _).
      - destruct alts as [|a alts]; [contradiction|]. cbn. eexists. reflexivity.
      - unfold current_cost. cbn [nth_error of_opt bind].
        destruct (times_ok c w ls t0 0%Q ltac:(intros l Hi; apply Ht; rewrite Forall_forall in Fl; apply Fl; exact Hi)) as [[x X] _]. unfold route_time. rewrite X. cbn [bind].
        destruct (own_tolls_ok w ls (t0 :: ts) ltac:(lia)) as (y & ->). cbn [bind].
        destruct (try_ok c w t0 (flag v) alts (mkLoop None (x + y)%Q 0 false) ltac:(intros a l Ha Hi; apply Ht, (Hl a l Ha Hi))) as (s & ->). cbn [bind].
        destruct (p_best s); eexists; reflexivity. }
    destruct G1 as (u1 & ->). cbn [bind]. apply IH. intros; apply Hv; right; auto. }
  destruct (G (seq 0 (w_nv w)) (mkDue [] 0%Z 0%Z 0%Q)) as (u & ->). { intros v Hv. apply in_seq in Hv. unfold exists_veh. lia. } cbn [bind].
  unfold qdiv. destruct (qeq (Qof_nat (w_nv w)) 0) eqn:E; [|eexists; reflexivity]. exfalso. apply qeq_iff in E. unfold Qof_nat in E. change 0%Q with (inject_Z 0) in E. rewrite inject_Z_injective in E. lia.
Qed.
