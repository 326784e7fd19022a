(** * CppDta: the route swaps of the compiled day-to-day solvers, uxsim/trafficpp/dta_solver.cpp and dta_solver.h, and the flat arrays in
    which routes are handed over, uxsim/trafficpp/bindings.cpp 45-62, 242-271, 644-660 and DTAsolvers_cpp_adapter.py 176-241. *)
From Verif Require Import Base Types Sim Build Heap Lists Inv FrameBase Tac Frame Eff Eff2 Trace InvStep Reach Steps Effects Phases Attr Life Incoming Vev Ride TripLog Counts Registry LinkQueries Route Spec SpecDue Due Demand Average SpecDso Dso CppExt.
From Verif Require SpecLogs CppLog.
Local Open Scope nat_scope.

(** ** The model *)

(** the index into a record: cast to int (towards zero), then into the range *)
Definition clamp_ix (c : cfg) (n : nat) (t : Q) : Z :=
  let i0 := qtrunc (t / dt c) in let i := if (i0 <? 0)%Z then 0%Z else i0 in
  if (Z.of_nat n <=? i)%Z then (Z.of_nat n - 1)%Z else i.
(** [dta_get_toll], dta_solver.h 45-53: [toll_timeseries] holds congestion_pricing at the start of each of the [n] timesteps
    (_lightweight_finalize, DTAsolvers_cpp_adapter.py 92-96) *)
Definition toll_time (c : cfg) (n : nat) (t : Q) : Q := (inject_Z (clamp_ix c n t) * dt c)%Q.
Definition cpp_toll (c : cfg) (n : nat) (k : link) (t : Q) : Q :=
  match l_toll k with Some f => if n =? 0 then l_penalty k else f (toll_time c n t) | None => l_penalty k end.
(** [dta_get_actual_travel_time], 56-64 *)
Definition cpp_att (c : cfg) (k : link) (t : Q) : Q :=
  match l_tta k with
  | [] => (l_len k / l_u k)%Q
  | _ => nth (Z.to_nat (clamp_ix c (List.length (l_tta k)) t)) (l_tta k) 0%Q
  end.
(** [dta_get_traveled_route], dta_solver.cpp 30-54: links and entry times *)
Fixpoint dta_traveled (prev : option lid) (rows : list logrow) : list (lid * Q) :=
  match rows with
  | [] => []
  | r :: tl =>
      match g_link r with
      | Some l => if opt_eqb (Some l) prev then dta_traveled prev tl else (l, g_t r) :: dta_traveled (Some l) tl
      | None => dta_traveled prev tl
      end
  end.
(** [dta_compute_route_cost_due], 75-89; the cost of the traveled route, 199-212; [dta_compute_route_cost_dso], 91-106 *)
Fixpoint cpp_due_from (c : cfg) (n : nat) (w : world) (ls : list lid) (t tt toll : Q) : Q :=
  match ls with
  | [] => (tt + toll)%Q
  | l :: tl => let x := cpp_att c (L w l) t in cpp_due_from c n w tl (t + x)%Q (tt + x)%Q (toll + cpp_toll c n (L w l) t)%Q
  end.
Definition cpp_due_cost (c : cfg) (n : nat) (w : world) (t : Q) (ls : list lid) : result Q := Ok (cpp_due_from c n w ls t 0 0).
Fixpoint cpp_own_from (c : cfg) (n : nat) (w : world) (ls : list lid) (ents : list Q) (t x : Q) : Q :=
  match ls with
  | [] => x
  | l :: r => let y := cpp_att c (L w l) t in
      cpp_own_from c n w r (tl ents) (t + y)%Q (x + cpp_toll c n (L w l) (match ents with e :: _ => e | [] => t end) + y)%Q
  end.
Definition cpp_due_own (c : cfg) (n : nat) (w : world) (ls : list lid) (ents : list Q) (t : Q) : result Q := Ok (cpp_own_from c n w ls ents t 0).
Fixpoint cpp_dso_from (c : cfg) (w : world) (ls : list lid) (t tt ext : Q) : result Q :=
  match ls with
  | [] => Ok (tt + ext)%Q
  | l :: r => let x := cpp_att c (L w l) t in
      e <- cpp_ext c (L w l) (qtrunc (t / dt c)) ;; cpp_dso_from c w r (t + x)%Q (tt + x)%Q (ext + e)%Q
  end.
Definition cpp_dso_cost (c : cfg) (w : world) (t : Q) (ls : list lid) : result Q := cpp_dso_from c w ls t 0 0.
Definition cpp_dso_own (c : cfg) (w : world) (ls : list lid) (ents : list Q) (t : Q) : result Q := cpp_dso_cost c w t ls.

(** the loop over the routes, 219-233: [route_changed_idx] (-1: None), [cost_current], [t_gap], [potential_n_swap_delta] *)
Record cloop := mkCloop { o_idx : option nat; o_cost : Q; o_gap : Q; o_pot : Z }.
Definition cpp_try (c : cfg) (f : list lid -> result Q) (flag : bool) (p : nat * list lid) (s : cloop) : result cloop :=
  x <- f (snd p) ;;
  if qlt x (o_cost s) then
    if negb (match o_idx s with Some _ => true | None => false end) || qlt x (o_cost s) then
      Ok (if flag then mkCloop (Some (fst p)) x (o_cost s - x) (c_deltan c) else mkCloop (o_idx s) (o_cost s) (o_cost s - x) (c_deltan c))
    else Ok s
  else Ok s.
(** [routes_specified] (one entry for each vehicle, empty: none), [n_swap], [potential_n_swap], [total_t_gap] *)
Record cswap := mkCswap { s_spec : list (list lid); s_nswap : Z; s_pot : Z; s_gap : Q }.
(** The body of the loop over the vehicles, 149-245 and 299-365. [store]: the route sets; [flag v]: the draw of the vehicle; [tr v]: links and entry
    times of [dta_get_traveled_route]. Two solvers, one loop: [altg t0] is the cost of a route of the set, [owng] that of the traveled one.
    [departure_time], read only for a vehicle that has ended without any link, is counted in timesteps here. *)
Definition cpp_swap_vehicle (c : cfg) (w : world) (altg : Q -> list lid -> result Q) (owng : list lid -> list Q -> Q -> result Q)
    (store : nid -> nid -> option (list (list lid))) (forced : bool) (flag : vid -> bool) (tr : vid -> list lid * list Q) (v : vid) (u : cswap) : result cswap :=
  d <- of_opt AttributeError (v_dest (V w v)) ;;
  let ls := fst (tr v) in let ents := snd (tr v) in
  let put := fun r => mkCswap (s_spec u ++ [r]) (s_nswap u) (s_pot u) (s_gap u) in
  match v_state (V w v) with
  | End_ =>
      match store (v_orig (V w v)) d with
      | None => Ok (put ls)
      | Some set =>
          match (if forced && negb (existsb (fun r => if list_eq_dec Nat.eq_dec r ls then true else false) set) then nth_error set 0 else None) with
          | Some r0 => Ok (put r0)
          | None =>
              let t0 := match ents with e :: _ => e | [] => (inject_Z (v_dep (V w v)) * dt c)%Q end in
              x <- owng ls ents t0 ;;
              s <- foldM (cpp_try c (altg t0) (flag v)) (combine (seq 0 (List.length set)) set) (mkCloop None x 0 0) ;;
              match o_idx s with
              | Some i => r <- of_opt IndexError (nth_error set i) ;; Ok (mkCswap (s_spec u ++ [r]) (s_nswap u + c_deltan c) (s_pot u + o_pot s) (s_gap u + o_gap s)%Q)
              | None => Ok (mkCswap (s_spec u ++ [ls]) (s_nswap u) (s_pot u + o_pot s) (s_gap u + o_gap s)%Q)
              end
          end
      end
  | _ => Ok (put [])
  end.
Definition cpp_swap (c : cfg) (w : world) altg owng store (forced : bool) (flag : vid -> bool) tr : result cswap :=
  foldM (cpp_swap_vehicle c w altg owng store forced flag tr) (seq 0 (w_nv w)) (mkCswap [] 0 0 0%Q).

(** [routes_to_csr], bindings.cpp 47-62: the links of all routes in a row, and where each route begins *)
Fixpoint offsets_from {A} (a : nat) (rs : list (list A)) : list nat := match rs with [] => [a] | r :: tl => a :: offsets_from (a + List.length r) tl end.
Definition to_csr {A} (rs : list (list A)) : list A * list nat := (List.concat rs, offsets_from 0 rs).
(** [values[off[i]:off[i+1]]] for every i, adapter 202-207 and bindings.cpp 649-657 *)
Definition slice {A} (l : list A) (a b : nat) : list A := firstn (b - a) (skipn a l).
Fixpoint from_csr {A} (vals : list A) (off : list nat) : list (list A) :=
  match off with
  | a :: (b :: _) as tl => slice vals a b :: from_csr vals tl
  | _ => []
  end.
(** [ODRouteSetStore.to_csr], 242-271, and [_build_od_name_dict_from_csr], adapter 162-187: pairs, number of routes, routes, links *)
Definition store_csr (s : list ((nid * nid) * list (list lid))) : list (nid * nid) * list nat * list nat * list lid :=
  (map fst s, offsets_from 0 (map snd s), offsets_from 0 (List.concat (map snd s)), List.concat (List.concat (map snd s))).
Definition store_names (w : world) (x : list (nid * nid) * list nat * list nat * list lid) : list ((string * string) * list (list string)) :=
  let '(ods, roff, loff, ids) := x in
  map (fun p => ((n_name (N w (fst (fst p))), n_name (N w (snd (fst p)))), map (map (fun l => l_name (L w l))) (snd p)))
      (combine ods (from_csr (from_csr ids loff) roff)).

(** ** Travel times and tolls *)
Lemma clamp_slot : forall c n t, (0 < dt c)%Q -> 0 < n -> clamp_ix c n t = (if (Z.of_nat n <=? slot c t)%Z then Z.of_nat n - 1 else if (slot c t <? 0)%Z then 0 else slot c t)%Z.
Proof.
  intros c n t Hd Hn. unfold clamp_ix, slot. cbv zeta. destruct (Qlt_le_dec t 0) as [Lt|Le].
  - assert (A : (t / dt c < 0)%Q) by (apply Qlt_shift_div_r; [exact Hd|lra]).
    assert (B : (Qfloor (t / dt c) < 0)%Z). { destruct (Z_lt_le_dec (Qfloor (t / dt c)) 0) as [|G]; [assumption|]. pose proof (Qfloor_le (t / dt c)) as F.
      assert (0 <= inject_Z (Qfloor (t / dt c)))%Q by (change 0%Q with (inject_Z 0); rewrite <- Zle_Qle; exact G). lra. }
    assert (C : (qtrunc (t / dt c) <= 0)%Z).
    { destruct (t / dt c)%Q as [a b]. unfold Qlt in A; cbn in A. unfold qtrunc. cbn. assert (H0 : (a < 0)%Z) by lia. pose proof (Z.quot_opp_l (- a) (Z.pos b) ltac:(lia)) as E. rewrite Z.opp_involutive in E.
      pose proof (Z.quot_pos (- a) (Z.pos b) ltac:(lia) ltac:(lia)). lia. }
    destruct (Z.leb_spec (Z.of_nat n) (Qfloor (t / dt c))); [lia|]. destruct (Z.ltb_spec (Qfloor (t / dt c)) 0); [|lia].
    destruct (Z.ltb_spec (qtrunc (t / dt c)) 0); [destruct (Z.leb_spec (Z.of_nat n) 0); lia|]. destruct (Z.leb_spec (Z.of_nat n) (qtrunc (t / dt c))); lia.
  - assert (A : (0 <= t / dt c)%Q) by (apply Qle_shift_div_l; [exact Hd|lra]). rewrite (qtrunc_floor _ A).
    assert (B : (0 <= Qfloor (t / dt c))%Z) by (apply Qfloor_resp_le in A; exact A).
    destruct (Z.ltb_spec (Qfloor (t / dt c)) 0); [lia|]. reflexivity.
Qed.
Lemma cpp_att_nth : forall c k t, l_tta k <> [] -> cpp_att c k t = nth (Z.to_nat (clamp_ix c (List.length (l_tta k)) t)) (l_tta k) 0%Q.
Proof. intros c k t H. unfold cpp_att. destruct (l_tta k); [congruence|reflexivity]. Qed.
Theorem cpp_att_same : forall c k t, (0 < dt c)%Q -> l_tta k <> [] -> actual_travel_time c k t = Ok (cpp_att c k t).
Proof.
  intros c k t Hd Hk. rewrite cpp_att_nth by exact Hk. unfold actual_travel_time, clamp_get. assert (Hn : 0 < List.length (l_tta k)) by (destruct (l_tta k); [congruence|cbn; lia]).
  rewrite (clamp_slot c _ t Hd Hn). generalize dependent (l_tta k). intros l Hk Hn.
  assert (G : forall i, i < List.length l -> nth_error l i = Some (nth i l 0%Q)) by (intros i Hi; apply nth_error_nth'; exact Hi).
  destruct (Z.leb_spec (Z.of_nat (List.length l)) (slot c t)).
  - replace (Z.to_nat (Z.of_nat (List.length l) - 1)) with (List.length l - 1) by lia.
    assert (X : last_opt l = Some (nth (List.length l - 1) l 0%Q)).
    { destruct (exists_last Hk) as (l' & z & ->). rewrite app_length. cbn. replace (List.length l' + 1 - 1) with (List.length l') by lia. rewrite nth_middle. apply last_opt_snoc. }
    rewrite X. reflexivity.
  - destruct (Z.ltb_spec (slot c t) 0); rewrite G by lia; reflexivity.
Qed.
(** tolls that change at the beginnings of timesteps only *)
Definition step_tolls (c : cfg) (n : nat) (w : world) : Prop :=
  forall l f, exists_link w l -> l_toll (L w l) = Some f -> 0 < n /\ forall t, (f t == f (toll_time c n t))%Q.
Lemma cpp_toll_same : forall c n w l t, step_tolls c n w -> exists_link w l -> (cpp_toll c n (L w l) t == get_toll (L w l) t)%Q.
Proof.
  intros c n w l t H Hl. unfold cpp_toll, get_toll. destruct (l_toll (L w l)) as [f|] eqn:E.
  - destruct (H l f Hl E) as [Hn Hf]. destruct (Nat.eqb_spec n 0); [lia|]. symmetry. apply Hf.
  - destruct (qeq (l_penalty (L w l)) 0) eqn:Z; [|reflexivity]. apply qeq_iff in Z. exact Z.
Qed.

(** ** Costs *)
Definition recorded (w : world) : Prop := forall l, exists_link w l -> l_tta (L w l) <> [].
Theorem cpp_due_cost_same : forall c n w ls t x, (0 < dt c)%Q -> recorded w -> step_tolls c n w -> Forall (exists_link w) ls -> day_cost c w ls t = Ok x ->
  exists y, cpp_due_cost c n w t ls = Ok y /\ (y == x)%Q.
Proof.
  intros c n w ls t x Hd Hr Ht Hl H. unfold cpp_due_cost. eexists. split; [reflexivity|].
  enough (G : forall a b, (cpp_due_from c n w ls t a b == a + b + x)%Q) by (rewrite G; ring).
  revert t x H. induction Hl as [|l ls Hl1 Hl IH]; intros t x H a b; cbn [day_cost cpp_due_from] in *; [injection H as <-; ring|].
  rewrite (cpp_att_same c (L w l) t Hd (Hr l Hl1)) in H. cbn [bind] in H. destruct (day_cost c w ls (t + cpp_att c (L w l) t)) as [z|] eqn:D; [|discriminate]. cbn [bind] in H. injection H as <-.
  cbv zeta. rewrite (IH _ z D). rewrite (cpp_toll_same c n w l t Ht Hl1). ring.
Qed.
Lemma own_from_sum : forall c n w ls ents t x y, (0 < dt c)%Q -> recorded w -> step_tolls c n w -> Forall (exists_link w) ls -> List.length ls <= List.length ents ->
  route_time_from c w ls t x = Ok y ->
  forall a, (cpp_own_from c n w ls ents t a == a + (y - x) + qsum (map (fun p => get_toll (L w (fst p)) (snd p)) (combine ls ents)))%Q.
Proof.
  intros c n w ls ents t x y Hd Hr Ht Hl. revert ents t x y. induction Hl as [|l ls Hl1 Hl IH]; intros ents t x y Le H a; cbn [route_time_from cpp_own_from] in *.
  - injection H as <-. cbn. ring.
  - destruct ents as [|e ents]; [cbn in Le; lia|]. cbn [List.length] in Le. rewrite (cpp_att_same c (L w l) t Hd (Hr l Hl1)) in H. cbn [bind] in H. cbv zeta. cbn [tl combine map fst snd].
    rewrite (IH ents _ _ y ltac:(lia) H). rewrite (cpp_toll_same c n w l e Ht Hl1). unfold qsum. cbn [fold_right]. ring.
Qed.
Theorem cpp_due_own_same : forall c n w ls ents arr t0 x, (0 < dt c)%Q -> recorded w -> step_tolls c n w -> Forall (exists_link w) ls -> List.length ents = List.length ls ->
  nth_error ents 0 = Some t0 -> current_cost c w ls (ents ++ [arr]) = Ok x -> exists y, cpp_due_own c n w ls ents t0 = Ok y /\ (y == x)%Q.
Proof.
  intros c n w ls ents arr t0 x Hd Hr Ht Hl Le E0 H. pose proof (current_cost_spec _ _ _ _ _ H) as (t1 & y & A & B & C).
  assert (t1 = t0). { destruct ents as [|e ents]; [discriminate|]. cbn in E0, A. congruence. } subst t1.
  eexists. split; [reflexivity|]. unfold route_time in B. rewrite (own_from_sum c n w ls ents t0 0 y Hd Hr Ht Hl ltac:(lia) B).
  assert (K : combine ls (ents ++ [arr]) = combine ls ents).
  { clear - Le. revert ents Le. induction ls as [|l ls IH]; intros [|e ents] Le; cbn in *; try lia; try reflexivity. rewrite IH by lia. reflexivity. }
  rewrite K in C. rewrite C. ring.
Qed.
(** DSO: the private part is the same; the externality is that of C66 *)
Theorem cpp_dso_cost_above : forall c w n ls t x, (0 < dt c)%Q -> records w n ls -> 0 < n -> (0 <= t)%Q -> dso_cost c w ls t = Ok x ->
  exists y, cpp_dso_cost c w t ls = Ok y /\ (x <= y)%Q /\ ((x == y)%Q \/ exists tts, details c w ls t = Ok tts /\ raised c w ls tts t).
Proof.
  intros c w n ls t x Hd Hr Hn Ht H. unfold dso_cost, ext_route in H. destruct (details c w ls t) as [tts|] eqn:D; [|discriminate]. cbn [bind] in H.
  destruct (ext_sum c w ls tts t) as [e|] eqn:E; [|discriminate]. cbn [bind] in H. destruct (route_time c w ls t) as [p|] eqn:P; [|discriminate]. cbn [bind] in H. injection H as <-.
  unfold cpp_dso_cost.
  enough (G : forall p0 a b, route_time_from c w ls t p0 = Ok p -> exists y, cpp_dso_from c w ls t a b = Ok y /\ (a + b + (p - p0) + e <= y)%Q /\ ((a + b + (p - p0) + e == y)%Q \/ raised c w ls tts t)).
  { destruct (G 0%Q 0%Q 0%Q P) as (y & Y1 & Y2 & Y3). exists y. split; [exact Y1|]. split; [lra|]. destruct Y3 as [Y3|Y3]; [left; lra|right; eauto]. }
  clear P. revert t tts e Ht D E. induction ls as [|l ls IH]; intros t tts e Ht D E p0 a b P; cbn [details cpp_dso_from route_time_from] in *.
  - injection D as <-. cbn in E. injection E as <-. injection P as ->. eexists. split; [reflexivity|]. split; [lra|left; ring].
  - destruct (Hr l (or_introl eq_refl)) as (C1 & C2 & C3 & C4 & C5). assert (Hk : l_tta (L w l) <> []) by (intro Z; rewrite Z in C2; cbn in C2; lia).
    rewrite (cpp_att_same c (L w l) t Hd Hk) in D, P. cbn [bind] in D, P. cbv zeta. set (z := cpp_att c (L w l) t) in *.
    assert (Hz : (0 <= z)%Q). { destruct C1 as (_ & _ & C1). unfold z. rewrite cpp_att_nth by exact Hk.
      destruct (nth_in_or_default (Z.to_nat (clamp_ix c (List.length (l_tta (L w l))) t)) (l_tta (L w l)) 0%Q) as [I0| ->]; [|lra]. rewrite Forall_forall in C1. apply C1; exact I0. }
    destruct (details c w ls (t + z)) as [tts'|] eqn:D'; [|discriminate]. cbn [bind] in D. injection D as <-. cbn [ext_sum] in E.
    destruct (ext_sum c w ls tts' (t + z)) as [e'|] eqn:E'; [|discriminate]. cbn [bind] in E. injection E as <-.
    destruct (cpp_ext_above c (L w l) t Hd ltac:(lra) C1 C5 Ht) as (q & Q1 & Q2 & Q3). rewrite Q1. cbn [bind].
    assert (Hr' : records w n ls) by (intros l' Hl'; apply Hr; right; exact Hl').
    destruct (IH Hr' (t + z)%Q tts' e' ltac:(lra) D' E' (p0 + z)%Q (a + z)%Q (b + q)%Q P) as (y & Y1 & Y2 & Y3). exists y. split; [exact Y1|]. split; [lra|].
    cbn [raised]. destruct Y3 as [Y3|Y3]; [|right; right; exact Y3]. destruct Q3 as [Q3|Q3]; [left; lra|].
    destruct (Qlt_le_dec t (Qof_nat (List.length (l_tta (L w l))) * dt c)) as [Lt|Ge]; [right; left; split; assumption|].
    left. destruct (cpp_ext_after c (L w l) t Hd C1 Ge) as ((q' & Q4 & Q5) & Q6). rewrite Q1 in Q4. injection Q4 as <-. rewrite Q6. lra.
Qed.

(** ** The loop over the routes *)
Definition agrees (f g : list lid -> result Q) (a : list lid) : Prop := forall x, f a = Ok x -> exists y, g a = Ok y /\ (y == x)%Q.
Definition same_loop (c : cfg) (alts : list (list lid)) (s : loop) (s' : cloop) : Prop :=
  match p_best s, o_idx s' with None, None => True | Some a, Some i => nth_error alts i = Some a | _, _ => False end /\
  (o_cost s' == p_cost s)%Q /\ (o_gap s' == p_gap s)%Q /\ o_pot s' = (if p_pot s then c_deltan c else 0)%Z.
Lemma try_same : forall c f g flag alts pre a rest s s' s1, alts = pre ++ a :: rest -> agrees f g a -> same_loop c alts s s' -> try_f f flag a s = Ok s1 ->
  exists s1', cpp_try c g flag (List.length pre, a) s' = Ok s1' /\ same_loop c alts s1 s1'.
Proof.
  intros c f g flag alts pre a rest s s' s1 Ea Ag (A & B & C & D) H. unfold try_f in H. destruct (f a) as [x|] eqn:F; [|discriminate]. cbn [bind] in H.
  destruct (Ag x F) as (y & Y & Ey). unfold cpp_try. cbn [snd fst]. rewrite Y. cbn [bind].
  assert (Q1 : qlt y (o_cost s') = qlt x (p_cost s)).
  { destruct (qlt x (p_cost s)) eqn:Q; [apply qlt_iff in Q; apply qlt_iff; lra|]. apply qlt_false in Q. destruct (qlt y (o_cost s')) eqn:Q'; [|reflexivity]. apply qlt_iff in Q'. lra. }
  rewrite Q1. destruct (qlt x (p_cost s)); [|injection H as <-; eexists; split; [reflexivity|]; repeat split; assumption].
  rewrite orb_true_r. eexists. split; [reflexivity|]. destruct flag; injection H as <-; unfold same_loop; cbn [p_best p_cost p_gap p_pot o_idx o_cost o_gap o_pot].
  - split; [subst alts; rewrite nth_error_app2 by lia; rewrite Nat.sub_diag; reflexivity|]. split; [exact Ey|]. split; [rewrite B, Ey; reflexivity|reflexivity].
  - split; [exact A|]. split; [exact B|]. split; [rewrite B, Ey; reflexivity|reflexivity].
Qed.
Lemma loop_same : forall c f g flag alts rest pre s s' s1, alts = pre ++ rest -> (forall a, In a alts -> agrees f g a) -> same_loop c alts s s' ->
  foldM (try_f f flag) rest s = Ok s1 ->
  exists s1', foldM (cpp_try c g flag) (combine (seq (List.length pre) (List.length rest)) rest) s' = Ok s1' /\ same_loop c alts s1 s1'.
Proof.
  intros c f g flag alts rest. induction rest as [|a rest IH]; intros pre s s' s1 Ea Ag A H; cbn [foldM] in H.
  - injection H as <-. exists s'. split; [reflexivity|exact A].
  - apply bind_ok in H. destruct H as (s2 & H1 & H2). destruct (try_same c f g flag alts pre a rest s s' s2 Ea) as (s2' & K1 & K2); auto. { apply Ag. rewrite Ea. apply in_or_app. right. left. reflexivity. }
    destruct (IH (pre ++ [a]) s2 s2' s1) as (s3 & L1 & L2); auto. { rewrite <- app_assoc. exact Ea. }
    exists s3. split; [|exact L2]. cbn [List.length seq combine foldM]. rewrite K1. cbn [bind]. rewrite app_length in L1. cbn [List.length] in L1. rewrite Nat.add_1_r in L1. exact L1.
Qed.

(** ** The day *)
(** [store] holds the routes of [rs] as link numbers *)
Definition stored (w : world) (rs : nid -> nid -> option (list (list key))) (store : nid -> nid -> option (list (list lid))) : Prop :=
  forall o d ks alts, rs o d = Some ks -> mapM (route_new w) ks = Ok alts -> store o d = Some alts.
(** [tr] holds the links that a vehicle traveled, and when it entered them *)
Definition traced (w : world) (tr : vid -> list lid * list Q) : Prop :=
  forall v ls ts, exists_veh w v -> traveled_route w v true false = Ok (ls, ts) -> fst (tr v) = ls /\ exists arr, ts = snd (tr v) ++ [arr].
(** the decisions of both for the vehicles below [m] *)
Record same_day (m : nat) (u : due) (r : cswap) : Prop := mkSameDay {
  sd_len : List.length (s_spec r) = m;
  sd_in : forall v x, In (v, x) (u_spec u) -> v < m /\ nth_error (s_spec r) v = Some x;
  sd_out : forall v, v < m -> (forall x, ~ In (v, x) (u_spec u)) -> nth_error (s_spec r) v = Some [];
  sd_nswap : s_nswap r = u_nswap u;
  sd_pot : s_pot r = u_pot u;
  sd_gap : (s_gap r == u_gap u)%Q }.
Lemma same_put : forall m u r x n p g n' p' g', same_day m u r -> n' = n -> p' = p -> (g' == g)%Q ->
  same_day (S m) (mkDue (u_spec u ++ [(m, x)]) n p g) (mkCswap (s_spec r ++ [x]) n' p' g').
Proof.
  intros m u r x n p g n' p' g' [A B C D E F] -> -> Eg. constructor; cbn [s_spec s_nswap s_pot s_gap u_spec u_nswap u_pot u_gap]; auto.
  - rewrite app_length. cbn. lia.
  - intros v y Hi. apply in_app_iff in Hi. destruct Hi as [Hi|[Hi|[]]].
    + destruct (B v y Hi) as [B1 B2]. split; [lia|]. rewrite nth_error_app1 by lia. exact B2.
    + injection Hi as <- <-. split; [lia|]. rewrite nth_error_app2 by lia. rewrite A, Nat.sub_diag. reflexivity.
  - intros v Hv Hi. destruct (Nat.eq_dec v m) as [->|Ne]; [elim (Hi x); apply in_or_app; right; left; reflexivity|].
    rewrite nth_error_app1 by lia. apply C; [lia|]. intros y Hy. elim (Hi y). apply in_or_app. left. exact Hy.
Qed.
Lemma same_skip : forall m u r, same_day m u r -> same_day (S m) u (mkCswap (s_spec r ++ [[]]) (s_nswap r) (s_pot r) (s_gap r)).
Proof.
  intros m u r [A B C D E F]. constructor; cbn [s_spec s_nswap s_pot s_gap]; auto.
  - rewrite app_length. cbn. lia.
  - intros v y Hi. destruct (B v y Hi) as [B1 B2]. split; [lia|]. rewrite nth_error_app1 by lia. exact B2.
  - intros v Hv Hi. destruct (Nat.eq_dec v m) as [->|Ne]; [rewrite nth_error_app2 by lia; rewrite A, Nat.sub_diag; reflexivity|]. rewrite nth_error_app1 by lia. apply C; [lia|exact Hi].
Qed.
Lemma mapM_exist : forall c w ks alts, reach c w -> mapM (route_new w) ks = Ok alts -> Forall (Forall (exists_link w)) alts.
Proof.
  intros c w ks. induction ks as [|k ks IH]; intros alts R H; cbn [mapM] in H; [injection H as <-; constructor|].
  apply bind_ok in H. destruct H as (a & H1 & H). apply bind_ok in H. destruct H as (as_ & H2 & H). injection H as <-. constructor; [|apply IH; assumption].
  apply (route_iff_lemma c w k a R) in H1. destruct H1 as [H1 _]. unfold named_by in H1. clear - H1. induction H1 as [|x y ? ? Hx H IH]; constructor; auto. apply get_link_range in Hx. exact Hx.
Qed.
Lemma traveled_entries : forall w v ls ts, traveled_route w v true false = Ok (ls, ts) -> ls = links_of (v_tlog (V w v)) -> List.length ts = S (List.length ls).
Proof.
  intros w v ls ts H E. unfold traveled_route in H. cbv zeta in H. apply bind_ok in H. destruct H as (e & _ & H). apply bind_ok in H. destruct H as (q & _ & H). injection H as _ <-.
  rewrite E, app_length. cbn [List.length]. rewrite Nat.add_1_r. f_equal. clear E. unfold log_times, links_of. induction (v_tlog (V w v)) as [|[t p] l IH]; [reflexivity|]. destruct p; cbn; auto.
Qed.
(** both solvers find the same costs, of routes from times that are not negative *)
Definition same_costs (w : world) (altf : Q -> list lid -> result Q) (ownf : list lid -> list Q -> result Q) (altg : Q -> list lid -> result Q) (owng : list lid -> list Q -> Q -> result Q) : Prop :=
  (forall ls ents arr t0 x, Forall (exists_link w) ls -> List.length ents = List.length ls -> nth_error ents 0 = Some t0 -> (0 <= t0)%Q -> ownf ls (ents ++ [arr]) = Ok x ->
     exists y, owng ls ents t0 = Ok y /\ (y == x)%Q) /\
  (forall t0 a, Forall (exists_link w) a -> (0 <= t0)%Q -> agrees (altf t0) (altg t0) a).
Lemma entry_nonneg : forall c w v t, (0 < dt c)%Q -> reach c w -> exists_veh w v -> In t (log_times false (v_tlog (V w v))) -> (0 <= t)%Q.
Proof.
  intros c w v t Hd R Hv H. destruct (reach_trip c w R v Hv) as (es & A). unfold Trip in A. destruct A as [(t0 & A1) _ _ _ _ _ _ _ _ _ _]. rewrite A1 in H.
  unfold log_times in H. apply in_flat_map in H. destruct H as ([x p] & H1 & H2). cbn [fst snd] in H2. destruct p as [|l|]; [contradiction| |contradiction]. destruct H2 as [<-|[]].
  destruct H1 as [H1|H1]; [discriminate|]. apply in_app_or in H1. destruct H1 as [H1|H1].
  - unfold rows in H1. apply in_map_iff in H1. destruct H1 as (e & H1 & _). injection H1 as <- _. apply Qmult_le_0_compat; [unfold Qof_nat; change 0%Q with (inject_Z 0); rewrite <- Zle_Qle; lia|lra].
  - unfold end_row in H1. destruct (v_state (V w v)); try contradiction. destruct H1 as [H1|[]]. discriminate.
Qed.
Lemma vehicle_same : forall c w altf ownf altg owng rs store forced flag tr m u u' r, reach c w -> m < w_nv w -> stored w rs store -> traced w tr ->
  same_costs w altf ownf altg owng -> (0 < dt c)%Q ->
  same_day m u r -> day_vehicle c w altf ownf rs forced flag m u = Ok u' ->
  exists r', cpp_swap_vehicle c w altg owng store forced flag tr m r = Ok r' /\ same_day (S m) u' r'.
Proof.
  intros c w altf ownf altg owng rs store forced flag tr m u u' r R Hm St Tr [Own Alt] Hd A H. unfold day_vehicle in H. unfold cpp_swap_vehicle.
  destruct (v_dest (V w m)) as [d|]; [|discriminate]. cbn [of_opt bind] in *.
  destruct (traveled_lemma c w m true false R Hm) as (ls & ts & T1 & T2 & T3 & T4 & T5 & T6). rewrite T1 in H. cbn [bind fst snd] in H.
  destruct (Tr m ls ts Hm T1) as (E1 & arr & E2). rewrite E1. set (ents := snd (tr m)) in *.
  destruct (nth_error ts 0) as [t0|] eqn:E0; [|discriminate]. cbn [of_opt bind] in H. cbv zeta.
  destruct (v_state (V w m)) eqn:Sv; try (injection H as <-; eexists; split; [reflexivity|apply same_skip; exact A]).
  destruct (T6 eq_refl) as (ls' & l & El & _).
  assert (Le : List.length ents = List.length ls).
  { pose proof (traveled_entries w m ls ts T1 T2) as X. rewrite E2, app_length in X. cbn in X. lia. }
  assert (Et : exists e tl, ents = e :: tl /\ e = t0).
  { destruct ents as [|e tl]; [rewrite El, app_length in Le; cbn in Le; lia|]. exists e, tl. split; [reflexivity|]. rewrite E2 in E0. cbn in E0. congruence. }
  destruct Et as (e & tl & Ee & ->).
  assert (H0 : (0 <= t0)%Q).
  { apply (entry_nonneg c w m t0 Hd R Hm). unfold traveled_route in T1. cbv zeta in T1. apply bind_ok in T1. destruct T1 as (e1 & _ & T1). apply bind_ok in T1. destruct T1 as (q & _ & T1). injection T1 as _ T1.
    rewrite E2 in T1. apply app_inj_tail in T1. destruct T1 as [T1 _]. rewrite T1, Ee. left. reflexivity. }
  destruct (rs (v_orig (V w m)) d) as [ks|] eqn:Er; [|discriminate]. cbn [of_opt bind] in H.
  destruct (mapM (route_new w) ks) as [alts|] eqn:M; [|discriminate]. cbn [bind] in H. rewrite (St _ _ _ _ Er M).
  pose proof (mapM_exist c w ks alts R M) as Fa.
  assert (Eb : existsb (fun r0 => if list_eq_dec Nat.eq_dec r0 ls then true else false) alts = existsb (route_eqb w ls) alts).
  { clear - Fa R T3. induction Fa as [|a alts Ha Fa IH]; [reflexivity|]. cbn [existsb]. rewrite IH. f_equal. pose proof (route_equal_lemma c w ls a R T3 Ha) as X.
    destruct (list_eq_dec Nat.eq_dec a ls) as [->|Ne]; [symmetry; apply X; reflexivity|]. destruct (route_eqb w ls a); [|reflexivity]. elim Ne. symmetry. apply X. reflexivity. }
  rewrite Eb. destruct (forced && negb (existsb (route_eqb w ls) alts)).
  - destruct (nth_error alts 0) as [r0|]; [|discriminate]. cbn [of_opt bind] in H. injection H as <-. eexists. split; [reflexivity|]. destruct A. apply same_put; auto. constructor; auto.
  - destruct (ownf ls ts) as [x|] eqn:Ox; [|discriminate]. cbn [bind] in H. destruct (foldM (try_f (altf t0) (flag m)) alts (mkLoop None x 0 false)) as [s|] eqn:Fs; [|discriminate]. cbn [bind] in H.
    rewrite E2 in Ox. destruct (Own ls ents arr t0 x T3 Le ltac:(rewrite Ee; reflexivity) H0 Ox) as (y & Y & Ey).
    assert (Em : match ents with e :: _ => e | [] => (inject_Z (v_dep (V w m)) * dt c)%Q end = t0) by (rewrite Ee; reflexivity). rewrite Em, Y. cbn [bind].
    destruct (loop_same c (altf t0) (altg t0) (flag m) alts alts [] (mkLoop None x 0 false) (mkCloop None y 0 0) s eq_refl) as (s' & L1 & L2); auto.
    { intros a Ha. apply Alt; [|exact H0]. rewrite Forall_forall in Fa. apply Fa; exact Ha. } { unfold same_loop. cbn. repeat split; auto; reflexivity. }
    cbn [List.length] in L1. rewrite L1. cbn [bind]. destruct L2 as (M1 & M2 & M3 & M4). destruct A as [A1 A2 A3 A4 A5 A6].
    destruct (p_best s) as [a|], (o_idx s') as [i|]; try contradiction.
    + rewrite M1. cbn [of_opt bind]. injection H as <-. eexists. split; [reflexivity|]. apply same_put; [constructor; auto|congruence|rewrite M4, A5; destruct (p_pot s); lia|rewrite A6, M3; reflexivity].
    + injection H as <-. eexists. split; [reflexivity|]. apply same_put; [constructor; auto|congruence|rewrite M4, A5; destruct (p_pot s); lia|rewrite A6, M3; reflexivity].
Qed.

Theorem swap_same : forall c w altf ownf altg owng rs store forced flag tr u, reach c w -> (0 < dt c)%Q -> stored w rs store -> traced w tr ->
  same_costs w altf ownf altg owng -> day_of c w altf ownf rs forced flag = Ok u ->
  exists r, cpp_swap c w altg owng store forced flag tr = Ok r /\ same_day (w_nv w) u r.
Proof.
  intros c w altf ownf altg owng rs store forced flag tr u R Hd St Tr Sc H. unfold day_of in H. apply bind_ok in H. destruct H as (u1 & H & H'). apply bind_ok in H'. destruct H' as (q & _ & H'). injection H' as ->.
  unfold cpp_swap.
  enough (G : forall k m u0 r0 u1, m + k <= w_nv w -> same_day m u0 r0 -> foldM (day_vehicle c w altf ownf rs forced flag) (seq m k) u0 = Ok u1 ->
    exists r, foldM (cpp_swap_vehicle c w altg owng store forced flag tr) (seq m k) r0 = Ok r /\ same_day (m + k) u1 r).
  { refine (G (w_nv w) 0 _ _ u (le_n _) _ H). constructor; cbn; try reflexivity; [intros v x []|intros; lia]. }
  intro k. induction k as [|k IH]; intros m u0 r0 u2 Hm A E; cbn [seq foldM] in *.
  - injection E as <-. rewrite Nat.add_0_r. eauto.
  - apply bind_ok in E. destruct E as (u3 & E1 & E2). destruct (vehicle_same c w altf ownf altg owng rs store forced flag tr m u0 u3 r0 R ltac:(lia) St Tr Sc Hd A E1) as (r3 & K1 & K2).
    destruct (IH (S m) u3 r3 u2 ltac:(lia) K2 E2) as (r & L1 & L2). exists r. rewrite K1. cbn [bind]. split; [exact L1|]. rewrite Nat.add_succ_r. exact L2.
Qed.
Theorem cpp_due_day : forall c n w rs store forced flag tr u, reach c w -> (0 < dt c)%Q -> recorded w -> proper_tolls w -> step_tolls c n w -> stored w rs store -> traced w tr ->
  due_day c w rs forced flag = Ok u ->
  exists r, cpp_swap c w (cpp_due_cost c n w) (cpp_due_own c n w) store forced flag tr = Ok r /\ same_day (w_nv w) u r.
Proof.
  intros c n w rs store forced flag tr u R Hd Hr Hp Ht St Tr H. rewrite due_is_day in H. refine (swap_same c w _ _ _ _ rs store forced flag tr u R Hd St Tr _ H). split.
  - intros ls ents arr t0 x Hl Le E0 _ Ho. eapply cpp_due_own_same; eauto.
  - intros t0 a Ha _ x Hx. apply alt_cost_spec in Hx; [|exact Hp]. destruct Hx as (y & Y1 & Y2). destruct (cpp_due_cost_same c n w a t0 y Hd Hr Ht Ha Y1) as (z & Z1 & Z2). exists z. split; [exact Z1|]. rewrite Z2, Y2. reflexivity.
Qed.
(** no exception is turned into 0 *)
Definition none_raised (c : cfg) (w : world) : Prop := forall ls t tts, Forall (exists_link w) ls -> (0 <= t)%Q -> details c w ls t = Ok tts -> ~ raised c w ls tts t.
Theorem cpp_dso_day : forall c n w rs store forced flag tr u, reach c w -> (0 < dt c)%Q -> 0 < n -> records w n (seq 0 (w_nl w)) -> none_raised c w -> stored w rs store -> traced w tr ->
  dso_day c w rs forced flag = Ok u ->
  exists r, cpp_swap c w (cpp_dso_cost c w) (cpp_dso_own c w) store forced flag tr = Ok r /\ same_day (w_nv w) u r.
Proof.
  intros c n w rs store forced flag tr u R Hd Hn Hr Nr St Tr H. unfold dso_day in H.
  assert (K : forall t a x, Forall (exists_link w) a -> (0 <= t)%Q -> dso_cost c w a t = Ok x -> exists y, cpp_dso_cost c w t a = Ok y /\ (y == x)%Q).
  { intros t a x Ha Ht0 Hx. assert (Ra : records w n a). { intros l Hl. apply Hr. apply in_seq. rewrite Forall_forall in Ha. specialize (Ha l Hl). unfold exists_link in Ha. lia. }
    destruct (cpp_dso_cost_above c w n a t x Hd Ra Hn Ht0 Hx) as (y & Y1 & _ & [Y2|(tts & Y3 & Y4)]); [exists y; split; [exact Y1|symmetry; exact Y2]|]. elim (Nr a t tts Ha Ht0 Y3 Y4). }
  refine (swap_same c w _ _ _ _ rs store forced flag tr u R Hd St Tr _ H). split.
  - intros ls ents arr t0 x Hl Le E0 Ht0 Ho. unfold dso_own in Ho. destruct ents as [|e ents]; [discriminate|]. cbn in E0, Ho. injection E0 as ->. apply K; assumption.
  - intros t0 a Ha Ht0 x Hx. apply K; assumption.
Qed.

(** ** The traveled route, from the stored columns *)
Lemma dta_rows : forall rows p, map fst (dta_traveled p rows) = links_of (CppLog.link_rows p rows) /\ map snd (dta_traveled p rows) = log_times false (CppLog.link_rows p rows).
Proof.
  induction rows as [|r rows IH]; intro p; [split; reflexivity|]. cbn [dta_traveled CppLog.link_rows]. destruct (g_link r) as [l|]; [|apply IH]. destruct (opt_eqb (Some l) p); [apply IH|].
  destruct (IH (Some l)) as [A B]. split; cbn; rewrite ?A, ?B; reflexivity.
Qed.
Theorem cpp_traced : forall c w v ls tms, (0 < dt c)%Q -> c_logint c = 1%Z -> reach c w -> v < w_nv w -> traveled_route w v true false = Ok (ls, tms) ->
  exists ts, map (SpecLogs.at_step c) ts = map g_t (CppLog.stored_rows (V w v)) /\
    let p := dta_traveled None (CppLog.cpp_rows c (CppLog.noted (combine ts (CppLog.stored_rows (V w v)))) (v_state (V w v))) in
    map fst p = ls /\ exists arr, tms = map snd p ++ [arr].
Proof.
  intros c w v ls tms Hd L1 R Hv H. destruct (CppLog.cpp_entered c w v Hd L1 R Hv) as (t0 & ts & A & B). exists ts. split; [exact A|]. cbv zeta.
  set (rows := CppLog.cpp_rows c (CppLog.noted (combine ts (CppLog.stored_rows (V w v)))) (v_state (V w v))) in *.
  destruct (dta_rows rows None) as [E1 E2]. rewrite E1, E2. destruct (traveled_lemma c w v true false R Hv) as (ls' & ts' & T1 & T2 & _). rewrite T1 in H. injection H as -> ->.
  unfold traveled_route in T1. cbv zeta in T1. apply bind_ok in T1. destruct T1 as (e & _ & T1). apply bind_ok in T1. destruct T1 as (q & _ & T1). injection T1 as _ T1.
  unfold CppLog.cpp_log_t_link in B. rewrite <- B in T1, T2. unfold links_of, log_times in *. cbn [flat_map snd fst app] in T1, T2. rewrite flat_map_app in T1, T2.
  split; [rewrite T2; destruct (v_state (V w v)); cbn; rewrite app_nil_r; reflexivity|]. eexists. rewrite <- T1. f_equal. destruct (v_state (V w v)); cbn; rewrite app_nil_r; reflexivity.
Qed.

(** ** Flat arrays *)
Lemma from_csr_app : forall A (rs : list (list A)) (pre : list A), from_csr (pre ++ List.concat rs) (offsets_from (List.length pre) rs) = rs.
Proof.
  intros A rs. induction rs as [|r rs IH]; intro pre; [reflexivity|]. cbn [offsets_from].
  assert (E : exists o os, offsets_from (List.length pre + List.length r) rs = o :: os /\ o = List.length pre + List.length r) by (destruct rs; cbn [offsets_from]; eauto).
  destruct E as (o & os & E & Eo). specialize (IH (pre ++ r)). rewrite app_length, E in IH. rewrite E. cbn [from_csr]. subst o. f_equal.
  - unfold slice. cbn [List.concat]. rewrite skipn_app, skipn_all, Nat.sub_diag. cbn [skipn app]. replace (List.length pre + List.length r - List.length pre) with (List.length r) by lia.
    rewrite firstn_app, firstn_all, Nat.sub_diag. cbn [firstn]. apply app_nil_r.
  - cbn [List.concat]. rewrite <- app_assoc in IH. exact IH.
Qed.
Theorem csr_round : forall A (rs : list (list A)), from_csr (fst (to_csr rs)) (snd (to_csr rs)) = rs.
Proof. intros A rs. exact (from_csr_app A rs []). Qed.
Theorem store_round : forall w s, store_names w (store_csr s) =
  map (fun p => ((n_name (N w (fst (fst p))), n_name (N w (snd (fst p)))), map (map (fun l => l_name (L w l))) (snd p))) s.
Proof.
  intros w s. unfold store_names, store_csr. pose proof (csr_round _ (List.concat (map snd s))) as E1. pose proof (csr_round _ (map snd s)) as E2. unfold to_csr in E1, E2. cbn [fst snd] in E1, E2. rewrite E1, E2.
  f_equal. clear E1 E2. induction s as [|[a b] s IH]; [reflexivity|]. cbn. rewrite IH. reflexivity.
Qed.

(** the traveled routes as the Python engine keeps them *)
Definition tr_of (w : world) (v : vid) : list lid * list Q := (links_of (v_tlog (V w v)), log_times false (v_tlog (V w v))).
Lemma tr_of_traced : forall c w, reach c w -> traced w (tr_of w).
Proof.
  intros c w R v ls ts Hv H. destruct (traveled_lemma c w v true false R Hv) as (ls' & ts' & T1 & T2 & _). rewrite T1 in H. injection H as -> ->. split; [symmetry; exact T2|].
  unfold traveled_route in T1. cbv zeta in T1. apply bind_ok in T1. destruct T1 as (e & _ & T1). apply bind_ok in T1. destruct T1 as (q & _ & T1). injection T1 as _ T1. eexists. rewrite <- T1. reflexivity.
Qed.

(** ** The compiled day does not fail *)
Lemma tries_total : forall c g flag rest m s, (forall a, exists y, g a = Ok y) -> match o_idx s with Some i => i < m | None => True end ->
  exists s', foldM (cpp_try c g flag) (combine (seq m (List.length rest)) rest) s = Ok s' /\ match o_idx s' with Some i => i < m + List.length rest | None => True end.
Proof.
  intros c g flag rest. induction rest as [|a rest IH]; intros m s Hg Hs; cbn [List.length seq combine foldM].
  - exists s. split; [reflexivity|]. rewrite Nat.add_0_r. exact Hs.
  - assert (K : exists s1, cpp_try c g flag (m, a) s = Ok s1 /\ match o_idx s1 with Some i => i < S m | None => True end).
    { unfold cpp_try. cbn [fst snd]. destruct (Hg a) as (y & ->). cbn [bind]. assert (Hs' : match o_idx s with Some i => i < S m | None => True end) by (destruct (o_idx s); [lia|exact I]).
      destruct (qlt y (o_cost s)); [|eauto]. destruct (negb _ || true)%bool; [|eauto]. eexists. split; [reflexivity|]. destruct flag; cbn; [lia|exact Hs']. }
    destruct K as (s1 & -> & K2). cbn [bind]. destruct (IH (S m) s1 Hg K2) as (s' & L1 & L2). exists s'. split; [exact L1|]. destruct (o_idx s'); [lia|exact I].
Qed.
Theorem cpp_swap_total : forall c w altg owng store forced flag tr, (forall v, exists_veh w v -> v_dest (V w v) <> None) ->
  (forall t a, exists y, altg t a = Ok y) -> (forall ls ents t, exists y, owng ls ents t = Ok y) ->
  exists r, cpp_swap c w altg owng store forced flag tr = Ok r /\ List.length (s_spec r) = w_nv w /\
    (forall v x, nth_error (s_spec r) v = Some x -> v_state (V w v) <> End_ -> x = []) /\
    (forall v x d set, nth_error (s_spec r) v = Some x -> v_state (V w v) = End_ -> v_dest (V w v) = Some d -> store (v_orig (V w v)) d = Some set -> In x (fst (tr v) :: set)) /\
    (forall v x d, nth_error (s_spec r) v = Some x -> v_state (V w v) = End_ -> v_dest (V w v) = Some d -> store (v_orig (V w v)) d = None -> x = fst (tr v)).
Proof.
  intros c w altg owng store forced flag tr Hd Ha Ho.
  pose (good := fun v x => (v_state (V w v) <> End_ -> x = []) /\
    (forall d set, v_state (V w v) = End_ -> v_dest (V w v) = Some d -> store (v_orig (V w v)) d = Some set -> In x (fst (tr v) :: set)) /\
    (forall d, v_state (V w v) = End_ -> v_dest (V w v) = Some d -> store (v_orig (V w v)) d = None -> x = fst (tr v))).
  assert (Step : forall v u, exists_veh w v -> exists x n p g, cpp_swap_vehicle c w altg owng store forced flag tr v u = Ok (mkCswap (s_spec u ++ [x]) n p g) /\ good v x).
  { intros v u Hv. unfold cpp_swap_vehicle. pose proof (Hd v Hv) as Hdv. destruct (v_dest (V w v)) as [d|] eqn:Ed; [|congruence]. cbn [of_opt bind]. cbv zeta.
    destruct (v_state (V w v)) eqn:Es; try (eexists _, _, _, _; split; [reflexivity|]; unfold good; rewrite Es; repeat split; congruence).
    destruct (store (v_orig (V w v)) d) as [set|] eqn:E.
    2:{ eexists _, _, _, _. split; [reflexivity|]. unfold good. rewrite Es. split; [congruence|]. split; [|auto]. intros d' set _ D' S'. rewrite Ed in D'. injection D' as <-. congruence. }
    assert (Good : forall x, In x (fst (tr v) :: set) -> good v x).
    { intros x Hx. unfold good. rewrite Es. split; [congruence|]. split; intros d'; [intros set' _ D' S'|intros _ D' S']; rewrite Ed in D'; injection D' as <-; [|congruence]. rewrite E in S'. injection S' as <-. exact Hx. }
    destruct (if forced && _ then nth_error set 0 else None) as [r0|] eqn:F.
    - eexists _, _, _, _. split; [reflexivity|]. apply Good. right. destruct (forced && _)%bool; [|discriminate]. eapply nth_error_In; exact F.
    - match goal with |- context [owng ?a ?b ?t] => destruct (Ho a b t) as (x & ->); set (t0 := t) in * end. cbn [bind].
      destruct (tries_total c (altg t0) (flag v) set 0 (mkCloop None x 0 0) (Ha t0) I) as (s & -> & L2). cbn [bind]. destruct (o_idx s) as [i|].
      + destruct (nth_error set i) as [r|] eqn:Er; [|apply nth_error_None in Er; lia]. cbn [of_opt bind]. eexists _, _, _, _. split; [reflexivity|]. apply Good. right. eapply nth_error_In; exact Er.
      + eexists _, _, _, _. split; [reflexivity|]. apply Good. left. reflexivity. }
  enough (G : forall k m u, m + k <= w_nv w -> List.length (s_spec u) = m -> (forall v x, nth_error (s_spec u) v = Some x -> good v x) ->
    exists r, foldM (cpp_swap_vehicle c w altg owng store forced flag tr) (seq m k) u = Ok r /\ List.length (s_spec r) = m + k /\ (forall v x, nth_error (s_spec r) v = Some x -> good v x)).
  { destruct (G (w_nv w) 0 (mkCswap [] 0 0 0%Q) (le_n _) eq_refl ltac:(intros [|v] x Hx; discriminate)) as (r & R1 & R2 & R3). exists r. split; [exact R1|]. split; [exact R2|].
    split; [|split]; intros; edestruct R3 as (A1 & A2 & A3); eauto. }
  intro k. induction k as [|k IH]; intros m u Hm Hl Hg; cbn [seq foldM]; [exists u; rewrite Nat.add_0_r; auto|].
  destruct (Step m u ltac:(unfold exists_veh; lia)) as (x & n & p & g & -> & Gx). cbn [bind].
  destruct (IH (S m) (mkCswap (s_spec u ++ [x]) n p g) ltac:(lia)) as (r & R1 & R2 & R3).
  { cbn [s_spec]. rewrite app_length. cbn. lia. }
  { intros v y Hy. cbn [s_spec] in Hy. destruct (Nat.lt_ge_cases v m) as [Lt|Ge]; [rewrite nth_error_app1 in Hy by lia; eauto|]. rewrite nth_error_app2 in Hy by lia. rewrite Hl in Hy.
    destruct (v - m) as [|j] eqn:Ev; [|destruct j; discriminate]. injection Hy as <-. assert (v = m) by lia. subst v. exact Gx. }
  exists r. split; [exact R1|]. split; [lia|exact R3].
Qed.
Theorem cpp_due_total : forall c n w store forced flag tr, (forall v, exists_veh w v -> v_dest (V w v) <> None) ->
  exists r, cpp_swap c w (cpp_due_cost c n w) (cpp_due_own c n w) store forced flag tr = Ok r /\ List.length (s_spec r) = w_nv w /\
    (forall v x, nth_error (s_spec r) v = Some x -> v_state (V w v) <> End_ -> x = []) /\
    (forall v x d set, nth_error (s_spec r) v = Some x -> v_state (V w v) = End_ -> v_dest (V w v) = Some d -> store (v_orig (V w v)) d = Some set -> In x (fst (tr v) :: set)) /\
    (forall v x d, nth_error (s_spec r) v = Some x -> v_state (V w v) = End_ -> v_dest (V w v) = Some d -> store (v_orig (V w v)) d = None -> x = fst (tr v)).
Proof. intros c n w store forced flag tr Hd. apply cpp_swap_total; [exact Hd|intros; eexists; reflexivity|intros; eexists; reflexivity]. Qed.
