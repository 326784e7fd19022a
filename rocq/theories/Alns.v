(** * Alns: the adaptive large neighbourhood search of SolverDSO_ALNS (ALNS.py, DTAsolvers.py 1142-1360).
    Random numbers are parameters. The temperature (an exponential) is represented by what is done with it: the size of the
    destruction is computed from an arbitrary ratio, and the comparison of a random number with an exponential gives an arbitrary
    truth value. The simulation of a solution is represented by its objective, an arbitrary function; [sense] is "min" (the
    default, used by the solver). *)
From Verif Require Import Base Types Sim Lists SpecGenetic SpecAlns Genetic.
Local Open Scope nat_scope.

(** ** The model *)

(** [rng.randint(a, b)], from the number [r] *)
Definition randint_ab (a b r : nat) : result nat := if b <? a then Err ValueError else Ok (a + r mod (b - a + 1)).
(** [seq[rng.randrange(len(seq))]], and [np.random.choice(seq)] *)
Definition rng_choice {A} (l : list A) (r : nat) : result A :=
  match l with [] => Err ValueError | x :: _ => Ok (nth (r mod List.length l) l x) end.
(** [x[i] = v] *)
Definition put {A} (i : nat) (v : A) (x : list A) : result (list A) := if i <? List.length x then Ok (set_at i v x) else Err IndexError.

Inductive dop := DRandom | DSegment | DEarly | DLate | DCongest.
Inductive rop := RRandom | RMinCost.
Definition dop_eqb (a b : dop) : bool := match a, b with DRandom, DRandom | DSegment, DSegment | DEarly, DEarly | DLate, DLate | DCongest, DCongest => true | _, _ => false end.
Definition rop_eqb (a b : rop) : bool := match a, b with RRandom, RRandom | RMinCost, RMinCost => true | _, _ => false end.

(** what the search is given: the domains; the bounds of the destruction; the departure times; for each of the most delayed links the
    vehicles that entered it (initial World); the cost of a route of a vehicle (initial World) *)
Record problem := mkProblem { p_dom : list (list nat); p_kmin : nat; p_kmax : nat; p_deps : list nat; p_hot : list (list nat); p_cost : nat -> nat -> result Q;
  p_always : bool }.
(** the random numbers of one step: those of the roulettes; [d_ratio]: temperature / initial temperature; [d_k], [d_perm]: the sample (the
    beginning of a permutation); [d_i], [d_j]: the segment; [d_links], [d_vehs]: the picks of links and of vehicles; [d_vals]: the picks of
    values; [d_heat]: the comparison with the exponential *)
Record draws := mkDraws { d_u1 : Q; d_u2 : Q; d_ratio : Q; d_k : nat; d_perm : list nat; d_i : nat; d_j : nat; d_links : nat -> nat; d_vehs : nat -> nat; d_vals : nat -> nat; d_heat : bool }.

(** [k_cur], 958-964 *)
Definition size_now (kmin kmax : nat) (ratio : Q) : nat :=
  let k := qtrunc (Qof_nat (kmax - kmin) * ratio + Qof_nat kmin) in
  if (k <? Z.of_nat kmin)%Z then kmin else if (Z.of_nat kmax <? k)%Z then kmax else Z.to_nat k.

(** [destroy_random], 312-334 *)
Definition destroy_random (n kmin k : nat) (d : draws) : result (list nat) := m <- randint_ab kmin (Nat.min k n) (d_k d) ;; Ok (firstn m (d_perm d)).
(** [destroy_segment], 336-368 *)
Definition destroy_segment (n kmin k : nat) (d : draws) : result (list nat) :=
  if n <? 2 then destroy_random n kmin k d else
  let i0 := d_i d mod n in let j0 := d_j d mod n in
  let i := Nat.min i0 j0 in let j := Nat.max i0 j0 in
  let j := if j - i + 1 <? kmin then Nat.min (n - 1) (i + kmin - 1) else j in
  let j := if k <? j - i + 1 then i + k - 1 else j in
  Ok (seq i (j + 1 - i)).
(** [destroy_early_departure], [destroy_late_departure], 370-428: the departure times were divided by the largest one; if that is 0 the
    probabilities are not numbers *)
Definition destroy_departure (n kmin k : nat) (deps : list nat) (d : draws) : result (list nat) :=
  if forallb (fun t => t =? 0) deps then Err ValueError else destroy_random n kmin k d.
(** [destroy_congested_link], 431-470 *)
Definition destroy_congest (n kmin k : nat) (hot : list (list nat)) (d : draws) : result (list nat) :=
  m <- randint_ab kmin (Nat.min k n) (d_k d) ;;
  mapM (fun t => l <- rng_choice hot (d_links d t) ;; rng_choice l (d_vehs d t)) (seq 0 m).
Definition destroy (p : problem) (o : dop) (n k : nat) (d : draws) : result (list nat) :=
  match o with
  | DRandom => destroy_random n (p_kmin p) k d
  | DSegment => destroy_segment n (p_kmin p) k d
  | DEarly | DLate => destroy_departure n (p_kmin p) k (p_deps p) d
  | DCongest => destroy_congest n (p_kmin p) k (p_hot p) d
  end.
(** [xx[i] = None for i in removed] *)
Definition erase (x : vec) (removed : list nat) : result (list (option nat)) := foldM (fun i y => put i None y) removed (map Some x).

(** [_repair_random], 516-543 *)
Definition choices (dom : list nat) (cur : nat) : list nat :=
  if 1 <? List.length dom then match filter (fun c => negb (c =? cur)) dom with [] => dom | cs => cs end else dom.
Fixpoint repair_random (p : problem) (base : vec) (removed : list nat) (vals : nat -> nat) (t : nat) (x : list (option nat)) : result (list (option nat)) :=
  match removed with
  | [] => Ok x
  | i :: tl =>
      cur <- of_opt IndexError (nth_error base i) ;;
      dom <- of_opt IndexError (nth_error (p_dom p) i) ;;
      v <- rng_choice (choices dom cur) (vals t) ;;
      x <- put i (Some v) x ;;
      repair_random p base tl vals (S t) x
  end.
(** the solution is evaluated: a [None] in it cannot be compared *)
Definition filled (x : list (option nat)) : result vec := mapM (of_opt TypeError) x.

(** the inner loop of [_repair_minimum_cost], 585-595; [best]: [best_val], which survives from vehicle to vehicle *)
Fixpoint cheapest_value (cost : nat -> result Q) (vs : list nat) (cmin : option Q) (best : option nat) : result (option nat) :=
  match vs with
  | [] => Ok best
  | v :: tl =>
      q <- cost v ;;
      if match cmin with None => true | Some m => qlt q m end then cheapest_value cost tl (Some q) (Some v) else cheapest_value cost tl cmin best
  end.
(** [_repair_minimum_cost], 545-601 *)
Fixpoint repair_min (p : problem) (removed : list nat) (best : option nat) (x : vec) (changed : list nat) : result (vec * list nat) :=
  match removed with
  | [] => Ok (x, changed)
  | j :: tl =>
      orig <- of_opt IndexError (nth_error x j) ;;
      dom <- of_opt IndexError (nth_error (p_dom p) j) ;;
      b <- cheapest_value (p_cost p j) dom None best ;;
      v <- of_opt Exception_ b ;;                            (* UnboundLocalError *)
      x <- put j v x ;;
      repair_min p tl (Some v) x (if v =? orig then changed else changed ++ [j])
  end.
Definition repair (p : problem) (o : rop) (base : vec) (partial : list (option nat)) (removed : list nat) (d : draws) : result (vec * list nat) :=
  match o with
  | RRandom => y <- repair_random p base removed (d_vals d) 0 partial ;; x <- filled y ;; Ok (x, removed)
  | RMinCost => repair_min p removed None base []
  end.

(** *** Weights of the operators *)
Record opw (A : Type) := mkOpw { o_name : A; o_weight : Q; o_score : Q; o_uses : nat; o_best : nat }.
Arguments mkOpw {A}. Arguments o_name {A}. Arguments o_weight {A}. Arguments o_score {A}. Arguments o_uses {A}. Arguments o_best {A}.
Definition tiny : Q := 1 # 1000000000000.
Definition wsum {A} (ws : list (opw A)) : Q := qsum (map (fun o => qmax tiny (o_weight o)) ws).
(** [_roulette_pick], 856-882 *)
Fixpoint spin {A} (r s : Q) (ws : list (opw A)) (last : option A) : option A :=
  match ws with
  | [] => last
  | o :: tl => let s' := (s + qmax tiny (o_weight o))%Q in if qle r s' then Some (o_name o) else spin r s' tl (Some (o_name o))
  end.
Definition roulette {A} (u : Q) (ws : list (opw A)) : option A := spin (u * wsum ws)%Q 0%Q ws None.
Definition on_op {A} (eqb : A -> A -> bool) (k : A) (f : opw A -> opw A) (ws : list (opw A)) : list (opw A) := map (fun o => if eqb (o_name o) k then f o else o) ws.
Definition used {A} (o : opw A) : opw A := mkOpw (o_name o) (o_weight o) (o_score o) (S (o_uses o)) (o_best o).
Definition bested {A} (o : opw A) : opw A := mkOpw (o_name o) (o_weight o) (o_score o) (o_uses o) (S (o_best o)).
Definition scored {A} (q : Q) (o : opw A) : opw A := mkOpw (o_name o) (o_weight o) (o_score o + q) (o_uses o) (o_best o).
Record tuning := mkTuning { t_seg : Z; t_eta : Q; t_rbest : Q; t_rimp : Q; t_rworse : Q }.
(** [_segment_update_weights], 884-910 *)
Definition reweighted {A} (eta : Q) (o : opw A) : opw A :=
  mkOpw (o_name o) ((1 - eta) * o_weight o + eta * qmax (1 # 1000000) (o_score o / Qof_nat (Nat.max 1 (o_uses o)))) 0 0 (o_best o).
(** [_reward_step], 912-938 *)
Definition reward (t : tuning) (improved accepted : bool) (delta : Q) : Q :=
  if improved then t_rbest t else if accepted && qlt delta 0 then t_rimp t else if accepted && qlt 0 delta then t_rworse t else 0%Q.

(** *** The search *)
Record search := mkSearch { s_cur : vec; s_fcur : Q; s_best : vec; s_fbest : Q; s_it : nat; s_last : nat; s_d : list (opw dop); s_r : list (opw rop); s_seg : Z }.
(** [auto_step], 943-1011; the candidate is returned, too *)
Definition auto_step (p : problem) (t : tuning) (f : vec -> Q) (d : draws) (s : search) : result (search * vec) :=
  let k := size_now (p_kmin p) (p_kmax p) (d_ratio d) in
  od <- of_opt Exception_ (roulette (d_u1 d) (s_d s)) ;;
  rr <- of_opt Exception_ (roulette (d_u2 d) (s_r s)) ;;
  let sd := on_op dop_eqb od used (s_d s) in
  let sr := on_op rop_eqb rr used (s_r s) in
  removed <- destroy p od (List.length (s_cur s)) k d ;;
  partial <- erase (s_cur s) removed ;;
  xc <- repair p rr (s_cur s) partial removed d ;;
  let cand := f (fst xc) in
  let delta := (cand - s_fcur s)%Q in
  let accept := (qle delta 0 || d_heat d || p_always p) && (0 <? List.length (snd xc)) in
  let cur := if accept then fst xc else s_cur s in
  let fcur := if accept then cand else s_fcur s in
  let improved := qlt fcur (s_fbest s) in
  let sd := if improved then on_op dop_eqb od bested sd else sd in
  let sr := if improved then on_op rop_eqb rr bested sr else sr in
  let w := reward t improved accept delta in
  let sd := on_op dop_eqb od (scored w) sd in
  let sr := on_op rop_eqb rr (scored w) sr in
  let over := (s_seg s - 1 <=? 0)%Z in
  Ok (mkSearch cur fcur (if improved then cur else s_best s) (if improved then fcur else s_fbest s) (S (s_it s)) (if improved then S (s_it s) else s_last s)
        (if over then map (reweighted (t_eta t)) sd else sd) (if over then map (reweighted (t_eta t)) sr else sr) (if over then t_seg t else (s_seg s - 1)%Z), fst xc).
(** [run_auto], 1013-1039: the final state and the candidates *)
Fixpoint run_auto (p : problem) (t : tuning) (f : vec -> Q) (ds : list draws) (s : search) : result (search * list vec) :=
  match ds with
  | [] => Ok (s, [])
  | d :: tl => sx <- auto_step p t f d s ;; r <- run_auto p t f tl (fst sx) ;; Ok (fst r, snd sx :: snd r)
  end.

(** [init_alns], 611-830. The bounds of the destruction, 733-736 *)
Definition bounds (kmin : option nat) (kmax n : nat) : nat * nat :=
  let kmin := match kmin with None => kmax | Some k => k end in
  let kmin := Nat.max 1 (Nat.min kmin n) in (kmin, Nat.max kmin (Nat.min kmax n)).
(** a trial of the estimation of the temperature, 779-788 *)
Fixpoint trial (dom : list (list nat)) (idx : list nat) (vals : nat -> nat) (t : nat) (x : vec) : result vec :=
  match idx with
  | [] => Ok x
  | j :: tl =>
      cur <- of_opt IndexError (nth_error x j) ;;
      ds <- of_opt IndexError (nth_error dom j) ;;
      x <- match filter (fun c => negb (c =? cur)) ds with [] => Ok x | cs => v <- rng_choice cs (vals t) ;; put j v x end ;;
      trial dom tl vals (S t) x
  end.
Definition one_trial (p : problem) (x : vec) (d : draws) : result vec :=
  m <- randint_ab (p_kmin p) (Nat.min (p_kmax p) (List.length x)) (d_k d) ;; trial (p_dom p) (firstn m (d_perm d)) (d_vals d) 0 x.
(** 771-777: the numbers of trials and of iterations *)
Definition budget (total trials : nat) : nat * nat := if trials <? total then (trials, total - trials) else (total / 2, total - total / 2).
Definition weights0 {A} (l : list (A * Q)) : list (opw A) := map (fun o => mkOpw (fst o) (snd o) 0 0 0) l.
(** the search of the solver: [ds1], [ds2]: the draws of the trials and of the steps; the last part: all evaluated solutions, in order *)
Definition run (p : problem) (t : tuning) (f : vec -> Q) (dw : list (dop * Q)) (rw : list (rop * Q)) (x0 : vec) (ds1 ds2 : list draws) : result (search * list vec) :=
  if existsb (fun d => List.length d =? 0) (p_dom p) then Err ValueError else
  tr <- mapM (one_trial p x0) ds1 ;;
  r <- run_auto p t f ds2 (mkSearch x0 (f x0) x0 (f x0) 0 0 (weights0 dw) (weights0 rw) (t_seg t)) ;;
  Ok (fst r, x0 :: tr ++ snd r).
(** [s.W_intermid_solution], returned as the solution, DTAsolvers.py 1318-1324: the first of the least evaluated ones *)
Definition alns_solution (f : vec -> Q) (evaluated : list vec) : option vec := match evaluated with [] => None | x :: tl => Some (best_of (fun y => - f y)%Q x tl) end.

(** *** The initial solution *)
(** 1265: [random.randint(0, len(xx_domain[i]))] *)
Definition random_x0 (lens : list nat) (r : nat -> nat) : vec := map (fun im => r (fst im) mod (snd im + 1)) (combine (seq 0 (List.length lens)) lens).
(** 1233-1252: the number of the traveled route; [times]: [actual_travel_time] of the routes, compared with [route_mintt], which remains infinite *)
Fixpoint recover (rs : list (list nat)) (t : list nat) (j mintt : nat) : nat :=
  match rs with [] => mintt | r :: tl => if eq_genome r t then j else recover tl t (S j) j end.
(** [specify_routes], 1271-1278 *)
Definition route_of (routes : list (list nat)) (value : nat) : result (list nat) :=
  if value <? List.length routes then of_opt IndexError (nth_error routes value) else of_opt IndexError (last_opt routes).

(** ** Facts *)

Lemma randint_ab_ok : forall a b r m, randint_ab a b r = Ok m -> a <= m <= b.
Proof. intros a b r m H. unfold randint_ab in H. destruct (Nat.ltb_spec b a); [discriminate|]. injection H as <-. pose proof (Nat.mod_upper_bound r (b - a + 1) ltac:(lia)). lia. Qed.
Lemma rng_choice_in : forall A (l : list A) r x, rng_choice l r = Ok x -> In x l.
Proof.
  intros A l r x H. unfold rng_choice in H. destruct l as [|y l]; [discriminate|]. apply (f_equal (fun z => match z with Ok a => a | Err _ => x end)) in H. rewrite <- H. apply (nth_In (y :: l)). apply Nat.mod_upper_bound. discriminate.
Qed.
Lemma rng_choice_total : forall A (l : list A) r, l <> [] -> exists x, rng_choice l r = Ok x.
Proof. intros A [|y l] r H; [congruence|]. eexists. reflexivity. Qed.
Lemma set_at_nth : forall A i (v : A) l k, i < List.length l -> nth_error (set_at i v l) k = if k =? i then Some v else nth_error l k.
Proof.
  intros A i v l. revert i. induction l as [|x l IH]; intros i k H; [cbn in H; lia|]. destruct i as [|i].
  - destruct k as [|k]; reflexivity.
  - unfold set_at. cbn [firstn skipn app]. destruct k as [|k]; [reflexivity|]. cbn [nth_error Nat.eqb]. apply IH. cbn in H. lia.
Qed.
Lemma put_ok : forall A i (v : A) x y, put i v x = Ok y -> i < List.length x /\ List.length y = List.length x /\ forall k, nth_error y k = if k =? i then Some v else nth_error x k.
Proof.
  intros A i v x y H. unfold put in H. destruct (Nat.ltb_spec i (List.length x)); [|discriminate]. injection H as <-. split; [assumption|]. split; [apply set_at_length|]. intro k. apply set_at_nth. assumption.
Qed.
Lemma put_total : forall A i (v : A) x, i < List.length x -> exists y, put i v x = Ok y.
Proof. intros A i v x H. unfold put. apply Nat.ltb_lt in H. rewrite H. eexists. reflexivity. Qed.
Lemma nth_of_error : forall A (l : list A) i x d, nth_error l i = Some x -> nth i l d = x.
Proof. intros A l i x d H. apply (nth_error_nth _ _ d H). Qed.

(** *** Destruction *)
Theorem size_lemma : forall kmin kmax ratio, kmin <= kmax -> kmin <= size_now kmin kmax ratio <= kmax.
Proof. intros kmin kmax ratio H. unfold size_now. destruct (Z.ltb_spec (qtrunc (Qof_nat (kmax - kmin) * ratio + Qof_nat kmin)) (Z.of_nat kmin)); [lia|]. destruct (Z.ltb_spec (Z.of_nat kmax) (qtrunc (Qof_nat (kmax - kmin) * ratio + Qof_nat kmin))); lia. Qed.
(** the permutation of the draws *)
Definition perm_ok (n : nat) (d : draws) : Prop := NoDup (d_perm d) /\ List.length (d_perm d) = n /\ forall i, In i (d_perm d) -> i < n.
Lemma NoDup_firstn : forall A n (l : list A), NoDup l -> NoDup (firstn n l).
Proof. intros A n l H. revert n. induction H as [|x l Hx H IH]; intros [|n]; cbn [firstn]; constructor; [|apply IH]. intro K. apply Hx. eapply firstn_in. exact K. Qed.
Lemma destroy_random_ok : forall n kmin k d r, perm_ok n d -> destroy_random n kmin k d = Ok r -> NoDup r /\ (forall i, In i r -> i < n) /\ kmin <= List.length r <= k.
Proof.
  intros n kmin k d r (P1 & P2 & P3) H. unfold destroy_random in H. destruct (randint_ab kmin (Nat.min k n) (d_k d)) as [m|] eqn:E; [|discriminate]. cbn [bind] in H. injection H as <-.
  apply randint_ab_ok in E. split; [apply NoDup_firstn; exact P1|]. split; [intros i Hi; apply P3; eapply firstn_in; exact Hi|]. rewrite firstn_length. lia.
Qed.
Theorem destroy_lemma : forall p o n k d r, 1 <= p_kmin p <= k -> perm_ok n d -> (forall l v, In l (p_hot p) -> In v l -> v < n) -> destroy p o n k d = Ok r ->
  (forall i, In i r -> i < n) /\ 1 <= List.length r <= k /\ (o <> DCongest -> NoDup r) /\ (o <> DSegment -> p_kmin p <= List.length r) /\
  (o = DSegment -> 2 <= n -> exists i, r = seq i (List.length r)).
Proof.
  intros p o n k d r Hk Hp Hh H.
  assert (R : forall d r, perm_ok n d -> destroy_random n (p_kmin p) k d = Ok r -> (forall i, In i r -> i < n) /\ 1 <= List.length r <= k /\ (o <> DCongest -> NoDup r) /\ (o <> DSegment -> p_kmin p <= List.length r)).
  { intros d' r' Hp' H'. destruct (destroy_random_ok _ _ _ _ _ Hp' H') as (A1 & A2 & A3). split; [exact A2|]. split; [lia|]. split; [auto|]. intros _; lia. }
  destruct o; cbn [destroy] in H.
  - destruct (R d r Hp H) as (R1 & R2 & R3 & R4). split; [exact R1|]. split; [exact R2|]. split; [exact R3|]. split; [exact R4|]. discriminate.
  - unfold destroy_segment in H. destruct (Nat.ltb_spec n 2).
    + destruct (R d r Hp H) as (R1 & R2 & R3 & R4). split; [exact R1|]. split; [exact R2|]. split; [exact R3|]. split; [exact R4|]. lia.
    + injection H as <-. pose proof (Nat.mod_upper_bound (d_i d) n ltac:(lia)) as Bi. pose proof (Nat.mod_upper_bound (d_j d) n ltac:(lia)) as Bj.
      set (i := Nat.min (d_i d mod n) (d_j d mod n)). set (j := Nat.max (d_i d mod n) (d_j d mod n)).
      assert (Bij : i <= j < n) by (unfold i, j; lia). clearbody i j.
      rewrite seq_length.
      assert (C : exists m, 1 <= m <= k /\ i + m <= n /\ (let j1 := if j - i + 1 <? p_kmin p then Nat.min (n - 1) (i + p_kmin p - 1) else j in if k <? j1 - i + 1 then i + k - 1 else j1) + 1 - i = m).
      { cbv zeta. destruct (Nat.ltb_spec (j - i + 1) (p_kmin p)); [destruct (Nat.ltb_spec k (Nat.min (n - 1) (i + p_kmin p - 1) - i + 1))|destruct (Nat.ltb_spec k (j - i + 1))]; eexists; (split; [|split; [|reflexivity]]); lia. }
      destruct C as (m & C1 & C2 & C3). cbv zeta in C3. rewrite C3. split; [intros x Hx; apply in_seq in Hx; lia|]. split; [exact C1|]. split; [intros _; apply seq_NoDup|]. split; [congruence|]. intros _ _. exists i. reflexivity.
  - unfold destroy_departure in H. destruct (forallb _ _); [discriminate|]. destruct (R d r Hp H) as (R1 & R2 & R3 & R4). split; [exact R1|]. split; [exact R2|]. split; [exact R3|]. split; [exact R4|]. discriminate.
  - unfold destroy_departure in H. destruct (forallb _ _); [discriminate|]. destruct (R d r Hp H) as (R1 & R2 & R3 & R4). split; [exact R1|]. split; [exact R2|]. split; [exact R3|]. split; [exact R4|]. discriminate.
  - unfold destroy_congest in H. destruct (randint_ab (p_kmin p) (Nat.min k n) (d_k d)) as [m|] eqn:E; [|discriminate]. cbn [bind] in H. apply randint_ab_ok in E.
    pose proof (mapM_length _ _ _ _ _ H) as L. rewrite seq_length in L. split; [|split; [lia|]; split; [congruence|]; split; [lia|discriminate]].
    intros i Hi. destruct (mapM_in _ _ _ _ _ _ H Hi) as (t & _ & Ht). destruct (rng_choice (p_hot p) (d_links d t)) as [l|] eqn:El; [|discriminate]. cbn [bind] in Ht. apply rng_choice_in in El, Ht. eapply Hh; eauto.
Qed.
Theorem destroy_total : forall p o n k d, 1 <= p_kmin p <= k -> p_kmin p <= n -> (o = DEarly \/ o = DLate -> exists t, In t (p_deps p) /\ t <> 0) ->
  (o = DCongest -> p_hot p <> [] /\ forall l, In l (p_hot p) -> l <> []) -> exists r, destroy p o n k d = Ok r.
Proof.
  intros p o n k d Hk Hn Hd Hh. assert (M : exists m, randint_ab (p_kmin p) (Nat.min k n) (d_k d) = Ok m).
  { unfold randint_ab. destruct (Nat.ltb_spec (Nat.min k n) (p_kmin p)); [lia|]. eexists. reflexivity. }
  destruct M as (m & M).
  assert (R : exists r, destroy_random n (p_kmin p) k d = Ok r) by (unfold destroy_random; rewrite M; eexists; reflexivity).
  assert (D : (exists t, In t (p_deps p) /\ t <> 0) -> exists r, destroy_departure n (p_kmin p) k (p_deps p) d = Ok r).
  { intros (t & T1 & T2). unfold destroy_departure. destruct (forallb _ _) eqn:F; [|exact R]. rewrite forallb_forall in F. apply F, Nat.eqb_eq in T1. contradiction. }
  destruct o; cbn [destroy]; [exact R| |apply D, Hd; auto|apply D, Hd; auto|].
  - unfold destroy_segment. destruct (n <? 2); [exact R|]. eexists. reflexivity.
  - unfold destroy_congest. rewrite M. cbn [bind]. destruct (Hh eq_refl) as [H1 H2]. generalize (seq 0 m) as ts. intro ts. induction ts as [|t ts IH]; cbn [mapM]; [eexists; reflexivity|].
    destruct (rng_choice_total _ (p_hot p) (d_links d t) H1) as (l & El). rewrite El. cbn [bind]. destruct (rng_choice_total _ l (d_vehs d t) (H2 l (rng_choice_in _ _ _ _ El))) as (v & ->). cbn [bind]. destruct IH as (r & ->). eexists. reflexivity.
Qed.
Theorem departure_lemma : forall n kmin k deps d, (forall t, In t deps -> t = 0) -> destroy_departure n kmin k deps d = Err ValueError.
Proof. intros n kmin k deps d H. unfold destroy_departure. replace (forallb (fun t => t =? 0) deps) with true; [reflexivity|]. symmetry. apply forallb_forall. intros t Ht. apply Nat.eqb_eq, H, Ht. Qed.

(** *** Repair *)
Lemma erase_ok : forall (x : vec) rm (y0 : list (option nat)), (forall i, In i rm -> i < List.length y0) -> List.length y0 = List.length x ->
  exists y, foldM (fun i z => put i None z) rm y0 = Ok y /\ List.length y = List.length x /\ forall k, nth_error y k = if existsb (Nat.eqb k) rm then Some None else nth_error y0 k.
Proof.
  intros x rm. induction rm as [|i rm IH]; intros y0 H L; cbn [foldM]; [exists y0; auto|]. destruct (put_total _ i (@None nat) y0 (H i (or_introl eq_refl))) as (y1 & E). rewrite E. cbn [bind].
  destruct (put_ok _ _ _ _ _ E) as (_ & L1 & N1). destruct (IH y1) as (y & E2 & L2 & N2); [intros; rewrite L1; apply H; right; assumption|lia|]. exists y. split; [exact E2|]. split; [exact L2|].
  intro k. rewrite N2, N1. cbn [existsb]. destruct (Nat.eqb_spec k i); cbn [orb]; [destruct (existsb _ _); reflexivity|]. reflexivity.
Qed.
Lemma choices_in : forall dom cur v, In v (choices dom cur) -> In v dom.
Proof. intros dom cur v H. unfold choices in H. destruct (1 <? _); [|exact H]. destruct (filter _ dom) eqn:E; [exact H|]. rewrite <- E in H. apply filter_In in H. tauto. Qed.
Lemma choices_some : forall dom cur, dom <> [] -> choices dom cur <> [].
Proof. intros dom cur H. unfold choices. destruct (1 <? _); [|exact H]. destruct (filter _ dom); [exact H|discriminate]. Qed.
(** another value, if the domain (without repetitions) has one *)
Lemma choices_other : forall dom cur v, NoDup dom -> 2 <= List.length dom -> In v (choices dom cur) -> v <> cur.
Proof.
  intros dom cur v Nd L H. unfold choices in H. replace (1 <? List.length dom) with true in H by (symmetry; apply Nat.ltb_lt; lia). destruct (filter (fun c => negb (c =? cur)) dom) as [|z tl] eqn:E.
  - exfalso. assert (All : forall z, In z dom -> z = cur). { intros z Hz. destruct (Nat.eq_dec z cur) as [|N]; [assumption|]. assert (K : In z (filter (fun c => negb (c =? cur)) dom)) by (apply filter_In; split; [exact Hz|apply negb_true_iff, Nat.eqb_neq, N]). rewrite E in K. destruct K. }
    destruct dom as [|a [|b dom]]; cbn in L; try lia. pose proof (All a (or_introl eq_refl)). pose proof (All b (or_intror (or_introl eq_refl))). inversion Nd as [|? ? Na _]. apply Na. left. congruence.
  - rewrite <- E in H. apply filter_In in H. destruct H as [_ H]. apply negb_true_iff, Nat.eqb_neq in H. exact H.
Qed.
Lemma repair_random_ok : forall p base vals rm t x y, List.length x = List.length base -> repair_random p base rm vals t x = Ok y ->
  List.length y = List.length base /\ forall k, (nth_error y k = nth_error x k /\ ~ In k rm) \/ (In k rm /\ exists v c dom, nth_error y k = Some (Some v) /\ nth_error base k = Some c /\ nth_error (p_dom p) k = Some dom /\ In v (choices dom c)).
Proof.
  intros p base vals rm. induction rm as [|i rm IH]; intros t x y L H; cbn [repair_random] in H; [injection H as <-; split; [exact L|]; intro k; left; split; [reflexivity|intros []]|].
  destruct (nth_error base i) as [c|] eqn:Ec; [|discriminate]. cbn [of_opt bind] in H. destruct (nth_error (p_dom p) i) as [dom|] eqn:Ed; [|discriminate]. cbn [of_opt bind] in H.
  destruct (rng_choice (choices dom c) (vals t)) as [v|] eqn:Ev; [|discriminate]. cbn [bind] in H. destruct (put i (Some v) x) as [x1|] eqn:Ex; [|discriminate]. cbn [bind] in H.
  apply rng_choice_in in Ev. destruct (put_ok _ _ _ _ _ Ex) as (_ & L1 & N1). destruct (IH (S t) x1 y ltac:(lia) H) as [L2 N2]. split; [exact L2|].
  intro k. destruct (N2 k) as [[A1 A2]|(A1 & v' & c' & dom' & A2)].
  - rewrite N1 in A1. destruct (Nat.eqb_spec k i) as [Ek|Nk].
    + subst k. right. split; [left; reflexivity|]. exists v, c, dom. auto.
    + left. split; [exact A1|]. intros [K|K]; [congruence|contradiction].
  - right. split; [right; exact A1|]. exists v', c', dom'. exact A2.
Qed.
Lemma filled_nth : forall y x, filled y = Ok x -> List.length x = List.length y /\ forall k v, nth_error y k = Some v -> exists u, v = Some u /\ nth_error x k = Some u.
Proof.
  intro y. unfold filled. induction y as [|o y IH]; intros x H; cbn [mapM] in H; [injection H as <-; split; [reflexivity|]; intros [|k] v K; discriminate|].
  destruct o as [u|]; [|discriminate]. cbn [of_opt bind] in H. destruct (mapM (of_opt TypeError) y) as [us|] eqn:E; [|discriminate]. cbn [bind] in H. injection H as <-. destruct (IH us eq_refl) as [L N]. split; [cbn; lia|].
  intros [|k] v K; cbn in K; [injection K as <-; exists u; split; reflexivity|]. exact (N k v K).
Qed.
Lemma filled_total : forall y, (forall k v, nth_error y k = Some v -> v <> None) -> exists x, filled y = Ok x.
Proof.
  intro y. unfold filled. induction y as [|o y IH]; intro H; cbn [mapM]; [eexists; reflexivity|]. destruct o as [u|]; [|exfalso; apply (H 0 None eq_refl); reflexivity]. cbn [of_opt bind].
  destruct IH as (x & ->); [intros k v K; apply (H (S k) v K)|]. eexists. reflexivity.
Qed.
Lemma existsb_nat : forall k rm, existsb (Nat.eqb k) rm = true <-> In k rm.
Proof. intros k rm. rewrite existsb_exists. split; [intros (x & H & E); apply Nat.eqb_eq in E; subst; exact H|intro H; exists k; split; [exact H|apply Nat.eqb_refl]]. Qed.
(** the random repair gives every removed place a value of its domain, another one if there is one; nothing else changes *)
Theorem repair_random_lemma : forall p base rm vals, (forall i, In i rm -> i < List.length base) -> List.length (p_dom p) = List.length base -> (forall dom, In dom (p_dom p) -> dom <> []) ->
  exists partial y x, erase base rm = Ok partial /\ repair_random p base rm vals 0 partial = Ok y /\ filled y = Ok x /\ redone (p_dom p) rm base x /\
    forall i, In i rm -> NoDup (nth i (p_dom p) []) -> 2 <= List.length (nth i (p_dom p) []) -> nth i x 0 <> nth i base 0.
Proof.
  intros p base rm vals Hr Hl Hd. unfold erase. destruct (erase_ok base rm (map Some base)) as (pt & E1 & L1 & N1); [rewrite map_length; exact Hr|apply map_length|]. exists pt. rewrite E1.
  assert (T : forall rm t x, (forall i, In i rm -> i < List.length base) -> List.length x = List.length base -> exists y, repair_random p base rm vals t x = Ok y).
  { clear - Hl Hd. intro rm. induction rm as [|i rm IH]; intros t x H L; cbn [repair_random]; [eexists; reflexivity|]. pose proof (H i (or_introl eq_refl)) as Hi.
    destruct (nth_error base i) as [c|] eqn:Ec; [|apply nth_error_None in Ec; lia]. cbn [of_opt bind]. destruct (nth_error (p_dom p) i) as [dom|] eqn:Ed; [|apply nth_error_None in Ed; lia]. cbn [of_opt bind].
    destruct (rng_choice_total _ (choices dom c) (vals t) (choices_some dom c (Hd dom (nth_error_In _ _ Ed)))) as (v & ->). cbn [bind]. destruct (put_total _ i (Some v) x ltac:(lia)) as (x1 & Ex). rewrite Ex. cbn [bind].
    apply IH; [intros; apply H; right; assumption|]. destruct (put_ok _ _ _ _ _ Ex) as (_ & Lx & _). lia. }
  destruct (T rm 0 pt Hr L1) as (y & Ey). exists y. rewrite Ey. destruct (repair_random_ok p base vals rm 0 pt y L1 Ey) as [L2 N2].
  assert (F : forall k v, nth_error y k = Some v -> v <> None).
  { intros k v Hk. destruct (N2 k) as [[A1 A2]|(_ & v' & c & dom & A2 & _)]; [|congruence]. rewrite A1, N1 in Hk. destruct (existsb (Nat.eqb k) rm) eqn:Ex; [apply existsb_nat in Ex; contradiction|].
    apply nth_error_In in Hk. apply in_map_iff in Hk. destruct Hk as (z & <- & _). discriminate. }
  destruct (filled_total y F) as (x & Ex). exists x. destruct (filled_nth y x Ex) as [L3 N3].
  assert (G : forall k, k < List.length base -> (nth k x 0 = nth k base 0 /\ ~ In k rm) \/ (In k rm /\ In (nth k x 0) (choices (nth k (p_dom p) []) (nth k base 0)))).
  { intros k Hk. destruct (N2 k) as [[A1 A2]|(A0 & v & c & dom & A1 & A2 & A3 & A4)].
    - left. split; [|exact A2]. rewrite N1 in A1. destruct (existsb (Nat.eqb k) rm) eqn:Eb; [apply existsb_nat in Eb; contradiction|].
      destruct (nth_error base k) as [c|] eqn:Ec; [|apply nth_error_None in Ec; lia]. rewrite (map_nth_error Some _ _ Ec) in A1. destruct (N3 k _ A1) as (u & Eu & Nu). injection Eu as <-. rewrite (nth_of_error _ _ _ _ 0 Nu), (nth_of_error _ _ _ _ 0 Ec). reflexivity.
    - right. split; [exact A0|]. destruct (N3 k _ A1) as (u & Eu & Nu). injection Eu as <-. rewrite (nth_of_error _ _ _ _ 0 Nu), (nth_of_error _ _ _ _ 0 A2), (nth_of_error _ _ _ _ [] A3). exact A4. }
  split; [reflexivity|]. split; [reflexivity|]. split; [exact Ex|]. split.
  - split; [lia|]. intros i Hi. destruct (G i Hi) as [[A _]|[A B]]; [left; exact A|right; split; [exact A|]]. eapply choices_in. exact B.
  - intros i Hi Nd L. destruct (G i (Hr i Hi)) as [[_ A]|[_ B]]; [contradiction|]. eapply choices_other; eauto.
Qed.

(** the value of least cost, the first of them *)
Lemma cheapest_value_ok : forall cost vs cmin best b, cheapest_value cost vs cmin best = Ok b ->
  (b = best /\ forall v, In v vs -> exists q m, cost v = Ok q /\ cmin = Some m /\ (m <= q)%Q) \/
  (exists v q, b = Some v /\ In v vs /\ cost v = Ok q /\ (forall m, cmin = Some m -> (q < m)%Q) /\ forall u, In u vs -> exists r, cost u = Ok r /\ (q <= r)%Q).
Proof.
  intros cost vs. induction vs as [|v vs IH]; intros cmin best b H; cbn [cheapest_value] in H; [injection H as <-; left; split; [reflexivity|intros v []]|].
  destruct (cost v) as [q|] eqn:Eq; [|discriminate]. cbn [bind] in H. destruct (match cmin with None => true | Some m => qlt q m end) eqn:C.
  - right. destruct (IH _ _ _ H) as [[-> A]|(v' & q' & -> & A1 & A2 & A3 & A4)].
    + exists v, q. split; [reflexivity|]. split; [left; reflexivity|]. split; [exact Eq|]. split; [intros m ->; apply qlt_iff; exact C|]. intros u [<-|Hu]; [exists q; split; [exact Eq|apply Qle_refl]|].
      destruct (A u Hu) as (r & m & B1 & B2 & B3). injection B2 as <-. exists r. auto.
    + exists v', q'. pose proof (A3 q eq_refl) as Lt. split; [reflexivity|]. split; [right; exact A1|]. split; [exact A2|]. split.
      * intros m ->. apply qlt_iff in C. lra.
      * intros u [<-|Hu]; [exists q; split; [exact Eq|lra]|apply A4; exact Hu].
  - destruct cmin as [m|]; [|discriminate]. apply qlt_false in C. destruct (IH _ _ _ H) as [[-> A]|(v' & q' & -> & A1 & A2 & A3 & A4)].
    + left. split; [reflexivity|]. intros u [<-|Hu]; [exists q, m; auto|]. apply A. exact Hu.
    + right. exists v', q'. split; [reflexivity|]. split; [right; exact A1|]. split; [exact A2|]. split; [exact A3|]. intros u [<-|Hu]; [exists q; split; [exact Eq|]; pose proof (A3 m eq_refl); lra|apply A4; exact Hu].
Qed.
Lemma cheapest_value_total : forall cost vs cmin best, (forall v, In v vs -> exists q, cost v = Ok q) -> exists b, cheapest_value cost vs cmin best = Ok b.
Proof.
  intros cost vs. induction vs as [|v vs IH]; intros cmin best H; cbn [cheapest_value]; [eexists; reflexivity|]. destruct (H v (or_introl eq_refl)) as (q & ->). cbn [bind].
  destruct (match cmin with None => true | Some m => qlt q m end); apply IH; intros; apply H; right; assumption.
Qed.
Definition cheapest (p : problem) (j v : nat) : Prop := In v (nth j (p_dom p) []) /\ exists q, p_cost p j v = Ok q /\ forall u, In u (nth j (p_dom p) []) -> exists r, p_cost p j u = Ok r /\ (q <= r)%Q.
Lemma repair_min_ok : forall p rm best x ch x' ch', (forall dom, In dom (p_dom p) -> dom <> []) -> repair_min p rm best x ch = Ok (x', ch') ->
  List.length x' = List.length x /\ (forall k, k < List.length x -> (nth k x' 0 = nth k x 0 /\ ~ In k rm) \/ (In k rm /\ cheapest p k (nth k x' 0))) /\
  (forall k, In k ch' -> In k ch \/ In k rm) /\ (forall k, In k rm -> nth k x' 0 <> nth k x 0 -> In k ch') /\ (forall k, In k ch -> In k ch') /\ (forall k, In k rm -> k < List.length x).
Proof.
  intros p rm. induction rm as [|j rm IH]; intros best x ch x' ch' Hd H; cbn [repair_min] in H.
  - injection H as <- <-. split; [reflexivity|]. split; [intros k _; left; split; [reflexivity|intros []]|]. split; [auto|]. split; [intros k []|]. split; [auto|intros k []].
  - destruct (nth_error x j) as [orig|] eqn:Eo; [|discriminate]. cbn [of_opt bind] in H. destruct (nth_error (p_dom p) j) as [dom|] eqn:Ed; [|discriminate]. cbn [of_opt bind] in H.
    destruct (cheapest_value (p_cost p j) dom None best) as [b|] eqn:Ec; [|discriminate]. cbn [bind] in H. destruct b as [v|]; [|discriminate]. cbn [of_opt bind] in H.
    destruct (put j v x) as [x1|] eqn:Ep; [|discriminate]. cbn [bind] in H. destruct (put_ok _ _ _ _ _ Ep) as (Lj & L1 & N1).
    pose proof (Hd dom (nth_error_In _ _ Ed)) as Dn.
    assert (Cv : cheapest p j v).
    { destruct (cheapest_value_ok _ _ _ _ _ Ec) as [[_ A]|(v' & q & Ev & A1 & A2 & _ & A4)].
      - destruct dom as [|z dom]; [congruence|]. destruct (A z (or_introl eq_refl)) as (q & m & _ & K & _). discriminate.
      - injection Ev as <-. unfold cheapest. rewrite (nth_of_error _ _ _ _ [] Ed). split; [exact A1|]. exists q. auto. }
    destruct (IH (Some v) x1 _ x' ch' Hd H) as (I1 & I2 & I3 & I4 & I5 & I6).
    assert (Nx : forall k, k < List.length x -> nth k x1 0 = if k =? j then v else nth k x 0).
    { intros k Hk. pose proof (N1 k) as Nk. destruct (Nat.eqb_spec k j) as [->|Nkj]; [apply nth_of_error; exact Nk|]. destruct (nth_error x k) as [z|] eqn:Ez; [|apply nth_error_None in Ez; lia]. rewrite (nth_of_error _ _ _ _ 0 Nk), (nth_of_error _ _ _ _ 0 Ez). reflexivity. }
    split; [lia|]. split; [|split; [|split; [|split]]].
    + intros k Hk. destruct (I2 k ltac:(lia)) as [[A1 A2]|[A1 A2]]; [|right; split; [right; exact A1|exact A2]]. rewrite A1, (Nx k Hk). destruct (Nat.eqb_spec k j) as [->|Nkj]; [right; split; [left; reflexivity|exact Cv]|]. left. split; [reflexivity|]. intros [K|K]; [congruence|contradiction].
    + intros k Hk. destruct (I3 k Hk) as [K|K]; [|right; right; exact K]. destruct (v =? orig); [left; exact K|]. apply in_app_iff in K. destruct K as [K|[<-|[]]]; [left; exact K|right; left; reflexivity].
    + intros k Hk Ne. destruct (Nat.eq_dec k j) as [->|Nkj].
      * destruct (in_dec Nat.eq_dec j rm) as [Jin|Jout].
        -- destruct (Nat.eq_dec (nth j x' 0) v) as [Ev|Ev]; [|apply I4; [exact Jin|]; rewrite (Nx j Lj), Nat.eqb_refl; exact Ev]. apply I5. rewrite Ev in Ne. rewrite (nth_of_error _ _ _ _ 0 Eo) in Ne. apply Nat.eqb_neq in Ne. rewrite Ne. apply in_or_app. right. left. reflexivity.
        -- destruct (I2 j ltac:(lia)) as [[A1 _]|[A1 _]]; [|contradiction]. rewrite (Nx j Lj), Nat.eqb_refl in A1. apply I5. rewrite A1, (nth_of_error _ _ _ _ 0 Eo) in Ne. apply Nat.eqb_neq in Ne. rewrite Ne. apply in_or_app. right. left. reflexivity.
      * destruct Hk as [->|Hk]; [congruence|]. apply I4; [exact Hk|]. pose proof (I6 k Hk). rewrite (Nx k ltac:(lia)). apply Nat.eqb_neq in Nkj. rewrite Nkj. exact Ne.
    + intros k Hk. apply I5. destruct (v =? orig); [exact Hk|]. apply in_or_app. left. exact Hk.
    + intros k [<-|Hk]; [exact Lj|]. pose proof (I6 k Hk). lia.
Qed.
Lemma repair_min_total : forall p rm best x ch, (forall i, In i rm -> i < List.length x) -> List.length (p_dom p) = List.length x -> (forall dom, In dom (p_dom p) -> dom <> []) ->
  (forall j v, In v (nth j (p_dom p) []) -> exists q, p_cost p j v = Ok q) -> exists r, repair_min p rm best x ch = Ok r.
Proof.
  intros p rm. induction rm as [|j rm IH]; intros best x ch H L Hd Hc; cbn [repair_min]; [eexists; reflexivity|]. pose proof (H j (or_introl eq_refl)) as Hj.
  destruct (nth_error x j) as [orig|] eqn:Eo; [|apply nth_error_None in Eo; lia]. cbn [of_opt bind]. destruct (nth_error (p_dom p) j) as [dom|] eqn:Ed; [|apply nth_error_None in Ed; lia]. cbn [of_opt bind].
  destruct (cheapest_value_total (p_cost p j) dom None best) as (b & Eb); [intros v Hv; apply Hc; rewrite (nth_of_error _ _ _ _ [] Ed); exact Hv|]. rewrite Eb. cbn [bind].
  assert (Bn : exists v, b = Some v).
  { destruct (cheapest_value_ok _ _ _ _ _ Eb) as [[_ A]|(v & q & -> & _)]; [|eauto]. pose proof (Hd dom (nth_error_In _ _ Ed)). destruct dom as [|z dom]; [congruence|]. destruct (A z (or_introl eq_refl)) as (q & m & _ & K & _). discriminate. }
  destruct Bn as (v & ->). cbn [of_opt bind]. destruct (put_total _ j v x Hj) as (x1 & E1). rewrite E1. cbn [bind]. destruct (put_ok _ _ _ _ _ E1) as (_ & L1 & _).
  apply IH; auto; [|lia]. intros i Hi. rewrite L1. apply H. right. exact Hi.
Qed.
(** the repair of least cost gives every removed vehicle a route of least cost; the reported places are those that changed *)
Theorem repair_min_lemma : forall p base rm x ch, (forall dom, In dom (p_dom p) -> dom <> []) -> repair_min p rm None base [] = Ok (x, ch) ->
  redone (p_dom p) rm base x /\ (forall j, In j rm -> cheapest p j (nth j x 0)) /\ (forall j, j < List.length base -> nth j x 0 <> nth j base 0 -> In j ch) /\ (ch = [] -> x = base).
Proof.
  intros p base rm x ch Hd H. destruct (repair_min_ok p rm None base [] x ch Hd H) as (A1 & A2 & A3 & A4 & _ & A6). split; [|split; [|split]].
  - split; [exact A1|]. intros i Hi. destruct (A2 i Hi) as [[K _]|[K1 K2]]; [left; exact K|right; split; [exact K1|apply K2]].
  - intros j Hj. destruct (A2 j (A6 j Hj)) as [[_ K]|[_ K]]; [contradiction|exact K].
  - intros j Hj Ne. destruct (A2 j Hj) as [[K _]|[K _]]; [contradiction|]. apply A4; assumption.
  - intros ->. apply nth_ext with (d := 0) (d' := 0); [exact A1|]. intros n Hn. destruct (Nat.eq_dec (nth n x 0) (nth n base 0)) as [|Ne]; [assumption|]. exfalso. destruct (A2 n ltac:(lia)) as [[K _]|[K _]]; [contradiction|]. exact (A4 n K Ne).
Qed.

(** *** The roulette *)
Lemma tiny_pos : forall q, (0 < qmax tiny q)%Q.
Proof. intro q. unfold qmax, tiny. destruct (qle (1 # 1000000000000) q) eqn:E; [apply qle_iff in E; assert (0 < 1 # 1000000000000)%Q by reflexivity; lra|reflexivity]. Qed.
Lemma spin_ok : forall A (ws : list (opw A)) r s last, ws <> [] -> (r <= s + wsum ws)%Q -> exists pre o post, ws = pre ++ o :: post /\ spin r s ws last = Some (o_name o) /\
  (pre = [] \/ (s + wsum pre < r)%Q) /\ (r <= s + wsum pre + qmax tiny (o_weight o))%Q.
Proof.
  intros A ws. induction ws as [|o ws IH]; intros r s last Hn Hr; [congruence|]. cbn [spin]. destruct (qle r (s + qmax tiny (o_weight o))) eqn:E.
  - apply qle_iff in E. exists [], o, ws. split; [reflexivity|]. split; [reflexivity|]. split; [left; reflexivity|]. unfold wsum. cbn. lra.
  - apply qle_false in E. unfold wsum in Hr. cbn [map qsum] in Hr. destruct ws as [|o2 ws].
    + cbn in Hr. lra.
    + destruct (IH r (s + qmax tiny (o_weight o))%Q (Some (o_name o)) ltac:(discriminate) ltac:(unfold wsum; lra)) as (pre & o' & post & -> & B1 & B2 & B3).
      exists (o :: pre), o', post. split; [reflexivity|]. split; [exact B1|]. unfold wsum in *. cbn [map qsum]. split; [right|lra]. destruct B2 as [->|B2]; [cbn; lra|lra].
Qed.
(** operator [o] is picked exactly for the random numbers in its share of the sum of the weights *)
Theorem roulette_lemma : forall A (u : Q) (ws : list (opw A)), ws <> [] -> (0 <= u < 1)%Q -> exists pre o post, ws = pre ++ o :: post /\ roulette u ws = Some (o_name o) /\
  (pre = [] \/ (wsum pre < u * wsum ws)%Q) /\ (u * wsum ws <= wsum pre + qmax tiny (o_weight o))%Q.
Proof.
  intros A u ws Hn Hu. assert (P : forall l : list (opw A), (0 <= wsum l)%Q).
  { intro l. unfold wsum. induction l as [|o l IH]; cbn [map qsum]; [apply Qle_refl|]. pose proof (tiny_pos (o_weight o)). lra. }
  destruct (spin_ok A ws (u * wsum ws)%Q 0%Q None Hn) as (pre & o & post & E & B1 & B2 & B3); [pose proof (P ws); nra|]. exists pre, o, post. split; [exact E|]. split; [exact B1|]. split; [destruct B2 as [B2|B2]; [left; exact B2|right; lra]|lra].
Qed.
(** the weights remain positive *)
Definition weighted {A} (ws : list (opw A)) : Prop := forall o, In o ws -> (0 < o_weight o)%Q.
Lemma on_op_weights : forall A (eqb : A -> A -> bool) k f (ws : list (opw A)), (forall o, o_weight (f o) = o_weight o) -> (forall o, o_name (f o) = o_name o) ->
  map o_weight (on_op eqb k f ws) = map o_weight ws /\ map o_name (on_op eqb k f ws) = map o_name ws.
Proof. intros A eqb k f ws H1 H2. unfold on_op. rewrite !map_map. split; apply map_ext; intro o; destruct (eqb (o_name o) k); auto. Qed.
Lemma weighted_map : forall A (ws ws' : list (opw A)), map o_weight ws' = map o_weight ws -> weighted ws -> weighted ws'.
Proof. intros A ws ws' E H o Ho. assert (K : In (o_weight o) (map o_weight ws')) by (apply in_map; exact Ho). rewrite E in K. apply in_map_iff in K. destruct K as (o' & E' & K). rewrite <- E'. apply H. exact K. Qed.
Lemma reweighted_pos : forall A eta (o : opw A), (0 <= eta <= 1)%Q -> (0 < o_weight o)%Q -> (0 < o_weight (reweighted eta o))%Q.
Proof.
  intros A eta o He Ho. cbn [reweighted o_weight]. assert (P : (0 < qmax (1 # 1000000) (o_score o / Qof_nat (Nat.max 1 (o_uses o))))%Q).
  { unfold qmax. destruct (qle (1 # 1000000) _) eqn:E; [apply qle_iff in E; assert (0 < 1 # 1000000)%Q by reflexivity; lra|reflexivity]. }
  revert P. generalize (qmax (1 # 1000000) (o_score o / Qof_nat (Nat.max 1 (o_uses o)))) as z. intros z P. destruct (Qlt_le_dec 0 eta) as [E|E]; [nra|]. assert (E0 : (eta == 0)%Q) by lra. rewrite E0. lra.
Qed.

(** *** The search *)
Record good (p : problem) (f : vec -> Q) (x0 : vec) (s : search) : Prop := mkGood {
  g_len : List.length (s_cur s) = List.length x0;
  g_dom : forall i, i < List.length x0 -> nth i (s_cur s) 0 = nth i x0 0 \/ In (nth i (s_cur s) 0) (nth i (p_dom p) []);
  g_fcur : s_fcur s = f (s_cur s); g_fbest : s_fbest s = f (s_best s); g_le : (s_fbest s <= s_fcur s)%Q;
  g_d : s_d s <> [] /\ weighted (s_d s); g_r : s_r s <> [] /\ weighted (s_r s) }.
Record problem_ok (p : problem) (n : nat) : Prop := mkPok {
  k_dom : List.length (p_dom p) = n; k_nonempty : forall dom, In dom (p_dom p) -> dom <> []; k_bounds : 1 <= p_kmin p <= p_kmax p; k_n : p_kmin p <= n;
  k_hot : forall l v, In l (p_hot p) -> In v l -> v < n }.
Definition draws_ok (n : nat) (d : draws) : Prop := perm_ok n d /\ (0 <= d_u1 d < 1)%Q /\ (0 <= d_u2 d < 1)%Q.

Lemma repair_lemma : forall p o base partial rm d x ch, (forall i, In i rm -> i < List.length base) -> List.length (p_dom p) = List.length base -> (forall dom, In dom (p_dom p) -> dom <> []) -> rm <> [] ->
  erase base rm = Ok partial -> repair p o base partial rm d = Ok (x, ch) -> redone (p_dom p) rm base x /\ (ch = [] -> x = base).
Proof.
  intros p o base partial rm d x ch Hr Hl Hd Hn He H. destruct o; cbn [repair] in H.
  - destruct (repair_random_lemma p base rm (d_vals d) Hr Hl Hd) as (pt & y & x' & E1 & E2 & E3 & E4 & _). rewrite He in E1. injection E1 as <-. rewrite E2 in H. cbn [bind] in H. rewrite E3 in H. cbn [bind] in H. injection H as <- <-. split; [exact E4|]. contradiction.
  - destruct (repair_min_lemma p base rm x ch Hd H) as (A1 & _ & _ & A4). auto.
Qed.
(** one step: the current solution is the old one or the candidate, a candidate that is no worse is taken, and the best one is the best *)
Theorem step_lemma : forall p t f d s s' x x0, problem_ok p (List.length x0) -> draws_ok (List.length x0) d -> (0 <= t_eta t <= 1)%Q -> good p f x0 s -> auto_step p t f d s = Ok (s', x) ->
  good p f x0 s' /\ (exists rm, redone (p_dom p) rm (s_cur s) x /\ 1 <= List.length rm <= size_now (p_kmin p) (p_kmax p) (d_ratio d)) /\
  (s_cur s' = x \/ s_cur s' = s_cur s) /\ ((f x <= f (s_cur s))%Q -> s_cur s' = x) /\
  (s_best s' = s_best s \/ s_best s' = x) /\ (s_fbest s' <= s_fbest s)%Q /\ (s_fbest s' <= f x)%Q /\ s_it s' = S (s_it s).
Proof.
  intros p t f d s s' x x0 [Kd Kne Kb Kn Kh] (Dp & _) He [G1 G2 G3 G4 G5 [G6 G7] [G8 G9]] H. unfold auto_step in H. cbv zeta in H.
  destruct (roulette (d_u1 d) (s_d s)) as [od|]; [|discriminate]. cbn [of_opt bind] in H. destruct (roulette (d_u2 d) (s_r s)) as [rr|]; [|discriminate]. cbn [of_opt bind] in H.
  set (k := size_now (p_kmin p) (p_kmax p) (d_ratio d)) in *. pose proof (size_lemma (p_kmin p) (p_kmax p) (d_ratio d) ltac:(lia)) as Bk. fold k in Bk.
  destruct (destroy p od (List.length (s_cur s)) k d) as [rm|] eqn:Er; [|discriminate]. cbn [bind] in H. destruct (erase (s_cur s) rm) as [partial|] eqn:Ee; [|discriminate]. cbn [bind] in H.
  destruct (repair p rr (s_cur s) partial rm d) as [[xc ch]|] eqn:Ex; [|discriminate]. cbn [bind fst snd] in H.
  rewrite G1 in Er. destruct (destroy_lemma p od (List.length x0) k d rm ltac:(lia) Dp Kh Er) as (R1 & R2 & _).
  assert (Rn : rm <> []) by (intro K; subst rm; cbn in R2; lia).
  destruct (repair_lemma p rr (s_cur s) partial rm d xc ch ltac:(intros i Hi; rewrite G1; apply R1; exact Hi) ltac:(lia) Kne Rn Ee Ex) as [Rd Rc].
  assert (Hw : forall A (eqb : A -> A -> bool) (q : A) (w : Q) (b ov : bool) (ws : list (opw A)), ws <> [] -> weighted ws ->
    let ws1 := on_op eqb q used ws in let ws2 := if b then on_op eqb q bested ws1 else ws1 in let ws3 := on_op eqb q (scored w) ws2 in
    (if ov then map (reweighted (t_eta t)) ws3 else ws3) <> [] /\ weighted (if ov then map (reweighted (t_eta t)) ws3 else ws3)).
  { intros A eqb q w b ov ws Hne Hwt ws1 ws2 ws3.
    assert (W3 : map o_weight ws3 = map o_weight ws).
    { unfold ws3. rewrite (proj1 (on_op_weights _ _ _ (scored w) ws2 (fun _ => eq_refl) (fun _ => eq_refl))). unfold ws2. destruct b; [rewrite (proj1 (on_op_weights _ _ _ bested ws1 (fun _ => eq_refl) (fun _ => eq_refl)))|]; unfold ws1; apply (proj1 (on_op_weights _ _ _ used ws (fun _ => eq_refl) (fun _ => eq_refl))). }
    assert (N3 : ws3 <> []) by (intro K; rewrite K in W3; destruct ws; [congruence|discriminate]).
    pose proof (weighted_map _ _ _ W3 Hwt) as Wt. destruct ov; [|auto]. split; [intro K; apply N3; destruct ws3; [reflexivity|discriminate]|]. intros o Ho. apply in_map_iff in Ho. destruct Ho as (o' & <- & Ho). apply reweighted_pos; [exact He|]. apply Wt. exact Ho. }
  injection H as <- <-. cbn [s_cur s_fcur s_best s_fbest s_it s_d s_r].
  set (acc := (qle (f xc - s_fcur s) 0 || d_heat d || p_always p) && (0 <? List.length ch)).
  set (xn := if acc then xc else s_cur s). set (fc := if acc then f xc else s_fcur s).
  assert (Eacc : (f xc <= f (s_cur s))%Q -> xn = xc).
  { intro Hle. unfold xn. destruct ch as [|c0 ch]; [rewrite (Rc eq_refl); destruct acc; reflexivity|]. unfold acc. replace (qle (f xc - s_fcur s) 0) with true; [reflexivity|]. symmetry. apply qle_iff. rewrite G3. lra. }
  assert (Fc : fc = f xn) by (unfold fc, xn; destruct acc; [reflexivity|exact G3]).
  assert (Lc : List.length xn = List.length x0) by (unfold xn; destruct acc; [destruct Rd as [Rd _]; lia|exact G1]).
  assert (Dc : forall i, i < List.length x0 -> nth i xn 0 = nth i x0 0 \/ In (nth i xn 0) (nth i (p_dom p) [])).
  { intros i Hi. unfold xn. destruct acc; [|apply G2; exact Hi]. destruct Rd as [_ Rd]. destruct (Rd i ltac:(lia)) as [K|[_ K]]; [rewrite K; apply G2; exact Hi|right; exact K]. }
  assert (Cc : xn = xc \/ xn = s_cur s) by (unfold xn; destruct acc; auto).
  clearbody xn fc.
  assert (Bx : (fc <= f xc)%Q \/ (xn = s_cur s /\ (s_fcur s < f xc)%Q)).
  { destruct (Qlt_le_dec (f (s_cur s)) (f xc)) as [L|L]; [|left; rewrite Fc, (Eacc L); apply Qle_refl]. destruct Cc as [->|Cc]; [left; rewrite Fc; apply Qle_refl|right; split; [exact Cc|rewrite G3; exact L]]. }
  match goal with |- good _ _ _ (mkSearch _ _ _ _ _ _ ?a ?b _) /\ _ => assert (Wa : a <> [] /\ weighted a) by (exact (Hw _ dop_eqb od _ _ _ (s_d s) G6 G7)); assert (Wb : b <> [] /\ weighted b) by (exact (Hw _ rop_eqb rr _ _ _ (s_r s) G8 G9)) end.
  revert Wa Wb. destruct (qlt fc (s_fbest s)) eqn:Im; intros Wa Wb.
  - apply qlt_iff in Im. assert (Ne : xn = xc) by (destruct Cc as [|Cc]; [assumption|]; exfalso; rewrite Cc in Fc; rewrite Fc, <- G3 in Im; lra).
    split; [constructor; cbn [s_cur s_fcur s_best s_fbest s_d s_r]; auto; apply Qle_refl|]. split; [exists rm; auto|]. split; [exact Cc|]. split; [exact Eacc|]. split; [right; exact Ne|]. split; [lra|]. split; [destruct Bx as [Bx|[B1 B2]]; [exact Bx|lra]|reflexivity].
  - apply qlt_false in Im. split; [constructor; cbn [s_cur s_fcur s_best s_fbest s_d s_r]; auto|]. split; [exists rm; auto|]. split; [exact Cc|]. split; [exact Eacc|]. split; [left; reflexivity|]. split; [apply Qle_refl|].
    split; [destruct Bx as [Bx|[B1 B2]]; lra|reflexivity].
Qed.

(** a step does not fail *)
Definition no_fail (p : problem) (s : search) : Prop :=
  (forall o, In o (map o_name (s_d s)) -> (o = DEarly \/ o = DLate -> exists t, In t (p_deps p) /\ t <> 0) /\ (o = DCongest -> p_hot p <> [] /\ forall l, In l (p_hot p) -> l <> [])) /\
  (In RMinCost (map o_name (s_r s)) -> forall j v, In v (nth j (p_dom p) []) -> exists q, p_cost p j v = Ok q).
Lemma step_names : forall p t f d s s' x, auto_step p t f d s = Ok (s', x) -> map o_name (s_d s') = map o_name (s_d s) /\ map o_name (s_r s') = map o_name (s_r s).
Proof.
  intros p t f d s s' x H. unfold auto_step in H. cbv zeta in H. destruct (roulette (d_u1 d) (s_d s)) as [od|]; [|discriminate]. cbn [of_opt bind] in H. destruct (roulette (d_u2 d) (s_r s)) as [rr|]; [|discriminate]. cbn [of_opt bind] in H.
  destruct (destroy p od _ _ d) as [rm|]; [|discriminate]. cbn [bind] in H. destruct (erase (s_cur s) rm) as [pt|]; [|discriminate]. cbn [bind] in H. destruct (repair p rr (s_cur s) pt rm d) as [[xc ch]|]; [|discriminate]. cbn [bind fst snd] in H.
  injection H as <- <-. cbn [s_d s_r].
  assert (Hw : forall A (eqb : A -> A -> bool) (q : A) (w : Q) (b ov : bool) (ws : list (opw A)),
    let ws1 := on_op eqb q used ws in let ws2 := if b then on_op eqb q bested ws1 else ws1 in let ws3 := on_op eqb q (scored w) ws2 in
    map o_name (if ov then map (reweighted (t_eta t)) ws3 else ws3) = map o_name ws).
  { intros A eqb q w b ov ws ws1 ws2 ws3.
    assert (W3 : map o_name ws3 = map o_name ws).
    { unfold ws3. rewrite (proj2 (on_op_weights _ _ _ (scored w) ws2 (fun _ => eq_refl) (fun _ => eq_refl))). unfold ws2. destruct b; [rewrite (proj2 (on_op_weights _ _ _ bested ws1 (fun _ => eq_refl) (fun _ => eq_refl)))|]; unfold ws1; apply (proj2 (on_op_weights _ _ _ used ws (fun _ => eq_refl) (fun _ => eq_refl))). }
    destruct ov; [|exact W3]. rewrite map_map. exact W3. }
  split; [exact (Hw _ dop_eqb od _ _ _ (s_d s))|exact (Hw _ rop_eqb rr _ _ _ (s_r s))].
Qed.
Theorem step_total : forall p t f d s x0, problem_ok p (List.length x0) -> draws_ok (List.length x0) d -> good p f x0 s -> no_fail p s -> exists s' x, auto_step p t f d s = Ok (s', x).
Proof.
  intros p t f d s x0 [Kd Kne Kb Kn Kh] (Dp & U1 & U2) [G1 G2 G3 G4 G5 [G6 G7] [G8 G9]] [F1 F2]. unfold auto_step. cbv zeta.
  destruct (roulette_lemma _ (d_u1 d) (s_d s) G6 U1) as (p1 & o1 & q1 & E1 & -> & _). destruct (roulette_lemma _ (d_u2 d) (s_r s) G8 U2) as (p2 & o2 & q2 & E2 & -> & _). cbn [of_opt bind].
  set (k := size_now (p_kmin p) (p_kmax p) (d_ratio d)) in *. pose proof (size_lemma (p_kmin p) (p_kmax p) (d_ratio d) ltac:(lia)) as Bk. fold k in Bk.
  assert (I1 : In (o_name o1) (map o_name (s_d s))) by (apply in_map; rewrite E1; apply in_or_app; right; left; reflexivity).
  assert (I2 : In (o_name o2) (map o_name (s_r s))) by (apply in_map; rewrite E2; apply in_or_app; right; left; reflexivity).
  rewrite G1. destruct (F1 _ I1) as [F3 F4]. destruct (destroy_total p (o_name o1) (List.length x0) k d ltac:(lia) Kn F3 F4) as (rm & Er). rewrite Er. cbn [bind].
  destruct (destroy_lemma p _ _ k d rm ltac:(lia) Dp Kh Er) as (R1 & R2 & _).
  destruct (repair_random_lemma p (s_cur s) rm (d_vals d) ltac:(intros i Hi; rewrite G1; apply R1; exact Hi) ltac:(lia) Kne) as (pt & y & x & Ee & Ey & Ex & _). rewrite Ee. cbn [bind].
  assert (Rp : exists r, repair p (o_name o2) (s_cur s) pt rm d = Ok r).
  { destruct (o_name o2); cbn [repair]; [rewrite Ey; cbn [bind]; rewrite Ex; eexists; reflexivity|]. apply repair_min_total; [intros i Hi; rewrite G1; apply R1; exact Hi|lia|exact Kne|apply F2; exact I2]. }
  destruct Rp as (r & ->). cbn [bind]. eexists. eexists. reflexivity.
Qed.

(** all steps *)
Lemma run_auto_lemma : forall p t f x0 ds s, problem_ok p (List.length x0) -> (0 <= t_eta t <= 1)%Q -> (forall d, In d ds -> draws_ok (List.length x0) d) -> good p f x0 s ->
  (no_fail p s -> exists r, run_auto p t f ds s = Ok r) /\
  forall s' xs, run_auto p t f ds s = Ok (s', xs) -> good p f x0 s' /\ List.length xs = List.length ds /\ In (s_best s') (s_best s :: xs) /\ (s_fbest s' <= s_fbest s)%Q /\
    (forall x, In x xs -> (s_fbest s' <= f x)%Q /\ List.length x = List.length x0 /\ forall i, i < List.length x0 -> nth i x 0 = nth i x0 0 \/ In (nth i x 0) (nth i (p_dom p) [])) /\
    s_it s' = s_it s + List.length ds.
Proof.
  intros p t f x0 ds. induction ds as [|d ds IH]; intros s Hp He Hd G; cbn [run_auto].
  - split; [intros _; eexists; reflexivity|]. intros s' xs H. injection H as <- <-. split; [exact G|]. split; [reflexivity|]. split; [left; reflexivity|]. split; [apply Qle_refl|]. split; [intros x []|cbn; lia].
  - pose proof (Hd d (or_introl eq_refl)) as D1. split.
    + intro F. destruct (step_total p t f d s x0 Hp D1 G F) as (s1 & x & E). rewrite E. cbn [bind fst snd].
      destruct (step_lemma p t f d s s1 x x0 Hp D1 He G E) as (G1 & _). destruct (step_names _ _ _ _ _ _ _ E) as [N1 N2].
      destruct (IH s1 Hp He ltac:(intros; apply Hd; right; assumption) G1) as [IH1 _]. destruct IH1 as (r & ->); [|eexists; reflexivity]. unfold no_fail. rewrite N1, N2. exact F.
    + intros s' xs H. destruct (auto_step p t f d s) as [[s1 x]|] eqn:E; [|discriminate]. cbn [bind fst snd] in H. destruct (run_auto p t f ds s1) as [[s2 ys]|] eqn:E2; [|discriminate]. cbn [bind fst snd] in H. injection H as <- <-.
      destruct (step_lemma p t f d s s1 x x0 Hp D1 He G E) as (G1 & (rm & R1 & _) & _ & _ & B1 & B2 & B3 & B4).
      destruct (IH s1 Hp He ltac:(intros; apply Hd; right; assumption) G1) as [_ IH2]. destruct (IH2 s2 ys E2) as (J1 & J2 & J3 & J4 & J5 & J6).
      split; [exact J1|]. split; [cbn; lia|]. split; [destruct J3 as [J3|J3]; [destruct B1 as [B1|B1]; [left; congruence|right; left; congruence]|right; right; exact J3]|]. split; [lra|]. split; [|rewrite J6, B4; cbn; lia].
      intros z [<-|Hz]; [|apply J5; exact Hz]. split; [lra|]. destruct R1 as [R1 R2]. pose proof (g_len _ _ _ _ G) as Lg. split; [lia|]. intros i Hi. destruct (R2 i ltac:(lia)) as [K|[_ K]]; [rewrite K; apply (g_dom _ _ _ _ G); exact Hi|right; exact K].
Qed.
Lemma trial_ok : forall dom idx vals t x y, trial dom idx vals t x = Ok y -> redone dom idx x y.
Proof.
  intros dom idx vals. induction idx as [|j idx IH]; intros t x y H; cbn [trial] in H; [injection H as <-; split; [reflexivity|intros; left; reflexivity]|].
  destruct (nth_error x j) as [cur|] eqn:Ec; [|discriminate]. cbn [of_opt bind] in H. destruct (nth_error dom j) as [ds|] eqn:Ed; [|discriminate]. cbn [of_opt bind] in H.
  assert (M : exists x1, match filter (fun c => negb (c =? cur)) ds with [] => Ok x | cs => v <- rng_choice cs (vals t) ;; put j v x end = Ok x1 /\ trial dom idx vals (S t) x1 = Ok y).
  { destruct (match filter (fun c => negb (c =? cur)) ds with [] => Ok x | cs => v <- rng_choice cs (vals t) ;; put j v x end) as [x1|]; [|discriminate]. exists x1. split; [reflexivity|exact H]. }
  destruct M as (x1 & M1 & M2). destruct (IH _ _ _ M2) as [I1 I2].
  assert (R : List.length x1 = List.length x /\ forall i, i < List.length x -> nth i x1 0 = nth i x 0 \/ (i = j /\ In (nth i x1 0) (nth i dom []))).
  { destruct (filter (fun c => negb (c =? cur)) ds) as [|z tl] eqn:Ef; [injection M1 as <-; split; [reflexivity|auto]|].
    destruct (rng_choice (z :: tl) (vals t)) as [v|] eqn:Ev; [|discriminate]. cbn [bind] in M1. apply rng_choice_in in Ev. rewrite <- Ef in Ev. apply filter_In in Ev. destruct Ev as [Ev _].
    destruct (put_ok _ _ _ _ _ M1) as (_ & L1 & N1). split; [exact L1|]. intros i Hi. pose proof (N1 i) as Ni. destruct (Nat.eqb_spec i j) as [E|N].
    - right. split; [exact E|]. subst i. rewrite (nth_of_error _ _ _ _ 0 Ni), (nth_of_error _ _ _ _ [] Ed). exact Ev.
    - left. destruct (nth_error x i) as [z'|] eqn:Ez; [|apply nth_error_None in Ez; lia]. rewrite (nth_of_error _ _ _ _ 0 Ni), (nth_of_error _ _ _ _ 0 Ez). reflexivity. }
  destruct R as [R1 R2]. split; [lia|]. intros i Hi. destruct (I2 i ltac:(lia)) as [K|[K1 K2]]; [|right; split; [right; exact K1|exact K2]]. rewrite K. destruct (R2 i Hi) as [K'|[K1 K2]]; [left; exact K'|right; split; [left; symmetry; exact K1|exact K2]].
Qed.
(** the search of the solver: as many simulations as budgeted, all of valid solutions; the best one of the search is the best of the initial
    solution and of all candidates, the returned one is the best of all simulated ones *)
Theorem run_lemma : forall p t f dw rw x0 ds1 ds2 s xs, problem_ok p (List.length x0) -> (0 <= t_eta t <= 1)%Q -> (forall d, In d ds2 -> draws_ok (List.length x0) d) ->
  dw <> [] -> rw <> [] -> (forall o, In o dw -> (0 < snd o)%Q) -> (forall o, In o rw -> (0 < snd o)%Q) -> run p t f dw rw x0 ds1 ds2 = Ok (s, xs) ->
  List.length xs = 1 + List.length ds1 + List.length ds2 /\
  (forall x, In x xs -> List.length x = List.length x0 /\ forall i, i < List.length x0 -> nth i x 0 = nth i x0 0 \/ In (nth i x 0) (nth i (p_dom p) [])) /\
  (exists tr cs, xs = x0 :: tr ++ cs /\ List.length tr = List.length ds1 /\ least f (x0 :: cs) (s_best s)) /\ s_fbest s = f (s_best s) /\
  (exists b, alns_solution f xs = Some b /\ least f xs b /\ (f b <= f (s_best s))%Q /\ (f b <= f x0)%Q).
Proof.
  intros p t f dw rw x0 ds1 ds2 s xs Hp He Hd Nd Nr Wd Wr H. unfold run in H. destruct (existsb _ _); [discriminate|]. destruct (mapM (one_trial p x0) ds1) as [tr|] eqn:Et; [|discriminate]. cbn [bind] in H.
  match type of H with context[run_auto p t f ds2 ?s0] => destruct (run_auto p t f ds2 s0) as [[s1 cs]|] eqn:Er; [|discriminate]; set (s00 := s0) in * end. cbn [bind fst snd] in H. injection H as <- <-.
  assert (G : good p f x0 s00).
  { constructor; cbn; auto; try apply Qle_refl; split; try (intro K; apply map_eq_nil in K; contradiction); intros o Ho; unfold weights0 in Ho; apply in_map_iff in Ho; destruct Ho as (z & <- & Hz); cbn [o_weight]; auto. }
  destruct (run_auto_lemma p t f x0 ds2 s00 Hp He Hd G) as [_ A]. destruct (A s1 cs Er) as (G1 & L1 & B1 & B2 & B3 & _). pose proof (mapM_length _ _ _ _ _ Et) as L0.
  assert (Ltr : forall x, In x tr -> redone (p_dom p) (seq 0 0) x0 x0 -> List.length x = List.length x0 /\ forall i, i < List.length x0 -> nth i x 0 = nth i x0 0 \/ In (nth i x 0) (nth i (p_dom p) [])).
  { intros x Hx _. destruct (mapM_in _ _ _ _ _ _ Et Hx) as (d & _ & Ed). unfold one_trial in Ed. destruct (randint_ab _ _ _) as [m|]; [|discriminate]. cbn [bind] in Ed. destruct (trial_ok _ _ _ _ _ _ Ed) as [T1 T2]. split; [exact T1|]. intros i Hi. destruct (T2 i Hi) as [K|[_ K]]; auto. }
  split; [cbn; rewrite app_length; lia|]. split; [|split; [|split]].
  - intros x [<-|Hx]; [split; [reflexivity|auto]|]. apply in_app_iff in Hx. destruct Hx as [Hx|Hx]; [apply Ltr; [exact Hx|split; [reflexivity|auto]]|]. apply (B3 x Hx).
  - exists tr, cs. split; [reflexivity|]. split; [exact L0|]. split; [exact B1|]. intros y Hy. rewrite <- (g_fbest _ _ _ _ G1). destruct Hy as [<-|Hy]; [exact B2|apply (B3 y Hy)].
  - exact (g_fbest _ _ _ _ G1).
  - unfold alns_solution. eexists. split; [reflexivity|]. destruct (best_of_spec _ (fun y => - f y)%Q (tr ++ cs) x0) as [C1 C2]. split; [|split].
    + split; [exact C1|]. intros y Hy. specialize (C2 y Hy). cbv beta in C2. lra.
    + assert (K : In (s_best s1) (x0 :: tr ++ cs)) by (destruct B1 as [B1|B1]; [left; exact B1|right; apply in_or_app; right; exact B1]). specialize (C2 _ K). cbv beta in C2. lra.
    + specialize (C2 x0 (or_introl eq_refl)). cbv beta in C2. lra.
Qed.
(** one simulation for every iteration asked for, and the one of the initial solution *)
Theorem budget_lemma : forall total trials, fst (budget total trials) + snd (budget total trials) = total.
Proof. intros total trials. unfold budget. destruct (Nat.ltb_spec trials total); cbn [fst snd]; [lia|]. assert (total / 2 <= total) by (apply Nat.div_le_upper_bound; lia). lia. Qed.
(** the bounds of the destruction *)
Theorem bounds_lemma : forall kmin kmax n, 1 <= n -> 1 <= fst (bounds kmin kmax n) <= snd (bounds kmin kmax n) /\ snd (bounds kmin kmax n) <= n.
Proof. intros [k|] kmax n H; unfold bounds; cbn [fst snd]; lia. Qed.

(** *** The initial solution *)
Theorem recover_lemma : forall rs t, rs <> [] -> (In t rs -> nth_error rs (recover rs t 0 0) = Some t /\ forall j, j < recover rs t 0 0 -> nth_error rs j <> Some t) /\
  (~ In t rs -> recover rs t 0 0 = List.length rs - 1).
Proof.
  intros rs t Hn. assert (A : forall rs j m, (In t rs -> j <= recover rs t j m /\ nth_error rs (recover rs t j m - j) = Some t /\ forall i, i < recover rs t j m - j -> nth_error rs i <> Some t) /\ (~ In t rs -> recover rs t j m = match rs with [] => m | _ => j + List.length rs - 1 end)).
  { clear. intro rs. induction rs as [|r rs IH]; intros j m; cbn [recover]; [split; [intros []|reflexivity]|]. unfold eq_genome. destruct (list_eq_dec Nat.eq_dec r t) as [->|N].
    - split; [|intro K; exfalso; apply K; left; reflexivity]. intros _. split; [lia|]. rewrite Nat.sub_diag. split; [reflexivity|]. intros; lia.
    - destruct (IH (S j) j) as [I1 I2]. split.
      + intros [K|K]; [congruence|]. destruct (I1 K) as (A1 & A2 & A3). split; [lia|]. replace (recover rs t (S j) j - j) with (S (recover rs t (S j) j - S j)) by lia. split; [exact A2|]. intros [|i] Hi; cbn; [congruence|]. apply A3. lia.
      + intro K. rewrite I2 by (intro; apply K; right; assumption). destruct rs; cbn; lia. }
  destruct (A rs 0 0) as [A1 A2]. split.
  - intro K. destruct (A1 K) as (_ & B1 & B2). rewrite Nat.sub_0_r in *. auto.
  - intro K. rewrite (A2 K). destruct rs; [congruence|]. cbn. lia.
Qed.
(** a number outside of the domain stands for the last route *)
Theorem route_of_lemma : forall routes v, routes <> [] -> exists r, route_of routes v = Ok r /\ In r routes /\ (v < List.length routes -> nth_error routes v = Some r) /\ (List.length routes <= v -> last_opt routes = Some r).
Proof.
  intros routes v Hn. unfold route_of. destruct (Nat.ltb_spec v (List.length routes)) as [H|H].
  - destruct (nth_error routes v) as [r|] eqn:E; [|apply nth_error_None in E; lia]. exists r. split; [reflexivity|]. split; [eapply nth_error_In; exact E|]. split; [auto|lia].
  - destruct (last_opt routes) as [r|] eqn:E; [|apply last_opt_nil in E; congruence]. exists r. split; [reflexivity|]. split; [rewrite last_opt_nth in E; eapply nth_error_In; exact E|]. split; [lia|auto].
Qed.
Theorem random_x0_lemma : forall lens r, List.length (random_x0 lens r) = List.length lens /\ forall i, i < List.length lens -> nth i (random_x0 lens r) 0 <= nth i lens 0.
Proof.
  intros lens r. unfold random_x0. split; [rewrite map_length, combine_length, seq_length; lia|]. intros i Hi.
  assert (K : nth_error (combine (seq 0 (List.length lens)) lens) i = Some (i, nth i lens 0)).
  { assert (G : forall l a j, j < List.length l -> nth_error (combine (seq a (List.length l)) l) j = Some (a + j, nth j l 0)).
    { intro l. induction l as [|x l IH]; intros a j Hj; cbn in Hj; [lia|]. cbn [List.length seq combine]. destruct j as [|j]; cbn [nth_error nth]; [rewrite Nat.add_0_r; reflexivity|]. rewrite (IH (S a) j ltac:(lia)). f_equal. f_equal. lia. }
    apply (G lens 0 i Hi). }
  rewrite (nth_of_error _ _ _ _ 0 (map_nth_error _ _ _ K)). cbn [fst snd]. pose proof (Nat.mod_upper_bound (r i) (nth i lens 0 + 1) ltac:(lia)). lia.
Qed.

(** *** The congested links *)
(** the vehicles that entered the links, from [vehicles_enter_log] *)
Definition hot_of (w : world) (ls : list lid) : list (list nat) := map (fun l => map snd (l_enter (L w l))) ls.
(** a link that no vehicle entered makes the destruction fail for some draws *)
Theorem congest_fails : forall hot n kmin k d, In [] hot -> 1 <= kmin -> kmin <= Nat.min k n ->
  exists lk, destroy_congest n kmin k hot (mkDraws (d_u1 d) (d_u2 d) (d_ratio d) (d_k d) (d_perm d) (d_i d) (d_j d) lk (d_vehs d) (d_vals d) (d_heat d)) = Err ValueError.
Proof.
  intros hot n kmin k d H Hk Hm. apply In_nth_error in H. destruct H as (i & Hi). exists (fun _ => i). unfold destroy_congest. cbn [d_k d_links d_vehs]. unfold randint_ab.
  destruct (Nat.ltb_spec (Nat.min k n) kmin); [lia|]. cbn [bind]. set (m := kmin + d_k d mod (Nat.min k n - kmin + 1)). assert (Hm1 : 1 <= m) by (unfold m; lia). clearbody m. destruct m as [|m]; [lia|]. cbn [seq mapM].
  assert (E : rng_choice hot i = Ok []).
  { unfold rng_choice. destruct hot as [|x hot]; [destruct i; discriminate|]. f_equal. rewrite Nat.mod_small by (apply nth_error_lt in Hi; exact Hi). apply (nth_of_error _ _ _ _ x Hi). }
  rewrite E. reflexivity.
Qed.
