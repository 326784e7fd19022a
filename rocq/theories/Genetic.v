(** * Genetic: the operators and the generations of SolverDSO_GA, DTAsolvers.py 832-1040.
    Random numbers are parameters: an arbitrary sequence of draws. The simulation of a genome is represented by its fitness
    (an arbitrary function); vehicle and route objects by their numbers. *)
From Verif Require Import Base Types Sim Lists SpecGenetic.
Local Open Scope nat_scope.

(** ** The model *)

(** [max(aspirants, key=...)]: the first one of largest fitness *)
Fixpoint best_of {A} (f : A -> Q) (x : A) (l : list A) : A :=
  match l with [] => x | y :: tl => if qlt (f x) (f y) then best_of f y tl else best_of f x tl end.
(** [tournament_selection], 834-840: one sample of [k] positions for every individual; [random.sample] raises for [k > len(population)] *)
Definition tournament (pop : list (genome * Q)) (k : nat) (samples : list (list nat)) : result (list genome) :=
  if (0 <? List.length pop) && (List.length pop <? k) then Err ValueError else
  mapM (fun s => match s with
                 | [] => Err ValueError
                 | i :: tl =>
                     x <- of_opt IndexError (nth_error pop i) ;;
                     xs <- mapM (fun j => of_opt IndexError (nth_error pop j)) tl ;;
                     Ok (fst (best_of snd x xs))
                 end) samples.

(** [l[a:b]] *)
Definition slice {A} (l : list A) (a b : nat) : list A := firstn (b - a) (skipn a l).
(** the loop of [crossover], 851-858, over [points + [len(parent1)]] *)
Fixpoint cross_loop (p q : genome) (pts : list nat) (even : bool) (last : nat) : genome * genome :=
  match pts with
  | [] => ([], [])
  | pt :: tl =>
      let (a, b) := cross_loop p q tl (negb even) pt in
      if even then (slice p last pt ++ a, slice q last pt ++ b) else (slice q last pt ++ a, slice p last pt ++ b)
  end.
(** [crossover], 842-859; [pts]: the sorted sample of [range(1, len(parent1))] *)
Definition crossover (p q : genome) (n : nat) (pts : list nat) : result (genome * genome) :=
  if List.length p <=? n then Err ValueError else Ok (cross_loop p q (pts ++ [List.length p]) true 0).

(** [mutate], 861-870; for the [i]-th gene a draw says whether it mutates, and gives the number [random.randint] is made from *)
Fixpoint mutate (g : genome) (maxs : list nat) (draws : nat -> bool * nat) (i : nat) : result genome :=
  match g with
  | [] => Ok []
  | x :: tl =>
      y <- (if fst (draws i) then
              m <- of_opt IndexError (nth_error maxs i) ;; (if m =? 0 then Err ValueError else Ok (snd (draws i) mod m))
            else Ok x) ;;
      ys <- mutate tl maxs draws (S i) ;; Ok (y :: ys)
  end.

(** [sorted(range(len(fitnesses)), key=..., reverse=True)]: stable, in decreasing order *)
Fixpoint insert_desc (x : genome * Q) (l : list (genome * Q)) : list (genome * Q) :=
  match l with [] => [x] | y :: tl => if qlt (snd x) (snd y) then y :: insert_desc x tl else x :: y :: tl end.
Definition sort_desc (l : list (genome * Q)) : list (genome * Q) := fold_right insert_desc [] l.

Definition eq_genome (a b : genome) : bool := if list_eq_dec Nat.eq_dec a b then true else false.
Definition if_mutate (b : bool) (g : genome) (maxs : list nat) (draws : nat -> bool * nat) : result genome := if b then mutate g maxs draws 0 else Ok g.
(** the random numbers of one pair of children: the parents, the crossing points, the genes of the (up to four) mutations, and whether the
    ordinary mutation happens *)
Record pair_draws := mkPair { d_p1 : nat; d_p2 : nat; d_pts : list nat; d_m1 : nat -> bool * nat; d_m2 : nat -> bool * nat; d_occ : bool;
  d_m3 : nat -> bool * nat; d_m4 : nat -> bool * nat }.
(** one turn of the loop 1020-1036 *)
Definition children (sel : list genome) (maxs : list nat) (npts : nat) (d : pair_draws) (next : list genome) : result (list genome) :=
  p <- of_opt IndexError (nth_error sel (d_p1 d)) ;;
  q <- of_opt IndexError (nth_error sel (d_p2 d)) ;;
  ab <- crossover p q npts (d_pts d) ;;
  a <- if_mutate (existsb (eq_genome (fst ab)) next) (fst ab) maxs (d_m1 d) ;;
  b <- if_mutate (existsb (eq_genome (snd ab)) next) (snd ab) maxs (d_m2 d) ;;
  a <- if_mutate (d_occ d) a maxs (d_m3 d) ;;
  b <- if_mutate (d_occ d) b maxs (d_m4 d) ;;
  Ok (next ++ [a; b]).
(** one generation, 966-1038: the fitnesses [fs] of the population [pop]; [samples]: the tournaments; [ds]: one for each of the
    [int(pop_size/2)] pairs *)
Definition next_generation (f : genome -> Q) (maxs : list nat) (size elite npts : nat) (pop : list genome) (samples : list (list nat)) (ds : list pair_draws) : result (list genome) :=
  let rated := map (fun g => (g, f g)) pop in
  sel <- tournament rated 3 samples ;;
  next <- foldM (children sel maxs npts) ds (firstn elite (map fst (sort_desc rated))) ;;
  Ok (firstn size next).
Record gen_draws := mkGen { e_samples : list (list nat); e_pairs : list pair_draws }.
(** all generations; the list of populations that were simulated, in order *)
Fixpoint generations (f : genome -> Q) (maxs : list nat) (size elite npts : nat) (pop : list genome) (gs : list gen_draws) : result (list (list genome)) :=
  match gs with
  | [] => Ok []
  | g :: tl =>
      pop' <- next_generation f maxs size elite npts pop (e_samples g) (e_pairs g) ;;
      rest <- generations f maxs size elite npts pop' tl ;;
      Ok (pop :: rest)
  end.
(** [W_best] of a generation, 969-984: the first genome of largest fitness *)
Definition best_genome (f : genome -> Q) (pop : list genome) : option genome :=
  match pop with [] => None | g :: tl => Some (best_of f g tl) end.
(** [s.W_intermid_solution = W_best], 987, after all generations; [s.W_sol = W], 1044: the World that was simulated last *)
Definition intermid (f : genome -> Q) (pops : list (list genome)) : option genome :=
  match last_opt pops with Some pop => best_genome f pop | None => None end.
Definition solution (pops : list (list genome)) : option genome :=
  match last_opt pops with Some pop => last_opt pop | None => None end.

(** ** The first population, 940-963 *)

(** [random.randint(0, genome_maxs[i]-1)] *)
Definition randint (x m : nat) : result nat := if m =? 0 then Err ValueError else Ok (x mod m).
Fixpoint random_genome (maxs : list nat) (r : nat -> nat) (i : nat) : result genome :=
  match maxs with [] => Ok [] | m :: tl => x <- randint (r i) m ;; xs <- random_genome tl r (S i) ;; Ok (x :: xs) end.
(** 950-955: the number of the route a vehicle traveled, or 0 *)
Fixpoint route_id (rs : list (list nat)) (t : list nat) (j : nat) : nat :=
  match rs with [] => 0 | r :: tl => if eq_genome r t then j else route_id tl t (S j) end.
Definition set_at {A} (i : nat) (x : A) (l : list A) : list A := firstn i l ++ match skipn i l with [] => [] | _ :: tl => x :: tl end.
Definition put_mutant (maxs : list nat) (draws : nat -> nat -> bool * nat) (k : nat) (pop : list genome) : result (list genome) :=
  g0 <- of_opt IndexError (nth_error pop 0) ;; g <- mutate g0 maxs (draws k) 0 ;; Ok (set_at k g pop).
(** [rts]: the routes of every vehicle and the one it traveled in the initial World *)
Definition first_genome (rts : list (list (list nat) * list nat)) : genome := map (fun rt => route_id (fst rt) (snd rt) 0) rts.
Definition first_population (size : nat) (rts : list (list (list nat) * list nat)) (rnd : nat -> nat -> nat) (draws : nat -> nat -> bool * nat) : result (list genome) :=
  let maxs := map (fun rt => List.length (fst rt)) rts in
  pop <- mapM (fun k => random_genome maxs (rnd k) 0) (seq 0 size) ;;
  pop <- (if (size =? 0) && (0 <? List.length rts) then Err IndexError else Ok (set_at 0 (first_genome rts) pop)) ;;
  pop <- foldM (put_mutant maxs draws) (seq 1 (size / 4 - 1)) pop ;;
  foldM (put_mutant maxs draws) (seq (size / 4) (size / 2 - size / 4)) pop.

(** ** Facts *)

Lemma best_of_spec : forall A (f : A -> Q) l x, In (best_of f x l) (x :: l) /\ forall y, In y (x :: l) -> (f y <= f (best_of f x l))%Q.
Proof.
  intros A f l. induction l as [|y l IH]; intro x; cbn [best_of].
  - split; [left; reflexivity|]. intros z [<-|[]]. apply Qle_refl.
  - destruct (qlt (f x) (f y)) eqn:E.
    + apply qlt_iff in E. destruct (IH y) as [I1 I2]. split; [right; exact I1|]. intros z [<-|Hz]; [pose proof (I2 y (or_introl eq_refl)); lra|apply I2; exact Hz].
    + apply qlt_false in E. destruct (IH x) as [I1 I2]. split; [destruct I1 as [I1|I1]; [left; exact I1|right; right; exact I1]|].
      intros z [<-|[<-|Hz]]; [apply I2; left; reflexivity|pose proof (I2 x (or_introl eq_refl)); lra|apply I2; right; exact Hz].
Qed.
Lemma mapM_in : forall A B (f : A -> result B) l r y, mapM f l = Ok r -> In y r -> exists x, In x l /\ f x = Ok y.
Proof.
  intros A B f l. induction l as [|x l IH]; intros r y H Hy; cbn [mapM] in H; [injection H as <-; destruct Hy|].
  destruct (f x) as [b|] eqn:E; [|discriminate]. cbn [bind] in H. destruct (mapM f l) as [bs|] eqn:M; [|discriminate]. cbn [bind] in H. injection H as <-.
  destruct Hy as [<-|Hy]; [exists x; split; [left; reflexivity|exact E]|]. destruct (IH bs y eq_refl Hy) as (x' & A1 & A2). exists x'. split; [right; exact A1|exact A2].
Qed.
Lemma mapM_length : forall A B (f : A -> result B) l r, mapM f l = Ok r -> List.length r = List.length l.
Proof.
  intros A B f l. induction l as [|x l IH]; intros r H; cbn [mapM] in H; [injection H as <-; reflexivity|].
  destruct (f x) as [b|] eqn:E; [|discriminate]. cbn [bind] in H. destruct (mapM f l) as [bs|] eqn:M; [|discriminate]. cbn [bind] in H. injection H as <-. cbn. rewrite (IH bs eq_refl). reflexivity.
Qed.
(** the winner of a tournament is one of the sample, and the best of it *)
Theorem tournament_lemma : forall pop k samples sel, tournament pop k samples = Ok sel ->
  List.length sel = List.length samples /\
  forall j s, nth_error samples j = Some s -> exists g q, nth_error sel j = Some g /\ (exists i, In i s /\ nth_error pop i = Some (g, q)) /\
    forall i h r, In i s -> nth_error pop i = Some (h, r) -> (r <= q)%Q.
Proof.
  intros pop k samples sel H. unfold tournament in H. destruct (_ && _); [discriminate|]. split; [apply (mapM_length _ _ _ _ _ H)|].
  revert sel H. induction samples as [|s samples IH]; intros sel H j s' Hj; [destruct j; discriminate|]. cbn [mapM] in H.
  match type of H with (bind ?m _) = _ => destruct m as [g|] eqn:E; [|discriminate] end. cbn [bind] in H.
  destruct (mapM _ samples) as [rest|] eqn:M; [|discriminate]. cbn [bind] in H. injection H as <-.
  destruct j as [|j]; cbn in Hj.
  - injection Hj as ->. destruct s' as [|i tl]; [discriminate|]. destruct (nth_error pop i) as [x|] eqn:Ex; [|discriminate]. cbn [of_opt bind] in E.
    destruct (mapM _ tl) as [xs|] eqn:Mx; [|discriminate]. cbn [bind] in E. injection E as <-.
    destruct (best_of_spec _ snd xs x) as [B1 B2].
    assert (F : forall y, In y (x :: xs) -> exists i', In i' (i :: tl) /\ nth_error pop i' = Some y).
    { intros y [<-|Hy]; [exists i; split; [left; reflexivity|exact Ex]|]. destruct (mapM_in _ _ _ _ _ _ Mx Hy) as (i' & A1 & A2). exists i'. split; [right; exact A1|]. destruct (nth_error pop i'); [injection A2 as ->; reflexivity|discriminate]. }
    exists (fst (best_of snd x xs)), (snd (best_of snd x xs)). split; [reflexivity|]. split.
    + destruct (F _ B1) as (i' & A1 & A2). exists i'. split; [exact A1|]. rewrite A2. destruct (best_of snd x xs); reflexivity.
    + intros i' h r Hi Hn. apply (B2 (h, r)). destruct Hi as [<-|Hi]; [left; congruence|]. right.
      clear - Mx Hi Hn. revert xs Mx. induction tl as [|a tl IH]; intros xs Mx; [destruct Hi|]. cbn [mapM] in Mx. destruct (nth_error pop a) as [ya|] eqn:Ea; [|discriminate]. cbn [of_opt bind] in Mx.
      destruct (mapM _ tl) as [ys|]; [|discriminate]. cbn [bind] in Mx. injection Mx as <-. destruct Hi as [<-|Hi]; [left; congruence|right; apply (IH Hi); reflexivity].
  - cbn [nth_error]. apply (IH rest eq_refl j s' Hj).
Qed.

(** the children of a crossing: the segments between the points, alternately from the parents *)
Lemma slice_length : forall A (l : list A) a b, a <= b <= List.length l -> List.length (slice l a b) = b - a.
Proof. intros A l a b H. unfold slice. rewrite firstn_length, skipn_length. lia. Qed.
Lemma slice_nth : forall (l : genome) a b i, i < b - a -> nth i (slice l a b) 0 = nth (a + i) l 0.
Proof.
  intros l a b i H. unfold slice. revert a b i H. induction l as [|x l IH]; intros a b i H.
  - rewrite skipn_nil, firstn_nil. destruct i, a; reflexivity.
  - destruct a as [|a].
    + cbn [skipn]. rewrite Nat.sub_0_r in *. clear IH. revert i H. generalize (x :: l). intro m. revert b. induction m as [|y m IH]; intros b i H; [rewrite firstn_nil; destruct i; reflexivity|].
      destruct b; [lia|]. destruct i; [reflexivity|]. cbn. apply (IH b i). lia.
    + cbn [skipn Nat.add nth]. destruct b; [lia|]. cbn [Nat.sub] in *. apply IH. exact H.
Qed.
Fixpoint rising (last : nat) (pts : list nat) : Prop := match pts with [] => True | p :: tl => last <= p /\ rising p tl end.
Lemma cross_loop_spec : forall p q pts even last a b, List.length p = List.length q -> rising last pts -> (forall x, In x pts -> x <= List.length p) -> last_opt pts = Some (List.length p) ->
  cross_loop p q pts even last = (a, b) -> List.length a = List.length p - last /\ List.length b = List.length p - last /\
  forall i, i < List.length p - last ->
    (nth i a 0 = nth (last + i) p 0 /\ nth i b 0 = nth (last + i) q 0) \/ (nth i a 0 = nth (last + i) q 0 /\ nth i b 0 = nth (last + i) p 0).
Proof.
  intros p q pts. induction pts as [|pt pts IH]; intros even last a b El Hr Hb Hl H; [discriminate|]. cbn [cross_loop] in H. destruct Hr as [Hr1 Hr2].
  pose proof (Hb pt (or_introl eq_refl)) as Hpt.
  assert (T : forall a' b', cross_loop p q pts (negb even) pt = (a', b') -> List.length a' = List.length p - pt /\ List.length b' = List.length p - pt /\
    forall i, i < List.length p - pt -> (nth i a' 0 = nth (pt + i) p 0 /\ nth i b' 0 = nth (pt + i) q 0) \/ (nth i a' 0 = nth (pt + i) q 0 /\ nth i b' 0 = nth (pt + i) p 0)).
  { intros a' b' E. destruct pts as [|pt2 pts].
    - cbn in Hl. injection Hl as ->. cbn in E. injection E as <- <-. cbn. split; [lia|]. split; [lia|]. intros; lia.
    - apply (IH (negb even) pt a' b' El Hr2); [intros; apply Hb; right; assumption| |exact E]. rewrite <- Hl. reflexivity. }
  destruct (cross_loop p q pts (negb even) pt) as [a' b'] eqn:E. destruct (T a' b' eq_refl) as (T1 & T2 & T3). clear T.
  pose proof (slice_length _ p last pt ltac:(lia)) as Lp. pose proof (slice_length _ q last pt ltac:(lia)) as Lq.
  assert (G : forall (s1 s2 : genome), List.length s1 = pt - last -> List.length s2 = pt - last ->
    (forall i, i < pt - last -> (nth i s1 0 = nth (last + i) p 0 /\ nth i s2 0 = nth (last + i) q 0) \/ (nth i s1 0 = nth (last + i) q 0 /\ nth i s2 0 = nth (last + i) p 0)) ->
    List.length (s1 ++ a') = List.length p - last /\ List.length (s2 ++ b') = List.length p - last /\
    forall i, i < List.length p - last -> (nth i (s1 ++ a') 0 = nth (last + i) p 0 /\ nth i (s2 ++ b') 0 = nth (last + i) q 0) \/ (nth i (s1 ++ a') 0 = nth (last + i) q 0 /\ nth i (s2 ++ b') 0 = nth (last + i) p 0)).
  { intros s1 s2 L1 L2 Hs. rewrite !app_length. split; [lia|]. split; [lia|]. intros i Hi. destruct (Nat.lt_ge_cases i (pt - last)) as [Hlt|Hge].
    - rewrite !app_nth1 by lia. apply Hs. exact Hlt.
    - rewrite !app_nth2 by lia. rewrite L1, L2. replace (last + i) with (pt + (i - (pt - last))) by lia. apply T3. lia. }
  destruct even; injection H as <- <-; apply G; auto; intros i Hi; [left|right]; split; apply slice_nth; exact Hi.
Qed.
Theorem crossover_lemma : forall p q n pts, List.length p = List.length q ->
  (crossover p q n pts = Err ValueError <-> List.length p <= n) /\
  forall a b, rising 0 pts -> (forall x, In x pts -> x < List.length p) -> crossover p q n pts = Ok (a, b) -> crossed p q a b.
Proof.
  intros p q n pts El. unfold crossover. split.
  - destruct (Nat.leb_spec (List.length p) n); [tauto|]. split; [discriminate|lia].
  - intros a b Hr Hb H. destruct (List.length p <=? n); [discriminate|]. injection H as H.
    assert (R : forall l x, rising x l -> (forall y, In y l -> y <= List.length p) -> x <= List.length p -> rising x (l ++ [List.length p])).
    { intro l. induction l as [|y l IH]; intros x Hx Hy Hle; cbn; [auto|]. destruct Hx. split; [assumption|]. apply IH; auto. - intros; apply Hy; right; assumption. - apply Hy; left; reflexivity. }
    destruct (cross_loop_spec p q (pts ++ [List.length p]) true 0 a b El) as (A1 & A2 & A3).
    + apply R; [exact Hr| |lia]. intros y Hy. pose proof (Hb y Hy). lia.
    + intros x Hx. apply in_app_iff in Hx. destruct Hx as [Hx|[<-|[]]]; [pose proof (Hb x Hx)|]; lia.
    + apply last_opt_app.
    + exact H.
    + rewrite Nat.sub_0_r in *. split; [exact A1|]. split; [exact A2|]. exact A3.
Qed.

Lemma mutate_lemma_from : forall g maxs draws i g', mutate g maxs draws i = Ok g' -> List.length g' = List.length g /\
  forall j, j < List.length g -> nth j g' 0 = nth j g 0 \/ nth j g' 0 < nth (i + j) maxs 0.
Proof.
  intro g. induction g as [|x g IH]; intros maxs draws i g' H; cbn [mutate] in H; [injection H as <-; split; [reflexivity|cbn; lia]|].
  match type of H with (bind ?m _) = _ => destruct m as [y|] eqn:E; [|discriminate] end. cbn [bind] in H.
  destruct (mutate g maxs draws (S i)) as [ys|] eqn:M; [|discriminate]. cbn [bind] in H. injection H as <-. destruct (IH _ _ _ _ M) as [A1 A2].
  split; [cbn; lia|]. intros [|j] Hj.
  - cbn. rewrite Nat.add_0_r. destruct (fst (draws i)); [|injection E as ->; auto]. destruct (nth_error maxs i) as [m|] eqn:Em; [|discriminate]. cbn [of_opt bind] in E.
    destruct (Nat.eqb_spec m 0); [discriminate|]. injection E as <-. right. rewrite (nth_error_nth _ _ 0 Em). apply Nat.mod_upper_bound. assumption.
  - cbn [nth]. cbn in Hj. specialize (A2 j ltac:(lia)). replace (i + S j) with (S i + j) by lia. exact A2.
Qed.
Theorem mutate_lemma : forall g maxs draws g', mutate g maxs draws 0 = Ok g' -> mutated maxs g g'.
Proof. intros g maxs draws g' H. exact (mutate_lemma_from _ _ _ _ _ H). Qed.
Lemma valid_nth : forall maxs g, valid maxs g <-> List.length g = List.length maxs /\ forall i, i < List.length g -> nth i g 0 < nth i maxs 0.
Proof.
  intros maxs g. unfold valid. split.
  - intro H. induction H as [|x m g maxs Hx H [I1 I2]]; [split; [reflexivity|cbn; lia]|]. split; [cbn; lia|]. intros [|i] Hi; [exact Hx|]. cbn in *. apply I2. lia.
  - revert maxs. induction g as [|x g IH]; intros [|m maxs] [H1 H2]; cbn in H1; try discriminate; constructor; [apply (H2 0); cbn; lia|]. apply IH. split; [lia|]. intros i Hi. apply (H2 (S i)). cbn. lia.
Qed.
Lemma crossed_valid : forall maxs p q a b, valid maxs p -> valid maxs q -> crossed p q a b -> valid maxs a /\ valid maxs b.
Proof.
  intros maxs p q a b Hp Hq (A1 & A2 & A3). rewrite !valid_nth in *. destruct Hp as [P1 P2], Hq as [Q1 Q2].
  split; split; try lia; intros i Hi; destruct (A3 i ltac:(lia)) as [[B1 B2]|[B1 B2]]; rewrite ?B1, ?B2; first [apply P2|apply Q2]; lia.
Qed.
Lemma mutated_valid : forall maxs g g', valid maxs g -> mutated maxs g g' -> valid maxs g'.
Proof.
  intros maxs g g' H (A1 & A2). rewrite !valid_nth in *. destruct H as [H1 H2]. split; [lia|]. intros i Hi. destruct (A2 i ltac:(lia)) as [-> |]; [apply H2; lia|assumption].
Qed.
(** a mutation of a valid genome succeeds *)
Lemma mutate_ok_from : forall g maxs draws i, Forall2 (fun x m => x < m) g (skipn i maxs) -> exists g', mutate g maxs draws i = Ok g'.
Proof.
  intro g. induction g as [|x g IH]; intros maxs draws i H; cbn [mutate]; [eexists; reflexivity|]. inversion H as [|? m ? ms Hx Hr E1 E2]; subst.
  assert (Em : nth_error maxs i = Some m /\ skipn (S i) maxs = ms).
  { clear - E2. revert i E2. induction maxs as [|y maxs IH]; intros [|i] E2; cbn in E2; try discriminate; [injection E2 as -> <-; split; reflexivity|]. exact (IH i (eq_sym E2) ) || (cbn; apply IH; exact E2). }
  destruct Em as [Em Es].
  assert (Y : exists y, (if fst (draws i) then m0 <- of_opt IndexError (nth_error maxs i) ;; (if m0 =? 0 then Err ValueError else Ok (snd (draws i) mod m0)) else Ok x) = Ok y).
  { destruct (fst (draws i)); [|eexists; reflexivity]. rewrite Em. cbn [of_opt bind]. destruct (Nat.eqb_spec m 0); [lia|eexists; reflexivity]. }
  destruct Y as (y & ->). cbn [bind]. destruct (IH maxs draws (S i)) as (ys & ->); [rewrite Es; exact Hr|]. eexists. reflexivity.
Qed.

(** the stable sort *)
Lemma insert_in : forall x l y, In y (insert_desc x l) <-> y = x \/ In y l.
Proof.
  intros x l y. induction l as [|z l IH]; cbn [insert_desc]; [cbn; intuition|]. destruct (qlt (snd x) (snd z)); cbn; [rewrite IH|]; intuition.
Qed.
Lemma sort_in : forall l y, In y (sort_desc l) <-> In y l.
Proof. intros l y. unfold sort_desc. induction l as [|x l IH]; cbn [fold_right]; [tauto|]. rewrite insert_in, IH. cbn. intuition. Qed.
Fixpoint descending (l : list (genome * Q)) : Prop := match l with [] => True | x :: tl => (forall y, In y tl -> (snd y <= snd x)%Q) /\ descending tl end.
Lemma insert_desc_ok : forall x l, descending l -> descending (insert_desc x l).
Proof.
  intros x l. induction l as [|z l IH]; intro H; cbn [insert_desc]; [cbn; split; [intros y []|exact Logic.I]|]. destruct H as [H1 H2]. destruct (qlt (snd x) (snd z)) eqn:E.
  - apply qlt_iff in E. cbn [descending]. split; [|apply IH; exact H2]. intros y Hy. apply insert_in in Hy. destruct Hy as [-> |Hy]; [lra|apply H1; exact Hy].
  - apply qlt_false in E. cbn [descending]. split; [|split; assumption]. intros y [<-|Hy]; [exact E|]. pose proof (H1 y Hy). lra.
Qed.
Lemma sort_desc_ok : forall l, descending (sort_desc l).
Proof. intro l. unfold sort_desc. induction l as [|x l IH]; cbn [fold_right]; [exact Logic.I|]. apply insert_desc_ok, IH. Qed.
Lemma insert_length : forall x l, List.length (insert_desc x l) = S (List.length l).
Proof. intros x l. induction l as [|z l IH]; cbn [insert_desc]; [reflexivity|]. destruct (qlt _ _); cbn; lia. Qed.
Lemma sort_length : forall l, List.length (sort_desc l) = List.length l.
Proof. intro l. unfold sort_desc. induction l as [|x l IH]; cbn [fold_right]; [reflexivity|]. rewrite insert_length, IH. reflexivity. Qed.

(** ** One generation *)

(** the draws are draws of [random.sample] and [random.choice] *)
Definition pair_ok (len npts : nat) (nsel : nat) (d : pair_draws) : Prop :=
  d_p1 d < nsel /\ d_p2 d < nsel /\ List.length (d_pts d) = npts /\ rising 0 (d_pts d) /\ forall x, In x (d_pts d) -> 1 <= x < len.
Definition gen_ok (len npts size popsize : nat) (g : gen_draws) : Prop :=
  List.length (e_samples g) = popsize /\ List.length (e_pairs g) = size / 2 /\
  (forall s, In s (e_samples g) -> List.length s = 3 /\ forall i, In i s -> i < popsize) /\
  forall d, In d (e_pairs g) -> pair_ok len npts popsize d.

Lemma tournament_from : forall f pop k samples sel g, tournament (map (fun g => (g, f g)) pop) k samples = Ok sel -> In g sel -> In g pop.
Proof.
  intros f pop k samples sel g H Hg. destruct (tournament_lemma _ _ _ _ H) as [A1 A2]. apply In_nth_error in Hg. destruct Hg as (j & Hj).
  destruct (nth_error samples j) as [s|] eqn:Es.
  - destruct (A2 j s Es) as (g' & q & B1 & (i & _ & B2) & _). rewrite Hj in B1. injection B1 as <-. apply nth_error_In in B2. apply in_map_iff in B2. destruct B2 as (x & Ex & Hx). injection Ex as -> _. exact Hx.
  - apply nth_error_None in Es. apply nth_error_lt in Hj. lia.
Qed.
Lemma children_valid : forall sel maxs npts d next next', (forall g, In g sel -> valid maxs g) -> pair_ok (List.length maxs) npts (List.length sel) d ->
  (forall g, In g next -> valid maxs g) -> children sel maxs npts d next = Ok next' ->
  exists a b, next' = next ++ [a; b] /\ valid maxs a /\ valid maxs b.
Proof.
  intros sel maxs npts d next next' Hs Hd Hn H. unfold children in H.
  destruct (nth_error sel (d_p1 d)) as [p|] eqn:Ep; [|discriminate]. cbn [of_opt bind] in H. destruct (nth_error sel (d_p2 d)) as [q|] eqn:Eq; [|discriminate]. cbn [of_opt bind] in H.
  pose proof (Hs p (nth_error_In _ _ Ep)) as Vp. pose proof (Hs q (nth_error_In _ _ Eq)) as Vq.
  pose proof (proj1 (proj1 (valid_nth _ _) Vp)) as Lp. pose proof (proj1 (proj1 (valid_nth _ _) Vq)) as Lq.
  destruct (crossover p q npts (d_pts d)) as [[a b]|] eqn:X; [|discriminate]. cbn [bind fst snd] in H. destruct Hd as (_ & _ & _ & D1 & D2).
  destruct (crossover_lemma p q npts (d_pts d) ltac:(lia)) as [_ C]. specialize (C a b D1 ltac:(intros x Hx; pose proof (D2 x Hx); lia) X).
  destruct (crossed_valid maxs p q a b Vp Vq C) as [Va Vb].
  assert (G : forall bb g dr g', valid maxs g -> if_mutate bb g maxs dr = Ok g' -> valid maxs g').
  { intros [|] g dr g' V1 M; cbn in M; [eapply mutated_valid; [exact V1|eapply mutate_lemma; exact M]|injection M as <-; exact V1]. }
  match type of H with (bind ?m _) = _ => destruct m as [a1|] eqn:E1; [|discriminate] end. cbn [bind] in H.
  match type of H with (bind ?m _) = _ => destruct m as [b1|] eqn:E2; [|discriminate] end. cbn [bind] in H.
  match type of H with (bind ?m _) = _ => destruct m as [a2|] eqn:E3; [|discriminate] end. cbn [bind] in H.
  match type of H with (bind ?m _) = _ => destruct m as [b2|] eqn:E4; [|discriminate] end. cbn [bind] in H. injection H as <-.
  exists a2, b2. split; [reflexivity|]. split; [eapply G; [eapply G; [exact Va|exact E1]|exact E3]|eapply G; [eapply G; [exact Vb|exact E2]|exact E4]].
Qed.
Lemma children_fold : forall sel maxs npts ds next next', (forall g, In g sel -> valid maxs g) -> (forall d, In d ds -> pair_ok (List.length maxs) npts (List.length sel) d) ->
  (forall g, In g next -> valid maxs g) -> foldM (children sel maxs npts) ds next = Ok next' ->
  exists more, next' = next ++ more /\ List.length more = 2 * List.length ds /\ forall g, In g more -> valid maxs g.
Proof.
  intros sel maxs npts ds. induction ds as [|d ds IH]; intros next next' Hs Hd Hn H; cbn [foldM] in H.
  - injection H as <-. exists []. rewrite app_nil_r. split; [reflexivity|]. split; [reflexivity|intros g []].
  - destruct (children sel maxs npts d next) as [n1|] eqn:E; [|discriminate]. cbn [bind] in H.
    destruct (children_valid _ _ _ _ _ _ Hs (Hd d (or_introl eq_refl)) Hn E) as (a & b & -> & Va & Vb).
    destruct (IH (next ++ [a; b]) next' Hs ltac:(intros; apply Hd; right; assumption)) as (more & -> & L1 & V1).
    + intros g Hg. apply in_app_iff in Hg. destruct Hg as [Hg|[<-|[<-|[]]]]; auto.
    + exact H.
    + exists ([a; b] ++ more). rewrite <- app_assoc. split; [reflexivity|]. split; [cbn; lia|]. intros g Hg. apply in_app_iff in Hg. destruct Hg as [[<-|[<-|[]]]|Hg]; auto.
Qed.
Lemma children_total : forall sel maxs npts ds next, (forall g, In g sel -> valid maxs g) -> (forall d, In d ds -> pair_ok (List.length maxs) npts (List.length sel) d) -> npts < List.length maxs ->
  exists next', foldM (children sel maxs npts) ds next = Ok next'.
Proof.
  intros sel maxs npts ds. induction ds as [|d ds IH]; intros next Hs Hd Hn; cbn [foldM]; [eexists; reflexivity|].
  assert (C : exists n1, children sel maxs npts d next = Ok n1).
  { destruct (Hd d (or_introl eq_refl)) as (D1 & D2 & D3 & D4 & D5). unfold children.
    destruct (nth_error sel (d_p1 d)) as [p|] eqn:Ep; [|apply nth_error_None in Ep; lia]. destruct (nth_error sel (d_p2 d)) as [q|] eqn:Eq; [|apply nth_error_None in Eq; lia]. cbn [of_opt bind].
    pose proof (Hs p (nth_error_In _ _ Ep)) as Vp. pose proof (Hs q (nth_error_In _ _ Eq)) as Vq. pose proof (proj1 (proj1 (valid_nth _ _) Vp)) as Lp. pose proof (proj1 (proj1 (valid_nth _ _) Vq)) as Lq.
    destruct (crossover p q npts (d_pts d)) as [[a b]|e] eqn:X.
    2:{ unfold crossover in X. destruct (Nat.leb_spec (List.length p) npts); [lia|discriminate]. }
    cbn [bind fst snd]. destruct (crossover_lemma p q npts (d_pts d) ltac:(lia)) as [_ C]. specialize (C a b D4 ltac:(intros x Hx; pose proof (D5 x Hx); lia) X).
    destruct (crossed_valid maxs p q a b Vp Vq C) as [Va Vb].
    assert (G : forall bb g dr, valid maxs g -> exists g', if_mutate bb g maxs dr = Ok g' /\ valid maxs g').
    { intros [|] g dr V1; cbn; [|eauto]. destruct (mutate_ok_from g maxs dr 0 V1) as (g' & M). exists g'. split; [exact M|]. eapply mutated_valid; [exact V1|eapply mutate_lemma; exact M]. }
    destruct (G (existsb (eq_genome a) next) a (d_m1 d) Va) as (a1 & -> & Va1). cbn [bind]. destruct (G (existsb (eq_genome b) next) b (d_m2 d) Vb) as (b1 & -> & Vb1). cbn [bind].
    destruct (G (d_occ d) a1 (d_m3 d) Va1) as (a2 & -> & _). cbn [bind]. destruct (G (d_occ d) b1 (d_m4 d) Vb1) as (b2 & -> & _). cbn [bind]. eexists. reflexivity. }
  destruct C as (n1 & ->). cbn [bind]. apply IH; auto. intros; apply Hd; right; assumption.
Qed.
Lemma firstn_in : forall A n (l : list A) x, In x (firstn n l) -> In x l.
Proof. intros A n l x H. rewrite <- (firstn_skipn n l). apply in_or_app. left. exact H. Qed.
Lemma elite_from : forall f (pop : list genome) n g, In g (firstn n (map fst (sort_desc (map (fun g => (g, f g)) pop)))) -> In g pop.
Proof.
  intros f pop n g H. apply firstn_in in H. apply in_map_iff in H. destruct H as ([h q] & <- & H). apply (proj1 (sort_in _ _)) in H. apply in_map_iff in H. destruct H as (x & Ex & Hx). injection Ex as <- _. exact Hx.
Qed.
(** a generation succeeds, keeps the genomes valid, the size, and (with an elite) one of the best genomes *)
Theorem generation_lemma : forall f maxs size elite npts pop g, (forall h, In h pop -> valid maxs h) -> List.length pop = size -> 3 <= size -> npts < List.length maxs ->
  gen_ok (List.length maxs) npts size size g -> 1 <= elite <= size \/ Nat.Even size ->
  exists pop', next_generation f maxs size elite npts pop (e_samples g) (e_pairs g) = Ok pop' /\ (forall h, In h pop' -> valid maxs h) /\
    (elite <= size -> List.length pop' = size) /\ (1 <= elite -> exists b, fittest f pop b /\ In b pop').
Proof.
  intros f maxs size elite npts pop g Hv Hl Hs Hn (G1 & G2 & G3 & G4) He. unfold next_generation.
  set (rated := map (fun h => (h, f h)) pop).
  assert (Lr : List.length rated = size) by (unfold rated; rewrite map_length; exact Hl).
  assert (T : exists sel, tournament rated 3 (e_samples g) = Ok sel).
  { unfold tournament. rewrite Lr. replace (size <? 3) with false by (symmetry; apply Nat.ltb_ge; exact Hs). rewrite andb_false_r.
    assert (K : forall ss, (forall s, In s ss -> List.length s = 3 /\ forall i, In i s -> i < size) -> exists sel, mapM (fun s => match s with
                 | [] => Err ValueError
                 | i :: tl => x <- of_opt IndexError (nth_error rated i) ;; xs <- mapM (fun j => of_opt IndexError (nth_error rated j)) tl ;; Ok (fst (best_of snd x xs)) end) ss = Ok sel).
    { intro ss. induction ss as [|s ss IH]; intro Hss; cbn [mapM]; [eexists; reflexivity|]. destruct (Hss s (or_introl eq_refl)) as [S1 S2]. destruct s as [|i tl]; [discriminate|].
      destruct (nth_error rated i) as [x|] eqn:Ex; [|apply nth_error_None in Ex; pose proof (S2 i (or_introl eq_refl)); lia]. cbn [of_opt bind].
      assert (M : exists xs, mapM (fun j => of_opt IndexError (nth_error rated j)) tl = Ok xs).
      { assert (S3 : forall i, In i tl -> i < size) by (intros; apply S2; right; assumption). clear - S3 Lr. induction tl as [|a tl IH]; cbn [mapM]; [eexists; reflexivity|].
        destruct (nth_error rated a) as [y|] eqn:Ey; [|apply nth_error_None in Ey; pose proof (S3 a (or_introl eq_refl)); lia]. cbn [of_opt bind].
        destruct IH as (ys & ->); [intros; apply S3; right; assumption|]. eexists. reflexivity. }
      destruct M as (xs & ->). cbn [bind]. destruct IH as (sel & ->); [intros; apply Hss; right; assumption|]. eexists. reflexivity. }
    apply K. exact G3. }
  destruct T as (sel & T). rewrite T. cbn [bind].
  assert (Ls : List.length sel = size) by (destruct (tournament_lemma _ _ _ _ T) as [L1 _]; lia).
  assert (Vs : forall h, In h sel -> valid maxs h) by (intros h Hh; apply Hv; eapply tournament_from; [exact T|exact Hh]).
  destruct (children_total sel maxs npts (e_pairs g) (firstn elite (map fst (sort_desc rated))) Vs ltac:(intros d Hd; rewrite Ls; apply G4; exact Hd) Hn) as (next & Nx).
  rewrite Nx. cbn [bind]. exists (firstn size next). split; [reflexivity|].
  assert (Ve : forall h, In h (firstn elite (map fst (sort_desc rated))) -> valid maxs h) by (intros h Hh; apply Hv; eapply elite_from; exact Hh).
  destruct (children_fold sel maxs npts (e_pairs g) _ next Vs ltac:(intros d Hd; rewrite Ls; apply G4; exact Hd) Ve Nx) as (more & -> & Lm & Vm).
  assert (Le : List.length (firstn elite (map fst (sort_desc rated))) = Nat.min elite size) by (rewrite firstn_length, map_length, sort_length, Lr; reflexivity).
  split; [|split].
  - intros h Hh. apply firstn_in in Hh. apply in_app_iff in Hh. destruct Hh; auto.
  - intro Hes. rewrite firstn_length, app_length, Le, Lm, G2. pose proof (Nat.div_mod size 2 ltac:(lia)) as Dm. pose proof (Nat.mod_upper_bound size 2 ltac:(lia)).
    destruct He as [He|[k Hk]]; [lia|]. assert (K2 : size / 2 = k) by (rewrite Hk, Nat.mul_comm; apply Nat.div_mul; lia). lia.
  - intro He1. destruct (sort_desc rated) as [|[b q] rest] eqn:S.
    + apply (f_equal (@List.length _)) in S. rewrite sort_length, Lr in S. cbn in S. lia.
    + pose proof (sort_desc_ok rated) as D. rewrite S in D. destruct D as [D _].
      assert (B : In (b, q) rated) by (apply sort_in; rewrite S; left; reflexivity). unfold rated in B. apply in_map_iff in B. destruct B as (b' & Eb & Hb). injection Eb as -> <-.
      exists b. split.
      * split; [exact Hb|]. intros h Hh. assert (K : In (h, f h) (sort_desc rated)) by (apply sort_in; unfold rated; apply in_map_iff; eauto). rewrite S in K. destruct K as [K|K]; [injection K as <-; apply Qle_refl|]. exact (D _ K).
      * destruct elite as [|e]; [lia|]. destruct size as [|s]; [lia|]. cbn [map firstn app fst]. left. reflexivity.
Qed.

(** ** All generations *)
Theorem generations_lemma : forall f maxs size elite npts gs pop, (forall h, In h pop -> valid maxs h) -> List.length pop = size -> 3 <= size -> npts < List.length maxs ->
  (forall g, In g gs -> gen_ok (List.length maxs) npts size size g) -> 1 <= elite <= size ->
  exists pops, generations f maxs size elite npts pop gs = Ok pops /\ List.length pops = List.length gs /\
    (forall p, In p pops -> List.length p = size /\ forall h, In h p -> valid maxs h) /\
    (forall i j p p' g h, i <= j -> nth_error pops i = Some p -> nth_error pops j = Some p' -> best_genome f p = Some g -> best_genome f p' = Some h -> (f g <= f h)%Q) /\
    (forall b, intermid f pops = Some b -> forall p h, In p pops -> In h p -> (f h <= f b)%Q).
Proof.
  intros f maxs size elite npts gs. 
  assert (Main : forall pop, (forall h, In h pop -> valid maxs h) -> List.length pop = size -> 3 <= size -> npts < List.length maxs ->
    (forall g, In g gs -> gen_ok (List.length maxs) npts size size g) -> 1 <= elite <= size ->
    exists pops, generations f maxs size elite npts pop gs = Ok pops /\ List.length pops = List.length gs /\ (gs <> [] -> nth_error pops 0 = Some pop) /\
      (forall p, In p pops -> List.length p = size /\ forall h, In h p -> valid maxs h) /\
      (forall i p p', nth_error pops i = Some p -> nth_error pops (S i) = Some p' -> exists b, fittest f p b /\ In b p')).
  { induction gs as [|g gs IH]; intros pop Hv Hl Hs Hn Hg He; cbn [generations].
    - exists []. split; [reflexivity|]. split; [reflexivity|]. split; [congruence|]. split; [intros p []|]. intros [|i] p p' H; discriminate.
    - destruct (generation_lemma f maxs size elite npts pop g Hv Hl Hs Hn (Hg g (or_introl eq_refl)) (or_introl He)) as (pop' & E & V' & L' & B'). rewrite E. cbn [bind].
      destruct (IH pop' V' (L' (proj2 He)) Hs Hn ltac:(intros; apply Hg; right; assumption) He) as (pops & -> & P1 & P2 & P3 & P4). cbn [bind].
      exists (pop :: pops). split; [reflexivity|]. split; [cbn; lia|]. split; [reflexivity|]. split.
      + intros p [<-|Hp]; auto.
      + intros [|i] p p' H1 H2; cbn in H1, H2; [|eapply P4; eauto]. injection H1 as <-. assert (Ng : gs <> []) by (intro K; subst gs; destruct pops; [discriminate|cbn in P1; lia]).
        change (nth_error pops 0 = Some p') in H2. rewrite (P2 Ng) in H2. injection H2 as <-. apply B'. lia. }
  intros pop Hv Hl Hs Hn Hg He. destruct (Main pop Hv Hl Hs Hn Hg He) as (pops & E & L1 & _ & V1 & B1). exists pops. split; [exact E|]. split; [exact L1|]. split; [exact V1|].
  assert (Bg : forall p g, best_genome f p = Some g -> fittest f p g).
  { intros [|x p] g H; cbn in H; [discriminate|]. injection H as <-. destruct (best_of_spec _ f p x) as [A1 A2]. split; assumption. }
  assert (Mono : forall i j p p', i <= j -> nth_error pops i = Some p -> nth_error pops j = Some p' -> forall h, In h p -> exists b, In b p' /\ (f h <= f b)%Q).
  { intros i j p p' Hij Hi Hj. revert p' Hj. induction Hij as [|j Hij IHj]; intros p' Hj h Hh.
    - rewrite Hi in Hj. injection Hj as <-. exists h. split; [exact Hh|apply Qle_refl].
    - assert (Hlt : j < List.length pops) by (apply nth_error_lt in Hj; lia). destruct (nth_error pops j) as [pj|] eqn:Ej; [|apply nth_error_None in Ej; lia].
      destruct (IHj pj eq_refl h Hh) as (b & Hb & Lb). destruct (B1 j pj p' Ej Hj) as (x & [_ Fx] & Hx). exists x. split; [exact Hx|]. pose proof (Fx b Hb). lra. }
  split.
  - intros i j p p' g h Hij Hi Hj Hg1 Hh1. destruct (Bg _ _ Hg1) as [G1 _]. destruct (Bg _ _ Hh1) as [_ H2]. destruct (Mono i j p p' Hij Hi Hj g G1) as (b & Hb & Lb). pose proof (H2 b Hb). lra.
  - intros b Hb p h Hp Hh. unfold intermid in Hb. destruct (last_opt pops) as [pl|] eqn:El; [|discriminate]. destruct (Bg _ _ Hb) as [_ B2].
    apply In_nth_error in Hp. destruct Hp as (i & Hi).
    assert (Hlast : nth_error pops (List.length pops - 1) = Some pl) by (rewrite <- El; symmetry; apply last_opt_nth). 
    assert (i <= List.length pops - 1) by (apply nth_error_lt in Hi; lia).
    destruct (Mono i (List.length pops - 1) p pl ltac:(lia) Hi Hlast h Hh) as (x & Hx & Lx). pose proof (B2 x Hx). lra.
Qed.

(** ** The first population *)
Lemma random_genome_valid : forall maxs r i, (forall m, In m maxs -> 0 < m) -> exists g, random_genome maxs r i = Ok g /\ valid maxs g.
Proof.
  intros maxs r. induction maxs as [|m maxs IH]; intros i H; cbn [random_genome]; [exists []; split; [reflexivity|constructor]|].
  unfold randint. pose proof (H m (or_introl eq_refl)) as Hm. destruct (Nat.eqb_spec m 0); [lia|]. cbn [bind]. destruct (IH (S i) ltac:(intros; apply H; right; assumption)) as (g & -> & V). cbn [bind].
  eexists. split; [reflexivity|]. constructor; [apply Nat.mod_upper_bound; assumption|exact V].
Qed.
Lemma random_genome_err : forall maxs r i, In 0 maxs -> random_genome maxs r i = Err ValueError.
Proof.
  intros maxs r. induction maxs as [|m maxs IH]; intros i H; [destruct H|]. cbn [random_genome]. unfold randint. destruct (Nat.eqb_spec m 0); [reflexivity|]. cbn [bind].
  destruct H as [H|H]; [congruence|]. rewrite (IH (S i) H). reflexivity.
Qed.
Lemma route_id_spec : forall rs t j, (j <= route_id rs t j < j + List.length rs /\ nth_error rs (route_id rs t j - j) = Some t) \/ (route_id rs t j = 0 /\ ~ In t rs).
Proof.
  intros rs t. induction rs as [|r rs IH]; intro j; cbn [route_id]; [right; split; [reflexivity|intros []]|]. unfold eq_genome. destruct (list_eq_dec Nat.eq_dec r t) as [->|N].
  - left. split; [cbn; lia|]. rewrite Nat.sub_diag. reflexivity.
  - destruct (IH (S j)) as [[A1 A2]|[A1 A2]].
    + left. split; [cbn; lia|]. replace (route_id rs t (S j) - j) with (S (route_id rs t (S j) - S j)) by lia. exact A2.
    + right. split; [exact A1|]. intros [K|K]; contradiction.
Qed.
Lemma first_genome_valid : forall rts, (forall rt, In rt rts -> fst rt <> []) -> valid (map (fun rt => List.length (fst rt)) rts) (first_genome rts).
Proof.
  intros rts. induction rts as [|[rs t] rts IH]; intro H; [constructor|]. unfold first_genome. cbn [map fst snd]. constructor; [|apply IH; intros; apply H; right; assumption].
  pose proof (H _ (or_introl eq_refl)) as Hr. cbn in Hr. destruct (route_id_spec rs t 0) as [[[_ A] _]|[A _]]; [exact A|rewrite A; destruct rs; [congruence|cbn; lia]].
Qed.
Lemma set_at_length : forall A i (x : A) l, List.length (set_at i x l) = List.length l.
Proof. intros A i x l. unfold set_at. rewrite <- (firstn_skipn i l) at 3. rewrite !app_length. destruct (skipn i l); reflexivity. Qed.
Lemma set_at_in : forall A i (x : A) l y, In y (set_at i x l) -> y = x \/ In y l.
Proof.
  intros A i x l y H. unfold set_at in H. apply in_app_iff in H. destruct H as [H|H]; [right; eapply firstn_in; exact H|].
  destruct (skipn i l) as [|z tl] eqn:E; [destruct H|]. destruct H as [<-|H]; [left; reflexivity|]. right. rewrite <- (firstn_skipn i l), E. apply in_or_app. right. right. exact H.
Qed.
Lemma set_at_0 : forall A i (x : A) l, 0 < i -> nth_error (set_at i x l) 0 = nth_error l 0.
Proof. intros A i x [|y l] H; destruct i; try lia; reflexivity. Qed.
Lemma put_mutants : forall maxs draws ks pop g0, nth_error pop 0 = Some g0 -> (forall g, In g pop -> valid maxs g) ->
  exists pop', foldM (put_mutant maxs draws) ks pop = Ok pop' /\ List.length pop' = List.length pop /\ (forall g, In g pop' -> valid maxs g) /\
    ((forall k, In k ks -> 0 < k) -> nth_error pop' 0 = Some g0).
Proof.
  intros maxs draws ks. induction ks as [|k ks IH]; intros pop g0 H0 Hv; cbn [foldM]; [exists pop; auto|].
  unfold put_mutant at 1. rewrite H0. cbn [of_opt bind]. pose proof (Hv g0 (nth_error_In _ _ H0)) as V0. destruct (mutate_ok_from g0 maxs (draws k) 0 V0) as (g & M). rewrite M. cbn [bind].
  assert (Vg : valid maxs g) by (eapply mutated_valid; [exact V0|eapply mutate_lemma; exact M]).
  assert (N0 : exists g1, nth_error (set_at k g pop) 0 = Some g1 /\ (0 < k -> g1 = g0)).
  { destruct k as [|k]; [|exists g0; rewrite set_at_0 by lia; auto]. destruct pop as [|p pop]; [discriminate|]. exists g. split; [reflexivity|lia]. }
  destruct N0 as (g1 & N1 & N2).
  destruct (IH (set_at k g pop) g1 N1) as (pop' & E & L1 & V1 & P1).
  { intros h Hh. apply set_at_in in Hh. destruct Hh as [->|Hh]; auto. }
  exists pop'. split; [exact E|]. split; [rewrite L1; apply set_at_length|]. split; [exact V1|]. intro Hk. rewrite P1; [|intros; apply Hk; right; assumption]. f_equal. apply N2. apply Hk. left. reflexivity.
Qed.
(** the first population: valid genomes; from size 4 on, the routes of the initial World are the first of them *)
Theorem first_population_lemma : forall size rts rnd draws, 1 <= size ->
  ((exists rt, In rt rts /\ fst rt = []) -> first_population size rts rnd draws = Err ValueError) /\
  ((forall rt, In rt rts -> fst rt <> []) -> exists pop, first_population size rts rnd draws = Ok pop /\ List.length pop = size /\
    (forall g, In g pop -> valid (map (fun rt => List.length (fst rt)) rts) g) /\ (4 <= size -> nth_error pop 0 = Some (first_genome rts))).
Proof.
  intros size rts rnd draws Hs. unfold first_population. set (maxs := map (fun rt => List.length (fst rt)) rts). split.
  - intros (rt & Hrt & E). assert (Z0 : In 0 maxs) by (apply in_map_iff; exists rt; rewrite E; auto). destruct size as [|n]; [lia|]. cbn [seq mapM]. rewrite (random_genome_err maxs (rnd 0) 0 Z0). reflexivity.
  - intro Hr. assert (Hm : forall m, In m maxs -> 0 < m) by (intros m K; apply in_map_iff in K; destruct K as (rt & <- & K); pose proof (Hr rt K); destruct (fst rt); [congruence|cbn; lia]).
    assert (R : forall ks, exists pop, mapM (fun k => random_genome maxs (rnd k) 0) ks = Ok pop /\ List.length pop = List.length ks /\ forall g, In g pop -> valid maxs g).
    { intro ks. induction ks as [|k ks (pop & E & L & V)]; cbn [mapM]; [exists []; split; [reflexivity|]; split; [reflexivity|intros g []]|].
      destruct (random_genome_valid maxs (rnd k) 0 Hm) as (g & -> & Vg). cbn [bind]. rewrite E. cbn [bind]. eexists. split; [reflexivity|]. split; [cbn; lia|]. intros h [<-|Hh]; auto. }
    destruct (R (seq 0 size)) as (pop & E & L & V). rewrite E. cbn [bind]. rewrite seq_length in L. replace (size =? 0) with false by (symmetry; apply Nat.eqb_neq; lia). cbn [andb bind].
    assert (N0 : nth_error (set_at 0 (first_genome rts) pop) 0 = Some (first_genome rts)) by (destruct pop; [cbn in L; lia|reflexivity]).
    destruct (put_mutants maxs draws (seq 1 (size / 4 - 1)) _ _ N0) as (p1 & -> & L1 & V1 & F1).
    { intros g Hg. apply set_at_in in Hg. destruct Hg as [->|Hg]; [apply first_genome_valid; exact Hr|apply V; exact Hg]. }
    cbn [bind]. rewrite set_at_length in L1.
    assert (N1 : nth_error p1 0 = Some (first_genome rts)) by (apply F1; intros k Hk; apply in_seq in Hk; lia).
    destruct (put_mutants maxs draws (seq (size / 4) (size / 2 - size / 4)) _ _ N1 V1) as (p2 & -> & L2 & V2 & F2).
    exists p2. split; [reflexivity|]. split; [lia|]. split; [exact V2|]. intro H4. apply F2. intros k Hk. apply in_seq in Hk. assert (1 <= size / 4) by (apply Nat.div_le_lower_bound; lia). lia.
Qed.
(** with an elite and at least four genomes the best of the last generation is no worse than the initial World *)
Theorem never_worse_lemma : forall f rts rnd draws size elite npts gs pop pops b, 4 <= size -> 1 <= elite <= size ->
  npts < List.length rts -> gs <> [] -> (forall g, In g gs -> gen_ok (List.length rts) npts size size g) ->
  first_population size rts rnd draws = Ok pop -> generations f (map (fun rt => List.length (fst rt)) rts) size elite npts pop gs = Ok pops ->
  intermid f pops = Some b -> (f (first_genome rts) <= f b)%Q.
Proof.
  intros f rts rnd draws size elite npts gs pop pops b H4 He Hn Hgs Hg Ep Eg Hb.
  destruct (first_population_lemma size rts rnd draws ltac:(lia)) as [F1 F2].
  assert (Hr : forall rt, In rt rts -> fst rt <> []) by (intros rt K1 K2; rewrite F1 in Ep; [discriminate|eauto]).
  destruct (F2 Hr) as (pop' & E' & L & V & N). rewrite Ep in E'. injection E' as <-. clear F1 F2. specialize (N H4).
  pose proof (map_length (fun rt : list (list nat) * list nat => List.length (fst rt)) rts) as Lm.
  destruct (generations_lemma f _ size elite npts gs pop V L ltac:(lia) ltac:(rewrite Lm; exact Hn) ltac:(rewrite Lm; exact Hg) He) as (pops' & E2 & _ & _ & _ & B). rewrite Eg in E2. injection E2 as <-.
  apply (B b Hb pop); [|apply (nth_error_In _ _ N)].
  destruct gs as [|g gs]; [congruence|]. cbn [generations] in Eg. destruct (next_generation _ _ _ _ _ _ _ _); [|discriminate]. cbn [bind] in Eg. destruct (generations _ _ _ _ _ _ gs); [|discriminate]. cbn [bind] in Eg. injection Eg as <-. left. reflexivity.
Qed.
