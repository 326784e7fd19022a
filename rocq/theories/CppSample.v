(** * CppSample: the vehicles that may change their route in the compiled system-optimum solver, uxsim/trafficpp/dta_solver.cpp 270-290,
    against the sample of the Python solver, uxsim/DTAsolvers/DTAsolvers.py 557-560. *)
From Coq Require Import Permutation.
From Verif Require Import Base Types Sim Build Lists Tac Reach Steps Spec Registry LinkQueries Route SpecDue Due SpecDso Dso CppExt CppDta.
Local Open Scope nat_scope.

(** ** The model *)

(** is_swap_candidate: [perm] is the shuffled list of the indices, [below v] whether the number drawn for [v] is below swap_prob;
    [swap_num] is -1 if it is not given (adapter, 461) *)
Definition cpp_candidate (nv : nat) (swap_num : Z) (perm : list vid) (below : vid -> bool) (v : vid) : bool :=
  if (0 <=? swap_num)%Z then mem v (firstn (Z.to_nat (Z.min swap_num (Z.of_nat nv))) perm) else below v.
(** random.sample(list(W.VEHICLES.keys()), swap_num), the first numbers of the shuffled list; it raises for sizes that are negative or too large *)
Definition py_sample (nv : nat) (swap_num : Z) (perm : list vid) : result (list vid) :=
  if ((0 <=? swap_num)%Z && (swap_num <=? Z.of_nat nv)%Z)%bool then Ok (firstn (Z.to_nat swap_num) perm) else Err ValueError.

(** ** Theorems *)
Definition candidates (nv : nat) (f : vid -> bool) : list vid := filter f (seq 0 nv).
Lemma mem_in : forall v l, mem v l = true <-> In v l.
Proof. intros v l. unfold mem. rewrite existsb_exists. split; [intros (x & A & B); apply Nat.eqb_eq in B; subst; exact A|intro H; exists v; split; [exact H|apply Nat.eqb_refl]]. Qed.
Theorem sample_size : forall nv k perm below, Permutation perm (seq 0 nv) -> (0 <= k)%Z -> Z.of_nat (List.length (candidates nv (cpp_candidate nv k perm below))) = Z.min k (Z.of_nat nv).
Proof.
  intros nv k perm below P Hk. unfold candidates, cpp_candidate. assert (K : (0 <=? k)%Z = true) by (apply Z.leb_le; exact Hk). rewrite K. set (m := Z.to_nat (Z.min k (Z.of_nat nv))). assert (Lm : m <= List.length perm) by (rewrite (Permutation_length P), seq_length; unfold m; lia).
  assert (Nd : NoDup perm) by (apply (Permutation_NoDup (Permutation_sym P)); apply seq_NoDup).
  assert (E : Permutation (filter (fun v => mem v (firstn m perm)) (seq 0 nv)) (firstn m perm)).
  { apply NoDup_Permutation; [apply NoDup_filter, seq_NoDup| |].
    - rewrite <- (firstn_skipn m perm) in Nd. clear - Nd. induction (firstn m perm) as [|a l IH]; [constructor|]. inversion Nd; subst. constructor; [intro K; apply H1; apply in_or_app; left; exact K|apply IH; assumption].
    - intro x. rewrite filter_In, mem_in. split; [tauto|]. intro H. split; [|exact H]. apply (Permutation_in x P). rewrite <- (firstn_skipn m perm). apply in_or_app. left. exact H. }
  rewrite (Permutation_length E), firstn_length. unfold m. lia.
Qed.
Theorem sample_same : forall nv k perm below s, py_sample nv k perm = Ok s -> forall v, cpp_candidate nv k perm below v = mem v s.
Proof.
  intros nv k perm below s H v. unfold py_sample in H. destruct ((0 <=? k)%Z && (k <=? Z.of_nat nv)%Z)%bool eqn:E; [|discriminate]. injection H as <-. apply andb_prop in E. destruct E as [A B]. unfold cpp_candidate. rewrite A. apply Z.leb_le in B. rewrite Z.min_l by exact B. reflexivity.
Qed.
(** vehicles that are not candidates do not change their route *)
Lemma try_off : forall c f ps s s', foldM (cpp_try c f false) ps s = Ok s' -> o_idx s' = o_idx s.
Proof.
  intros c f. induction ps as [|p ps IH]; intros s s' H; cbn [foldM] in H; [injection H as <-; reflexivity|]. apply bind_ok in H. destruct H as (s1 & E & H). rewrite (IH s1 s' H). unfold cpp_try in E. apply bind_ok in E. destruct E as (x & _ & E).
  destruct (qlt x (o_cost s)); [|injection E as <-; reflexivity]. destruct (_ || _); injection E as <-; reflexivity.
Qed.
Definition entry_ok (w : world) (store : nid -> nid -> option (list (list lid))) (forced : bool) (ls : list lid) (v : vid) (r : list lid) : Prop :=
  (v_state (V w v) <> End_ /\ r = []) \/ (v_state (V w v) = End_ /\ r = ls) \/
  (v_state (V w v) = End_ /\ forced = true /\ exists d set, v_dest (V w v) = Some d /\ store (v_orig (V w v)) d = Some set /\ ~ In ls set /\ nth_error set 0 = Some r).
Lemma vehicle_swap : forall c w altg owng store forced flag tr v u u', cpp_swap_vehicle c w altg owng store forced flag tr v u = Ok u' ->
  exists r, s_spec u' = s_spec u ++ [r] /\ (s_nswap u' = s_nswap u \/ (s_nswap u' = s_nswap u + c_deltan c)%Z /\ flag v = true) /\ (flag v = false -> entry_ok w store forced (fst (tr v)) v r).
Proof.
  intros c w altg owng store forced flag tr v u u' H. unfold cpp_swap_vehicle in H. apply bind_ok in H. destruct H as (d & Ed & H). apply of_opt_ok in Ed. cbv zeta in H.
  destruct (v_state (V w v)) eqn:Es;
    try (injection H as <-; eexists; split; [reflexivity|]; split; [left; reflexivity|]; intros _; left; split; [congruence|reflexivity]).
  destruct (store (v_orig (V w v)) d) as [set|] eqn:St; [|injection H as <-; eexists; split; [reflexivity|]; split; [left; reflexivity|]; intros _; right; left; split; [exact Es|reflexivity]].
  destruct (forced && negb (existsb (fun r => if list_eq_dec Nat.eq_dec r (fst (tr v)) then true else false) set))%bool eqn:Fo.
  - destruct (nth_error set 0) as [r0|] eqn:N0.
    + injection H as <-. exists r0. split; [reflexivity|]. split; [left; reflexivity|]. intros _. right. right. split; [exact Es|]. apply andb_prop in Fo. destruct Fo as [F1 F2]. split; [exact F1|]. exists d, set. split; [exact Ed|]. split; [exact St|]. split; [|exact N0].
      intro K. apply negb_true_iff in F2. enough (existsb (fun r => if list_eq_dec Nat.eq_dec r (fst (tr v)) then true else false) set = true) by congruence. apply existsb_exists. exists (fst (tr v)). split; [exact K|]. destruct (list_eq_dec Nat.eq_dec _ _); [reflexivity|contradiction].
    + apply bind_ok in H. destruct H as (x & _ & H). apply bind_ok in H. destruct H as (s & Hs & H). destruct set; [|discriminate N0]. cbn in Hs. injection Hs as <-. cbn in H. injection H as <-.
      eexists. split; [reflexivity|]. split; [left; reflexivity|]. intros _. right. left. split; [exact Es|reflexivity].
  - apply bind_ok in H. destruct H as (x & _ & H). apply bind_ok in H. destruct H as (s & Hs & H). destruct (o_idx s) as [i|] eqn:Ei.
    + apply bind_ok in H. destruct H as (r & _ & H). injection H as <-. assert (Fl : flag v = true). { destruct (flag v) eqn:Fv; [reflexivity|]. apply try_off in Hs. rewrite Ei in Hs. discriminate. }
      exists r. split; [reflexivity|]. split; [right; split; [reflexivity|exact Fl]|]. congruence.
    + injection H as <-. eexists. split; [reflexivity|]. split; [left; reflexivity|]. intros _. right. left. split; [exact Es|reflexivity].
Qed.
Lemma foldM_snoc : forall {A B} (f : A -> B -> result B) l x b r, foldM f (l ++ [x]) b = Ok r -> exists m, foldM f l b = Ok m /\ f x m = Ok r.
Proof.
  intros A B f. induction l as [|a l IH]; intros x b r H; cbn [foldM app] in *.
  - apply bind_ok in H. destruct H as (m & E & H). injection H as <-. exists b. split; [reflexivity|exact E].
  - apply bind_ok in H. destruct H as (m & E & H). destruct (IH x m r H) as (m' & A1 & A2). exists m'. rewrite E. split; [exact A1|exact A2].
Qed.
Theorem swap_candidates : forall c w altg owng store forced flag tr u, (0 <= c_deltan c)%Z -> cpp_swap c w altg owng store forced flag tr = Ok u ->
  List.length (s_spec u) = w_nv w /\ (0 <= s_nswap u <= c_deltan c * Z.of_nat (List.length (candidates (w_nv w) flag)))%Z /\
  forall v, v < w_nv w -> flag v = false -> exists r, nth_error (s_spec u) v = Some r /\ entry_ok w store forced (fst (tr v)) v r.
Proof.
  intros c w altg owng store forced flag tr u Hd. unfold cpp_swap, candidates. generalize (w_nv w). intro n. revert u. induction n as [|n IH]; intros u H.
  - cbn in H. injection H as <-. cbn. split; [reflexivity|]. split; [lia|]. intros v Hv. lia.
  - rewrite seq_S in H. apply foldM_snoc in H. destruct H as (u1 & H1 & H2). destruct (IH u1 H1) as (A & B & C). destruct (vehicle_swap _ _ _ _ _ _ _ _ _ _ _ H2) as (r & R1 & R2 & R3). rewrite Nat.add_0_l in *.
    rewrite R1, app_length, A. split; [cbn; lia|]. rewrite seq_S, filter_app, app_length, Nat.add_0_l. cbn [filter]. split.
    + destruct R2 as [R2|[R2 Fl]]; [rewrite R2; destruct (flag n); cbn [List.length]; nia|]. rewrite R2, Fl. cbn [List.length]. nia.
    + intros v Hv Fv. destruct (Nat.eq_dec v n) as [->|Ne].
      * exists r. split; [rewrite nth_error_app2 by lia; rewrite A, Nat.sub_diag; reflexivity|exact (R3 Fv)].
      * destruct (C v) as (r' & C1 & C2); [lia|exact Fv|]. exists r'. split; [rewrite nth_error_app1 by lia; exact C1|exact C2].
Qed.
(** together: at most swap_num vehicles change their route in a day *)
Theorem swap_bound : forall c w altg owng store forced below perm k tr u, (0 <= c_deltan c)%Z -> (0 <= k)%Z -> Permutation perm (seq 0 (w_nv w)) ->
  cpp_swap c w altg owng store forced (cpp_candidate (w_nv w) k perm below) tr = Ok u -> (0 <= s_nswap u <= c_deltan c * Z.min k (Z.of_nat (w_nv w)))%Z.
Proof.
  intros c w altg owng store forced below perm k tr u Hd Hk P H. destruct (swap_candidates _ _ _ _ _ _ _ _ _ Hd H) as (_ & B & _). rewrite (sample_size _ k perm below P Hk) in B. exact B.
Qed.
(** ** Examples *)
Lemma sample_example : map (cpp_candidate 4 2 [3; 0; 2; 1] (fun _ => false)) (seq 0 4) = [true; false; false; true] /\ map (cpp_candidate 4 (-1) [3; 0; 2; 1] (Nat.eqb 2)) (seq 0 4) = [false; false; true; false].
Proof. split; reflexivity. Qed.
(** more vehicles than there are, or a negative number: the Python solver raises, the compiled one goes on *)
Lemma sample_refuted : exists nv k k' perm below, Permutation perm (seq 0 nv) /\ py_sample nv k perm = Err ValueError /\ candidates nv (cpp_candidate nv k perm below) = [0; 1] /\
  py_sample nv k' perm = Err ValueError /\ candidates nv (cpp_candidate nv k' perm below) = [0].
Proof. exists 2, 3%Z, (-5)%Z, [1; 0], (Nat.eqb 0). split; [apply perm_swap|]. repeat split; reflexivity. Qed.
