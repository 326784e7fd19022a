(** * CppShared: the statistics object that the days of the compiled solvers share, uxsim/DTAsolvers/DTAsolvers_cpp_adapter.py 75-91 and 425-457, 492. *)
From Verif Require Import Base Types Sim Build Lists Tac Reach Steps Spec Registry LinkQueries Route SpecDue Due SpecDso Dso.
Local Open Scope nat_scope.

(** ** The model *)

(** [h_cells]: the Analyzer objects, each with the world it belongs to and its average travel time (the other figures are written together with it);
    number 0 is the one that is used again every day. [h_ptr]: the Analyzer of the world of each day. [h_best], [h_avg]: W_intermid_solution and best_avg_tt. *)
Record shared := mkShared { h_cells : list (nat * Q); h_ptr : list nat; h_best : option nat; h_avg : option Q }.
Definition shared0 : shared := mkShared [] [] None None.
(** One day: the cached Analyzer is bound to the new world and filled by the simulation; 449-456 *)
Definition cpp_best_day (d : bool * Q) (s : shared) : result shared :=
  let i := List.length (h_ptr s) in
  let cells := (i, snd d) :: tl (h_cells s) in
  if fst d then
    better <- match h_best s with None => Ok true | Some _ => match h_avg s with None => Err TypeError | Some a => Ok (qlt (snd d) a) end end ;;
    Ok (if better : bool then mkShared (cells ++ [(i, snd d)]) (h_ptr s ++ [List.length cells]) (Some i) (Some (snd d)) else mkShared cells (h_ptr s ++ [0]) (h_best s) (h_avg s))
  else Ok (mkShared cells (h_ptr s ++ [0]) (h_best s) (h_avg s)).
(** W.analyzer of the world of day [i] *)
Definition day_stats (s : shared) (i : nat) : option (nat * Q) := match nth_error (h_ptr s) i with Some p => nth_error (h_cells s) p | None => None end.

(** ** Theorems *)
Definition SInv (i : nat) (b : option (nat * Q)) (s : shared) : Prop :=
  List.length (h_ptr s) = i /\
  match b with
  | None => h_best s = None
  | Some (j, a) => h_best s = Some j /\ h_avg s = Some a /\ exists p, nth_error (h_ptr s) j = Some (S p) /\ nth_error (tl (h_cells s)) p = Some (j, a)
  end.
Lemma shared_step : forall i b s done avg, SInv i b s ->
  exists s', cpp_best_day (done, avg) s = Ok s' /\ SInv (S i) (if done then match b with None => Some (i, avg) | Some (_, a) => if qlt avg a then Some (i, avg) else b end else b) s'.
Proof.
  intros i b s done avg [Hl Hb]. unfold cpp_best_day. cbn [fst snd]. rewrite Hl.
  assert (Keep : SInv (S i) b (mkShared ((i, avg) :: tl (h_cells s)) (h_ptr s ++ [0]) (h_best s) (h_avg s))).
  { split; [cbn; rewrite app_length, Hl; cbn; lia|]. destruct b as [[j a]|]; [|exact Hb]. destruct Hb as (B1 & B2 & p & B3 & B4). cbn. split; [exact B1|]. split; [exact B2|]. exists p. split; [|exact B4].
    rewrite nth_error_app1; [exact B3|]. apply nth_error_Some. congruence. }
  assert (New : SInv (S i) (Some (i, avg)) (mkShared (((i, avg) :: tl (h_cells s)) ++ [(i, avg)]) (h_ptr s ++ [List.length ((i, avg) :: tl (h_cells s))]) (Some i) (Some avg))).
  { split; [cbn [h_ptr]; rewrite app_length, Hl; cbn; lia|]. cbn [h_best h_avg h_ptr h_cells]. split; [reflexivity|]. split; [reflexivity|]. exists (List.length (tl (h_cells s))). split.
    - rewrite nth_error_app2 by lia. rewrite Hl, Nat.sub_diag. reflexivity.
    - cbn [app tl]. rewrite nth_error_app2 by lia. rewrite Nat.sub_diag. reflexivity. }
  destruct done; [|eexists; split; [reflexivity|exact Keep]]. destruct b as [[j a]|].
  - destruct Hb as (B1 & B2 & B3). rewrite B1, B2 in Keep |- *. cbn [bind]. destruct (qlt avg a); eexists; (split; [reflexivity|]); assumption.
  - rewrite Hb. cbn [bind]. eexists. split; [reflexivity|exact New].
Qed.
Lemma shared_days : forall days i b s, SInv i b s -> exists s', foldM cpp_best_day days s = Ok s' /\ SInv (i + List.length days) (best_day days i b) s'.
Proof.
  induction days as [|[done avg] days IH]; intros i b s H; cbn [foldM best_day List.length].
  - exists s. rewrite Nat.add_0_r. split; [reflexivity|exact H].
  - destruct (shared_step i b s done avg H) as (s1 & E & H1). rewrite E. cbn [bind]. destruct (IH _ _ _ H1) as (s' & E' & H'). exists s'. split; [exact E'|]. replace (i + S (List.length days)) with (S i + List.length days) by lia. exact H'.
Qed.
Theorem shared_best : forall days, exists s, foldM cpp_best_day days shared0 = Ok s /\ h_best s = option_map fst (best_day days 0 None) /\
  forall j a, best_day days 0 None = Some (j, a) -> h_avg s = Some a /\ day_stats s j = Some (j, a).
Proof.
  intro days. destruct (shared_days days 0 None shared0) as (s & E & L & H). { split; reflexivity. } exists s. split; [exact E|]. destruct (best_day days 0 None) as [[j a]|].
  - destruct H as (B1 & B2 & p & B3 & B4). split; [exact B1|]. intros j' a' K. injection K as <- <-. split; [exact B2|]. unfold day_stats. rewrite B3. destruct (h_cells s) as [|x l]; [destruct p; discriminate B4|exact B4].
  - split; [exact H|]. discriminate.
Qed.
(** the statistics the solver reads after the simulation of a day are those of the day *)
Theorem shared_last : forall d s s', cpp_best_day d s = Ok s' -> List.length (h_ptr s') = S (List.length (h_ptr s)) /\ day_stats s' (List.length (h_ptr s)) = Some (List.length (h_ptr s), snd d).
Proof.
  intros d s s' H. unfold cpp_best_day in H. cbv zeta in H.
  assert (K : forall b a, let s0 := mkShared ((List.length (h_ptr s), snd d) :: tl (h_cells s)) (h_ptr s ++ [0]) b a in
    List.length (h_ptr s0) = S (List.length (h_ptr s)) /\ day_stats s0 (List.length (h_ptr s)) = Some (List.length (h_ptr s), snd d)).
  { intros b a s0. unfold s0, day_stats. cbn [h_ptr h_cells]. rewrite app_length, nth_error_app2, Nat.sub_diag by lia. cbn. split; [lia|reflexivity]. }
  destruct (fst d); [|injection H as <-; apply K]. apply bind_ok in H. destruct H as (b & _ & H). destruct b; injection H as <-; [|apply K].
  unfold day_stats. cbn [h_ptr h_cells]. rewrite app_length, nth_error_app2, Nat.sub_diag by lia. split; [cbn; lia|]. cbn [nth_error]. rewrite nth_error_app2 by lia. rewrite Nat.sub_diag. reflexivity.
Qed.
(** ** Examples *)
Lemma shared_example : exists s, foldM cpp_best_day [(false, 1%Q); (true, 9%Q); (true, 7%Q); (true, 8%Q)] shared0 = Ok s /\ h_best s = Some 2 /\ day_stats s 2 = Some (2, 7%Q) /\ day_stats s 3 = Some (3, 8%Q).
Proof. eexists. split; [vm_compute; reflexivity|]. repeat split. Qed.
(** the worlds of other days do not keep their statistics *)
Lemma shared_refuted : exists days s i a b, foldM cpp_best_day days shared0 = Ok s /\ nth_error days i = Some (true, a) /\ day_stats s i = Some b /\ ~ (snd b == a)%Q /\ fst b <> i.
Proof.
  exists [(true, 7%Q); (true, 9%Q); (true, 8%Q)]. eexists. exists 1, 9%Q. eexists. split; [vm_compute; reflexivity|]. split; [reflexivity|]. split; [reflexivity|]. split; [intro K; discriminate K|discriminate].
Qed.
