(** * AnalyzerDemo: the basic statistics with and without an early query. *)
From Verif Require Import Base Types Sim Build Tac Reach Steps Spec SpecStats Analyzer Paths Demo MotionDemo.
Local Open Scope string_scope.
Local Open Scope nat_scope.

Inductive qact := QOp (o : op) | QTicks (n : nat) | QAsk.
Fixpoint ticks_ (c : cfg) (n : nat) (w : world) : option world :=
  match n with 0 => Some w | S m => if w_final w then match tick c w with Ok w1 => ticks_ c m w1 | Err _ => None end else None end.
Definition is_exec (o : op) : bool := match o with OExec _ => true | _ => false end.
Fixpoint qplay (c : cfg) (acts : list qact) (s : world * analyzer) : option (world * analyzer) :=
  match acts with
  | [] => Some s
  | QOp o :: tl => if op_okb o (fst s) && negb (is_exec o)
                   then match apply_op c o (fst s) with Ok w1 => qplay c tl (w1, if is_final o then new_analyzer else snd s) | Err _ => None end else None
  | QTicks n :: tl => match ticks_ c n (fst s) with Some w1 => qplay c tl (w1, snd s) | None => None end
  | QAsk :: tl => qplay c tl (fst s, od_analysis c (fst s) (snd s))
  end.
Lemma ticks_later : forall c s n w a w', qlater c any_op s (w, a) -> ticks_ c n w = Some w' -> qlater c any_op s (w', a).
Proof.
  intros c s n. induction n as [|n IH]; intros w a w' H E; cbn [ticks_] in E; [injection E as <-; exact H|].
  destruct (w_final w) eqn:F; [|discriminate]. destruct (tick c w) as [w1|] eqn:T; [|discriminate]. apply (IH w1); [|exact E].
  eapply ql_step; [exact H|]. apply qs_tick; auto.
Qed.
Lemma qplay_later : forall c s acts s1 s2, qlater c any_op s s1 -> qplay c acts s1 = Some s2 -> qlater c any_op s s2.
Proof.
  intros c s acts. induction acts as [|[o|n|] acts IH]; intros [w a] s2 H E; cbn [qplay fst snd] in E.
  - injection E as <-. exact H.
  - destruct (op_okb o w && negb (is_exec o)) eqn:B; [|discriminate]. apply andb_true_iff in B. destruct B as [B1 B2].
    destruct (apply_op c o w) as [w1|] eqn:A; [|discriminate]. eapply IH; [|exact E]. eapply ql_step; [exact H|]. apply qs_step; auto.
    + apply op_okb_ok, B1.
    + exact Logic.I.
    + intros x ->. discriminate.
  - destruct (ticks_ c n w) as [w1|] eqn:A; [|discriminate]. eapply IH; [|exact E]. eapply ticks_later; eauto.
  - eapply IH; [|exact E]. eapply ql_step; [exact H|]. apply qs_od.
Qed.
Definition at_end (w : world) : bool := Nat.eqb (w_T w) (w_tsize w).
Lemma qplay_witness : forall c acts tm (t : world * analyzer -> bool),
  match qplay c acts (empty_world tm, new_analyzer) with Some s => t s | None => false end = true ->
  exists w a, qlater c any_op (empty_world tm, new_analyzer) (w, a) /\ t (w, a) = true.
Proof.
  intros c acts tm t H. destruct (qplay c acts _) as [[w a]|] eqn:E; [|discriminate]. exists w, a. split; [|exact H].
  eapply qplay_later; [constructor|exact E].
Qed.

Definition stats_eqb (s : stats) (all comp : Z) (total average : Q) : bool :=
  (Z.eqb (st_all s) all && Z.eqb (st_completed s) comp && Qeq_bool (st_total s) total && Qeq_bool (st_average s) average)%bool.
Definition test (all comp : Z) (total average : Q) (n : nat) (s : world * analyzer) : bool :=
  (at_end (fst s) && Nat.eqb (completed (fst s)) n &&
   match a_basic (basic_analysis cfg_det (fst s) (snd s)) with Some x => stats_eqb x all comp total average | None => false end)%bool.
(** two OD pairs, the last vehicle does not arrive *)
Definition two_ods : list qact := (map QOp (row_net ++ [veh_ 1 2 0; veh_ 0 2 6; veh_ 0 1 38]) ++ [QOp (OFinalize None)])%list.
Lemma stats_example : exists w a, qlater cfg_det any_op (empty_world (Some 200%Q), new_analyzer) (w, a) /\ test 20 15 675 45 3 (w, a) = true.
Proof. apply (qplay_witness cfg_det (two_ods ++ [QTicks 40])%list (Some 200%Q)). vm_compute. reflexivity. Qed.
(** the same scenario with a query after 4 timesteps *)
Lemma stats_refuted : exists w a, qlater cfg_det any_op (empty_world (Some 200%Q), new_analyzer) (w, a) /\
  at_end w = true /\ completed w = 3 /\ exists s, a_basic (basic_analysis cfg_det w a) = Some s /\ st_completed s = 0%Z /\ st_total s = (-1)%Q /\ ~ right_stats cfg_det w s.
Proof.
  destruct (qplay_witness cfg_det (two_ods ++ [QTicks 4; QAsk; QTicks 36])%list (Some 200%Q) (fun s => test 20 0 (-1) (-1) 3 s &&
    match a_basic (basic_analysis cfg_det (fst s) (snd s)) with Some x => match st_total x with (-1 # 1)%Q => true | _ => false end | None => false end)%bool) as (w & a & H & T).
  { vm_compute. reflexivity. }
  exists w, a. split; [exact H|]. unfold test in T. cbn [fst snd] in T. destruct (a_basic (basic_analysis cfg_det w a)) as [s|]; [|rewrite andb_false_r in T; discriminate].
  apply andb_true_iff in T. destruct T as [T Tm]. apply andb_true_iff in T. destruct T as [T T3]. apply andb_true_iff in T. destruct T as [T1 T2].
  apply Nat.eqb_eq in T2. split; [exact T1|]. split; [exact T2|]. exists s. split; [reflexivity|].
  unfold stats_eqb in T3. apply andb_true_iff in T3. destruct T3 as [T3 _]. apply andb_true_iff in T3. destruct T3 as [T3 _]. apply andb_true_iff in T3. destruct T3 as [_ T4].
  apply Z.eqb_eq in T4. split; [exact T4|]. split; [destruct (st_total s) as [n d]; destruct n as [|p|p]; try discriminate; destruct p; try discriminate; destruct d; try discriminate; reflexivity|].
  intros (_ & K & _). rewrite T4, T2 in K. vm_compute in K. discriminate.
Qed.
