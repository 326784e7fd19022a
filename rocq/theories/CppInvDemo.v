(** * CppInvDemo: states of the compiled engine. *)
From Coq Require Import Bool.
From Verif Require Import Base Types Sim Build Tac Reach Steps Spec Demo MotionDemo Cpp CppLoop CppInv.
Local Open Scope string_scope.
Local Open Scope nat_scope.

Fixpoint cticks (c : cfg) (n : nat) (w : world) : option world :=
  match n with 0 => Some w | S n => if w_final w then match cpp_tick c w with Ok w1 => cticks c n w1 | Err _ => None end else None end.
Fixpoint cplay (c : cfg) (os : list (op + nat)) (w : world) : option world :=
  match os with
  | [] => Some w
  | inl o :: tl => if op_okb o w && match o with OExec _ => false | _ => true end
                   then match apply_op c o w with Ok w1 => cplay c tl w1 | Err _ => None end else None
  | inr n :: tl => match cticks c n w with Some w1 => cplay c tl w1 | None => None end
  end.
Definition list_eqb (a b : list nat) : bool := if list_eq_dec Nat.eq_dec a b then true else false.
Lemma cticks_later : forall c n w w', cticks c n w = Some w' -> clater c w w'.
Proof.
  intros c n. assert (G : forall n w0 w w', clater c w0 w -> cticks c n w = Some w' -> clater c w0 w').
  { clear n. intro n. induction n as [|n IH]; intros w0 w w' A H; cbn [cticks] in H; [injection H as <-; exact A|]. destruct (w_final w) eqn:F; [|discriminate]. destruct (cpp_tick c w) as [w1|e] eqn:E; [|discriminate].
    eapply IH; [|exact H]. eapply cl_tick; eauto. }
  intros w w' H. eapply G; [apply cl_refl|exact H].
Qed.
Lemma clater_trans : forall c a b d, clater c a b -> clater c b d -> clater c a d.
Proof. intros c a b d H K. induction K as [|w1 o w2 K IH A B E|w1 w2 K IH F E]; [exact H|eapply cl_op; eauto|eapply cl_tick; eauto]. Qed.
Lemma cplay_later : forall c os w w', cplay c os w = Some w' -> clater c w w'.
Proof.
  intros c os. induction os as [|[o|n] os IH]; intros w w' H; cbn [cplay] in H; [injection H as <-; apply cl_refl| |].
  - destruct (op_okb o w && _) eqn:Ok; [|discriminate]. apply andb_true_iff in Ok. destruct Ok as [O1 O2]. destruct (apply_op c o w) as [w1|e] eqn:E; [|discriminate].
    eapply clater_trans; [|eapply IH; exact H]. eapply cl_op; [apply cl_refl|apply op_okb_ok; exact O1| |exact E]. intros a ->. discriminate O2.
  - destruct (cticks c n w) as [w1|] eqn:E; [|discriminate]. eapply clater_trans; [eapply cticks_later; exact E|eapply IH; exact H].
Qed.
Lemma cplay_witness : forall c os os' tm (t : world -> world -> bool),
  match cplay c os (empty_world tm) with Some w => match cplay c os' w with Some w' => t w w' | None => false end | None => false end = true ->
  exists w w', creach c w /\ clater c w w' /\ t w w' = true.
Proof.
  intros c os os' tm t H. destruct (cplay c os (empty_world tm)) as [w|] eqn:E; [|discriminate]. destruct (cplay c os' w) as [w'|] eqn:E'; [|discriminate].
  exists w, w'. split; [eapply clater_creach; [apply (cr_init c tm)|eapply cplay_later; exact E]|]. split; [eapply cplay_later; exact E'|exact H].
Qed.

(** Two origins merge at a signal: after 8 timesteps of the compiled engine, and after 5 more *)
Lemma inv_example : exists w w', creach cfg0 w /\ clater cfg0 w w' /\
  (Nat.eqb (w_T w) 8 && (count_state Home w =? 5) && (count_state Run w =? 3) && (count_state End_ w =? 3) &&
   list_eqb (l_vehs (L w 0)) [2] && list_eqb (l_vehs (L w 1)) [6; 7] && Z.eqb (latest (l_ca (L w 1))) 15 && Z.eqb (latest (l_cd (L w 1))) 5 &&
   (count_state End_ w' =? 8) && list_eqb (l_vehs (L w' 1)) [9; 10] && Z.eqb (latest (l_ca (L w' 1))) 30 && Z.eqb (latest (l_cd (L w' 1))) 20)%bool = true.
Proof. apply (cplay_witness cfg0 (map inl merge_net ++ [inl (OFinalize None); inr 8])%list [inr 5] (Some 200%Q)). vm_compute. reflexivity. Qed.
