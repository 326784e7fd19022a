(** * AlnsW: the weights of the operators of the neighbourhood search stay between the least weight and the greatest reward. *)
From Coq Require Import Lqa.
From Verif Require Import Base Types Sim Lists SpecGenetic SpecAlns Genetic Alns.
Local Open Scope nat_scope.

(** a weight between a millionth and [B], and rewards of the current segment that average between 0 and [B] *)
Definition fair {A} (B : Q) (o : opw A) : Prop := ((1 # 1000000) <= o_weight o <= B)%Q /\ (0 <= o_score o <= B * Qof_nat (o_uses o))%Q.
Lemma Qof_nat_S : forall n, (Qof_nat (S n) == Qof_nat n + 1)%Q.
Proof. intro n. unfold Qof_nat. rewrite Nat2Z.inj_succ. unfold Z.succ. rewrite inject_Z_plus. reflexivity. Qed.
Lemma Qof_nat_pos : forall n, (0 <= Qof_nat n)%Q.
Proof. intro n. unfold Qof_nat. change 0%Q with (inject_Z 0). rewrite <- Zle_Qle. lia. Qed.
Lemma fair_reweighted : forall A B eta (o : opw A), (0 <= eta <= 1)%Q -> ((1 # 1000000) <= B)%Q -> fair B o -> fair B (reweighted eta o).
Proof.
  intros A B eta o He Hb [[W1 W2] [S1 S2]]. unfold fair. cbn [reweighted o_weight o_score o_uses].
  set (a := (o_score o / Qof_nat (Nat.max 1 (o_uses o)))%Q).
  assert (P : (0 < Qof_nat (Nat.max 1 (o_uses o)))%Q) by (unfold Qof_nat; change 0%Q with (inject_Z 0); rewrite <- Zlt_Qlt; lia).
  assert (Ha : (a <= B)%Q).
  { unfold a. apply Qle_shift_div_r; [exact P|]. destruct (o_uses o) as [|n] eqn:Eu.
    - assert (Z : (Qof_nat 0 == 0)%Q) by reflexivity. rewrite Z in S2. change (Nat.max 1 0) with 1. assert (Z1 : (Qof_nat 1 == 1)%Q) by reflexivity. rewrite Z1. lra.
    - replace (Nat.max 1 (S n)) with (S n) by lia. exact S2. }
  assert (Hm : ((1 # 1000000) <= qmax (1 # 1000000) a <= B)%Q).
  { unfold qmax. destruct (qle (1 # 1000000) a) eqn:Q; [apply qle_iff in Q; split; assumption|split; [lra|exact Hb]]. }
  revert Hm. generalize (qmax (1 # 1000000) a). intros m [M1 M2]. split; [split; nra|].
  assert (Z : (Qof_nat 0 == 0)%Q) by reflexivity. rewrite Z. lra.
Qed.
Lemma fair_round : forall A (eqb : A -> A -> bool) B eta k q (b over : bool) (ws : list (opw A)), (0 <= eta <= 1)%Q -> ((1 # 1000000) <= B)%Q -> (0 <= q <= B)%Q -> Forall (fair B) ws ->
  let ws1 := on_op eqb k used ws in let ws2 := if b then on_op eqb k bested ws1 else ws1 in let ws3 := on_op eqb k (scored q) ws2 in
  Forall (fair B) (if over then map (reweighted eta) ws3 else ws3).
Proof.
  intros A eqb B eta k q b over ws He Hb Hq F ws1 ws2 ws3.
  assert (F3 : Forall (fair B) ws3).
  { unfold ws3, ws2, ws1, on_op. destruct b; rewrite ?map_map; apply Forall_forall; intros o Ho; apply in_map_iff in Ho; destruct Ho as (x & <- & Hx);
      pose proof (proj1 (Forall_forall _ _) F x Hx) as [W [S1 S2]]; destruct (eqb (o_name x) k) eqn:E; cbn [bested used o_name]; rewrite ?E; cbn [bested used o_name]; rewrite ?E;
      (split; [exact W|]); cbn [scored used bested o_score o_uses]; try (split; assumption); rewrite Qof_nat_S; split; lra. }
  destruct over; [|exact F3]. apply Forall_forall. intros o Ho. apply in_map_iff in Ho. destruct Ho as (x & <- & Hx). apply fair_reweighted; auto. exact (proj1 (Forall_forall _ _) F3 x Hx).
Qed.
Lemma fair_step : forall p t f d s s' x B, (0 <= t_eta t <= 1)%Q -> ((1 # 1000000) <= B)%Q -> (0 <= t_rbest t <= B)%Q -> (0 <= t_rimp t <= B)%Q -> (0 <= t_rworse t <= B)%Q ->
  auto_step p t f d s = Ok (s', x) -> Forall (fair B) (s_d s) -> Forall (fair B) (s_r s) -> Forall (fair B) (s_d s') /\ Forall (fair B) (s_r s').
Proof.
  intros p t f d s s' x B He Hb R1 R2 R3 H Fd Fr. unfold auto_step in H. cbv zeta in H. destruct (roulette (d_u1 d) (s_d s)) as [od|]; [|discriminate]. cbn [of_opt bind] in H. destruct (roulette (d_u2 d) (s_r s)) as [rr|]; [|discriminate]. cbn [of_opt bind] in H.
  destruct (destroy p od _ _ d) as [rm|]; [|discriminate]. cbn [bind] in H. destruct (erase (s_cur s) rm) as [pt|]; [|discriminate]. cbn [bind] in H. destruct (repair p rr (s_cur s) pt rm d) as [[xc ch]|]; [|discriminate]. cbn [bind fst snd] in H.
  injection H as <- <-. cbn [s_d s_r].
  assert (Rw : forall a b e, (0 <= reward t a b e <= B)%Q).
  { intros a b e. unfold reward. destruct a; [exact R1|]. destruct (b && qlt e 0)%bool; [exact R2|]. destruct (b && qlt 0 e)%bool; [exact R3|]. lra. }
  split; [exact (fair_round _ dop_eqb B _ od _ _ _ (s_d s) He Hb (Rw _ _ _) Fd)|exact (fair_round _ rop_eqb B _ rr _ _ _ (s_r s) He Hb (Rw _ _ _) Fr)].
Qed.
Theorem weights_lemma : forall p t f ds s s' xs B, (0 <= t_eta t <= 1)%Q -> ((1 # 1000000) <= B)%Q -> (0 <= t_rbest t <= B)%Q -> (0 <= t_rimp t <= B)%Q -> (0 <= t_rworse t <= B)%Q ->
  run_auto p t f ds s = Ok (s', xs) -> Forall (fair B) (s_d s) -> Forall (fair B) (s_r s) -> Forall (fair B) (s_d s') /\ Forall (fair B) (s_r s').
Proof.
  intros p t f ds. induction ds as [|d ds IH]; intros s s' xs B He Hb R1 R2 R3 H Fd Fr; cbn [run_auto] in H; [injection H as <- <-; auto|].
  destruct (auto_step p t f d s) as [[s1 x]|] eqn:E; [|discriminate]. cbn [bind fst snd] in H. destruct (run_auto p t f ds s1) as [[s2 ys]|] eqn:E2; [|discriminate]. cbn [bind fst snd] in H. injection H as <- <-.
  destruct (fair_step p t f d s s1 x B He Hb R1 R2 R3 E Fd Fr) as [F1 F2]. eapply IH; eauto.
Qed.
(** at the end of a segment the weight moves the fraction [eta] of the way to the average reward per use *)
Theorem reweight_lemma : forall A eta (o : opw A), ((1 # 1000000) * Qof_nat (Nat.max 1 (o_uses o)) <= o_score o)%Q ->
  (o_weight (reweighted eta o) == o_weight o + eta * (o_score o / Qof_nat (Nat.max 1 (o_uses o)) - o_weight o))%Q /\ o_score (reweighted eta o) = 0%Q /\ o_uses (reweighted eta o) = 0 /\
  o_name (reweighted eta o) = o_name o /\ o_best (reweighted eta o) = o_best o.
Proof.
  intros A eta o H. cbn [reweighted o_weight o_score o_uses o_name o_best]. split; [|auto].
  assert (P : (0 < Qof_nat (Nat.max 1 (o_uses o)))%Q) by (unfold Qof_nat; change 0%Q with (inject_Z 0); rewrite <- Zlt_Qlt; lia).
  assert (Q : ((1 # 1000000) <= o_score o / Qof_nat (Nat.max 1 (o_uses o)))%Q) by (apply Qle_shift_div_l; assumption).
  revert Q. generalize (o_score o / Qof_nat (Nat.max 1 (o_uses o)))%Q. intros a Q. unfold qmax. apply qle_iff in Q. rewrite Q. ring.
Qed.
Lemma fair0 : forall A B (ws : list (A * Q)), (0 <= B)%Q -> (forall o, In o ws -> ((1 # 1000000) <= snd o <= B)%Q) -> Forall (fair B) (weights0 ws).
Proof.
  intros A B ws Hb H. unfold weights0. apply Forall_forall. intros o Ho. apply in_map_iff in Ho. destruct Ho as (x & <- & Hx). split; [exact (H x Hx)|].
  cbn [o_score o_uses]. assert (Z : (Qof_nat 0 == 0)%Q) by reflexivity. rewrite Z. lra.
Qed.
Theorem weights_run : forall p t f dw rw x0 ds1 ds2 s xs B, (0 <= t_eta t <= 1)%Q -> ((1 # 1000000) <= B)%Q -> (0 <= t_rbest t <= B)%Q -> (0 <= t_rimp t <= B)%Q -> (0 <= t_rworse t <= B)%Q ->
  (forall o, In o dw -> ((1 # 1000000) <= snd o <= B)%Q) -> (forall o, In o rw -> ((1 # 1000000) <= snd o <= B)%Q) -> run p t f dw rw x0 ds1 ds2 = Ok (s, xs) ->
  (forall o, In o (s_d s) -> ((1 # 1000000) <= o_weight o <= B)%Q) /\ (forall o, In o (s_r s) -> ((1 # 1000000) <= o_weight o <= B)%Q).
Proof.
  intros p t f dw rw x0 ds1 ds2 s xs B He Hb R1 R2 R3 Wd Wr H. unfold run in H. destruct (existsb _ _); [discriminate|]. destruct (mapM (one_trial p x0) ds1) as [tr|]; [|discriminate]. cbn [bind] in H.
  match type of H with context[run_auto p t f ds2 ?s0] => destruct (run_auto p t f ds2 s0) as [[s1 cs]|] eqn:Er; [|discriminate] end. cbn [bind fst snd] in H. injection H as <- <-.
  assert (B0 : (0 <= B)%Q) by lra.
  destruct (weights_lemma p t f ds2 _ s1 cs B He Hb R1 R2 R3 Er) as [F1 F2]; [apply fair0; assumption|apply fair0; assumption|].
  split; intros o Ho; [apply (proj1 (Forall_forall _ _) F1 o Ho)|apply (proj1 (Forall_forall _ _) F2 o Ho)].
Qed.
(** default rate 0.2: used three times with rewards 5 and 0.5 and nothing *)
Lemma reweight_example : (Qeq_bool (o_weight (reweighted (2 # 10) (mkOpw tt 1 (55 # 10) 3 1))) (7 # 6) &&
  Qeq_bool (o_weight (reweighted (2 # 10) (mkOpw tt 1 0 0 0))) ((8 # 10) + (2 # 10) * (1 # 1000000)))%bool = true.
Proof. vm_compute. reflexivity. Qed.
