(** * Trials: a timestep moves at most one vehicle per lane onto a link.
    Used for the spacing of vehicles: whoever is followed by a vehicle that a transfer moves
    onto a link has itself been there since an earlier timestep. *)
From Coq Require Import Permutation.
From Verif Require Import Base Types Sim Build Heap Lists Inv FrameBase Tac Frame Eff Eff2 Trace InvStep Reach Steps Effects Phases Attr Life Incoming Vev Ride TripLog Route Green Choice.
Local Open Scope nat_scope.

(** ** Counting *)
Definition onto (out : lid) (e : ev) : bool := match e with VShift _ o _ _ => Nat.eqb o out | _ => false end.
Definition shifts (out : lid) (es : list ev) : nat := List.length (filter (onto out) es).
Lemma shifts_app : forall out a b, shifts out (a ++ b) = shifts out a + shifts out b.
Proof. intros. unfold shifts. rewrite filter_app, app_length. reflexivity. Qed.
Definition still (e : ev) : bool := match e with VShift _ _ _ _ => false | _ => true end.
Lemma shifts_still : forall out es, Forall (fun e => still e = true) es -> shifts out es = 0.
Proof.
  intros out es H. induction H as [|e es H F IH]; [reflexivity|]. unfold shifts in *. cbn.
  destruct e; try discriminate H; exact IH.
Qed.

Lemma end_front_still : forall c n l w b w' p, end_front c l w = Ok (b, w') ->
  exists es, Forall (fun e => k_tr n e = true /\ still e = true) es /\ trace c es w p w' p.
Proof.
  intros c n l w b w' p H. unfold end_front in H.
  destruct (l_vehs (L w l)) as [|u rest] eqn:E.
  - injection H as <- <-. exists []. split; constructor.
  - destruct (v_flag (V w u)) eqn:Ef.
    + apply bind_ok in H. destruct H as (w1 & E1 & H). injection H as <- <-.
      exists [VEnd u l]. split; [constructor; [split; reflexivity|constructor]|]. apply trace_one. econstructor; eauto.
    + injection H as <- <-. exists []. split; constructor.
Qed.

Lemma trial_shifts : forall c n o w w', n < w_nn w -> transfer_trial c n o w = Ok w' ->
  exists es, Forall (fun e => k_tr n e = true) es /\ trace c es w None w' None /\
    forall out, shifts out es <= (if Nat.eqb o out then 1 else 0).
Proof.
  intros c n out w w' Hn H. unfold transfer_trial in H.
  assert (Nil : exists es, Forall (fun e => k_tr n e = true) es /\ trace c es w None w None /\
    forall o, shifts o es <= (if Nat.eqb out o then 1 else 0)).
  { exists []. split; [constructor|]. split; [constructor|]. intro o. cbn. lia. }
  destruct (has_space c w (L w out) && qle (dN c) (l_cinr (L w out)) && qle (dN c) (n_fcapr (N w n))) eqn:Eg;
    [|injection H as <-; exact Nil].
  apply andb_true_iff in Eg. destruct Eg as [Eg Eg3]. apply andb_true_iff in Eg. destruct Eg as [Eg1 Eg2].
  apply bind_ok in H. destruct H as (vs & E1 & H).
  destruct vs as [|v0 vs]; [injection H as <-; exact Nil|]. clear Nil.
  apply bind_ok in H. destruct H as ([v w1] & E2 & H).
  apply merge_choice_w in E2. destruct E2 as [Ew Hv].
  destruct (filterM_In _ _ _ E1 Hv) as [Hi Hc].
  assert (R1 : exists es, Forall (fun e => k_tr n e = true /\ still e = true) es /\ trace c es w None w1 None).
  { destruct Ew as [-> | ->]; [exists []; split; constructor|]. exists [VDraw]. split; [repeat constructor|].
    apply trace_one. constructor. }
  destruct R1 as (es0 & F0 & T0).
  unfold transfer_move in H.
  apply bind_ok in H. destruct H as ([from w2] & E3 & H).
  apply bind_ok in H. destruct H as ([b w3] & E4 & H). injection H as <-.
  destruct (end_front_still c n from w2 b w3 (Some (v, out)) E4) as (es & F & T).
  exists (es0 ++ VShift n out v from :: es ++ [VAppend n out v]).
  assert (S0 : Forall (fun e => still e = true) es0) by (eapply Forall_impl; [|exact F0]; cbn; tauto).
  assert (S1 : Forall (fun e => still e = true) (es ++ [VAppend n out v])).
  { apply Forall_app. split; [eapply Forall_impl; [|exact F]; cbn; tauto|repeat constructor]. }
  split; [|split].
  - apply Forall_app. split; [eapply Forall_impl; [|exact F0]; cbn; tauto|].
    constructor; [apply Nat.eqb_refl|]. apply Forall_app. split; [eapply Forall_impl; [|exact F]; cbn; tauto|].
    constructor; [apply Nat.eqb_refl|constructor].
  - eapply trace_app; [exact T0|]. econstructor.
    + eapply m_shift; [| | | | | |exact E3].
      all: destruct Ew as [-> | ->]; assumption.
    + eapply trace_app; [exact T|]. apply trace_one. constructor.
      rewrite (end_front_N _ _ _ E4), (transfer_shift_incoming _ _ _ _ _ E3).
      destruct Ew as [-> | ->]; exact Hi.
  - intro o. rewrite shifts_app, (shifts_still o es0 S0). pose proof (shifts_still o _ S1) as Z.
    unfold shifts in *. cbn [filter onto]. destruct (Nat.eqb out o); cbn [List.length]; lia.
Qed.

Lemma trials_shifts : forall c n os w w', n < w_nn w -> foldM (transfer_trial c n) os w = Ok w' ->
  exists es, Forall (fun e => k_tr n e = true) es /\ trace c es w None w' None /\
    forall out, shifts out es <= count_occ Nat.eq_dec os out.
Proof.
  intros c n os; induction os as [|o os IH]; intros w w' Hn H; cbn [foldM] in H.
  - injection H as <-. exists []. split; [constructor|]. split; [constructor|]. intro; cbn; lia.
  - apply bind_ok in H. destruct H as (w1 & E & H). destruct (trial_shifts c n o w w1 Hn E) as (e1 & F1 & T1 & C1).
    destruct (IH w1 w') as (e2 & F2 & T2 & C2); auto. { rewrite (fr_w_nn (trace_fr T1)). exact Hn. }
    exists (e1 ++ e2). split; [apply Forall_app; auto|]. split; [eapply trace_app; eauto|].
    intro out. rewrite shifts_app. specialize (C1 out). specialize (C2 out). cbn [count_occ].
    destruct (Nat.eq_dec o out) as [-> |Hne]; [rewrite Nat.eqb_refl in C1; lia|].
    apply Nat.eqb_neq in Hne. rewrite Hne in C1. lia.
Qed.

Lemma still_run : forall c n K w w', (forall e, K e = true -> k_tr n e = true /\ still e = true) -> run c K w w' ->
  exists es, Forall (fun e => k_tr n e = true) es /\ trace c es w None w' None /\ forall out, shifts out es = 0.
Proof.
  intros c n K w w' HK (es & F & T). exists es. split; [eapply Forall_impl; [|exact F]; intros e He; apply HK; exact He|].
  split; [exact T|]. intro out. apply shifts_still. eapply Forall_impl; [|exact F]. intros e He; apply HK; exact He.
Qed.

Definition k_end (e : ev) : bool := match e with VDraw | VEnd _ _ | VClear _ => true | _ => false end.

Lemma end_fronts_still : forall c n l k w w', end_fronts c l k w = Ok w' ->
  run c (fun e => k_tr n e && still e)%bool w w'.
Proof.
  intros c n l k; induction k; intros w w' H; cbn in H.
  - injection H as <-. apply run_refl.
  - apply bind_ok in H. destruct H as ([b w1] & E & H). eapply run_trans.
    + destruct (end_front_still c n l w b w1 None E) as (es & F & T). exists es. split; [|exact T].
      eapply Forall_impl; [|exact F]. cbn. intros e [-> ->]. reflexivity.
    + destruct b; [eauto|]. injection H as <-. apply run_refl.
Qed.

Lemma nodup_keep_spec : forall l seen, NoDup (nodup_keep seen l) /\ forall x, In x (nodup_keep seen l) -> ~ In x seen.
Proof.
  induction l as [|x l IH]; intros seen; cbn; [split; [constructor|intros ? []]|].
  destruct (mem x seen) eqn:E.
  - apply IH.
  - destruct (IH (x :: seen)) as [A B]. split.
    + constructor; [|exact A]. intro K. apply (B x K). left; reflexivity.
    + intros y [<-|K] Hy; [apply mem_iff in Hy; congruence|]. apply (B y K). right; exact Hy.
Qed.
Lemma count_repeat : forall k x y, count_occ Nat.eq_dec (repeat x k) y = if Nat.eqb x y then k else 0.
Proof.
  induction k as [|k IH]; intros x y; cbn; [destruct (Nat.eqb x y); reflexivity|].
  rewrite IH. destruct (Nat.eq_dec x y) as [-> |H]; [rewrite Nat.eqb_refl; reflexivity|].
  apply Nat.eqb_neq in H. rewrite H. reflexivity.
Qed.
Lemma count_lanes : forall (f : nat -> nat) l out, NoDup l ->
  count_occ Nat.eq_dec (flat_map (fun x => repeat x (f x)) l) out = if mem out l then f out else 0.
Proof.
  intros f l; induction l as [|x l IH]; intros out Nd; [reflexivity|]. inversion Nd; subst.
  cbn [flat_map]. rewrite count_occ_app, IH by auto. rewrite count_repeat.
  destruct (Nat.eqb x out) eqn:E.
  - apply Nat.eqb_eq in E. subst. assert (M : mem out l = false).
    { destruct (mem out l) eqn:M; [apply mem_iff in M; contradiction|reflexivity]. }
    rewrite M. assert (M2 : mem out (out :: l) = true) by (apply mem_iff; left; auto). rewrite M2. lia.
  - assert (M2 : mem out (x :: l) = mem out l).
    { destruct (mem out l) eqn:M; [apply mem_iff; right; apply mem_iff; exact M|].
      destruct (mem out (x :: l)) eqn:M2; [|reflexivity]. apply mem_iff in M2. apply Nat.eqb_neq in E.
      destruct M2 as [M2|M2]; [congruence|]. apply mem_iff in M2. congruence. }
    rewrite M2. reflexivity.
Qed.

Lemma transfer_shifts : forall c n w w', n < w_nn w -> transfer c n w = Ok w' ->
  exists es, Forall (fun e => k_tr n e = true) es /\ trace c es w None w' None /\
    forall out, shifts out es <= l_lanes (L w out).
Proof.
  intros c n w w' Hn H. unfold transfer in H.
  apply bind_ok in H. destruct H as (cands & Ec & H). cbn zeta in H.
  destruct (if c_det c then _ else _) as [outs w1] eqn:Ew.
  apply bind_ok in H. destruct H as (w2 & E2 & H).
  apply bind_ok in H. destruct H as (w3 & E3 & H). injection H as <-.
  assert (Nd : NoDup cands).
  { unfold out_candidates in Ec. apply bind_ok in Ec. destruct Ec as (nx & _ & Ec). injection Ec as <-. apply nodup_keep_spec. }
  assert (Co : forall out, count_occ Nat.eq_dec outs out <= l_lanes (L w out)).
  { intro out. assert (K : count_occ Nat.eq_dec (flat_map (fun l => repeat l (l_lanes (L w l))) cands) out <= l_lanes (L w out)).
    { rewrite (count_lanes (fun l => l_lanes (L w l))) by exact Nd. destruct (mem out cands); lia. }
    destruct (c_det c); injection Ew as <- <-; [exact K|].
    rewrite <- (proj1 (Permutation_count_occ Nat.eq_dec _ _) (shuffle_perm _ _ _ _)). exact K. }
  assert (R1 : exists es, Forall (fun e => k_tr n e = true) es /\ trace c es w None w1 None /\ forall out, shifts out es = 0).
  { destruct (c_det c); injection Ew as <- <-.
    - exists []. split; [constructor|]. split; [constructor|reflexivity].
    - exists [VDraw]. split; [repeat constructor|]. split; [apply trace_one; constructor|reflexivity]. }
  destruct R1 as (e1 & F1 & T1 & C1).
  assert (H1 : n < w_nn w1) by (rewrite (fr_w_nn (trace_fr T1)); exact Hn).
  destruct (trials_shifts c n outs w1 w2 H1 E2) as (e2 & F2 & T2 & C2).
  assert (R3 : run c (fun e => k_tr n e && still e)%bool w2 w3).
  { eapply foldM_run with (P := fun _ w => True); [| intros; exact Logic.I | intros; exact Logic.I |exact E3].
    intros l0 a a0 _ _ F. exact (end_fronts_still _ _ _ _ _ _ F). }
  destruct (still_run c n _ w2 w3 ltac:(intros e K; apply andb_true_iff in K; exact K) R3) as (e3 & F3 & T3 & C3).
  exists (e1 ++ e2 ++ e3 ++ [VClear n]). split; [|split].
  - apply Forall_app; split; [exact F1|]. apply Forall_app; split; [exact F2|]. apply Forall_app; split; [exact F3|].
    constructor; [apply Nat.eqb_refl|constructor].
  - eapply trace_app; [exact T1|]. eapply trace_app; [exact T2|]. eapply trace_app; [exact T3|]. apply trace_one. constructor.
  - intro out. rewrite !shifts_app, C1, C3. specialize (C2 out). specialize (Co out). cbn. lia.
Qed.

(** ** Transfers to a link happen at its start only *)
Definition Singles (w : world) : Prop := forall v, v < w_nv w -> v_mode (V w v) = SingleTrip.

Lemma Singles_fr : forall w w', fr w w' -> Singles w -> Singles w'.
Proof. intros w w' F S v Hv. rewrite (fr_v_mode F). apply S. rewrite <- (fr_w_nv F). exact Hv. Qed.

Lemma shift_start : forall c n out v il w p w' p', Inv2 w p -> IncA w p -> Singles w ->
  mstep c (VShift n out v il) w p w' p' -> l_start (L w out) = n.
Proof.
  intros c n out v il w p w' p' I J S M. apply (mstep_eff c _ _ _ _ _ I) in M. cbn [eff] in M.
  destruct M as (-> & _ & cd & ca & rest & q & _ & Hin & Hnx & Ho & _ & _ & _ & _ & _ & _ & Hl & Hr & _).
  destruct (ia_in _ _ J n v Hin) as (Hv & [(l & _ & _ & K)|[(o & Z)|[Z|Z]]]); [|discriminate|congruence|congruence].
  destruct K as [(K & _)|[(o & K1 & K2)|K]]; [congruence| |rewrite (S v Hv) in K; discriminate].
  assert (o = out) by congruence. subst o. apply (t_out (proj1 (proj1 I))) in K1. apply K1.
Qed.

Lemma trace_start : forall c es w p w' p', trace c es w p w' p' -> Forall (fun e => k_first e = true) es ->
  Inv2 w p -> IncA w p -> Singles w -> forall n, Forall (fun e => match e with VShift m _ _ _ => m = n | _ => True end) es ->
  Inv2 w' p' /\ IncA w' p' /\ forall out, l_start (L w out) <> n -> shifts out es = 0.
Proof.
  intros c es w p w' p' T. induction T as [w p|e es w p w1 p1 w' p' M T IH]; intros F I J S n G; [split; [exact I|split; [exact J|reflexivity]]|].
  inversion F as [|? ? F1 F2]; subst. inversion G as [|? ? G1 G2]; subst.
  pose proof (mstep_Inv2 _ _ _ _ _ _ I M) as I1. pose proof (IncA_step _ _ _ _ _ _ F1 I J M) as J1.
  pose proof (mstep_fr M) as Fm.
  destruct (IH F2 I1 J1 (Singles_fr _ _ Fm S) n G2) as (I2 & J2 & K). split; [exact I2|]. split; [exact J2|].
  intros out Ho. unfold shifts in *. cbn [filter]. destruct (onto out e) eqn:E; [exfalso|].
  - destruct e; try discriminate E. cbn in E. apply Nat.eqb_eq in E. subst. apply Ho. eapply shift_start; eauto.
  - apply K. rewrite (fr_l_start Fm). exact Ho.
Qed.

Lemma nodes_shifts : forall c ns w w', NoDup ns -> (forall n, In n ns -> n < w_nn w) -> Inv2 w None -> IncA w None -> Singles w ->
  foldM (transfer c) ns w = Ok w' ->
  exists es, Forall (fun e => k_transfer e = true) es /\ trace c es w None w' None /\
    forall out, shifts out es <= if mem (l_start (L w out)) ns then l_lanes (L w out) else 0.
Proof.
  intros c ns; induction ns as [|n ns IH]; intros w w' Nd Hn I J S H; cbn [foldM] in H.
  - injection H as <-. exists []. split; [constructor|]. split; [constructor|]. intro; cbn; lia.
  - apply bind_ok in H. destruct H as (w1 & E & H). inversion Nd; subst.
    destruct (transfer_shifts c n w w1 (Hn n (or_introl eq_refl)) E) as (e1 & F1 & T1 & C1).
    pose proof (trace_fr T1) as Fr.
    destruct (trace_start c e1 w None w1 None T1) with (n := n) as (I1 & J1 & Z1); auto.
    { eapply Forall_impl; [|exact F1]. intros [] K; try discriminate K; reflexivity. }
    { eapply Forall_impl; [|exact F1]. intros [] K; try exact Logic.I. cbn in K. apply Nat.eqb_eq in K. exact K. }
    destruct (IH w1 w') as (e2 & F2 & T2 & C2); auto.
    { intros m Hm. rewrite (fr_w_nn Fr). apply Hn. right; exact Hm. }
    { eapply Singles_fr; eauto. }
    exists (e1 ++ e2). split; [|split].
    + apply Forall_app. split; [eapply Forall_impl; [|exact F1]; intros e K; exact (k_tr_transfer n e K)|exact F2].
    + eapply trace_app; eauto.
    + intro out. rewrite shifts_app. specialize (C1 out). specialize (C2 out). rewrite (fr_l_start Fr), (fr_l_lanes Fr) in C2.
      destruct (Nat.eq_dec (l_start (L w out)) n) as [En|En].
      * assert (M1 : mem (l_start (L w out)) (n :: ns) = true) by (apply mem_iff; left; auto).
        assert (M2 : mem (l_start (L w out)) ns = false).
        { destruct (mem (l_start (L w out)) ns) eqn:M2; [apply mem_iff in M2; rewrite En in M2; contradiction|reflexivity]. }
        rewrite M1. rewrite M2 in C2. lia.
      * rewrite (Z1 out En). assert (M : mem (l_start (L w out)) (n :: ns) = mem (l_start (L w out)) ns).
        { destruct (mem (l_start (L w out)) ns) eqn:M2; [apply mem_iff; right; apply mem_iff; exact M2|].
          destruct (mem (l_start (L w out)) (n :: ns)) eqn:M3; [|reflexivity]. apply mem_iff in M3.
          destruct M3 as [M3|M3]; [congruence|]. apply mem_iff in M3. congruence. }
        rewrite M. lia.
Qed.

Theorem phase_shifts : forall c w w', Inv2 w None -> IncA w None -> Singles w -> phase_transfer c w = Ok w' ->
  exists es, Forall (fun e => k_transfer e = true) es /\ trace c es w None w' None /\
    forall out, shifts out es <= l_lanes (L w out).
Proof.
  intros c w w' I J S H. unfold phase_transfer in H.
  destruct (nodes_shifts c (seq 0 (w_nn w)) w w') as (es & F & T & C); auto.
  { apply seq_NoDup. } { intros n Hn. apply in_seq in Hn. lia. }
  exists es. split; [exact F|]. split; [exact T|]. intro out. specialize (C out). destruct (mem _ _); lia.
Qed.
