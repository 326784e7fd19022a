(** * CppSafe: vehicles of the compiled engine stay on their links, move forwards and keep their distance.

    The properties of positions (C04), of the distance between vehicles (C05) and of the density of links (C06) for the timestep
    of the compiled engine (uxsim/trafficpp/traffi.cpp 1681-1860 as modelled in [Cpp]). *)
From Verif Require Import Base Types Sim Build Heap Lists Inv FrameBase Tac Frame Eff Eff2 Trace InvStep Reach Steps Effects Phases Attr Life Incoming Vev Ride TripLog Route Signal Green Choice Enforce Counts LinkQueries FD NodeCap Origin Bucket Outflow Trials Motion Spacing Spec Distance Totals State.
From Verif Require Import Cpp SpecCpp CppOK CppOK2 CppLoop CppInv.
Local Open Scope nat_scope.

(** ** The updates of the vehicles *)
Lemma vcalm_mo : forall a b, vcalm a = vcalm b -> vmo a = vmo b.
Proof. unfold vcalm, vmo. intros a b H. congruence. Qed.

(** what an update makes of the motion of a vehicle *)
Definition moves (c : cfg) (a b : vehicle) : Prop :=
  (v_state a <> Run /\ v_state b <> Run /\ v_remain b = v_remain a /\ v_xold b = v_xold a) \/
  (v_state a = Run /\ (vmo b = vmo (driven c a) \/ (v_state b <> Run /\ v_remain b = v_remain a))).
Lemma moves_mo : forall c a a' b b', vmo a = vmo a' -> vmo b = vmo b' -> moves c a b -> moves c a' b'.
Proof.
  intros c a a' b b' Ea Eb H. unfold moves in *. rewrite driven_mo in *. unfold vmo in *. destruct H as [(H1 & H2 & H3 & H4)|(H1 & [H2|(H2 & H3)])].
  - left. repeat split; congruence.
  - right. split; [congruence|]. left. congruence.
  - right. split; [congruence|]. right. split; congruence.
Qed.
Lemma updated_moves : forall c v w b, updated c v w b -> moves c (V w v) b.
Proof.
  intros c v w b U. destruct (updated_mo _ _ _ _ U) as [(H1 & H2 & H3 & H4 & _)|(H1 & l & _ & [H2|(H2 & H3 & _)])]; [left; auto|right; auto|right; auto].
Qed.

Lemma update_pass : forall c vs w w', Inv2 w None -> NoDup vs -> Forall (fun v => v < w_nv w /\ alive (v_state (V w v))) vs ->
  foldM (veh_update c) vs w = Ok w' ->
  Inv2 w' None /\ fr w w' /\ foldM (update_living c) vs w = Ok w' /\
  forall v, (In v vs -> moves c (V w v) (V w' v)) /\ (~ In v vs -> vcalm (V w' v) = vcalm (V w v)).
Proof.
  intros c vs. induction vs as [|v vs IH]; intros w w' I Nd H E; cbn [foldM] in E |- *.
  - injection E as <-. split; [exact I|]. split; [apply fr_refl|]. split; [reflexivity|]. intro v. split; [intros []|reflexivity].
  - apply bind_ok in E. destruct E as (w1 & E1 & E). inversion H as [|? ? Hv Hr]; subst. inversion Nd as [|? ? Nv Nd']; subst.
    assert (Lv : In v (w_living w)) by (apply (s_living (proj2 (proj1 I))); exact Hv).
    pose proof (veh_update_other c v w w1 I Lv E1) as Oth. pose proof (frs_fr (veh_update_frs _ _ _ E1)) as F.
    pose proof (updated_moves _ _ _ _ (veh_update_view c v w w1 I Lv E1)) as Mv.
    assert (E1' : update_living c v w = Ok w1) by (unfold update_living; apply mem_iff in Lv; rewrite Lv; exact E1).
    apply veh_update_run in E1; [|exact Lv]. pose proof (run_Inv2' _ _ _ _ I E1) as I1.
    destruct (IH w1 w' I1 Nd') as (I' & F' & E' & K); [|exact E|].
    { rewrite Forall_forall in Hr |- *. intros u Hu. destruct (Hr u Hu) as [A B]. rewrite (fr_w_nv F). split; [exact A|].
      assert (Ne : u <> v) by (intros ->; contradiction). destruct (vcalm_eq _ _ (Oth u Ne)) as (St & _). rewrite St. exact B. }
    split; [exact I'|]. split; [eapply fr_trans; eauto|]. split; [rewrite E1'; exact E'|]. intro u. split.
    + intros [<-|Hu].
      * eapply moves_mo; [reflexivity| |exact Mv]. apply vcalm_mo. symmetry. apply (proj2 (K v)). exact Nv.
      * assert (Ne : u <> v) by (intros ->; contradiction). eapply moves_mo; [|reflexivity|apply (proj1 (K u)); exact Hu]. apply vcalm_mo. apply Oth; exact Ne.
    + intro Hu. rewrite (proj2 (K u)) by (intro Z; apply Hu; right; exact Z). apply Oth. intros ->. apply Hu. left; reflexivity.
Qed.

Lemma queue_is : forall w l v, Inv2 w None -> In v (l_vehs (L w l)) <-> v < w_nv w /\ v_state (V w v) = Run /\ v_link (V w v) = Some l.
Proof.
  intros w l v [[T I] _]. rewrite <- Dq_none, (s_D I). split; [intros (A & B & D & _); auto|intros (A & B & D); repeat split; auto; discriminate].
Qed.

(** the vehicles on the links *)
Lemma run_pass : forall c ls w w', NoDup ls -> Inv2 w None ->
  foldM (fun l w => foldM (veh_update c) (l_vehs (L w l)) w) ls w = Ok w' ->
  IncOK (fun v => forall l, In l ls -> ~ In v (l_vehs (L w l))) w ->
  Inv2 w' None /\ fr w w' /\ IncOK (fun _ => True) w' /\
  forall v, v < w_nv w -> ((exists l, In l ls /\ v_state (V w v) = Run /\ v_link (V w v) = Some l) -> moves c (V w v) (V w' v)) /\
    (~ (exists l, In l ls /\ v_state (V w v) = Run /\ v_link (V w v) = Some l) -> vcalm (V w' v) = vcalm (V w v)).
Proof.
  intros c ls. induction ls as [|l ls IH]; intros w w' Nd I H J; cbn [foldM] in H.
  - injection H as <-. split; [exact I|]. split; [apply fr_refl|]. split; [destruct J as [J1 J2 J3 J4]; constructor; auto; intros n v Hv; destruct (J3 n v Hv) as (A & _ & B); auto|].
    intros v Hv. split; [intros (l & [] & _)|reflexivity].
  - apply bind_ok in H. destruct H as (w1 & E1 & H). inversion Nd as [|? ? Nl Nd']; subst.
    assert (NdQ : NoDup (l_vehs (L w l))) by (pose proof (s_D_nd (proj2 (proj1 I)) l) as Z; rewrite Dq_none in Z; exact Z).
    destruct (update_pass c (l_vehs (L w l)) w w1) as (I1 & F1 & U1 & K1); auto.
    { apply Forall_forall. intros v Hv. apply queue_is in Hv; [|exact I]. destruct Hv as (A & B & _). split; [exact A|]. rewrite B. right; right; reflexivity. }
    assert (On1 : forall v, In v (l_vehs (L w l)) -> v_state (V w1 v) = Run -> v_link (V w1 v) = Some l).
    { intros v Hv Hr. pose proof (proj1 (K1 v) Hv) as M. apply queue_is in Hv; [|exact I]. destruct Hv as (_ & B & D).
      destruct M as [(M & _)|(_ & [M|(M & _)])]; try congruence. rewrite driven_mo in M. unfold vmo in M. congruence. }
    assert (J1 : IncOK (fun v => forall k, In k ls -> ~ In v (l_vehs (L w1 k))) w1).
    { destruct (update_loop_inc c (l_vehs (L w l)) w w1 (fun v => forall k, In k (l :: ls) -> ~ In v (l_vehs (L w k)))) as [_ J']; auto.
      - intros v Hv Z. apply (Z l); [left; reflexivity|exact Hv].
      - intros v Hv. apply queue_is in Hv; [|exact I]. apply Hv.
      - destruct J' as [A1 A2 A3 A4]. constructor; auto. intros n v Hv. destruct (A3 n v Hv) as (B1 & B2 & B3). split; [exact B1|]. split; [|exact B3].
        intros k Hk Hq. apply queue_is in Hq; [|exact I1]. destruct Hq as (C1 & C2 & C3). rewrite (fr_w_nv F1) in C1.
        destruct (in_dec Nat.eq_dec v (l_vehs (L w l))) as [Hi|Hi].
        + rewrite (On1 v Hi C2) in C3. injection C3 as <-. contradiction.
        + destruct B2 as [B2|B2]; [|contradiction]. apply (B2 k); [right; exact Hk|]. apply queue_is; [exact I|].
          pose proof (vcalm_mo _ _ (proj2 (K1 v) Hi)) as Z. unfold vmo in Z. repeat split; [exact C1|congruence|congruence]. }
    destruct (IH w1 w' Nd' I1 H J1) as (I' & F' & J' & K'). split; [exact I'|]. split; [eapply fr_trans; eauto|]. split; [exact J'|].
    intros v Hv. assert (Hv1 : v < w_nv w1) by (rewrite (fr_w_nv F1); exact Hv). destruct (K' v Hv1) as [K1' K2']. split.
    + intros (k & Hk & Hs & Hl). destruct (in_dec Nat.eq_dec v (l_vehs (L w l))) as [Hi|Hi].
      * eapply moves_mo; [reflexivity| |exact (proj1 (K1 v) Hi)]. apply vcalm_mo. symmetry. apply K2'. intros (k' & Z1 & Z2 & Z3).
        rewrite (On1 v Hi Z2) in Z3. injection Z3 as <-. contradiction.
      * pose proof (vcalm_mo _ _ (proj2 (K1 v) Hi)) as Z. eapply moves_mo; [exact Z|reflexivity|]. apply K1'. exists k. unfold vmo in Z.
        destruct Hk as [<-|Hk]; [exfalso; apply Hi; apply queue_is; auto|]. repeat split; [exact Hk|congruence|congruence].
    + intros Hn. assert (Hi : ~ In v (l_vehs (L w l))).
      { intro Hi. apply queue_is in Hi; [|exact I]. apply Hn. exists l. split; [left; reflexivity|]. split; apply Hi. }
      pose proof (proj2 (K1 v) Hi) as Z. rewrite <- Z. apply K2'. intros (k & Z1 & Z2 & Z3). apply vcalm_mo in Z. unfold vmo in Z. apply Hn. exists k. split; [right; exact Z1|]. split; congruence.
Qed.

(** the others *)
Definition rests (a b : vehicle) : Prop :=
  (v_state a = Run -> vmo b = vmo a) /\ (v_state a <> Run -> v_state b <> Run /\ v_remain b = v_remain a /\ v_xold b = v_xold a).
Lemma rests_refl : forall a b, vmo b = vmo a -> rests a b.
Proof. intros a b H. unfold rests, vmo in *. split; intros; repeat split; congruence. Qed.
Lemma rests_trans : forall a b d, rests a b -> rests b d -> rests a d.
Proof.
  intros a b d [H1 H2] [K1 K2]. split.
  - intro Hr. rewrite <- (H1 Hr). apply K1. specialize (H1 Hr). unfold vmo in H1. congruence.
  - intro Hr. destruct (H2 Hr) as (A & B & C). destruct (K2 A) as (A' & B' & C'). repeat split; congruence.
Qed.
Lemma rest_pass : forall c vs w w', NoDup vs -> Inv2 w None -> Forall (fun v => v < w_nv w /\ (v_state (V w v) = Home \/ v_state (V w v) = Wait)) vs ->
  foldM (veh_update c) vs w = Ok w' -> IncOK (fun _ => True) w ->
  Inv2 w' None /\ fr w w' /\ IncOK (fun _ => True) w' /\ forall v, rests (V w v) (V w' v).
Proof.
  intros c vs w w' Nd I Hs H J. rewrite Forall_forall in Hs.
  destruct (update_pass c vs w w') as (I1 & F1 & U1 & K1); auto.
  { apply Forall_forall. intros v Hv. destruct (Hs v Hv) as [A [B|B]]; (split; [exact A|]; rewrite B); [left; reflexivity|right; left; reflexivity]. }
  split; [exact I1|]. split; [exact F1|]. split.
  - destruct (update_loop_inc c vs w w' (fun v => v_state (V w v) = Run)) as [_ J']; auto.
    + intros v Hv Z. destruct (Hs v Hv) as [_ [B|B]]; congruence.
    + intros v Hv. apply Hs; exact Hv.
    + destruct J as [A1 A2 A3 A4]. constructor; auto. intros n v Hv. destruct (A3 n v Hv) as (B1 & _ & B3). split; [exact B1|]. split; [|exact B3].
      destruct B3 as (l & (B & _) & _). exact B.
    + destruct J' as [A1 A2 A3 A4]. constructor; auto. intros n v Hv. destruct (A3 n v Hv) as (B1 & _ & B3). auto.
  - intro v. destruct (in_dec Nat.eq_dec v vs) as [Hi|Hi].
    + destruct (proj1 (K1 v) Hi) as [(A1 & A2 & A3 & A4)|(A1 & _)].
      * split; [contradiction|]. auto.
      * exfalso. destruct (Hs v Hi) as [_ [B|B]]; congruence.
    + apply rests_refl. apply vcalm_mo. apply K1. exact Hi.
Qed.
Lemma wait_pass : forall c ns w w', Inv2 w None -> foldM (fun n w => foldM (veh_update c) (n_queue (N w n)) w) ns w = Ok w' -> IncOK (fun _ => True) w ->
  Inv2 w' None /\ fr w w' /\ IncOK (fun _ => True) w' /\ forall v, rests (V w v) (V w' v).
Proof.
  intros c ns. induction ns as [|n ns IH]; intros w w' I H J; cbn [foldM] in H.
  - injection H as <-. split; [exact I|]. split; [apply fr_refl|]. split; [exact J|]. intro v. apply rests_refl. reflexivity.
  - apply bind_ok in H. destruct H as (w1 & E1 & H).
    destruct (rest_pass c (n_queue (N w n)) w w1) as (I1 & F1 & J1 & K1); auto.
    { apply (s_queue_nd (proj2 (proj1 I))). }
    { apply Forall_forall. intros v Hv. apply (s_queue (proj2 (proj1 I))) in Hv. destruct Hv as (A & B & _). auto. }
    destruct (IH w1 w' I1 H J1) as (I' & F' & J' & K'). split; [exact I'|]. split; [eapply fr_trans; eauto|]. split; [exact J'|].
    intro v. eapply rests_trans; eauto.
Qed.

Lemma vehicles_pass : forall c w w', Inv2 w None -> (forall n, n_incoming (N w n) = []) -> cpp_phase_vehicles c w = Ok w' ->
  Inv2 w' None /\ fr w w' /\ IncOK (fun _ => True) w' /\ forall v, v < w_nv w -> moves c (V w v) (V w' v).
Proof.
  intros c w w' I Hn H. unfold cpp_phase_vehicles in H. apply bind_ok in H. destruct H as (w1 & H1 & H). apply bind_ok in H. destruct H as (w2 & H2 & H).
  destruct (run_pass c (seq 0 (w_nl w)) w w1 (seq_NoDup _ _) I H1) as (I1 & F1 & J1 & K1).
  { constructor; try (intros n v Hv; rewrite Hn in Hv; destruct Hv); intro n; rewrite Hn; auto. constructor. }
  destruct (wait_pass c _ w1 w2 I1 H2 J1) as (I2 & F2 & J2 & K2).
  edestruct rest_pass as (I3 & F3 & J3 & K3); [|exact I2| |exact H|exact J2|]; [apply NoDup_filter; apply (s_living_nd (proj2 (proj1 I2)))| |].
  { apply Forall_forall. intros v Hv. apply filter_In in Hv. destruct Hv as [Hv Hs]. apply (s_living (proj2 (proj1 I2))) in Hv. destruct Hv as [Hv _]. split; [exact Hv|].
    left. destruct (v_state (V w2 v)); congruence. }
  split; [exact I3|]. split; [eapply fr_trans; [exact F1|eapply fr_trans; eauto]|]. split; [exact J3|].
  intros v Hv. pose proof (rests_trans _ _ _ (K2 v) (K3 v)) as [R1 R2]. destruct (K1 v Hv) as [A B].
  destruct (vstate_dec (v_state (V w v)) Run) as [Hr|Hr].
  - assert (Ex : exists l, In l (seq 0 (w_nl w)) /\ v_state (V w v) = Run /\ v_link (V w v) = Some l).
    { destruct (s_link (proj2 (proj1 I)) Hv ltac:(discriminate)) as [Z _]. destruct (Z Hr) as (l & Z1 & Z2). exists l. split; [apply in_seq; lia|]. auto. }
    destruct (A Ex) as [(M & _)|(M0 & M)]; [contradiction|]. right. split; [exact Hr|]. destruct (vstate_dec (v_state (V w1 v)) Run) as [Hr1|Hr1].
    + specialize (R1 Hr1). destruct M as [M|(M & _)]; [left; congruence|contradiction].
    + right. destruct (R2 Hr1) as (Z1 & Z2 & _). split; [exact Z1|]. rewrite Z2. destruct M as [M|(_ & M)]; [|exact M]. rewrite driven_mo in M. unfold vmo in M. congruence.
  - assert (Ex : ~ exists l, In l (seq 0 (w_nl w)) /\ v_state (V w v) = Run /\ v_link (V w v) = Some l) by (intros (l & _ & Z & _); contradiction).
    pose proof (vcalm_mo _ _ (B Ex)) as Z. unfold vmo in Z. assert (Hr1 : v_state (V w1 v) <> Run) by congruence. destruct (R2 Hr1) as (Z1 & Z2 & Z3).
    left. repeat split; congruence.
Qed.

(** ** The links and the nodes *)
Definition early (w : world) (v : vid) : Prop := v_state (V w v) = Home \/ v_state (V w v) = Wait -> v_xold (V w v) = 0%Q.
Definition Pose (w : world) : Prop := forall v, v < w_nv w -> Pos w v /\ early w v.
Lemma first_step : forall c e w p w' p', k_first e = true -> Inv2 w p -> Geo w -> mstep c e w p w' p' -> Pose w -> Pose w'.
Proof.
  intros c e w p w' p' Ke I G M P v Hv. pose proof (mstep_fr M) as F. rewrite (fr_w_nv F) in Hv. destruct (P v Hv) as [[P1 P2] P3].
  destruct (mstep_vev c e w p w' p' I M v) as [E|n out q E2 E3 E4 E5 E6 E7 E8 E9|n out il q ld ln E2 E3 E4 E5 E6 E7 E8 E9 E10 E11 E12|l tl lg E2 E3 E4 E5 E6 E7 E8 E9|l E2 E3 E4|E2 E3 E4|E2 E3 E4 E5 E6|E2 E3 E4 E5|l E2 E3 E4 E5|l E2 E3 E4 E5 E6 E7|l nx E2 E3 E4 E5 E6];
    try (subst e; discriminate Ke).
  - apply vride_mo in E. unfold vmo in E. assert (A1 : v_remain (V w' v) = v_remain (V w v)) by congruence. assert (A2 : v_x (V w' v) = v_x (V w v)) by congruence.
    assert (A3 : v_state (V w' v) = v_state (V w v)) by congruence. assert (A4 : v_xold (V w' v) = v_xold (V w v)) by congruence. assert (A5 : v_link (V w' v) = v_link (V w v)) by congruence.
    split; [split|].
    + rewrite A1. exact P1.
    + rewrite A2, A3, A5. intros Hr l Hl. rewrite (fr_l_len F). apply P2; assumption.
    + unfold early. rewrite A3, A4. exact P3.
  - unfold Pos, early. rewrite E9. split; [split|].
    + exact P1.
    + intros _ l Hl. cbn in Hl. injection Hl as <-. cbn. rewrite (fr_l_len F). split; [lra|]. apply G. exact E7.
    + intros [K|K]; discriminate K.
  - assert (A1 : v_state (V w' v) = Run) by (rewrite E12, moved_state; exact E9). assert (A2 : v_x (V w' v) = t_x c w out ld q) by (rewrite E12; reflexivity).
    assert (A3 : v_remain (V w' v) = 0%Q) by (rewrite E12; reflexivity). assert (A4 : v_link (V w' v) = Some out) by (rewrite E12; reflexivity).
    split; [split|].
    + rewrite A3. lra.
    + rewrite A2, A4. intros _ l Hl. injection Hl as <-. rewrite (fr_l_len F). apply qdiv_ok in E11. destruct E11 as [Z1 Z2].
      destruct (G out E6) as [G1 G2]. destruct (G il E7) as [G3 G4].
      assert (Hq : (0 <= q)%Q).
      { rewrite Z2. apply Qle_shift_div_l.
        - apply Qle_lteq in G4. destruct G4 as [G4|G4]; [exact G4|]. symmetry in G4. contradiction.
        - rewrite Qmult_0_l. apply Qmult_le_0_compat; assumption. }
      destruct (t_x_bounds c w out ld q Hq G1) as (T1 & T2 & _). auto.
    + unfold early. rewrite A1. intros [K|K]; discriminate K.
  - pose proof (proj1 (ended_remain _ _ _ _ _ _ E9)) as A1. apply ended_fields in E9. destruct E9 as (_ & _ & _ & _ & _ & _ & _ & _ & _ & _ & _ & _ & _ & H & _).
    unfold Pos, early. rewrite A1, H. split; [split; [exact P1|]|]; destruct (v_aborted (V w v)); try discriminate; intros [K|K]; discriminate K.
Qed.

(** the state of the first phases; [k l] vehicles have been moved onto [l] *)
Record First (c : cfg) (k : lid -> nat) (w : world) (p : pend) : Prop := mkFirst {
  f_inv : Inv2 w p;
  f_inc : IncA w p;
  f_geo : Geo w;
  f_pose : Pose w;
  f_sp : Sp c k w p;
  f_singles : Singles w }.

Lemma first_mstep : forall c k e w p w' p', k_first e = true -> Trials.still e = true -> (forall l, k l = 0) -> mstep c e w p w' p' -> First c k w p -> First c k w' p'.
Proof.
  intros c k e w p w' p' Ke Hs Hk M [A B C D E F]. pose proof (mstep_fr M) as Fr. constructor.
  - eapply mstep_Inv2; eauto.
  - eapply IncA_step; eauto.
  - eapply Geo_fr; eauto.
  - eapply first_step; eauto.
  - eapply sp_step; eauto.
  - eapply Singles_fr; eauto.
Qed.

(** steps that only touch the records of links and nodes *)
Lemma first_keep : forall c k w w', Inv2 w' None -> fr w w' -> (forall v, V w' v = V w v) -> (forall l, l_vehs (L w' l) = l_vehs (L w l)) ->
  (forall n v, In v (n_incoming (N w' n)) <-> In v (n_incoming (N w n))) -> (forall n, NoDup (n_incoming (N w' n))) -> First c k w None -> First c k w' None.
Proof.
  intros c k w w' I' Fr EV EL EN ND [A B C D E F]. constructor; [exact I'| |eapply Geo_fr; eauto| | |eapply Singles_fr; eauto].
  - destruct B as [B1 B2 B3 B4 B5]. constructor.
    + intros n Hn. rewrite (fr_w_nn Fr) in Hn. specialize (B1 n Hn). destruct (n_incoming (N w' n)) as [|x q] eqn:Eq; [reflexivity|].
      exfalso. assert (Z : In x (n_incoming (N w' n))) by (rewrite Eq; left; reflexivity). apply EN in Z. rewrite B1 in Z. destruct Z.
    + exact ND.
    + intros n n' v. rewrite !EN. apply B3.
    + intros n v. rewrite EN, (fr_w_nv Fr), EV. intro H. destruct (B4 n v H) as [H1 [H2|H2]]; (split; [exact H1|]); [left|right; exact H2].
      eapply stands_keep; [exact Fr| | | | |exact H2]; rewrite EV; reflexivity.
    + intros n v. rewrite EN, EV. apply B5.
  - intros v Hv. rewrite (fr_w_nv Fr) in Hv. destruct (D v Hv) as [[D1 D2] D3]. unfold Pos, early. rewrite EV. split; [split; [exact D1|]|exact D3].
    intros Hr l Hl. rewrite (fr_l_len Fr). auto.
  - destruct E as [E1 E2 E3]. constructor.
    + intros l Hl. rewrite (fr_w_nl Fr) in Hl. rewrite Dq_none, EL, (fr_l_lanes Fr). unfold jam_gap. rewrite (fr_l_dpl Fr). rewrite <- Dq_none.
      apply spaced_ext with (f := xs w); [intros z _; unfold xs; rewrite EV; reflexivity|]. apply E1. exact Hl.
    + intros l i u Hl. rewrite (fr_w_nl Fr) in Hl. rewrite Dq_none, EL, EV, <- Dq_none. apply E2. exact Hl.
    + intros v Hv. rewrite (fr_w_nv Fr) in Hv. rewrite EV. apply E3. exact Hv.
Qed.

Lemma insert_in : forall v l x, In x (insert_id v l) <-> x = v \/ In x l.
Proof.
  intros v l x. induction l as [|u l IH]; cbn; [intuition congruence|]. destruct (v <=? u); cbn; [intuition congruence|]. rewrite IH. intuition congruence.
Qed.
Lemma sort_in : forall l x, In x (sort_ids l) <-> In x l.
Proof. intros l x. unfold sort_ids. induction l as [|u l IH]; cbn; [tauto|]. rewrite insert_in, IH. intuition congruence. Qed.
Lemma sort_nodup : forall l, NoDup l -> NoDup (sort_ids l).
Proof.
  intros l Nd. induction Nd as [|u l Hu Nd IH]; [constructor|]. change (sort_ids (u :: l)) with (insert_id u (sort_ids l)).
  assert (Hu' : ~ In u (sort_ids l)) by (rewrite sort_in; exact Hu). clear Hu Nd. revert Hu' IH. generalize (sort_ids l). intros q. induction q as [|x q IHq]; intros Hu IH; cbn.
  - constructor; [intros []|constructor].
  - inversion IH as [|? ? X1 X2]; subst. destruct (u <=? x); [constructor; assumption|]. constructor.
    + rewrite insert_in. intros [Z|Z]; [apply Hu; left; exact Z|contradiction].
    + apply IHq; [intro Z; apply Hu; right; exact Z|exact X2].
Qed.

Lemma first_cpart : forall c k b w w', b = PhLinks \/ b = PhNodes -> cpart c b w w' -> First c k w None -> First c k w' None.
Proof.
  intros c k b w w' Hb H Fi. pose proof (cpart_Inv2 _ _ _ _ (f_inv _ _ _ _ Fi) H) as I'. destruct (cpart_ceq _ _ _ _ H) as (Fr & Ce & _).
  assert (ND : forall n, NoDup (n_incoming (N w n))) by apply (ia_nodup _ _ (f_inc _ _ _ _ Fi)).
  apply (first_keep c k w w'); auto; [|exact (ce_vehs Ce)| |]; destruct H as [l w w' A H|n nd w A H|n w A|v w w' H]; try (destruct Hb; discriminate).
  - unfold cpp_link_update in H. injection H as <-. reflexivity.
  - reflexivity.
  - reflexivity.
  - unfold cpp_link_update in H. injection H as <-. reflexivity.
  - intros m v. rewrite N_at. destruct (Nat.eqb m n) eqn:E; [|tauto]. apply Nat.eqb_eq in E; subst m. rewrite (proj2 (proj2 (cpp_fcap_stat c nd))), (proj2 (proj2 (cpp_signal_stat _ _ _ H))). tauto.
  - intros m v. rewrite N_at. destruct (Nat.eqb m n) eqn:E; [|tauto]. apply Nat.eqb_eq in E; subst m. cbn. apply sort_in.
  - unfold cpp_link_update in H. injection H as <-. exact ND.
  - intros m. rewrite N_at. destruct (Nat.eqb m n) eqn:E; [|apply ND]. apply Nat.eqb_eq in E; subst m. rewrite (proj2 (proj2 (cpp_fcap_stat c nd))), (proj2 (proj2 (cpp_signal_stat _ _ _ H))). apply ND.
  - intros m. rewrite N_at. destruct (Nat.eqb m n) eqn:E; [|apply ND]. cbn. apply sort_nodup. apply Nat.eqb_eq in E; subst m. apply ND.
Qed.

Definition zero : lid -> nat := fun _ => 0.
Lemma first_links : forall c ls w w', Forall (fun l => l < w_nl w) ls -> foldM (cpp_link_update c) ls w = Ok w' -> First c zero w None -> First c zero w' None.
Proof.
  intros c ls. induction ls as [|l ls IH]; intros w w' H E J; cbn [foldM] in E; [injection E as <-; exact J|].
  apply bind_ok in E. destruct E as (w1 & E1 & E). inversion H as [|? ? Hl Hr]; subst.
  assert (J1 : First c zero w1 None) by (eapply first_cpart; [left; reflexivity|econstructor; eauto|exact J]).
  eapply IH; [|exact E|exact J1]. apply cpp_link_fr in E1. eapply Forall_impl; [|exact Hr]. intros a Ha. cbn in Ha |- *. rewrite (fr_w_nl E1). exact Ha.
Qed.
Lemma first_run : forall c K w w', (forall e, K e = true -> k_first e = true /\ Trials.still e = true) -> run c K w w' -> First c zero w None -> First c zero w' None.
Proof.
  intros c K w w' HK R J. eapply run_inv with (I := fun x p => First c zero x p); [|exact R|exact J].
  intros e x p x' p' He Jx M. destruct (HK e He) as [A B]. eapply first_mstep; eauto.
Qed.
Lemma first_nodes : forall c ns w w', Forall (fun n => n < w_nn w) ns -> foldM (cpp_node_step c) ns w = Ok w' -> First c zero w None -> First c zero w' None.
Proof.
  intros c ns. induction ns as [|n ns IH]; intros w w' H E J; cbn [foldM] in E; [injection E as <-; exact J|].
  apply bind_ok in E. destruct E as (w1 & E1 & E). inversion H as [|? ? Hl Hr]; subst. pose proof (cpp_node_fr _ _ _ _ E1) as F1.
  assert (J1 : First c zero w1 None).
  { unfold cpp_node_step in E1. apply bind_ok in E1. destruct E1 as (x & G & E1). apply bind_ok in E1. destruct E1 as (nd & S1 & E1). injection E1 as <-.
    pose proof (generate_frs _ _ _ G) as Fx. apply frs_fr in Fx. unfold generate in G. apply gen_loop_run in G; [|exact Hl].
    eapply first_cpart; [right; reflexivity|apply cp_node; [rewrite (fr_w_nn Fx); exact Hl|exact S1]|].
    eapply first_run; [|exact G|exact J]. intros [] K; try discriminate K; split; reflexivity. }
  eapply IH; [|exact E|exact J1]. eapply Forall_impl; [|exact Hr]. intros a Ha. cbn in Ha |- *. rewrite (fr_w_nn F1). exact Ha.
Qed.

(** the transfers: at most one vehicle per lane enters a link *)
Lemma pose_trace : forall c es w p w' p', trace c es w p w' p' -> Forall (fun e => k_first e = true) es -> Inv2 w p -> Geo w -> Pose w -> Pose w'.
Proof.
  intros c es w p w' p' T. induction T as [w p|e es w p w1 p1 w' p' M T IH]; intros F I G P; [exact P|]. inversion F as [|? ? F1 F2]; subst.
  apply IH; [exact F2|eapply mstep_Inv2; eauto|eapply Geo_fr; [exact (mstep_fr M)|exact G]|eapply first_step; eauto].
Qed.
Lemma first_transfers : forall c ns w w' k, NoDup ns -> Forall (fun n => n < w_nn w) ns -> foldM (cpp_transfer c) ns w = Ok w' ->
  (forall out, k out <= l_lanes (L w out)) -> (forall out, In (l_start (L w out)) ns -> k out = 0) -> First c k w None ->
  exists k', First c k' w' None /\ (forall n, In n ns -> n_incoming (N w' n) = []) /\ (forall n, ~ In n ns -> n_incoming (N w' n) = n_incoming (N w n)).
Proof.
  intros c ns. induction ns as [|n ns IH]; intros w w' k Nd Hn E Hk Hz J; cbn [foldM] in E.
  - injection E as <-. exists k. split; [exact J|]. split; [intros n []|reflexivity].
  - apply bind_ok in E. destruct E as (w1 & E1 & E). inversion Hn as [|? ? Hl Hr]; subst. inversion Nd as [|? ? Nn Nd']; subst.
    pose proof (cpp_transfer_fr _ _ _ _ E1) as F1. unfold cpp_transfer in E1.
    pose proof (first_cpart c k PhNodes w _ (or_intror eq_refl) (cp_sort c n w Hl) J) as J0.
    destruct (cpart_ceq _ _ _ _ (cp_sort c n w Hl)) as (F0 & _).
    set (x := modn n (fun nd => sn_incoming (sort_ids (n_incoming nd)) nd) w) in *.
    assert (N0 : forall m, m <> n -> N x m = N w m) by (intros m Hm; subst x; rewrite N_at; apply Nat.eqb_neq in Hm; rewrite Hm; reflexivity).
    clearbody x. assert (Hlx : n < w_nn x) by (rewrite (fr_w_nn F0); exact Hl).
    destruct (transfers_clear c [n] x w1 (f_inv _ _ _ _ J0)) as (_ & C1 & C2).
    { intros m [<-|[]]. exact Hlx. } { cbn [foldM]. rewrite E1. reflexivity. }
    destruct (transfer_shifts c n x w1 Hlx E1) as (es & Fe & Tr & Cnt).
    assert (Fk : Forall (fun e => k_first e = true) es) by (eapply Forall_impl; [|exact Fe]; intros [] K; try discriminate K; reflexivity).
    destruct (trace_start c es x None w1 None Tr Fk (f_inv _ _ _ _ J0) (f_inc _ _ _ _ J0) (f_singles _ _ _ _ J0) n) as (I1 & IA1 & Z1).
    { eapply Forall_impl; [|exact Fe]. intros [] K; try exact Logic.I. cbn in K. apply Nat.eqb_eq in K. exact K. }
    assert (Hk1 : forall l, k l + shifts l es <= l_lanes (L x l)).
    { intro l. destruct (Nat.eq_dec (l_start (L x l)) n) as [En|En].
      - rewrite (Hz l); [apply Cnt|]. rewrite <- (fr_l_start F0), En. left; reflexivity.
      - rewrite (Z1 l En), Nat.add_0_r, (fr_l_lanes F0). apply Hk. }
    destruct (sp_trace c es x None w1 None Tr k) as [S1 _]; [eapply Forall_impl; [|exact Fe]; intros e K; exact (k_tr_transfer n e K)|exact (f_inv _ _ _ _ J0)|exact Hk1|exact (f_sp _ _ _ _ J0)|].
    assert (J1 : First c (fun l => k l + shifts l es) w1 None).
    { constructor; auto; [eapply Geo_fr; [exact F1|apply (f_geo _ _ _ _ J)]| |eapply Singles_fr; [exact F1|apply (f_singles _ _ _ _ J)]].
      eapply pose_trace; [exact Tr|exact Fk|apply (f_inv _ _ _ _ J0)|apply (f_geo _ _ _ _ J0)|apply (f_pose _ _ _ _ J0)]. }
    destruct (IH w1 w' (fun l => k l + shifts l es)) as (k' & J' & D1 & D2); auto.
    + eapply Forall_impl; [|exact Hr]. intros a Ha. cbn in Ha |- *. rewrite (fr_w_nn F1). exact Ha.
    + intro out. rewrite (fr_l_lanes F1), <- (fr_l_lanes F0). apply Hk1.
    + intros out Ho. rewrite (fr_l_start F1) in Ho. rewrite (Hz out) by (right; exact Ho). rewrite Z1; [reflexivity|]. rewrite (fr_l_start F0). intros En. rewrite En in Ho. contradiction.
    + exists k'. split; [exact J'|]. split.
      * intros m [<-|Hm]; [rewrite (D2 n Nn); apply C1; left; reflexivity|apply D1; exact Hm].
      * intros m Hm. rewrite D2 by (intro Z; apply Hm; right; exact Z). rewrite C2 by (intros [Z|[]]; apply Hm; left; exact Z). rewrite N0 by (intros ->; apply Hm; left; reflexivity). reflexivity.
Qed.

(** ** The car-following *)
Lemma follow_pass : forall c w w4, Inv2 w None -> forward c w -> cpp_phase_follow c w = Ok w4 ->
  (forall f, sw_vehs f w4 = sw_vehs f w) /\
  (forall v l, v < w_nv w -> v_state (V w v) = Run -> v_link (V w v) = Some l -> V w4 v = followed c w l (V w v)) /\
  (forall v, v < w_nv w -> v_state (V w v) <> Run -> V w4 v = V w v).
Proof.
  intros c w w4 I0 Fw H. pose proof I0 as [[T I] _]. unfold cpp_phase_follow in H.
  assert (HL : forall v, In v (w_running w) -> exists l, v_link (V w v) = Some l /\ l < w_nl w).
  { intros v Hv. apply (s_running I) in Hv. destruct Hv as [Hv Hr]. destruct (s_link I Hv) as [K _]; [discriminate|]. apply K; exact Hr. }
  destruct (follow_all c (on_links w) w) as (w1 & E1 & S1 & V1).
  { apply on_links_nodup; exact I0. }
  { intros v Hv. apply on_links_in in Hv; [|exact I0]. destruct (HL v Hv) as (l & El & _). rewrite El. discriminate. }
  rewrite cpp_follow_all in H; [| |apply on_links_nodup; exact I0].
  2:{ intros v l Hv El. apply on_links_in in Hv; [|exact I0]. destruct (HL v Hv) as (l' & El' & Hl). rewrite El in El'. injection El' as <-. apply Fw; exact Hl. }
  rewrite E1 in H. injection H as <-. split; [exact S1|]. split.
  - intros v l Hv Hr Hl. rewrite V1. replace (mem v (on_links w)) with true; [unfold follow1; rewrite Hl; reflexivity|].
    symmetry. apply mem_iff. apply on_links_in; [exact I0|]. apply (s_running I). auto.
  - intros v Hv Hr. rewrite V1. destruct (mem v (on_links w)) eqn:E; [|reflexivity]. exfalso. apply mem_iff in E. apply on_links_in in E; [|exact I0]. apply (s_running I) in E. destruct E as [_ E]. contradiction.
Qed.

(** ** The queues during the updates: vehicles only leave, from the front *)
Lemma vehicles_queue : forall c w w', Inv2 w None -> cchain c PhVehicles w w' -> forall l, exists d, l_vehs (L w' l) = skipn d (l_vehs (L w l)).
Proof.
  intros c w0 w' I H l.
  enough (K : (@None (vid * lid)) = None /\ exists d, l_vehs (L w' l) = skipn d (l_vehs (L w0 l))) by apply K.
  refine (cchain_keep c (fun x p => p = None /\ exists d, l_vehs (L x l) = skipn d (l_vehs (L w0 l))) PhVehicles _ _ w0 w' I H _).
  - intros e x p x' p' Ke Ix [-> (d & E)] M. pose proof (mstep_eff _ _ _ _ _ _ Ix M) as H1.
    assert (Same : (forall k, L x' k = L x k) -> exists d, l_vehs (L x' l) = skipn d (l_vehs (L w0 l))) by (intro Z; rewrite Z; eauto).
    destruct e; try discriminate Ke; cbn [eff] in H1.
    + destruct H1 as (-> & rest & cd & lg & tl & K1 & _ & _ & _ & _ & _ & _ & _ & _ & _ & K6 & _). split; [reflexivity|].
      rewrite K6. destruct (Nat.eqb l l0) eqn:El; [|eauto]. apply Nat.eqb_eq in El. subst l0. exists (d + 1).
      rewrite <- skipn_add, <- E, K1. reflexivity.
    + destruct H1 as (_ & -> & _ & H1 & _). auto.
    + destruct H1 as (_ & -> & _ & _ & _ & H1 & _). auto.
    + destruct H1 as (_ & -> & _ & _ & H1 & _). auto.
    + destruct H1 as (_ & -> & H1 & _). split; [reflexivity|]. apply Same. apply (so_l H1).
    + destruct H1 as (_ & -> & H1 & _). split; [reflexivity|]. apply Same. apply (so_l H1).
    + destruct H1 as (_ & -> & _ & _ & H1 & _). auto.
    + destruct H1 as (_ & -> & _ & _ & H1 & _). auto.
    + destruct H1 as (_ & -> & _ & _ & H1 & _). auto.
    + destruct H1 as (_ & -> & H1 & _). split; [reflexivity|]. apply Same. apply (so_l H1).
    + destruct H1 as (_ & -> & _ & _ & H1 & _). auto.
    + destruct H1 as (_ & -> & _ & H1 & _). auto.
    + destruct H1 as (_ & -> & _ & H1 & _). auto.
    + destruct H1 as (_ & -> & _ & H1 & _). auto.
  - intros x x' _ _ P. inversion P.
  - split; [reflexivity|]. exists 0. reflexivity.
Qed.
(** a vehicle that drives does not go back home *)
Lemma vehicles_onward : forall c w w' v, Inv2 w None -> cchain c PhVehicles w w' -> v_state (V w v) <> Home -> v_state (V w v) <> Wait -> v_state (V w' v) = Home \/ v_state (V w' v) = Wait -> False.
Proof.
  intros c w w' v I H Hr Hr' Hs.
  assert (K : v_state (V w' v) <> Home /\ v_state (V w' v) <> Wait); [|destruct K, Hs; contradiction].
  refine (cchain_keep c (fun x _ => v_state (V x v) <> Home /\ v_state (V x v) <> Wait) PhVehicles _ _ w w' I H _).
  - intros e x p x' p' _ Ix [J1 J2] M. destruct (mstep_life c e x p x' p' Ix M v) as [K|_ K _ _|n out _ K _|l _ K E]; try contradiction.
    + apply life_eq in K. destruct K as (-> & _). auto.
    + unfold life in E. destruct (v_aborted (V x v)); injection E as -> _ _ _; split; discriminate.
  - intros x x' _ _ P. inversion P.
  - split; assumption.
Qed.
Lemma end_mo : forall c w w' v, Inv2 w None -> run c Incoming.k_end w w' -> vmo (V w' v) = vmo (V w v).
Proof.
  intros c w w' v I R. destruct (run_with c (fun x _ => vmo (V x v) = vmo (V w v)) Incoming.k_end) with (w := w) (w' := w') as [_ K]; auto.
  intros e x p x' p' Ke Ix J M. rewrite <- J. clear J.
  destruct (mstep_vev c e x p x' p' Ix M v); try (subst e; discriminate Ke). 
  - apply vride_mo. assumption.
Qed.

(** ** One timestep *)
Record Safe (c : cfg) (w : world) : Prop := mkSafe {
  sf_inc : IncOK (fun _ => True) w;
  sf_geo : Geo w;
  sf_pose : Pose w;
  sf_space : forall l, l < w_nl w -> spaced (xs w) (l_lanes (L w l)) (jam_gap c (L w l)) (l_vehs (L w l));
  sf_settled : forall v, v < w_nv w -> v_state (V w v) = Run -> (v_xold (V w v) <= v_x (V w v))%Q;
  sf_singles : Singles w }.

Lemma nth_skipn : forall A d (D : list A) j, nth_error (skipn d D) j = nth_error D (d + j).
Proof. intros A d. induction d as [|d IH]; intros D j; [reflexivity|]. destruct D as [|x D]; [destruct j; reflexivity|]. cbn. apply IH. Qed.

Theorem safe_body : forall c w w', (0 <= dt c)%Q -> Inv2 w None -> Safe c w -> cpp_body c w = Ok w' -> Safe c w' /\
  forall v l, v < w_nv w -> v_state (V w' v) = Run -> v_link (V w' v) = Some l ->
    (0 <= v_xold (V w' v))%Q /\ (v_xold (V w' v) <= v_x (V w' v) <= l_len (L w l))%Q /\
    (v_x (V w' v) <= v_xold (V w' v) + l_u (L w l) * dt c)%Q /\ v_v (V w' v) = ((v_x (V w' v) - v_xold (V w' v)) / dt c)%Q.
Proof.
  intros c w w' Hd I S H. pose proof (cpp_body_fr _ _ _ H) as F. pose proof (cpp_body_chain _ _ _ I H) as Ch. clear Ch. unfold cpp_body in H.
  apply bind_ok in H. destruct H as (w1 & H1 & H). apply bind_ok in H. destruct H as (w2 & H2 & H). apply bind_ok in H. destruct H as (w3 & H3 & H).
  apply bind_ok in H. destruct H as (w4 & H4 & H). apply bind_ok in H. destruct H as (w5 & H5 & H). apply bind_ok in H. destruct H as (w6 & H6 & H). injection H as Ew.
  destruct S as [S1 S2 S3 S4 S5 S6].
  assert (J0 : First c zero w None).
  { constructor; auto; [apply IncOK_A; exact S1|]. constructor.
    - intros l Hl. rewrite Dq_none. auto.
    - intros l i u Hl Hi _. destruct I as [[T I] _]. apply nth_error_In in Hi. apply (s_D I) in Hi. apply S5; tauto.
    - intros v Hv Hs. apply S3; auto. }
  assert (J1 : First c zero w1 None) by (eapply first_links; [|exact H1|exact J0]; apply Forall_forall; intros l Hl; apply in_seq in Hl; lia).
  assert (J2 : First c zero w2 None) by (eapply first_nodes; [|exact H2|exact J1]; apply Forall_forall; intros l Hl; apply in_seq in Hl; lia).
  destruct (first_transfers c (seq 0 (w_nn w2)) w2 w3 zero (seq_NoDup _ _)) as (k & J3 & C1 & C2); auto.
  { apply Forall_forall; intros l Hl; apply in_seq in Hl; lia. } { unfold zero. intro. lia. }
  assert (C3 : forall n, n_incoming (N w3 n) = []).
  { intro n. destruct (in_dec Nat.eq_dec n (seq 0 (w_nn w2))) as [Hi|Hi]; [apply C1; exact Hi|]. rewrite (C2 n Hi).
    apply (ia_out _ _ (f_inc _ _ _ _ J2)). rewrite in_seq in Hi. lia. }
  clear C1 C2 J0 J1 J2 H1 H2 H3. destruct J3 as [I3 _ G3 P3 [Sx _ _] _].
  assert (Fw : forward c w3) by (intros l Hl; apply Qmult_le_0_compat; [apply G3; exact Hl|exact Hd]).
  destruct (follow_pass c w3 w4 I3 Fw H4) as (Q4 & V4 & O4).
  assert (L4 : forall l, L w4 l = L w3 l) by (intro l; change (L w4 l) with (L (sw_vehs (w_vehs w) w4) l); rewrite Q4; reflexivity).
  assert (N4 : forall n, N w4 n = N w3 n) by (intro l; change (N w4 l) with (N (sw_vehs (w_vehs w) w4) l); rewrite Q4; reflexivity).
  assert (Nv4 : w_nv w4 = w_nv w3) by (change (w_nv w4) with (w_nv (sw_vehs (w_vehs w) w4)); rewrite Q4; reflexivity).
  pose proof (follow_chain c _ _ _ H4) as Ch4. pose proof (cchain_Inv2 _ _ _ _ I3 Ch4) as I4.
  pose proof (vehicles_chain c _ _ I4 H5) as Ch5.
  destruct (vehicles_pass c w4 w5 I4) as (I5 & F5 & Inc5 & M5); [intro n; rewrite N4; apply C3|exact H5|].
  assert (R6 : run c Incoming.k_end w5 w') by (rewrite <- Ew; eapply run_trans; [eapply run_weaken; [|eapply route_phase_run; exact H6]|]; [intros [] K; try discriminate K; reflexivity|eapply run_one with (e := VTime); [reflexivity|constructor]]).
  assert (Ch6 : cchain c PhVehicles w4 w') by (eapply cc_run; [exact Ch5|]; eapply run_weaken; [|exact R6]; intros [] K; try discriminate K; reflexivity).
  pose proof (IncOK_end c w5 w' I5 R6 Inc5) as Inc'. pose proof (end_mo c w5 w') as Mo.
  pose proof (cchain_Inv2 _ _ _ _ I4 Ch6) as I'. pose proof (cchain_fr _ _ _ _ Ch6) as F4'. pose proof (cchain_fr _ _ _ _ Ch4) as F34.
  assert (Mv : forall v, v < w_nv w4 -> moves c (V w4 v) (V w' v)) by (intros v Hv; eapply moves_mo; [reflexivity| |apply M5; exact Hv]; symmetry; apply Mo; auto).
  clear M5 Mo Inc5 H4 H5 H6 Ch4 Ch5 R6 Ew I5 F5 N4 C3.
  pose proof (fr_w_nv F) as Nv. pose proof (fr_w_nv F4') as Nv'. pose proof (fr_trans F34 F4') as F3'.
  assert (El : forall l, l_len (L w3 l) = l_len (L w l)) by (intro l; rewrite <- (fr_l_len F3'), (fr_l_len F); reflexivity).
  assert (Eu : forall l, l_u (L w3 l) = l_u (L w l)) by (intro l; rewrite <- (fr_l_u F3'), (fr_l_u F); reflexivity).
  (* a vehicle that drives after the timestep *)
  assert (Drv : forall v l, v < w_nv w -> v_state (V w' v) = Run -> v_link (V w' v) = Some l ->
    v_state (V w3 v) = Run /\ v_link (V w3 v) = Some l /\ l < w_nl w3 /\ v_x (V w' v) = v_xnext (followed c w3 l (V w3 v)) /\ v_xold (V w' v) = v_x (V w3 v) /\
    v_v (V w' v) = ((v_x (V w' v) - v_xold (V w' v)) / dt c)%Q /\ v_remain (V w' v) = v_remain (followed c w3 l (V w3 v))).
  { intros v l Hv Hr Hl. assert (Hv4 : v < w_nv w4) by lia. assert (Hv3 : v < w_nv w3) by lia.
    destruct (Mv v Hv4) as [(_ & Z & _)|(A & [B|(B & _)])]; try contradiction.
    assert (A3 : v_state (V w3 v) = Run).
    { destruct (vstate_dec (v_state (V w3 v)) Run) as [Z|Z]; [exact Z|]. rewrite (O4 v Hv3 Z) in A. contradiction. }
    destruct (s_link (proj2 (proj1 I3)) Hv3 ltac:(discriminate)) as [Z _]. destruct (Z A3) as (m & Z1 & Z2). pose proof (V4 v m Hv3 A3 Z1) as E4.
    rewrite driven_mo, E4 in B. pose proof (followed_mo c w3 m (V w3 v)) as Fo.
    assert (m = l). { remember (followed c w3 m (V w3 v)) as f. unfold vmo in B, Fo. congruence. } subst m.
    split; [exact A3|]. split; [exact Z1|]. split; [exact Z2|]. remember (followed c w3 l (V w3 v)) as f. unfold vmo in B, Fo.
    assert (X1 : v_x (V w' v) = v_xnext f) by congruence. assert (X2 : v_xold (V w' v) = v_x (V w3 v)) by congruence. assert (X3 : v_x f = v_x (V w3 v)) by congruence.
    split; [exact X1|]. split; [exact X2|]. split; [|congruence]. rewrite X1, X2, <- X3. congruence. }
  assert (Bnd : forall v l, v < w_nv w3 -> v_state (V w3 v) = Run -> v_link (V w3 v) = Some l -> l < w_nl w3 ->
    (0 <= v_x (V w3 v))%Q /\ (v_x (V w3 v) <= v_xnext (followed c w3 l (V w3 v)) <= l_len (L w l))%Q /\ (v_xnext (followed c w3 l (V w3 v)) <= v_x (V w3 v) + l_u (L w l) * dt c)%Q /\
    (0 <= v_remain (followed c w3 l (V w3 v)))%Q).
  { intros v l Hv Hr Hl Hll. destruct (P3 v Hv) as [[A1 A2] _]. destruct (A2 Hr l Hl) as [X1 X2].
    destruct (followed_bounds c w3 l (V w3 v) (Fw l Hll) X2) as (Y1 & Y2 & Y3 & Y4). cbv zeta in *. rewrite El in *. rewrite Eu in *.
    split; [exact X1|]. split; [split; assumption|]. split; [exact Y3|]. destruct Y4 as [->|(_ & Y4 & _)]; assumption. }
  assert (Mot : forall v l, v < w_nv w -> v_state (V w' v) = Run -> v_link (V w' v) = Some l ->
    (0 <= v_xold (V w' v))%Q /\ (v_xold (V w' v) <= v_x (V w' v) <= l_len (L w l))%Q /\
    (v_x (V w' v) <= v_xold (V w' v) + l_u (L w l) * dt c)%Q /\ v_v (V w' v) = ((v_x (V w' v) - v_xold (V w' v)) / dt c)%Q).
  { intros v l Hv Hr Hl. destruct (Drv v l Hv Hr Hl) as (A1 & A2 & A3 & A4 & A5 & A6 & _). assert (Hv3 : v < w_nv w3) by lia.
    destruct (Bnd v l Hv3 A1 A2 A3) as (B1 & B2 & B3 & _). split; [|split; [|split; [|exact A6]]]; rewrite ?A4, ?A5; assumption. }
  split; [|exact Mot]. constructor.
  - exact Inc'.
  - exact (Geo_fr w w' F S2).
  - intros v Hv. rewrite Nv in Hv. assert (Hv4 : v < w_nv w4) by lia. assert (Hv3 : v < w_nv w3) by lia.
    assert (Rem4 : (0 <= v_remain (V w4 v))%Q).
    { destruct (vstate_dec (v_state (V w3 v)) Run) as [Z|Z]; [|rewrite (O4 v Hv3 Z); apply (P3 v Hv3)].
      destruct (s_link (proj2 (proj1 I3)) Hv3 ltac:(discriminate)) as [Y _]. destruct (Y Z) as (m & Z1 & Z2). rewrite (V4 v m Hv3 Z Z1). apply (Bnd v m Hv3 Z Z1 Z2). }
    split; [split|].
    + destruct (Mv v Hv4) as [(_ & _ & Z & _)|(_ & [B|(_ & Z)])]; [rewrite Z; exact Rem4| |rewrite Z; exact Rem4].
      rewrite driven_mo in B. assert (Z : v_remain (V w' v) = v_remain (V w4 v)) by (unfold vmo in B; congruence). rewrite Z. exact Rem4.
    + intros Hr l Hl. destruct (Mot v l Hv Hr Hl) as (A & (B & C) & _). rewrite (fr_l_len F). split; [lra|exact C].
    + intro Hs. destruct (Mv v Hv4) as [(A & _ & _ & B)|(A & _)].
      * rewrite B. assert (Z : v_state (V w3 v) <> Run).
        { intro Z. destruct (s_link (proj2 (proj1 I3)) Hv3 ltac:(discriminate)) as [Y _]. destruct (Y Z) as (m & Z1 & Z2). rewrite (V4 v m Hv3 Z Z1) in A.
          pose proof (followed_mo c w3 m (V w3 v)) as Fo. remember (followed c w3 m (V w3 v)) as f. unfold vmo in Fo. apply A. congruence. }
        rewrite (O4 v Hv3 Z). apply (P3 v Hv3). rewrite <- (O4 v Hv3 Z).
        destruct (vstate_dec (v_state (V w4 v)) Home) as [Y|Y]; [left; exact Y|]. destruct (vstate_dec (v_state (V w4 v)) Wait) as [X|X]; [right; exact X|]. exfalso.
        exact (vehicles_onward c w4 w' v I4 Ch6 Y X Hs).
      * exfalso. apply (vehicles_onward c w4 w' v I4 Ch6); [rewrite A; discriminate|rewrite A; discriminate|exact Hs].
  - intros l Hl. rewrite (fr_w_nl F) in Hl. rewrite (fr_l_lanes F). unfold jam_gap. rewrite (fr_l_dpl F). fold (jam_gap c (L w l)).
    destruct (vehicles_queue c w4 w' I4 Ch6 l) as (d & Ed). rewrite L4 in Ed. intros i u v Hu Hv.
    assert (On : forall j z, nth_error (l_vehs (L w' l)) j = Some z -> z < w_nv w /\ v_state (V w' z) = Run /\ v_link (V w' z) = Some l).
    { intros j z Hz. apply nth_error_In in Hz. apply (queue_is w' l z I') in Hz. rewrite Nv in Hz. exact Hz. }
    destruct (On _ _ Hu) as (Hu1 & Hu2 & Hu3). destruct (On _ _ Hv) as (Hv1 & Hv2 & Hv3). rewrite Ed, nth_skipn in Hu, Hv.
    destruct (Drv u l Hu1 Hu2 Hu3) as (U1 & U2 & U3 & U4 & _). destruct (Drv v l Hv1 Hv2 Hv3) as (X1 & X2 & X3 & X4 & _).
    assert (Hu0 : u < w_nv w3) by lia. destruct (Bnd u l Hu0 U1 U2 U3) as (_ & (B1 & _) & _).
    specialize (Sx l U3). rewrite Dq_none in Sx. assert (Ell : l_lanes (L w3 l) = l_lanes (L w l)) by (rewrite <- (fr_l_lanes F3'), (fr_l_lanes F); reflexivity).
    assert (Ed3 : l_dpl (L w3 l) = l_dpl (L w l)) by (rewrite <- (fr_l_dpl F3'), (fr_l_dpl F); reflexivity).
    rewrite Ell in Sx. unfold jam_gap in Sx. rewrite Ed3 in Sx. replace (d + (i + l_lanes (L w l))) with (d + i + l_lanes (L w l)) in Hv by lia.
    specialize (Sx _ _ _ Hu Hv). unfold xs in Sx |- *. rewrite U4, X4.
    assert (Lead : v_leader (V w3 v) = Some u).
    { pose proof (s_leader (proj2 (proj1 I3)) l (d + i + l_lanes (L w l))) as Z. rewrite Dq_none in Z. rewrite (Z _ Hv), Ell.
      destruct (d + i + l_lanes (L w l) <? l_lanes (L w l)) eqn:Ez; [apply Nat.ltb_lt in Ez; lia|].
      replace (d + i + l_lanes (L w l) - l_lanes (L w l)) with (d + i) by lia. exact Hu. }
    assert (Fx : (follow_x c w3 l (V w3 v) + jam_gap c (L w l) <= v_x (V w3 u))%Q).
    { unfold follow_x. cbv zeta. rewrite Lead. unfold jam_gap in *. rewrite Ed3.
      destruct (qlt (v_x (V w3 u) - l_dpl (L w l) * dN c) (v_x (V w3 v)))%Q eqn:Q1; destruct (qlt _ (v_x (V w3 v) + _)%Q) eqn:Q2;
        try (apply qlt_false in Q2); try lra. }
    assert (Fn : (v_xnext (followed c w3 l (V w3 v)) <= follow_x c w3 l (V w3 v))%Q).
    { unfold followed. destruct (qlt _ _) eqn:Q5; [apply qlt_iff in Q5; cbn; lra|cbn; lra]. }
    unfold jam_gap in *. lra.
  - intros v Hv Hr. rewrite Nv in Hv. destruct (s_link (proj2 (proj1 I')) (v := v) ltac:(lia) ltac:(discriminate)) as [Z _]. destruct (Z Hr) as (l & Z1 & _). apply (Mot v l Hv Hr Z1).
  - exact (Singles_fr w w' F S6).
Qed.

(** ** Histories *)
Inductive creachP (c : cfg) (P : op -> world -> Prop) : world -> Prop :=
| crp_init : forall tmax, creachP c P (empty_world tmax)
| crp_op : forall w o w', creachP c P w -> op_ok o w -> P o w -> (forall a, o <> OExec a) -> apply_op c o w = Ok w' -> creachP c P w'
| crp_tick : forall w w', creachP c P w -> w_final w = true -> cpp_tick c w = Ok w' -> creachP c P w'.
Lemma creachP_creach : forall c P w, creachP c P w -> creach c w.
Proof. intros c P w H. induction H; [apply cr_init|eapply cr_op; eauto|eapply cr_tick; eauto]. Qed.

Lemma creach_home : forall c w, creach c w -> AllHome w.
Proof.
  intros c w H. induction H as [tm|w o w' H IH Hok Hx E|w w' H IH Hf E].
  - intros _ v Hv. cbn in Hv. lia.
  - apply apply_op_osteps in E; auto. clear - E IH. induction E; auto. apply IHE. eapply ostep_home; eauto.
  - intro K. apply cpp_tick_body in E. destruct E as (w1 & E & ->). cbn in K. rewrite (fr_w_final (cpp_body_fr _ _ _ E)) in K. congruence.
Qed.
Lemma creach_fd : forall c w, creach c w -> forall l, l < w_nl w -> fd_inv c (L w l).
Proof.
  intros c w R. induction R as [tm|w o w' R IH Ho Hx H|w w' R IH Hf H]; intros l Hl.
  - cbn in Hl. lia.
  - destruct (op_link c o w w' l Ho Hx H Hl) as [Hk E _ _|a nm -> -> E|q -> E|q -> E|q -> E|q -> E]; cbn [op_ok] in Ho.
    + eapply lpar_fd; eauto.
    + apply new_link_fd in E. tauto.
    + eapply change_speed_fd; eauto.
    + eapply change_jam_fd; eauto.
    + rewrite E. apply (lpar_fd c (L w l)); auto.
    + rewrite E. apply (lpar_fd c (L w l)); auto.
  - apply cpp_tick_body in H. destruct H as (w1 & E & ->). pose proof (cpp_body_fr _ _ _ E) as F.
    change (L (sw_T (S (w_T w)) w1) l) with (L w1 l). eapply lpar_fd; [apply lstat_lpar; exact F|]. apply IH.
    cbn in Hl. rewrite (fr_w_nl F) in Hl. exact Hl.
Qed.
Theorem cpp_triangular : forall c w l, creach c w -> exists_link w l -> triangular c (L w l).
Proof.
  intros c w l R Hl. destruct (creach_fd c w R l Hl) as [[I0 I1] I2 I3 I4 I5 I6 I7 I8 I9]. constructor; auto.
  - rewrite I4, <- I1. field. auto.
  - rewrite I6. field. auto.
  - rewrite I8. field. auto.
Qed.
Lemma cpp_op_links : forall c o w w', Inv2 w' None -> AllHome w -> op_ok o w -> (forall a, o <> OExec a) -> apply_op c o w = Ok w' ->
  (forall l, l_vehs (L w' l) = []) \/ (w_nl w' = w_nl w /\ forall l, lkeep (L w' l) = lkeep (L w l)).
Proof.
  intros c o w w' I' Hm Ho Hx H.
  assert (All : (forall v, v < w_nv w' -> v_state (V w' v) = Home) -> forall l, l_vehs (L w' l) = []).
  { intros A l. destruct (l_vehs (L w' l)) as [|u D] eqn:E; [reflexivity|]. exfalso. destruct I' as [[T I'] _].
    assert (K : In u (Dq w' None l)) by (rewrite Dq_none, E; left; reflexivity). apply (s_D I') in K. destruct K as (K1 & K2 & _).
    rewrite (A u K1) in K2. discriminate. }
  assert (New : forall v, w_nv w <= v -> v < w_nv w' -> v_state (V w' v) = Home).
  { intros v H1 H2. destruct (op_newborn c o w w' v Ho Hx H H1 H2) as (a & nl & nm & K). unfold vkeep in K.
    change Home with (v_state (new_vehicle c a nl nm)). congruence. }
  destruct (w_final w) eqn:Ef.
  - destruct (w_nv w) as [|n] eqn:En.
    + left. apply All. intros v Hv. apply New; [lia|exact Hv].
    + right. destruct (op_keep c o w w' 0 Ho Hx H ltac:(lia)) as (_ & _ & K). destruct (K Ef) as (_ & K1 & _ & K2 & _). split; auto.
  - left. apply All. intros v Hv. destruct (Nat.lt_ge_cases v (w_nv w)) as [Hv'|Hv']; [|apply New; assumption].
    destruct (op_keep c o w w' v Ho Hx H Hv') as (K & _). unfold vkeep in K. assert (E : v_state (V w' v) = v_state (V w v)) by congruence.
    rewrite E. apply Hm; assumption.
Qed.
Lemma cpp_op_gap : forall c o w w' l, (0 <= dN c)%Q -> creach c w -> op_ok o w -> keep_room o w -> (forall a, o <> OExec a) -> apply_op c o w = Ok w' -> l < w_nl w ->
  (jam_gap c (L w' l) <= jam_gap c (L w l))%Q.
Proof.
  intros c o w w' l Hn R Ho [_ P] Hx H Hl. destruct (op_nl _ _ _ _ Hx H Ho) as (Hl' & _).
  assert (Same : l_dpl (L w' l) = l_dpl (L w l) -> (jam_gap c (L w' l) <= jam_gap c (L w l))%Q) by (unfold jam_gap; intros ->; lra).
  destruct (op_link c o w w' l Ho Hx H ltac:(lia)) as [_ K _ _|a nm _ K _|q -> K|q -> K|q -> K|q -> K].
  - apply Same. unfold lpar in K. congruence.
  - lia.
  - apply change_speed_par in K. apply Same. destruct K as [-> |(_ & _ & _ & K & _)]; [reflexivity|exact K].
  - assert (R' : creach c w') by (eapply cr_op; eauto). pose proof (cpp_triangular c w l R Hl) as T.
    pose proof (cpp_triangular c w' l R' ltac:(unfold exists_link; lia)) as T'. apply change_jam_par in K.
    destruct K as [-> |(K0 & _ & _ & K1 & K2)]; [apply Same; reflexivity|]. apply tr_spacing in T, T'. rewrite K1, K2, <- T in T'.
    destruct P as [P|[P1 P2]]; [lra|]. unfold jam_gap. apply Qmult_le_compat_r.
    + apply Qnot_lt_le. intro Z.
      assert (Hz : (0 <= l_dpl (L w l) * l_kappa (L w l))%Q) by (rewrite T; unfold Qof_nat; rewrite <- (Zle_Qle 0); lia).
      assert (D0 : (0 <= l_dpl (L w l))%Q).
      { apply Qnot_lt_le. intro Z'. nra. }
      nra.
    + exact Hn.
  - apply Same. rewrite K. reflexivity.
  - apply Same. rewrite K. reflexivity.
Qed.

Lemma safe_op : forall c o w w', (0 <= dN c)%Q -> creach c w -> IncB w' -> Safe c w -> op_ok o w -> keep_room o w -> (forall a, o <> OExec a) -> apply_op c o w = Ok w' -> Safe c w'.
Proof.
  intros c o w w' Hn R J [A1 A2 A3 A4 A5 A6] Hok Hk Hx E. pose proof (creach_Inv2 _ _ R) as I.
  assert (R' : creach c w') by (eapply cr_op; eauto).
  assert (Old : forall v, v < w_nv w -> v_xold (V w' v) = v_xold (V w v) /\ v_x (V w' v) = v_x (V w v) /\ v_state (V w' v) = v_state (V w v) /\ v_remain (V w' v) = v_remain (V w v) /\ v_link (V w' v) = v_link (V w v)).
  { intros v Hv. destruct (op_keep c o w w' v Hok Hx E Hv) as (K & _). unfold vkeep in K. repeat split; congruence. }
  assert (New : forall v, w_nv w <= v -> v < w_nv w' -> v_xold (V w' v) = 0%Q /\ v_state (V w' v) = Home /\ v_remain (V w' v) = 0%Q).
  { intros v H1 H2. destruct (op_newborn c o w w' v Hok Hx E H1 H2) as (a & nl & nm & K). unfold vkeep in K.
    change Home with (v_state (new_vehicle c a nl nm)). change 0%Q with (v_xold (new_vehicle c a nl nm)) at 1. change 0%Q with (v_remain (new_vehicle c a nl nm)). repeat split; congruence. }
  constructor.
  - exact (ib_ok _ J).
  - eapply Geo_op; eauto. apply Hk.
  - intros v Hv. destruct (Nat.lt_ge_cases v (w_nv w)) as [Hv'|Hv'].
    + destruct (Old v Hv') as (E1 & E2 & E3 & E4 & E5). destruct (A3 v Hv') as [[B1 B2] B3]. split; [split|].
      * rewrite E4. exact B1.
      * rewrite E2, E3, E5. intros Hr l Hl. destruct I as [[T I] _]. destruct (s_link I Hv' ltac:(discriminate)) as [Z _]. destruct (Z Hr) as (k & Z1 & Z2). assert (k = l) by congruence. subst k.
        rewrite (op_len c o w w' l Hok Hx E Z2). apply B2; assumption.
      * unfold early. rewrite E1, E3. exact B3.
    + destruct (New v Hv' Hv) as (E1 & E2 & E3). split; [split; [rewrite E3; lra|intro; congruence]|intros _; exact E1].
  - intros l Hl. destruct (cpp_op_links c o w w' (creach_Inv2 _ _ R') (creach_home _ _ R) Hok Hx E) as [Z|[Z1 Z2]]; [rewrite Z; intros i u v Hi; destruct i; discriminate Hi|].
    rewrite Z1 in Hl. specialize (Z2 l). unfold lkeep in Z2.
    assert (Ev : l_vehs (L w' l) = l_vehs (L w l)) by congruence. assert (El : l_lanes (L w' l) = l_lanes (L w l)) by congruence.
    rewrite Ev, El. eapply spaced_gap; [exact (cpp_op_gap c o w w' l Hn R Hok Hk Hx E Hl)|]. eapply spaced_ext; [|exact (A4 l Hl)].
    intros z Hz. unfold xs. apply Old. apply (queue_is w l z I) in Hz. tauto.
  - intros v Hv Hr. destruct (Nat.lt_ge_cases v (w_nv w)) as [Hv'|Hv'].
    + destruct (Old v Hv') as (-> & -> & Es & _). apply A5; congruence.
    + destruct (New v Hv' Hv) as (_ & K & _). congruence.
  - eapply singles_op; eauto.
Qed.

Theorem creach_Safe : forall c w, (0 <= dt c)%Q -> (0 <= dN c)%Q -> creachP c keep_room w -> IncB w /\ Safe c w.
Proof.
  intros c w Hd Hn R. induction R as [tm|w o w' R [J S] Ho Hk Hx E|w w' R [J S] Hf E].
  - assert (J : IncB (empty_world tm)) by (apply (reach_IncB c); constructor). split; [exact J|].
    constructor; [exact (ib_ok _ J)|..]; unfold Geo, Pose, Singles; intros x Hx; cbn in Hx; exfalso; lia.
  - pose proof (creachP_creach _ _ _ R) as R'. pose proof (creach_Inv2 _ _ R') as I.
    assert (J' : IncB w').
    { pose proof E as E'. apply apply_op_osteps in E'; auto. clear - E' J I. induction E'; auto. apply IHE'; [eapply ostep_IncB; eauto|eapply ostep_Inv2; eauto]. }
    split; [exact J'|]. eapply safe_op; eauto.
  - pose proof (creachP_creach _ _ _ R) as R'. pose proof (creach_Inv2 _ _ R') as I. apply cpp_tick_body in E. destruct E as (w1 & E & ->).
    destruct (safe_body c w w1 Hd I S E) as [S1 _]. destruct S1 as [S1 S2 S3 S4 S5 S6]. split.
    + constructor; [destruct S1; constructor; assumption|]. intro K. cbn in K. rewrite (fr_w_final (cpp_body_fr _ _ _ E)) in K. congruence.
    + constructor; try assumption. destruct S1; constructor; assumption.
Qed.

(** ** Statements *)
Theorem cpp_position : forall c w v l, (0 <= dt c)%Q -> (0 <= dN c)%Q -> creachP c keep_room w -> exists_veh w v -> on_link w v l -> (0 <= v_x (V w v) <= l_len (L w l))%Q.
Proof. intros c w v l Hd Hn R Hv [H1 H2]. destruct (creach_Safe c w Hd Hn R) as [_ S]. apply (sf_pose _ _ S v Hv); assumption. Qed.

Theorem cpp_motion : forall c w w' v l, (0 < dt c)%Q -> (0 <= dN c)%Q -> creachP c keep_room w -> w_final w = true -> cpp_tick c w = Ok w' -> exists_veh w v -> on_link w' v l ->
  (0 <= v_xold (V w' v))%Q /\ (v_xold (V w' v) <= v_x (V w' v) <= l_len (L w l))%Q /\ (v_x (V w' v) <= v_xold (V w' v) + l_u (L w l) * dt c)%Q /\
  (v_x (V w' v) == v_xold (V w' v) + v_v (V w' v) * dt c)%Q /\ (0 <= v_v (V w' v) <= l_u (L w l))%Q.
Proof.
  intros c w w' v l Hd Hn R Hf E Hv [H1 H2]. apply cpp_tick_body in E. destruct E as (w1 & E & ->).
  destruct (creach_Safe c w (Qlt_le_weak _ _ Hd) Hn R) as [_ S]. pose proof (creach_Inv2 _ _ (creachP_creach _ _ _ R)) as I.
  destruct (safe_body c w w1 (Qlt_le_weak _ _ Hd) I S E) as [_ M]. destruct (M v l Hv H1 H2) as (A & B & C & D).
  change (V (sw_T (Datatypes.S (w_T w)) w1) v) with (V w1 v). split; [exact A|]. split; [exact B|]. split; [exact C|]. rewrite D.
  destruct (speed_bound (v_xold (V w1 v)) (v_x (V w1 v)) (dt c) (l_u (L w l)) Hd) as (X & Y & Z); [lra|lra|]. split; [rewrite Z; lra|split; assumption].
Qed.

Theorem cpp_spacing : forall c w l i u v, (0 <= dt c)%Q -> (0 <= dN c)%Q -> creachP c keep_room w -> exists_link w l ->
  nth_error (l_vehs (L w l)) i = Some u -> nth_error (l_vehs (L w l)) (i + l_lanes (L w l)) = Some v ->
  v_leader (V w v) = Some u /\ v_lane (V w u) = v_lane (V w v) /\ (v_x (V w v) + jam_gap c (L w l) <= v_x (V w u))%Q.
Proof.
  intros c w l i u v Hd Hn R Hl H1 H2. pose proof (creach_Inv2 _ _ (creachP_creach _ _ _ R)) as I.
  assert (Ln : 1 <= l_lanes (L w l)) by (apply (t_lanes (proj1 (proj1 I))); exact Hl).
  destruct I as [[T I] _]. split; [|split].
  - pose proof (s_leader I l (i + l_lanes (L w l))) as Z. rewrite Dq_none in Z. rewrite (Z _ H2).
    destruct (i + l_lanes (L w l) <? l_lanes (L w l)) eqn:Ez; [apply Nat.ltb_lt in Ez; lia|].
    replace (i + l_lanes (L w l) - l_lanes (L w l)) with i by lia. exact H1.
  - assert (Step : forall m y, m <= l_lanes (L w l) -> nth_error (l_vehs (L w l)) (i + m) = Some y -> v_lane (V w y) = (v_lane (V w u) + m) mod l_lanes (L w l)).
    { intro m. induction m as [|m IH]; intros y Hm Hy.
      - rewrite Nat.add_0_r in *. assert (y = u) by congruence. subst y. symmetry. apply Nat.mod_small.
        pose proof (s_lane I l i) as Z. rewrite Dq_none in Z. apply (Z _ H1).
      - destruct (nth_error (l_vehs (L w l)) (i + m)) as [z|] eqn:Ez.
        + pose proof (s_lane I l (i + m)) as Z. rewrite Dq_none in Z. destruct (Z _ Ez) as [_ Z']. replace (i + S m) with (S (i + m)) in Hy by lia.
          rewrite (Z' _ Hy), (IH z) by (auto; lia). rewrite Nat.add_mod_idemp_l by lia. f_equal. lia.
        + apply nth_error_None in Ez. assert (i + S m < List.length (l_vehs (L w l))) by (apply nth_error_Some; congruence). lia. }
    rewrite (Step (l_lanes (L w l)) v (le_n _) H2). replace (v_lane (V w u) + l_lanes (L w l)) with (v_lane (V w u) + 1 * l_lanes (L w l)) by lia. rewrite Nat.mod_add by lia.
    symmetry. apply Nat.mod_small. pose proof (s_lane I l i) as Z. rewrite Dq_none in Z. apply (Z _ H1).
  - destruct (creach_Safe c w Hd Hn R) as [_ S]. exact (sf_space _ _ S l Hl i u v H1 H2).
Qed.

Theorem cpp_leader_gap : forall c w l u v, (0 <= dt c)%Q -> (0 <= dN c)%Q -> creachP c keep_room w -> exists_veh w v ->
  on_link w v l -> v_leader (V w v) = Some u ->
  on_link w u l /\ v_lane (V w u) = v_lane (V w v) /\ (v_x (V w v) + jam_gap c (L w l) <= v_x (V w u))%Q /\
  (0 < l_kappa (L w l) -> jam_gap c (L w l) == dN c * Qof_nat (l_lanes (L w l)) / l_kappa (L w l))%Q.
Proof.
  intros c w l u v Hd Hn R Hv [H1 H2] H3. pose proof (creachP_creach _ _ _ R) as R'. pose proof (creach_Inv2 _ _ R') as I. destruct I as [[T I] _].
  assert (Hl : l < w_nl w) by (destruct (s_link I Hv ltac:(discriminate)) as [Z _]; destruct (Z H1) as (k & Z1 & Z2); congruence).
  assert (In v (l_vehs (L w l))) by (rewrite <- Dq_none; apply (s_D I); repeat split; auto; discriminate).
  apply In_nth_error in H. destruct H as [j Hj]. pose proof (s_leader I l j) as Z. rewrite Dq_none in Z. specialize (Z _ Hj). rewrite H3 in Z.
  destruct (j <? l_lanes (L w l)) eqn:Ej; [discriminate|]. apply Nat.ltb_ge in Ej. symmetry in Z.
  replace j with (j - l_lanes (L w l) + l_lanes (L w l)) in Hj by lia.
  destruct (cpp_spacing c w l _ u v Hd Hn R Hl Z Hj) as (_ & S2 & S3).
  split; [apply nth_error_In in Z; rewrite <- Dq_none in Z; apply (s_D I) in Z; split; tauto|]. split; [exact S2|]. split; [exact S3|].
  intro Hk. pose proof (tr_spacing _ _ (cpp_triangular c w l R' Hl)) as Tr. unfold jam_gap. rewrite <- Tr. field. lra.
Qed.

Theorem cpp_density : forall c w l, (0 <= dt c)%Q -> (0 <= dN c)%Q -> creachP c keep_room w -> exists_link w l -> (0 < l_kappa (L w l))%Q ->
  (Qof_nat (List.length (l_vehs (L w l))) * dN c <= l_kappa (L w l) * l_len (L w l) + Qof_nat (l_lanes (L w l)) * dN c)%Q.
Proof.
  intros c w l Hd Hn R Hl Hk. pose proof (creachP_creach _ _ _ R) as R'. pose proof (creach_Inv2 _ _ R') as I. destruct (creach_Safe c w Hd Hn R) as [_ Sf].
  assert (Ln : 1 <= l_lanes (L w l)) by (apply (t_lanes (proj1 (proj1 I))); exact Hl). destruct I as [[T I] _].
  destruct (sf_geo _ _ Sf l Hl) as [Gl _].
  assert (P0 : (0 <= l_kappa (L w l) * l_len (L w l))%Q) by (apply Qmult_le_0_compat; lra).
  destruct (l_vehs (L w l)) as [|u D] eqn:E.
  { assert (Z : (Qof_nat (@List.length nat []) * dN c == 0)%Q) by (unfold Qof_nat; cbn; ring). rewrite Z.
    assert (0 <= Qof_nat (l_lanes (L w l)) * dN c)%Q; [|lra]. apply Qmult_le_0_compat; [unfold Qof_nat; rewrite <- (Zle_Qle 0); lia|exact Hn]. }
  rewrite <- E. set (n := List.length (l_vehs (L w l))). set (q := (n - 1) / l_lanes (L w l)).
  assert (Hlen : 1 <= n) by (unfold n; rewrite E; cbn; lia).
  assert (Hq1 : l_lanes (L w l) * q <= n - 1) by (apply Nat.mul_div_le; lia).
  assert (Hq2 : n - 1 < l_lanes (L w l) * S q) by (apply Nat.mul_succ_div_gt; lia).
  assert (Hv : exists v, nth_error (l_vehs (L w l)) (0 + q * l_lanes (L w l)) = Some v).
  { destruct (nth_error (l_vehs (L w l)) (0 + q * l_lanes (L w l))) as [v|] eqn:Ev; [eauto|]. apply nth_error_None in Ev. fold n in Ev. lia. }
  destruct Hv as [v Hv]. assert (Hu : nth_error (l_vehs (L w l)) 0 = Some u) by (rewrite E; reflexivity).
  pose proof (spaced_far (xs w) _ _ _ q 0 u v Ln (sf_space _ _ Sf l Hl) Hu Hv) as S. unfold xs in S.
  assert (Bound : forall z, In z (l_vehs (L w l)) -> (0 <= v_x (V w z) <= l_len (L w l))%Q).
  { intros z Hz. rewrite <- Dq_none in Hz. apply (s_D I) in Hz. destruct Hz as (Z1 & Z2 & Z3 & _). apply (cpp_position c w z l Hd Hn R Z1). split; assumption. }
  pose proof (Bound u (nth_error_In _ _ Hu)) as [_ B1]. pose proof (Bound v (nth_error_In _ _ Hv)) as [B2 _].
  assert (K1 : (Qof_nat q * jam_gap c (L w l) <= l_len (L w l))%Q) by lra.
  pose proof (tr_spacing _ _ (cpp_triangular c w l R' Hl)) as Tr.
  assert (K2 : (Qof_nat q * jam_gap c (L w l) * l_kappa (L w l) == Qof_nat (q * l_lanes (L w l)) * dN c)%Q).
  { unfold jam_gap. setoid_replace (Qof_nat q * (l_dpl (L w l) * dN c) * l_kappa (L w l))%Q with (Qof_nat q * (l_dpl (L w l) * l_kappa (L w l)) * dN c)%Q by ring.
    rewrite Tr. unfold Qof_nat. rewrite Nat2Z.inj_mul, inject_Z_mult. ring. }
  assert (K3 : (Qof_nat (q * l_lanes (L w l)) * dN c <= l_kappa (L w l) * l_len (L w l))%Q).
  { rewrite <- K2, (Qmult_comm (l_kappa (L w l))). apply Qmult_le_compat_r; lra. }
  assert (K4 : (Qof_nat n * dN c <= Qof_nat (q * l_lanes (L w l) + l_lanes (L w l)) * dN c)%Q).
  { apply Qmult_le_compat_r; [|exact Hn]. unfold Qof_nat. rewrite <- Zle_Qle. cbn in Hq2. lia. }
  assert (K5 : (Qof_nat (q * l_lanes (L w l) + l_lanes (L w l)) * dN c == Qof_nat (q * l_lanes (L w l)) * dN c + Qof_nat (l_lanes (L w l)) * dN c)%Q).
  { unfold Qof_nat. rewrite Nat2Z.inj_add, inject_Z_plus. ring. }
  lra.
Qed.

Theorem cpp_incoming : forall c w n v, (0 <= dt c)%Q -> (0 <= dN c)%Q -> creachP c keep_room w -> In v (n_incoming (N w n)) ->
  exists_veh w v /\ exists l, on_link w v l /\ l_end (L w l) = n /\ (v_x (V w v) == l_len (L w l))%Q.
Proof.
  intros c w n v Hd Hn R Hi. destruct (creach_Safe c w Hd Hn R) as [J _]. destruct (ic_in _ _ (ib_ok _ J) n v Hi) as (A & _ & l & B & D & _).
  split; [exact A|]. exists l. destruct B as (B1 & B2 & B3). apply qeq_iff in B3. repeat split; assumption.
Qed.
