(** * Taxi3: the links that a taxi enters (C30). *)
From Verif Require Import Base Types Sim Build Heap Lists Inv FrameBase Tac Frame Eff Eff2 Trace InvStep Reach Steps Effects Phases Attr Life Incoming Vev Ride TripLog Route Choice Enforce Counts LinkQueries FD NodeCap Origin Bucket Outflow Motion Clock SpecTaxi Taxi Taxi2.
Local Open Scope nat_scope.

(** a vehicle at the end of its link has chosen an outlink, or none, or its next stop is the node where it stands *)
Definition fresh (w : world) (v : vid) (n : nid) : Prop :=
  v_next (V w v) = Some None \/ (exists out, In out (n_out (N w n)) /\ v_next (V w v) = Some (Some out)) \/ v_dest (V w v) = Some n.

Lemma request_fresh : forall c v l w w', Inv2 w None -> at_end w v l ->
  (v_mode (V w v) = SingleTrip -> v_dest (V w v) <> Some (l_end (L w l))) ->
  request_transfer c v (l_end (L w l)) w = Ok w' -> fresh w' v (l_end (L w l)).
Proof.
  intros c v l w w' I A D H. unfold request_transfer in H.
  apply bind_ok in H. destruct H as (w1 & E & H). injection H as <-.
  pose proof (choose_soft _ _ _ E) as S.
  assert (M : mstep c (VChoose v) w None w1 None) by (eapply m_choose; eauto).
  apply (mstep_eff c _ w None w1 None I) in M. cbn [eff] in M.
  destruct M as (_ & _ & _ & _ & _ & _ & l' & A' & _ & K).
  assert (l' = l) by (destruct A as (_ & X & _), A' as (_ & Y & _); congruence). subst l'.
  unfold fresh. rewrite !V_modn, N_at, Nat.eqb_refl. cbn [n_out sn_incoming]. rewrite (so_n S).
  destruct K as [(E1 & E2 & E3)|[(E1 & E2)|(out & E1 & E2)]].
  - right; right. rewrite E1. auto.
  - left. rewrite E1. auto.
  - right; left. exists out. rewrite E2. auto.
Qed.
Lemma ended_state : forall c w a, v_state (ended c w a) <> Run.
Proof. intros c w a. unfold ended. cbv zeta. rs. destruct (v_aborted a); cbn; intro K; discriminate K. Qed.
Lemma prepare_end_fresh : forall c v l w w', Inv2 w None -> at_end w v l ->
  (v_dest (V w v) = Some (l_end (L w l)) /\ v_mode (V w v) = SingleTrip \/
     n_out (N w (l_end (L w l))) = [] /\ v_aborted (V w v) = true) ->
  prepare_end c v l w = Ok w' -> v_state (V w' v) = Run -> v_next (V w' v) = v_next (V w v) /\ v_dest (V w' v) = v_dest (V w v).
Proof.
  intros c v l w w' I A D H Hr. unfold prepare_end in H. cbn zeta in H.
  assert (M : mstep c (VFlag v l) w None (modv v (sv_flag true) w) None) by (constructor; auto).
  pose proof (mstep_Inv2 _ _ _ _ _ _ I M) as I1.
  assert (E1 : V (modv v (sv_flag true) w) v = sv_flag true (V w v)) by apply V_modv_same.
  set (w1 := modv v (sv_flag true) w) in *. clearbody w1.
  destruct (l_vehs (L w1 l)) as [|u rest] eqn:E; [discriminate|].
  destruct (Nat.eqb u v) eqn:Eu.
  - exfalso. apply Nat.eqb_eq in Eu; subst u.
    assert (M2 : mstep c (VEnd v l) w1 None w' None) by (econstructor; eauto; rewrite E1; reflexivity).
    apply (mstep_eff c _ _ _ _ _ I1) in M2. cbn [eff] in M2.
    destruct M2 as (_ & rest' & cd & lg & tl & H1 & Hf & H2 & H3 & H4 & _ & _ & _ & _ & _ & _ & _ & Elg & Etl & B).
    assert (X : forall (b : bool) tl lg a, v_state (let x := sv_linkold None (sv_tlog tl (sv_log lg a)) in
        if b then sv_pref PrefNone x else x) = v_state a) by (intros [] ? ? ?; reflexivity).
    rewrite B, X in Hr. exact (ended_state _ _ _ Hr).
  - injection H as <-. rewrite E1. auto.
Qed.

Lemma at_link_end_fresh : forall c v l w w', Inv2 w None -> at_end w v l -> at_link_end c v l w = Ok w' ->
  v_state (V w' v) = Run -> fresh w' v (l_end (L w l)).
Proof.
  intros c v l w w' I A H Hr. unfold at_link_end in H. cbn zeta in H.
  apply bind_ok in H. destruct H as (w1 & E1 & H).
  apply bind_ok in H. destruct H as (w2 & E2 & H).
  assert (R1 : run c (k_veh v) w w1 /\ soft w w1).
  { destruct (dget (l_end (L w l)) (v_events (V w v))) as [e|] eqn:Ee.
    - split; [|eapply run_event_soft; eauto].
      eapply run_one with (e := VEvent v e); [apply Nat.eqb_refl|]. econstructor; eauto.
    - injection E1 as <-. split; [apply run_refl|apply soft_refl]. }
  destruct R1 as [R1 S1].
  pose proof (maybe_pref_run _ _ _ E2) as R2. pose proof (maybe_pref_update_soft _ _ _ E2) as S2.
  assert (S : soft w w2) by (eapply soft_trans; eauto).
  assert (I2 : Inv2 w2 None) by (eapply run_Inv2'; [eapply run_Inv2'; [exact I|exact R1]|exact R2]).
  assert (A2 : at_end w2 v l) by (eapply at_end_soft; eauto).
  rewrite <- (so_l S l) in H |- *. clear A E1 E2 R1 R2 S1 S2 S.
  destruct (opt_eqb (Some (l_end (L w2 l))) (v_dest (V w2 v))) eqn:Ed.
  - apply opt_eqb_eq in Ed. symmetry in Ed.
    destruct (v_mode (V w2 v)) eqn:Em.
    + right; right. rewrite <- Ed. apply (prepare_end_fresh c v l w2 w' I2 A2); auto.
    + apply bind_ok in H. destruct H as (w3 & E3 & H).
      assert (S23 : soft w2 w3).
      { apply route_pref_update_soft in E3. eapply soft_trans; [|exact E3]. apply soft_modv; destruct (v_dests _); reflexivity. }
      assert (M3 : v_mode (V w3 v) = Taxi) by (destruct (vhard_eq (so_v S23 v)) as (_ & _ & _ & K & _); congruence).
      assert (I3 : Inv2 w3 None).
      { eapply run_Inv2' with (K := k_veh v); [exact I2|].
        eapply run_trans; [eapply run_one with (e := VNextDest v); [apply Nat.eqb_refl|eapply m_nextdest; eauto]|].
        eapply run_one with (e := VPref v 1%Q); [apply Nat.eqb_refl|constructor; [exact E3|left; reflexivity]]. }
      rewrite <- (so_l S23 l) in H |- *. eapply request_fresh; eauto; [eapply at_end_soft; eauto|congruence].
  - assert (Ed' : v_dest (V w2 v) <> Some (l_end (L w2 l))).
    { intro K. symmetry in K. apply opt_eqb_eq in K. congruence. }
    destruct (is_nil (n_out (N w2 (l_end (L w2 l)))) && v_abortopt (V w2 v)) eqn:Eb.
    + apply andb_true_iff in Eb. destruct Eb as [Eb1 Eb2].
      assert (Eo : n_out (N w2 (l_end (L w2 l))) = []) by (destruct (n_out _); [auto|discriminate]).
      assert (M3 : mstep c (VAbort v) w2 None (modv v aborting w2) None) by (econstructor; eauto).
      pose proof (mstep_Inv2 _ _ _ _ _ _ I2 M3) as I3.
      change (modv v (fun a : vehicle => sv_next (Some None) (sv_aborted true a)) w2) with (modv v aborting w2) in H.
      assert (V3 : V (modv v aborting w2) v = aborting (V w2 v)) by apply V_modv_same.
      left. destruct (prepare_end_fresh c v l (modv v aborting w2) w' I3) as [K _]; auto.
      * destruct A2 as (X & Y & Z). unfold at_end. rewrite V_modv_same. auto.
      * right. rewrite V_modv_same. split; auto.
      * rewrite K, V3. reflexivity.
    + eapply request_fresh; eauto.
Qed.

Lemma at_end_same : forall w v l k, at_end w v l -> at_end w v k -> k = l.
Proof. intros w v l k (_ & A & _) (_ & B & _). congruence. Qed.
Lemma veh_update_fresh : forall c v w w' l, Inv2 w None -> In v (w_living w) -> veh_update c v w = Ok w' ->
  at_end w' v l -> fresh w' v (l_end (L w' l)).
Proof.
  intros c v w w' l I Hl H A'. unfold veh_update in H. cbn zeta in H.
  pose proof (record_log_living c v false w) as P3.
  assert (M0 : mstep c (VLog v) w None (record_log c v false w) None) by (constructor; auto).
  pose proof (mstep_Inv2 _ _ _ _ _ _ I M0) as I0.
  set (w0 := record_log c v false w) in *. clearbody w0.
  assert (Hl0 : In v (w_living w0)) by (rewrite P3; auto). pose proof (proj1 A') as Hr.
  assert (Sf : forall x, maybe_pref_update c v x = Ok w' -> v_state (V x v) = Run).
  { intros x K. apply maybe_pref_update_soft in K. destruct (vhard_eq (so_v K v)) as (X & _). congruence. }
  destruct (v_state (V w0 v)) eqn:Es.
  - exfalso. destruct (Z.leb (v_dep (V w0 v)) (Z.of_nat (w_T w0))) eqn:Ed.
    + rewrite V_modn, V_modv_same in H. cbn [v_state sv_state] in H. apply Sf in H. rewrite V_modn, V_modv_same in H. discriminate H.
    + rewrite Es in H. injection H as <-. congruence.
  - exfalso. rewrite Es in H. apply Sf in H. congruence.
  - rewrite Es in H. unfold drive in H. cbn zeta in H.
    assert (M2 : mstep c (VMove v) w0 None (modv v (driven c) w0) None) by (constructor; auto).
    pose proof (mstep_Inv2 _ _ _ _ _ _ I0 M2) as I2.
    change (modv v (fun a : vehicle => sv_dist (v_dist a + (v_xnext a - v_x a)) (sv_x (v_xnext a)
      (sv_xold (v_x a) (sv_v ((v_xnext a - v_x a) / dt c) a)))) w0) with (modv v (driven c) w0) in H.
    assert (E2 : v_state (V (modv v (driven c) w0) v) = Run) by (rewrite V_modv_same; exact Es).
    set (w2 := modv v (driven c) w0) in *. clearbody w2.
    apply bind_ok in H. destruct H as (k & E & H). apply of_opt_ok in E.
    destruct (qeq (v_x (V w2 v)) (l_len (L w2 k))) eqn:Eq.
    + assert (A : at_end w2 v k) by (repeat split; auto).
      pose proof (at_link_end_view c v k w2 w' I2 A H) as Vw.
      pose proof (run_fr _ _ _ _ (@at_link_end_run c v k w2 w' A H)) as F.
      assert (k = l).
      { destruct Vw as [m m' _ _ Im Em _ _ Ec Eb|d' b' D Eb Ef].
        - assert (M : mstep c (VChoose v) m None m' None \/ True) by auto.
          apply vride_eq in Em. pose proof (choose_soft _ _ _ Ec) as Sc. destruct (vhard_eq (so_v Sc v)) as (_ & X & _).
          apply vride_eq in Eb. destruct A' as (_ & A' & _). intuition congruence.
        - destruct A' as (_ & A' & _). destruct Ef as [Ef|Ef].
          + apply vride_eq in Ef. assert (Y : v_link b' = v_link (V w2 v)) by (subst b'; destruct D as [(-> & _)|(-> & _)]; reflexivity).
            intuition congruence.
          + exfalso. apply vride_state in Ef. rewrite Hr in Ef. apply (ended_state c w2 b'). symmetry. exact Ef. }
      subst k. rewrite (fr_l_end F). eapply at_link_end_fresh; eauto.
    + injection H as <-. destruct A' as (_ & B & C). assert (k = l) by congruence. subst k. congruence.
  - exfalso. rewrite Es in H. injection H as <-. congruence.
  - exfalso. rewrite Es in H. injection H as <-. congruence.
Qed.

Lemma dest_hd : forall c w v, TX c w -> v_dest (V w v) = match plan w v with d :: _ => Some d | [] => None end.
Proof.
  intros c w v T. unfold plan. destruct (v_dest (V w v)) eqn:E; [reflexivity|]. rewrite (tx_dest _ _ T v E). reflexivity.
Qed.
Lemma fresh_keep : forall c w w' v n, TX c w -> TX c w' -> plan w' v = plan w v -> v_next (V w' v) = v_next (V w v) ->
  n_out (N w' n) = n_out (N w n) -> fresh w v n -> fresh w' v n.
Proof.
  intros c w w' v n T T' P X O F. unfold fresh. rewrite X, O, (dest_hd c w' v T'), P, <- (dest_hd c w v T). exact F.
Qed.
Lemma at_end_ride : forall w w' v l, fr w w' -> vride (V w' v) = vride (V w v) -> at_end w' v l -> at_end w v l.
Proof.
  intros w w' v l F E (A & B & C). apply vride_eq in E. unfold at_end. rewrite (fr_l_len F) in C. intuition congruence.
Qed.

Lemma loop_fresh : forall c v vs w w', Inv2 w None -> TX c w -> NoDup vs -> foldM (update_living c) vs w = Ok w' ->
  In v vs -> forall l, at_end w' v l -> fresh w' v (l_end (L w' l)).
Proof.
  intros c v vs; induction vs as [|u vs IH]; intros w w' I T Nd H Hin l A; cbn [foldM] in H; [destruct Hin|].
  apply bind_ok in H. destruct H as (w1 & E & H). inversion Nd as [|? ? Nu Nd']; subst.
  unfold update_living in E. destruct (mem u (w_living w)) eqn:Em; [|discriminate]. apply mem_iff in Em.
  pose proof (veh_update_run _ _ _ Em E) as Rv.
  destruct (run_kept _ _ _ _ I T Rv) as (I1 & T1 & _).
  destruct Hin as [-> | Hin]; [|eapply IH; eauto].
  destruct (loop_kept c vs w1 w' I1 T1 H) as (I2 & T2 & _ & F2).
  destruct (vehicles_at c vs w1 w' I1 Nd' H v) as [Vr _]. specialize (Vr Nu).
  destruct (loop_plan c v vs w1 w' I1 T1 Nd' H) as [Pl _]. specialize (Pl Nu).
  rewrite (fr_l_end F2). apply (fresh_keep c w1 w' v _ T1 T2 Pl).
  - apply vride_next in Vr. unfold vnext in Vr. congruence.
  - exact (fr_n_out F2 _).
  - assert (A1 : at_end w1 v l) by (eapply at_end_ride; eauto).
    exact (veh_update_fresh c v w w1 l I Em E A1).
Qed.

Definition Fresh (w : world) : Prop := forall v l, v < w_nv w -> at_end w v l -> fresh w v (l_end (L w l)).

Lemma body_fresh : forall c w w', (0 <= dt c)%Q -> reach c w -> body c w = Ok w' -> Fresh w'.
Proof.
  intros c w w' Hdt Rc Hb v l Hv A. rewrite (fr_w_nv (body_fr _ _ Hb)) in Hv.
  pose proof (reach_Inv2 _ _ Rc) as I. pose proof (reach_TX _ _ Hdt Rc) as T. apply body_runs in Hb.
  destruct Hb as (x1 & x2 & x3 & x4 & x5 & x6 & E1 & E2 & E3 & E4 & E5 & E6 & ->).
  change (fresh x6 v (l_end (L x6 l))). change (at_end x6 v l) in A.
  assert (R4 : run c (k_plan v) w x4).
  { apply phase_links_run in E1. apply phase_nodes_run in E2. apply phase_transfer_run in E3. apply phase_follow_run in E4.
    eapply run_trans; [|eapply run_trans; [|eapply run_trans]]; eapply run_weaken; try eassumption;
    intros [] K; try discriminate K; reflexivity. }
  destruct (plan_run c (k_plan v) w x4 v I T ltac:(auto) R4) as (I4 & T4 & P4 & K4). pose proof (run_fr _ _ _ _ R4) as F4.
  unfold phase_vehicles in E5.
  destruct (loop_kept c _ _ _ I4 T4 E5) as (I5 & T5 & K5 & F5).
  apply route_phase_run in E6. pose proof (route_ride c x5 x6 I5 E6 v) as Er. pose proof (run_fr _ _ _ _ E6) as F6.
  destruct (plan_run c k_route x5 x6 v I5 T5 ltac:(intros [] K; try discriminate K; reflexivity) E6) as (_ & T6 & P6 & K6).
  pose proof (at_end_ride x5 x6 v l F6 Er A) as A5. rewrite (fr_l_end F6).
  apply (fresh_keep c x5 x6 v _ T5 T6 P6).
  - apply vride_next in Er. unfold vnext in Er. congruence.
  - exact (fr_n_out F6 _).
  - destruct (in_dec Nat.eq_dec v (w_living x4)) as [Hl|Hl].
    + eapply loop_fresh; [exact I4|exact T4|exact (s_living_nd (proj2 (proj1 I4)))|exact E5|exact Hl|exact A5].
    + exfalso. apply Hl. apply (s_living (proj2 (proj1 I4))). split; [rewrite (fr_w_nv F4); exact Hv|].
      destruct (vehicles_at c _ _ _ I4 (s_living_nd (proj2 (proj1 I4))) E5 v) as [Vr _]. specialize (Vr Hl).
      apply vride_state in Vr. rewrite <- Vr, (proj1 A5). unfold alive. auto.
Qed.

Theorem reach_Fresh : forall c w, (0 <= dt c)%Q -> reach c w -> Fresh w.
Proof.
  intros c w Hdt Rc. induction Rc as [tm|w o w' Rc IH Ho Hx H|w w' Rc IH Hf H|w Rc IH].
  - intros v l Hv. cbn in Hv. lia.
  - intros v l Hv (A1 & A2 & A3).
    destruct (Nat.lt_ge_cases v (w_nv w)) as [Hv'|Hv'].
    2:{ exfalso. destruct (op_newborn c o w w' v Ho Hx H Hv' Hv) as (a & nl & nm & K). unfold vkeep in K.
        assert (Z : v_state (V w' v) = v_state (new_vehicle c a nl nm)) by congruence. rewrite A1 in Z. discriminate Z. }
    destruct (op_keep c o w w' v Ho Hx H Hv') as (K1 & _ & K3). unfold vkeep in K1.
    destruct (w_final w) eqn:Ef.
    + destruct (K3 eq_refl) as (_ & KL & KN & _). specialize (KL l). unfold lkeep in KL.
      assert (EL : l_len (L w' l) = l_len (L w l) /\ l_end (L w' l) = l_end (L w l)) by (split; congruence).
      destruct EL as [EL1 EL2]. specialize (KN (l_end (L w l))). unfold nkeep in KN.
      assert (F : fresh w v (l_end (L w l))).
      { apply IH; [exact Hv'|]. unfold at_end. rewrite <- EL1. split; [congruence|]. split; [congruence|].
        replace (v_x (V w v)) with (v_x (V w' v)) by congruence. exact A3. }
      rewrite EL2. unfold fresh in *.
      replace (v_next (V w' v)) with (v_next (V w v)) by congruence.
      replace (n_out (N w' (l_end (L w l)))) with (n_out (N w (l_end (L w l)))) by congruence.
      destruct F as [F|[F|F]]; [left; exact F|right; left; exact F|right; right].
      destruct (op_taxi c o w w' Ho Hx H) as [o Q E|u d i E|oo d t E|u r Hu E].
      * rewrite (proj1 (E v Hv')). exact F.
      * apply add_dest_ok in E. destruct E as (_ & _ & B3 & _ & _ & _ & _ & _ & _ & B).
        destruct (Nat.eq_dec v u) as [-> | Hne]; [|rewrite B3 by auto; exact F].
        destruct B as [(B1 & _)|(x & B1 & B2 & _)]; congruence.
      * unfold add_trip_request in E. destruct (negb _); [discriminate|]. injection E as <-. exact F.
      * apply assign_ok in E. destruct E as (_ & _ & _ & B3 & _ & _ & _ & _ & _ & _ & _ & _ & _ & _ & _ & B).
        destruct (Nat.eq_dec v u) as [-> | Hne]; [|rewrite B3 by auto; exact F].
        destruct B as [(B1 & _)|(x & B1 & B2 & _)]; congruence.
    + exfalso. pose proof (reach_home c w Rc Ef v Hv') as Z. congruence.
  - apply tick_fr in H. destruct H as (w1 & Hb & ->). exact (body_fresh c w w1 Hdt Rc Hb).
  - exact IH.
Qed.

(** ** Entering a link *)
Definition no_entry (e : ev) : bool := match e with VEnter _ _ _ | VShift _ _ _ _ => false | _ => true end.
Lemma run_larr : forall c K w w' v, Inv2 w None -> (forall e, K e = true -> no_entry e = true) -> run c K w w' -> v_larr (V w' v) = v_larr (V w v).
Proof.
  intros c K w w' v I HK R.
  destruct (run_with c (fun x _ => v_larr (V x v) = v_larr (V w v)) K) with (w := w) (w' := w') as (_ & Z); auto.
  intros e x p x' p' Ke Ix Px M. apply HK in Ke.
  destruct (larr_step _ _ _ _ _ _ v Ix M) as [(E & _)|[(n & out & -> & _)|(n & out & il & -> & _)]]; [congruence|discriminate Ke|discriminate Ke].
Qed.

Lemma body_larr : forall c v w w' w3 w4, body_view c v w w' w3 w4 -> body c w = Ok w' -> Inv2 w None -> v_larr (V w' v) = v_larr (V w3 v).
Proof.
  intros c v w w' w3 w4 BV Hb I. apply body_runs in Hb. destruct Hb as (x1 & x2 & x3 & x4 & x5 & x6 & E1 & E2 & E3 & E4 & E5 & E6 & ->).
  destruct (bv_phases _ _ _ _ _ _ BV) as (y1 & y2 & F1 & F2 & F3 & F4).
  assert (y1 = x1) by congruence. subst y1. assert (y2 = x2) by congruence. subst y2. assert (w3 = x3) by congruence. subst w3. clear F1 F2 F3 F4.
  pose proof (bv_inv3 _ _ _ _ _ _ BV) as I3.
  apply phase_follow_run in E4. apply phase_vehicles_run in E5. apply route_phase_run in E6.
  change (V (sw_TIME (now c x6) x6) v) with (V x6 v).
  apply (run_larr c no_entry x3 x6 v I3); [auto|].
  eapply run_trans; [|eapply run_trans]; eapply run_weaken; try eassumption; intros [] K; try discriminate K; reflexivity.
Qed.

Lemma Qnat_lt : forall a b, a < b -> (Qof_nat a < Qof_nat b)%Q.
Proof. intros a b H. unfold Qof_nat. rewrite <- Zlt_Qlt. lia. Qed.

Theorem enter_lemma : forall c w w' v l out, (0 < dt c)%Q -> reach c w -> w_final w = true -> tick c w = Ok w' -> v < w_nv w ->
  v_state (V w v) = Run -> v_link (V w v) = Some l -> enters c w w' v out ->
  (v_x (V w v) == l_len (L w l))%Q /\
  (l_start (L w out) = l_end (L w l) \/ out = l /\ v_dest (V w v) = Some (l_end (L w l))).
Proof.
  intros c w w' v l out Hdt Rc Hf H Hv Hr Hl (N1 & N2 & N3).
  pose proof (reach_Inv2 _ _ Rc) as I.
  apply tick_fr in H. destruct H as (w1 & Hb & ->). change (V (sw_T (S (w_T w)) w1)) with (V w1) in *.
  destruct (body_viewed c v w w1 Hv I (reach_IncB _ _ Rc) (reach_Ends _ _ Rc) Hb) as (w3 & w4 & BV).
  pose proof (body_larr c v w w1 w3 w4 BV Hb I) as La.
  destruct (first_cases c v w w3 Hv (bv_first _ _ _ _ _ _ BV)) as [E|o outs K|il o K1 K2 K3 K4 K5 K6 K7 K8|K1 K2 K3]; [|congruence| |].
  - exfalso. assert (La3 : v_larr (V w3 v) = v_larr (V w v)) by (apply vride_eq in E; intuition).
    destruct (reach_arrived c w Rc v Hv ltac:(congruence)) as (t & Ht & Et). rewrite La, La3, Et in N3. unfold now in N3.
    pose proof (Qnat_lt _ _ Ht) as Hlt. assert (Z : (Qof_nat t * dt c < Qof_nat (w_T w) * dt c)%Q) by (apply Qmult_lt_r; assumption).
    rewrite N3 in Z. apply Qlt_irrefl in Z. exact Z.
  - assert (il = l) by congruence. subst il. split; [exact K5|].
    destruct (rest_view c v w w1 w3 w4 o BV K6 K7) as [_ B]. specialize (B N1). assert (o = out) by congruence. subst o.
    assert (A : at_end w v l) by (repeat split; auto; apply qeq_iff; exact K5).
    assert (TI : forall n k, In k (n_out (N w n)) -> l_start (L w k) = n).
    { intros n k Hk. destruct I as [[T _] _]. apply (t_out T n k) in Hk. tauto. }
    destruct (reach_Fresh c w ltac:(apply Qlt_le_weak; exact Hdt) Rc v l Hv A) as [F|[(o & F1 & F2)|F]].
    + congruence.
    + left. assert (o = out) by congruence. subst o. apply TI. exact F1.
    + destruct (reach_next c w Rc v Hv) as [Nx _]. destruct (Nx Hr out K3) as [X|(k & X & Y)].
      * right. split; [congruence|exact F].
      * left. assert (k = l) by congruence. subst k. apply TI. exact Y.
  - exfalso. assert (Ha : ~ alive (v_state (V w3 v))) by (unfold alive; intuition congruence).
    pose proof (bv_gone _ _ _ _ _ _ BV Ha) as B6. apply vride_state in B6. intuition congruence.
Qed.
Theorem enter_first_taxi : forall c w w' v out, reach c w -> w_final w = true -> tick c w = Ok w' -> v < w_nv w ->
  v_state (V w v) = Home \/ v_state (V w v) = Wait -> enters c w w' v out -> l_start (L w out) = v_orig (V w v).
Proof.
  intros c w w' v out Rc Hf H Hv Hs (N1 & N2 & _).
  pose proof (reach_Inv2 _ _ Rc) as I.
  apply tick_fr in H. destruct H as (w1 & Hb & ->). change (V (sw_T (S (w_T w)) w1)) with (V w1) in *.
  destruct (body_viewed c v w w1 Hv I (reach_IncB _ _ Rc) (reach_Ends _ _ Rc) Hb) as (w3 & w4 & BV).
  assert (A3 : v_state (V w3 v) = Run).
  { destruct (vstate_dec (v_state (V w3 v)) Run) as [Z|Z]; [exact Z|exfalso].
    assert (Dec : alive (v_state (V w3 v)) \/ ~ alive (v_state (V w3 v))) by (unfold alive; destruct (v_state (V w3 v)); intuition congruence).
    destruct Dec as [Ha|Ha].
    - destruct (later_view c v w w1 w3 w4 BV Ha) as (wa & b & _ & _ & _ & U & Vb & _ & Sa & _). apply vride_state in Vb.
      destruct U as [U1 U2 U3|U1 U2 U3|U1 U2|k U1 _ _ _|k m d U1 _ _ _ _ _ _]; try congruence.
      + apply vride_state in U3. change (v_state (logged c wa v false)) with (v_state (V wa v)) in U3. congruence.
      + apply vride_state in U3. change (v_state (sv_state Wait (logged c wa v false))) with Wait in U3. congruence.
      + apply vride_state in U2. change (v_state (logged c wa v false)) with (v_state (V wa v)) in U2. congruence.
    - pose proof (bv_gone _ _ _ _ _ _ BV Ha) as B6. apply vride_state in B6. apply Ha. rewrite <- B6, N1. unfold alive. auto. }
  destruct (first_cases c v w w3 Hv (bv_first _ _ _ _ _ _ BV)) as [E|o outs K1 K2 K3 K4 K5 K6|il o K1 K2 K3 K4 K5 K6 K7 K8|K1 K2 K3].
  - apply vride_state in E. rewrite A3 in E. destruct Hs; congruence.
  - destruct (rest_view c v w w1 w3 w4 o BV K4 K5) as [_ B]. specialize (B N1). assert (o = out) by congruence. subst o.
    assert (Hi : In out (n_out (N w (v_orig (V w v))))) by (eapply gen_outlinks_sub; eauto).
    destruct I as [[T _] _]. apply (t_out T) in Hi. tauto.
  - destruct Hs; congruence.
  - destruct Hs; congruence.
Qed.
