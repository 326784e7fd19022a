(** * Taxi2: the order of the stops of a taxi (C30). *)
From Coq Require Import Permutation.
From Verif Require Import Base Types Sim Build Heap Lists Inv FrameBase Tac Frame Eff Eff2 Trace InvStep Reach Steps Effects Phases Attr Life Incoming Vev Ride TripLog Route Choice Enforce Clock SpecTaxi Taxi.
Local Open Scope nat_scope.

(** ** What is known about a request stays *)
Lemma kept_refl : forall w r, kept w w r.
Proof. intros. unfold kept. auto 8. Qed.
Lemma kept_trans : forall a b d r, kept a b r -> kept b d r -> kept a d r.
Proof.
  intros a b d r (A1 & A2 & A3 & A4 & A5 & A6 & A7) (B1 & B2 & B3 & B4 & B5 & B6 & B7). unfold kept.
  split; [congruence|]. split; [congruence|]. split; [congruence|]. auto 10.
Qed.
Lemma kept_same : forall w w' r, R w' r = R w r -> (pending w' r -> pending w r) -> kept w w' r.
Proof. intros w w' r E P. unfold kept. rewrite E. auto 8. Qed.
Lemma mstep_kept : forall c e w p w' p' r, Inv2 w p -> TX c w -> mstep c e w p w' p' -> kept w w' r.
Proof.
  intros c e w p w' p' r I T M. pose proof (fr_w_pending (mstep_fr M)) as Pd.
  destruct (match e with VEvent _ _ => true | _ => false end) eqn:Ek.
  - destruct e; try discriminate Ek. rename v into u. rename e into te.
    pose proof (mstep_eff c _ w p w' p' I M) as Hx. cbn [eff] in Hx. destruct Hx as (_ & _ & _ & _ & (l & Ha & Hd) & Hr).
    apply dget_in in Hd. pose proof (tx_ev _ _ T u _ te Hd) as X.
    apply event_ok in Hr. destruct Hr as (W & WL & WN & Hr).
    destruct te as [k|k]; cbn [evok] in X.
    + destruct X as (X1 & X2 & X3 & X4). destruct Hr as (v & _ & _ & _ & _ & H5 & _).
      destruct (Nat.eq_dec r k) as [-> | Hne].
      * unfold kept. rewrite (H5 k), Nat.eqb_refl. cbn. rewrite X4. unfold pending. rewrite Pd. repeat split; auto. discriminate.
      * apply kept_same; [rewrite H5; apply Nat.eqb_neq in Hne; rewrite Hne; reflexivity|unfold pending; rewrite Pd; auto].
    + destruct X as (X1 & X2 & X3 & X4 & X5). destruct Hr as (v & _ & _ & _ & H5 & _).
      destruct (Nat.eq_dec r k) as [-> | Hne].
      * unfold kept. rewrite (H5 k), Nat.eqb_refl. cbn. rewrite X5. unfold pending. rewrite Pd. repeat split; auto. discriminate.
      * apply kept_same; [rewrite H5; apply Nat.eqb_neq in Hne; rewrite Hne; reflexivity|unfold pending; rewrite Pd; auto].
  - apply kept_same; [|unfold pending; rewrite Pd; auto].
    eapply mstep_req; eauto. intros; destruct e; try discriminate Ek; discriminate.
Qed.
Lemma run_kept : forall c K w w', Inv2 w None -> TX c w -> run c K w w' -> Inv2 w' None /\ TX c w' /\ forall r, kept w w' r.
Proof.
  intros c K w w' I T R. pose proof (kept_refl w) as Kr.
  destruct (run_with c (fun x _ => TX c x /\ forall r, kept w x r) K) with (w := w) (w' := w') as (Z1 & Z2 & Z3); auto.
  { intros e x p x' p' Ke Ix [Tx Px] M. split; [apply (mstep_TX c e x p x' p' Ix Tx M)|].
    intro r. eapply kept_trans; [apply Px|]. eapply mstep_kept; eauto. }
Qed.

(** ** Events that do not concern the plan of [v] *)
Definition k_plan (v : vid) (e : ev) : bool :=
  match e with VEvent u _ | VNextDest u => negb (Nat.eqb u v) | _ => true end.

Lemma plan_step : forall c e w p w' p' v, Inv2 w p -> TX c w -> mstep c e w p w' p' -> k_plan v e = true -> plan w' v = plan w v.
Proof.
  intros c e w p w' p' v I T M K. destruct (mstep_TX c e w p w' p' I T M) as [_ P].
  destruct (P v) as [E|n -> _ _|r -> _ _]; [exact E| |]; cbn [k_plan] in K; rewrite Nat.eqb_refl in K; discriminate.
Qed.
Lemma plan_run : forall c K w w' v, Inv2 w None -> TX c w -> (forall e, K e = true -> k_plan v e = true) -> run c K w w' ->
  Inv2 w' None /\ TX c w' /\ plan w' v = plan w v /\ forall r, kept w w' r.
Proof.
  intros c K w w' v I T HK R. destruct (run_kept _ _ _ _ I T R) as (_ & _ & Kp).
  destruct (run_with c (fun x _ => TX c x /\ plan x v = plan w v) K) with (w := w) (w' := w') as (Z1 & Z2 & Z3); auto.
  intros e x p x' p' Ke Ix [Tx Px] M. split; [apply (mstep_TX c e x p x' p' Ix Tx M)|].
  rewrite <- Px. eapply plan_step; eauto.
Qed.

Lemma prepare_end_calm : forall c v l w w', at_end w v l ->
  (v_dest (V w v) = Some (l_end (L w l)) /\ v_mode (V w v) = SingleTrip \/
     n_out (N w (l_end (L w l))) = [] /\ v_aborted (V w v) = true) ->
  prepare_end c v l w = Ok w' -> run c (k_plan v) w w'.
Proof.
  intros c v l w w' A D H. unfold prepare_end in H. cbn zeta in H.
  eapply run_trans; [eapply run_one with (e := VFlag v l); [reflexivity|constructor; auto]|].
  set (w1 := modv v (sv_flag true) w) in *.
  destruct (l_vehs (L w1 l)) as [|u rest] eqn:E; [discriminate|].
  destruct (Nat.eqb u v) eqn:Eu.
  - apply Nat.eqb_eq in Eu; subst u.
    eapply run_one with (e := VEnd v l); [reflexivity|]. econstructor; eauto.
    unfold w1. rewrite V_modv_same. reflexivity.
  - injection H as <-. apply run_refl.
Qed.
Lemma request_calm : forall c v l w w', at_end w v l ->
  (v_mode (V w v) = SingleTrip -> v_dest (V w v) <> Some (l_end (L w l))) ->
  request_transfer c v (l_end (L w l)) w = Ok w' -> run c (k_plan v) w w' /\ at_end w' v l.
Proof.
  intros c v l w w' A D H. unfold request_transfer in H.
  apply bind_ok in H. destruct H as (w1 & E & H). injection H as <-.
  assert (A1 : at_end w1 v l) by (eapply at_end_soft; eauto; eapply choose_soft; eauto).
  rewrite <- (so_l (choose_soft _ _ _ E) l). split; [|exact A1].
  eapply run_trans; [eapply run_one with (e := VChoose v); [reflexivity|econstructor; eauto]|].
  eapply run_one with (e := VRequest v (l_end (L w1 l))); [reflexivity|constructor; auto].
Qed.
Lemma maybe_pref_calm : forall c v w w', maybe_pref_update c v w = Ok w' -> run c (k_plan v) w w'.
Proof.
  intros c v w w' H. unfold maybe_pref_update in H. destruct (c_gradual c).
  - eapply run_one with (e := VPref v 1%Q); [reflexivity|]. constructor; auto.
  - injection H as <-. apply run_refl.
Qed.

(** what one update does to the plan: perhaps a passenger gets on at [n] and adds a stop at the end; then perhaps the first stop is [n] and is taken off *)
Definition added (w w' : world) (v : vid) (n : nid) (add : list nid) : Prop :=
  add = [] \/ exists r, add = [r_dest (R w r)] /\ r_taxi (R w r) = Some v /\ r_orig (R w r) = n /\ r_geton (R w r) = None /\ r_geton (R w' r) <> None.

Lemma at_link_end_plan : forall c v l w w', Inv2 w None -> TX c w -> at_end w v l -> at_link_end c v l w = Ok w' ->
  exists add vis, plan w v ++ add = vis ++ plan w' v /\ added w w' v (l_end (L w l)) add /\
    (vis = [] \/ vis = [l_end (L w l)] /\ at_end w' v l).
Proof.
  intros c v l w w' I T A H. unfold at_link_end in H. cbn zeta in H.
  apply bind_ok in H. destruct H as (w1 & E1 & H).
  apply bind_ok in H. destruct H as (w2 & E2 & H).
  assert (X : Inv2 w1 None /\ TX c w1 /\ soft w w1 /\ exists add, plan w1 v = plan w v ++ add /\ added w w1 v (l_end (L w l)) add).
  { destruct (dget (l_end (L w l)) (v_events (V w v))) as [e|] eqn:Ee.
    - assert (M : mstep c (VEvent v e) w None w1 None) by (econstructor; eauto).
      destruct (mstep_TX _ _ _ _ _ _ I T M) as [T1 P]. split; [eapply mstep_Inv2; eauto|]. split; [exact T1|].
      split; [eapply run_event_soft; eauto|]. destruct (P v) as [E|n E _ _|r E Hr Ep].
      + exists []. rewrite app_nil_r. split; [exact E|left; reflexivity].
      + discriminate E.
      + injection E as ->. exists [r_dest (R w r)]. split; [exact Ep|]. right. exists r. split; [reflexivity|].
        pose proof (tx_ev _ _ T v _ _ (dget_in _ _ _ _ Ee)) as (_ & K1 & K2 & K3).
        apply event_ok in E1. destruct E1 as (_ & _ & _ & u & _ & _ & _ & _ & K4 & _). rewrite (K4 r), Nat.eqb_refl. cbn. repeat split; auto. discriminate.
    - injection E1 as <-. split; [exact I|]. split; [exact T|]. split; [apply soft_refl|]. exists []. rewrite app_nil_r. split; [reflexivity|left; reflexivity]. }
  destruct X as (I1 & T1 & S1 & add & P1 & Ad).
  destruct (plan_run c (k_plan v) w1 w2 v I1 T1 ltac:(auto) (maybe_pref_calm _ _ _ _ E2)) as (I2 & T2 & P2 & Kp2).
  pose proof (maybe_pref_update_soft _ _ _ E2) as S2.
  assert (S : soft w w2) by (eapply soft_trans; eauto).
  assert (A2 : at_end w2 v l) by (eapply at_end_soft; eauto).
  exists add. rewrite P1 in P2. rewrite <- P2. rewrite <- (so_l S l) in H. rewrite <- (so_l S l) in Ad |- *.
  enough (Z : exists vis, plan w2 v = vis ++ plan w' v /\ (vis = [] \/ vis = [l_end (L w2 l)] /\ at_end w' v l) /\ forall r, kept w2 w' r).
  { destruct Z as (vis & Z1 & Z2 & Z3). exists vis. split; [exact Z1|]. split; [|exact Z2].
    destruct Ad as [Ad|(r & Q1 & Q2 & Q3 & Q4 & Q5)]; [left; exact Ad|right]. exists r. split; [exact Q1|]. split; [exact Q2|]. split; [exact Q3|].
    split; [exact Q4|]. destruct (r_geton (R w1 r)) as [t|] eqn:Et; [|congruence].
    destruct (kept_trans _ _ _ _ (Kp2 r) (Z3 r)) as (_ & _ & _ & _ & G & _). rewrite (G t Et). discriminate. }
  clear Kp2 E1 E2 P1 P2 Ad S1 S2 T1 I1 add A S T I w w1.
  destruct (opt_eqb (Some (l_end (L w2 l))) (v_dest (V w2 v))) eqn:Ed.
  - apply opt_eqb_eq in Ed. symmetry in Ed.
    destruct (v_mode (V w2 v)) eqn:Em.
    + exists []. destruct (plan_run c (k_plan v) w2 w' v I2 T2 ltac:(auto)) as (_ & _ & Z1 & Z2); [eapply prepare_end_calm; eauto|].
      split; [symmetry; exact Z1|]. split; [left; reflexivity|exact Z2].
    + apply bind_ok in H. destruct H as (w3 & E3 & H).
      assert (S3' : soft (modv v next_dest w2) w3) by (eapply route_pref_update_soft; eauto).
      assert (S3 : soft w2 w3).
      { eapply soft_trans; [|exact S3']. apply soft_modv; unfold next_dest; destruct (v_dests (V w2 v)); reflexivity. }
      assert (A3 : at_end w3 v l) by (eapply at_end_soft; eauto).
      assert (M3 : v_mode (V w3 v) = Taxi) by (destruct (vhard_eq (so_v S3 v)) as (_ & _ & _ & K & _); congruence).
      assert (M : mstep c (VNextDest v) w2 None (modv v next_dest w2) None) by (econstructor; eauto).
      destruct (mstep_TX _ _ _ _ _ _ I2 T2 M) as [T3 P3]. pose proof (mstep_Inv2 _ _ _ _ _ _ I2 M) as I3.
      destruct (plan_run c (k_plan v) (modv v next_dest w2) w3 v I3 T3 ltac:(auto)) as (I4 & T4 & P4 & Kp4).
      { eapply run_one with (e := VPref v 1%Q); [reflexivity|constructor; [exact E3|left; reflexivity]]. }
      rewrite <- (so_l S3 l) in H.
      destruct (request_calm c v l w3 w' A3 ltac:(congruence) H) as [Rq A5].
      destruct (plan_run c (k_plan v) w3 w' v I4 T4 ltac:(auto) Rq) as (_ & _ & P5 & Kp5).
      exists [l_end (L w2 l)]. split; [|split; [right; auto|]].
      2:{ intro r. eapply kept_trans; [eapply mstep_kept; [exact I2|exact T2|exact M]|]. eapply kept_trans; [apply Kp4|apply Kp5]. }
      rewrite P5, P4.
      unfold plan. rewrite V_modv_same, Ed. unfold next_dest. destruct (v_dests (V w2 v)); reflexivity.
  - assert (Ed' : v_dest (V w2 v) <> Some (l_end (L w2 l))).
    { intro K. symmetry in K. apply opt_eqb_eq in K. congruence. }
    exists []. enough (Rr : run c (k_plan v) w2 w').
    { destruct (plan_run c (k_plan v) w2 w' v I2 T2 ltac:(auto) Rr) as (_ & _ & Z1 & Z2). split; [symmetry; exact Z1|]. split; [left; reflexivity|exact Z2]. }
    destruct (is_nil (n_out (N w2 (l_end (L w2 l)))) && v_abortopt (V w2 v)) eqn:Eb.
    + apply andb_true_iff in Eb. destruct Eb as [Eb1 Eb2].
      assert (Eo : n_out (N w2 (l_end (L w2 l))) = []) by (destruct (n_out _); [auto|discriminate]).
      eapply run_trans; [eapply run_one with (e := VAbort v); [reflexivity|econstructor; eauto]|].
      eapply prepare_end_calm; [| |exact H].
      * destruct A2 as (X & Y & Z). unfold at_end. rewrite V_modv_same. auto.
      * right. rewrite V_modv_same. split; auto.
    + eapply request_calm; eauto.
Qed.

Lemma veh_update_plan : forall c v w w', Inv2 w None -> TX c w -> In v (w_living w) -> veh_update c v w = Ok w' ->
  exists n add vis, plan w v ++ add = vis ++ plan w' v /\ added w w' v n add /\
    (vis = [] \/ vis = [n] /\ standing w' v n).
Proof.
  intros c v w w' I T Hl H. unfold veh_update in H. cbn zeta in H.
  pose proof (record_log_living c v false w) as P3.
  assert (M0 : mstep c (VLog v) w None (record_log c v false w) None) by (constructor; auto).
  pose proof (mstep_Inv2 _ _ _ _ _ _ I M0) as I0. pose proof (mstep_TX _ _ _ _ _ _ I T M0) as [T0 _].
  pose proof (plan_step _ _ _ _ _ _ v I T M0 eq_refl) as P0.
  pose proof (mstep_req c _ _ _ _ _ I M0 ltac:(intros; discriminate)) as R0.
  set (w0 := record_log c v false w) in *. clearbody w0.
  assert (Hl0 : In v (w_living w0)) by (rewrite P3; auto).
  assert (None' : run c (k_plan v) w0 w' -> exists n add vis, plan w v ++ add = vis ++ plan w' v /\ added w w' v n add /\
    (vis = [] \/ vis = [n] /\ standing w' v n)).
  { intro Rr. exists 0, [], []. rewrite app_nil_r. split; [|split; [left; reflexivity|auto]].
    destruct (plan_run c (k_plan v) w0 w' v I0 T0 ltac:(auto) Rr) as (_ & _ & E & _). cbn [app]. congruence. }
  destruct (v_state (V w0 v)) eqn:Es.
  - destruct (Z.leb (v_dep (V w0 v)) (Z.of_nat (w_T w0))) eqn:Ed.
    + rewrite V_modn, V_modv_same in H. cbn [v_state sv_state] in H. apply None'.
      eapply run_trans; [eapply run_one with (e := VDepart v); [reflexivity|constructor; auto]|]. eapply maybe_pref_calm; eauto.
    + rewrite Es in H. injection H as <-. apply None'. apply run_refl.
  - rewrite Es in H. apply None'. eapply maybe_pref_calm; eauto.
  - rewrite Es in H. unfold drive in H. cbn zeta in H.
    assert (M2 : mstep c (VMove v) w0 None (modv v (driven c) w0) None) by (constructor; auto).
    pose proof (mstep_Inv2 _ _ _ _ _ _ I0 M2) as I2. pose proof (mstep_TX _ _ _ _ _ _ I0 T0 M2) as [T2 _].
    pose proof (plan_step _ _ _ _ _ _ v I0 T0 M2 eq_refl) as P2.
    pose proof (mstep_req c _ _ _ _ _ I0 M2 ltac:(intros; discriminate)) as R2.
    change (modv v (fun a : vehicle => sv_dist (v_dist a + (v_xnext a - v_x a)) (sv_x (v_xnext a)
      (sv_xold (v_x a) (sv_v ((v_xnext a - v_x a) / dt c) a)))) w0) with (modv v (driven c) w0) in H.
    assert (E2 : v_state (V (modv v (driven c) w0) v) = Run) by (rewrite V_modv_same; exact Es).
    set (w2 := modv v (driven c) w0) in *. clearbody w2.
    apply bind_ok in H. destruct H as (l & E & H). apply of_opt_ok in E.
    destruct (qeq (v_x (V w2 v)) (l_len (L w2 l))) eqn:Eq.
    + assert (A : at_end w2 v l) by (repeat split; auto).
      destruct (at_link_end_plan c v l w2 w' I2 T2 A H) as (add & vis & Q1 & Q2 & Q3).
      exists (l_end (L w2 l)), add, vis. rewrite <- P0, <- P2. split; [exact Q1|].
      assert (ER : forall r, R w2 r = R w r) by (intro; rewrite R2, R0; reflexivity).
      assert (Q2' : added w w' v (l_end (L w2 l)) add).
      { destruct Q2 as [Q2|(r & K1 & K2 & K3 & K4 & K5)]; [left; exact Q2|right]. exists r. rewrite <- ER. auto 6. }
      split; [exact Q2'|].
      pose proof (run_fr _ _ _ _ (@at_link_end_run c v l w2 w' A H)) as F.
      assert (St : at_end w' v l -> standing w' v (l_end (L w2 l))).
      { intro K. apply at_end_standing in K. rewrite (fr_l_end F l) in K. exact K. }
      destruct Q3 as [Q3|[Q3 Q4]]; auto.
    + injection H as <-. exists 0, [], []. rewrite app_nil_r. split; [cbn [app]; congruence|split; [left; reflexivity|auto]].
  - rewrite Es in H. injection H as <-. apply None'. apply run_refl.
  - rewrite Es in H. injection H as <-. apply None'. apply run_refl.
Qed.

(** ** The updates of all vehicles *)
Lemma others_plan : forall c u v w w', u <> v -> Inv2 w None -> TX c w -> run c (k_veh u) w w' -> plan w' v = plan w v.
Proof.
  intros c u v w w' Hne I T R. apply (plan_run c (k_veh u) w w' v I T); [|exact R].
  intros [] K; try reflexivity; cbn in *; apply Nat.eqb_eq in K; subst; apply negb_true_iff, Nat.eqb_neq; exact Hne.
Qed.
Lemma loop_kept : forall c vs w w', Inv2 w None -> TX c w -> foldM (update_living c) vs w = Ok w' ->
  Inv2 w' None /\ TX c w' /\ (forall r, kept w w' r) /\ fr w w'.
Proof.
  intros c vs w w' I T H.
  assert (Rr : run c k_vehicles w w').
  { eapply foldM_run with (P := fun _ w => True); [| intros; exact Logic.I | intros; exact Logic.I |exact H].
    intros z a a' _ _ Ez. unfold update_living in Ez. destruct (mem z (w_living a)) eqn:Ez'; [|discriminate].
    eapply run_weaken; [apply k_veh_vehicles|]. eapply veh_update_run; eauto. apply mem_iff; auto. }
  destruct (run_kept _ _ _ _ I T Rr) as (A & B & C). split; [exact A|]. split; [exact B|]. split; [exact C|]. exact (run_fr _ _ _ _ Rr).
Qed.
Lemma standing_ride : forall w w' v n, fr w w' -> vride (V w' v) = vride (V w v) -> standing w v n -> standing w' v n.
Proof.
  intros w w' v n F E (l & A & B & C & D). apply vride_eq in E. exists l.
  rewrite (fr_l_len F l), (fr_l_end F l). decompose [and] E. repeat split; congruence.
Qed.
Lemma loop_plan : forall c v vs w w', Inv2 w None -> TX c w -> NoDup vs -> foldM (update_living c) vs w = Ok w' ->
  (~ In v vs -> plan w' v = plan w v) /\
  (exists add vis, plan w v ++ add = vis ++ plan w' v /\
     (add = [] \/ exists r, add = [r_dest (R w r)] /\ r_taxi (R w r) = Some v /\ r_geton (R w r) = None /\ r_geton (R w' r) <> None) /\
     stopped w' v vis).
Proof.
  intros c v vs; induction vs as [|u vs IH]; intros w w' I T Nd H; cbn [foldM] in H.
  - injection H as <-. split; [reflexivity|]. exists [], []. rewrite app_nil_r. split; [reflexivity|]. split; left; reflexivity.
  - apply bind_ok in H. destruct H as (w1 & E & H). inversion Nd as [|? ? Nu Nd']; subst.
    unfold update_living in E. destruct (mem u (w_living w)) eqn:Em; [|discriminate]. apply mem_iff in Em.
    pose proof (veh_update_run _ _ _ Em E) as Rv.
    destruct (run_kept _ _ _ _ I T Rv) as (I1 & T1 & K1).
    destruct (IH w1 w' I1 T1 Nd' H) as [A B].
    split.
    + intro Hn. rewrite A by (intro; apply Hn; right; auto). eapply others_plan; [|exact I|exact T|exact Rv]. intros ->. apply Hn. left; reflexivity.
    + destruct (Nat.eq_dec u v) as [-> | Hne].
      * specialize (A Nu). clear B.
        destruct (veh_update_plan c v w w1 I T Em E) as (n & add & vis & Q1 & Q2 & Q3). exists add, vis. rewrite A.
        split; [exact Q1|].
        destruct (loop_kept c vs w1 w' I1 T1 H) as (_ & _ & K2 & F2). split.
        -- destruct Q2 as [Q2|(r & Q4 & Q5 & _ & Q6 & Q7)]; [left; exact Q2|right]. exists r. split; [exact Q4|]. split; [exact Q5|]. split; [exact Q6|].
           destruct (r_geton (R w1 r)) as [t|] eqn:Et; [|congruence]. destruct (K2 r) as (_ & _ & _ & _ & G & _). rewrite (G t Et). discriminate.
        -- destruct Q3 as [Q3|[Q3 Q4]]; [left; exact Q3|right]. exists n. split; [exact Q3|].
           eapply standing_ride; [exact F2| |exact Q4].
           apply (vehicles_at c vs w1 w' I1 Nd' H v). exact Nu.
      * destruct B as (add & vis & B1 & B2 & B3). exists add, vis. rewrite <- (others_plan c u v w w1 Hne I T Rv).
        split; [exact B1|]. split; [|exact B3]. destruct B2 as [B2|(r & C1 & C2 & C3 & C4)]; [left; exact B2|right].
        exists r. destruct (K1 r) as (_ & D & _ & _ & G & _). rewrite <- D. split; [exact C1|].
        split; [rewrite <- (fr_r_taxi (run_fr _ _ _ _ Rv) r); exact C2|]. split; [|exact C4].
        destruct (r_geton (R w r)) as [t|] eqn:Et; [|reflexivity]. rewrite (G t eq_refl) in C3. discriminate.
Qed.

Lemma tick_plan : forall c w w' v, (0 <= dt c)%Q -> reach c w -> v < w_nv w -> tick c w = Ok w' ->
  exists a b, plan w v ++ a = b ++ plan w' v /\ picked w w' v a /\ stopped w' v b.
Proof.
  intros c w w' v Hdt Rc Hv H. apply tick_fr in H. destruct H as (w1 & Hb & ->).
  change (plan (sw_T (S (w_T w)) w1) v) with (plan w1 v).
  change (picked w (sw_T (S (w_T w)) w1) v) with (picked w w1 v). change (stopped (sw_T (S (w_T w)) w1) v) with (stopped w1 v).
  pose proof (reach_Inv2 _ _ Rc) as I. pose proof (reach_TX _ _ Hdt Rc) as T. apply body_runs in Hb.
  destruct Hb as (x1 & x2 & x3 & x4 & x5 & x6 & E1 & E2 & E3 & E4 & E5 & E6 & ->).
  change (plan (sw_TIME (now c x6) x6) v) with (plan x6 v).
  change (picked w (sw_TIME (now c x6) x6) v) with (picked w x6 v). change (stopped (sw_TIME (now c x6) x6) v) with (stopped x6 v).
  assert (R4 : run c (k_plan v) w x4).
  { apply phase_links_run in E1. apply phase_nodes_run in E2. apply phase_transfer_run in E3. apply phase_follow_run in E4.
    eapply run_trans; [|eapply run_trans; [|eapply run_trans]]; eapply run_weaken; try eassumption;
    intros [] K; try discriminate K; reflexivity. }
  destruct (plan_run c (k_plan v) w x4 v I T ltac:(auto) R4) as (I4 & T4 & P4 & K4). pose proof (run_fr _ _ _ _ R4) as F4.
  unfold phase_vehicles in E5.
  destruct (loop_plan c v _ _ _ I4 T4 (s_living_nd (proj2 (proj1 I4))) E5) as (_ & a & b & B1 & B2 & B3).
  destruct (loop_kept c _ _ _ I4 T4 E5) as (I5 & T5 & K5 & F5).
  apply route_phase_run in E6. pose proof (route_ride c x5 x6 I5 E6 v) as Er.
  destruct (plan_run c k_route x5 x6 v I5 T5 ltac:(intros [] K; try discriminate K; reflexivity) E6) as (_ & _ & P6 & K6).
  exists a, b. rewrite P6, <- P4. split; [exact B1|]. split.
  - destruct B2 as [B2|(r & C1 & C2 & C3 & C4)]; [left; exact B2|right]. exists r.
    destruct (K4 r) as (_ & D & _ & _ & G & _). rewrite <- D. split; [exact C1|].
    split; [unfold assigned; rewrite <- (fr_r_taxi F4 r); exact C2|]. split.
    + destruct (r_geton (R w r)) as [t|] eqn:Et; [|reflexivity]. rewrite (G t eq_refl) in C3. discriminate.
    + destruct (r_geton (R x5 r)) as [t|] eqn:Et; [|congruence]. destruct (K6 r) as (_ & _ & _ & _ & G6 & _). rewrite (G6 t Et). discriminate.
  - destruct B3 as [B3|(n & B3 & B4)]; [left; exact B3|right]. exists n. split; [exact B3|].
    eapply standing_ride; [exact (run_fr _ _ _ _ E6)|exact Er|exact B4].
Qed.

(** ** Operations *)
Lemma dest_plan : forall c u d w w' v, TX c w -> add_dest c u d None w = Ok w' -> plan w' v = plan w v ++ (if Nat.eqb u v then [d] else []).
Proof.
  intros c u d w w' v T E. apply add_dest_ok in E. destruct E as (_ & _ & A3 & _ & _ & _ & _ & _ & _ & A).
  destruct (Nat.eqb_spec u v) as [-> | Hne].
  - unfold plan. destruct A as [(A1 & A2 & A4)|(x & A1 & A2 & A4)]; rewrite A1, A2, A4; [rewrite (tx_dest _ _ T v A1); reflexivity|reflexivity].
  - unfold plan. rewrite A3 by auto. rewrite app_nil_r. reflexivity.
Qed.
Lemma assign_plan : forall c u r w w' v, TX c w -> assign_taxi c u r w = Ok w' -> plan w' v = plan w v ++ (if Nat.eqb u v then [r_orig (R w r)] else []).
Proof.
  intros c u r w w' v T E. apply assign_ok in E. destruct E as (_ & _ & _ & A3 & _ & _ & _ & _ & _ & _ & _ & _ & _ & _ & _ & A).
  destruct (Nat.eqb_spec u v) as [-> | Hne].
  - unfold plan. destruct A as [(A1 & A2 & A4)|(x & A1 & A2 & A4)]; rewrite A1, A2, A4; [rewrite (tx_dest _ _ T v A1); reflexivity|reflexivity].
  - unfold plan. rewrite A3 by auto. rewrite app_nil_r. reflexivity.
Qed.
Lemma op_plan : forall c o w w' v, TX c w -> v < w_nv w -> op_ok o w -> (forall a, o <> OExec a) -> appending o w ->
  apply_op c o w = Ok w' -> plan w' v = plan w v ++ gives w v o.
Proof.
  intros c o w w' v T Hv Ho Hx Ha H.
  assert (X : (forall u d i, o <> OAddDest u d i) -> (forall u r, o <> OAssignTaxi u r) -> plan w' v = plan w v ++ []).
  { intros N1 N2. rewrite app_nil_r. destruct (op_taxi c o w w' Ho Hx H) as [o Q E|u d i E|oo d t E|u r Hu E].
    - unfold plan. destruct (E v Hv) as [-> ->]. reflexivity.
    - elim (N1 u d i); reflexivity.
    - unfold add_trip_request in E. destruct (negb _); [discriminate|]. injection E as <-. reflexivity.
    - elim (N2 u r); reflexivity. }
  destruct o; cbn [gives]; try (apply X; intros; discriminate).
  - destruct order as [i|]; [elim (Ha v0 d i); reflexivity|]. cbn [apply_op] in H. eapply dest_plan; eauto.
  - cbn [apply_op] in H. eapply assign_plan; eauto.
Qed.

Lemma later_nv : forall c P w w', later c P w w' -> w_nv w <= w_nv w'.
Proof.
  intros c P w w' H; induction H as [|a b H IH S]; [auto|]. etransitivity; [exact IH|].
  destruct S as [a o b K1 K2 K3 K4|a b K1 K2|a].
  - destruct (op_taxi c o a b K1 K3 K4) as [o Q E|u d i E|oo d t E|u r Hu E].
    + apply (q_nv _ _ Q).
    + apply add_dest_ok in E. destruct E as (_ & _ & _ & _ & A & _). unfold wtx in A. injection A as A _. lia.
    + unfold add_trip_request in E. destruct (negb _); [discriminate|]. injection E as <-. cbn. lia.
    + apply assign_ok in E. decompose [and] E. lia.
  - apply tick_fr in K2. destruct K2 as (w1 & Hb & ->). change (w_nv a <= w_nv w1). rewrite (fr_w_nv (body_fr _ _ Hb)). lia.
  - auto.
Qed.

Theorem order_lemma : forall c w w' v, (0 <= dt c)%Q -> reach c w -> v < w_nv w -> later c appending w w' ->
  exists g s, journey c appending v w g s w' /\ plan w v ++ g = s ++ plan w' v.
Proof.
  intros c w w' v Hdt Rc Hv H. induction H as [|a b H IH S].
  - exists [], []. rewrite app_nil_r. split; [constructor|reflexivity].
  - destruct IH as (g & s & J & E). pose proof (later_reach c appending w a Rc H) as Ra.
    pose proof (later_nv _ _ _ _ H) as Hn. pose proof (reach_TX _ _ Hdt Ra) as T.
    destruct S as [a o b K1 K2 K3 K4|a b K1 K2|a].
    + exists (g ++ gives a v o), s. split; [econstructor; eauto|].
      rewrite app_assoc, E, <- app_assoc. f_equal. symmetry. eapply op_plan; eauto. lia.
    + destruct (tick_plan c a b v Hdt Ra ltac:(lia) K2) as (x & y & Q1 & Q2 & Q3).
      exists (g ++ x), (s ++ y). split; [econstructor; eauto|]. rewrite app_assoc, E, <- !app_assoc, Q1. reflexivity.
    + exists g, s. split; [apply jo_time; exact J|exact E].
Qed.

(** ** Requests *)
Theorem stages_lemma : forall c w r, (0 <= dt c)%Q -> reach c w -> r < w_nr w -> stage w r.
Proof. intros c w r Hdt Rc Hr. exact (tx_stage _ _ (reach_TX _ _ Hdt Rc) r Hr). Qed.
Theorem pending_lemma : forall c w, (0 <= dt c)%Q -> reach c w ->
  NoDup (w_pending w) /\ (forall r, pending w r -> r < w_nr w) /\
  forall r, r < w_nr w -> (pending w r <-> r_taxi (R w r) = None).
Proof.
  intros c w Hdt Rc. pose proof (reach_TX _ _ Hdt Rc) as T. split; [exact (tx_nd _ _ T)|]. split; [exact (tx_lt _ _ T)|].
  intros r Hr. destruct (tx_stage _ _ T r Hr) as [A B _ _|v A B _ _ _ _|v t A B _ _ _ _ _|v t t' A B _ _ _ _ _ _]; unfold assigned in *; split; intro K; try tauto; congruence.
Qed.

Lemma step_kept : forall c P w w' r, (0 <= dt c)%Q -> reach c w -> step c P w w' -> r < w_nr w -> kept w w' r /\ w_nr w <= w_nr w'.
Proof.
  intros c P w w' r Hdt Rc S Hr. pose proof (reach_TX _ _ Hdt Rc) as T. pose proof (reach_Inv2 _ _ Rc) as I.
  destruct S as [a o b K1 K2 K3 K4|a b K1 K2|a].
  - destruct (op_taxi c o a b K1 K3 K4) as [o Q E|u d i E|oo d t E|u k Hu E].
    + rewrite (q_nr _ _ Q). split; [|auto]. apply kept_same; [apply (q_R _ _ Q)|unfold pending; rewrite (q_pd _ _ Q); auto].
    + apply add_dest_ok in E. destruct E as (_ & _ & _ & B & A & _). unfold wtx in A. injection A as A1 A2 A3 _ _ _. split; [|lia].
      apply kept_same; [unfold R; rewrite B; reflexivity|unfold pending; rewrite A3; auto].
    + unfold add_trip_request in E. destruct (negb _); [discriminate|]. injection E as <-. split; [|cbn; lia].
      apply kept_same; [unfold R; cbn; apply upd_other; lia|]. unfold pending. cbn. intro K. apply in_app_iff in K. destruct K as [K|[K|[]]]; [exact K|lia].
    + apply assign_ok in E. destruct E as (A1 & _ & _ & _ & A2 & _ & A3 & A4 & _). split; [|lia].
      assert (Kp : pending b r -> pending a r) by (unfold pending; rewrite A4; apply remove_first_sub).
      destruct (Nat.eq_dec r k) as [-> | Hne].
      * assert (Et : r_taxi (R a k) = None) by (apply (pending_lemma c a Hdt Rc); auto).
        unfold kept. rewrite A2, Nat.eqb_refl. cbn. rewrite Et. repeat split; auto. discriminate.
      * apply kept_same; [|exact Kp]. rewrite A2. apply Nat.eqb_neq in Hne. rewrite Hne. reflexivity.
  - apply tick_fr in K2. destruct K2 as (w1 & Hb & ->). change (w_nr (sw_T (S (w_T a)) w1)) with (w_nr w1). rewrite (fr_w_nr (body_fr _ _ Hb)). split; [|auto].
    change (kept a w1 r). apply (run_kept _ _ _ _ I T (body_run _ _ Hb)).
  - split; [|auto]. apply kept_same; auto.
Qed.
Theorem history_lemma : forall c P w w' r, (0 <= dt c)%Q -> reach c w -> later c P w w' -> r < w_nr w -> r < w_nr w' /\ kept w w' r.
Proof.
  intros c P w w' r Hdt Rc H Hr. induction H as [|a b H IH S]; [split; [exact Hr|apply kept_refl]|].
  destruct IH as [A B]. destruct (step_kept c P a b r Hdt (later_reach c P w a Rc H) S A) as [C D]. split; [lia|]. eapply kept_trans; eauto.
Qed.
