(** * Phases: invariants that hold in some phases of the timestep only. *)
From Verif Require Import Base Types Sim Build Heap FrameBase Tac Frame Lists Inv Eff Eff2 Trace InvStep Reach Steps.

(** events of the link, node and transfer phases; of the vehicle and route phases *)
Definition k_first (e : ev) : bool :=
  match e with VTime => true | _ => k_links e || k_nodes e || k_transfer e end.
Definition k_last (e : ev) : bool :=
  match e with VTime => true | _ => k_vehicles e || k_route e end.

(** the clock stands still outside timesteps *)
Lemma finalize_T : forall c tm w w', finalize c tm w = Ok w' -> w_T w' = 0.
Proof.
  intros c tm w w' H0. unfold finalize in H0. cbn zeta in H0.
  apply bind_ok in H0. destruct H0 as (w1 & E & H0). injection H0 as <-.
  assert (w_T w1 = 0).
  { apply (foldM_inv (fun x => w_T x = 0)) in E; auto.
    intros l x x' _ Hx K. unfold init_after_tmax_fix in K. cbn zeta in K. binv K; auto. }
  destruct (c_adjust c); [|exact H].
  match goal with |- w_T (sw_final _ (sw_avgcnt _ (sw_avgspd _ (fold_left ?f ?xs ?x)))) = _ =>
    enough (forall xs' x', w_T x' = 0 -> w_T (fold_left f xs' x') = 0) as Hf by (apply Hf; exact H) end.
  intros xs'; induction xs' as [|n xs' IH]; intros x' Hx; cbn; auto. apply IH.
  unfold adjust_node_capacity. destruct (n_fcap _); auto. destruct (map _ _); auto. destruct (map _ _); auto.
Qed.

(** ** [finalize_scenario], exactly *)
Definition readied (a b : node) : Prop :=
  b = a \/ exists x y z, b = sn_lanes x (sn_fcapr y (sn_fcap z a)).
Record finalized (c : cfg) (w w' : world) : Prop := mkFinalized {
  fz_V : w_vehs w' = w_vehs w;
  fz_L : forall l, exists q, L w' l = sl_tta q (L w l);
  fz_N : forall n, readied (N w n) (N w' n);
  fz_R : w_reqs w' = w_reqs w;
  fz_cnt : (w_nn w', w_nl w', w_nv w', w_nr w', w_living w', w_running w', w_pending w', w_prefveh w', w_draw w') =
           (w_nn w, w_nl w, w_nv w, w_nr w, w_living w, w_running w, w_pending w, w_prefveh w, w_draw w);
  fz_final : w_final w' = true;
  fz_T : w_T w' = 0;
  fz_TIME : w_TIME w' = 0%Q }.

Lemma readied_trans : forall a b d, readied a b -> readied b d -> readied a d.
Proof.
  intros a b d [-> | (x & y & z & ->)] [-> | (x' & y' & z' & ->)]; try (left; reflexivity);
  right; do 3 eexists; reflexivity.
Qed.

Lemma finalize_ok : forall c tm w w', finalize c tm w = Ok w' -> finalized c w w'.
Proof.
  intros c tm w w' H. pose proof (finalize_T _ _ _ _ H) as HT. unfold finalize in H. cbn zeta in H.
  apply bind_ok in H. destruct H as (w1 & E & H). injection H as <-.
  set (w0 := sw_tsize _ _) in E.
  assert (P : w_vehs w1 = w_vehs w /\ (forall l, exists q, L w1 l = sl_tta q (L w l)) /\ w_nodes w1 = w_nodes w /\
     w_reqs w1 = w_reqs w /\
     (w_nn w1, w_nl w1, w_nv w1, w_nr w1, w_living w1, w_running w1, w_pending w1, w_prefveh w1, w_draw w1) =
     (w_nn w, w_nl w, w_nv w, w_nr w, w_living w, w_running w, w_pending w, w_prefveh w, w_draw w) /\ w_TIME w1 = 0%Q).
  { apply (foldM_inv (fun x => w_vehs x = w_vehs w /\ (forall l, exists q, L x l = sl_tta q (L w l)) /\ w_nodes x = w_nodes w /\
     w_reqs x = w_reqs w /\
     (w_nn x, w_nl x, w_nv x, w_nr x, w_living x, w_running x, w_pending x, w_prefveh x, w_draw x) =
     (w_nn w, w_nl w, w_nv w, w_nr w, w_living w, w_running w, w_pending w, w_prefveh w, w_draw w) /\ w_TIME x = 0%Q)) in E; auto.
    - intros l x x' _ (X1 & X2 & X3 & X4 & X5 & X6) K. unfold init_after_tmax_fix in K. cbn zeta in K.
      apply bind_ok in K. destruct K as (dx & _ & K). apply bind_ok in K. destruct K as (q1 & _ & K).
      apply bind_ok in K. destruct K as (q2 & _ & K). apply bind_ok in K. destruct K as (ff & _ & K). injection K as <-.
      split; [exact X1|]. split; [|split; [exact X3|split; [exact X4|split; [exact X5|exact X6]]]].
      intro k. rewrite L_at. destruct (Nat.eqb k l); [|apply X2]. destruct (X2 k) as (q & ->). eexists; reflexivity.
    - split; [reflexivity|]. split; [|auto]. intro l. exists (l_tta (L w l)). unfold w0. change (L _ l) with (L w l) at 1.
      destruct (L w l); reflexivity. }
  destruct P as (P1 & P2 & P3 & P4 & P5 & P6).
  assert (A : forall ns x, w_vehs x = w_vehs w /\ (forall l, exists q, L x l = sl_tta q (L w l)) /\ (forall n, readied (N w n) (N x n)) /\
     w_reqs x = w_reqs w /\
     (w_nn x, w_nl x, w_nv x, w_nr x, w_living x, w_running x, w_pending x, w_prefveh x, w_draw x) =
     (w_nn w, w_nl w, w_nv w, w_nr w, w_living w, w_running w, w_pending w, w_prefveh w, w_draw w) /\ w_TIME x = 0%Q ->
     let y := fold_left (fun w n => adjust_node_capacity c n w) ns x in
     w_vehs y = w_vehs w /\ (forall l, exists q, L y l = sl_tta q (L w l)) /\ (forall n, readied (N w n) (N y n)) /\
     w_reqs y = w_reqs w /\
     (w_nn y, w_nl y, w_nv y, w_nr y, w_living y, w_running y, w_pending y, w_prefveh y, w_draw y) =
     (w_nn w, w_nl w, w_nv w, w_nr w, w_living w, w_running w, w_pending w, w_prefveh w, w_draw w) /\ w_TIME y = 0%Q).
  { intro ns; induction ns as [|n ns IH]; intros x Hx; cbv zeta; cbn [fold_left]; [exact Hx|]. apply IH.
    unfold adjust_node_capacity. destruct (n_fcap (N x n)); [exact Hx|]. destruct (map _ _); [exact Hx|].
    destruct (map _ _); [exact Hx|]. destruct Hx as (X1 & X2 & X3 & X4 & X5 & X6).
    split; [exact X1|]. split; [exact X2|]. split; [|auto].
    intro k. rewrite N_at. destruct (Nat.eqb k n) eqn:Ek; [|apply X3].
    eapply readied_trans; [apply X3|]. right. do 3 eexists; reflexivity. }
  assert (R1 : forall n, readied (N w n) (N w1 n)) by (intro n; left; unfold N; rewrite P3; reflexivity).
  destruct (c_adjust c).
  - match goal with |- finalized _ _ (sw_final _ (sw_avgcnt _ (sw_avgspd _ (fold_left ?f ?xs ?x)))) =>
      destruct (A xs x) as (B1 & B2 & B3 & B4 & B5 & B6); [repeat split; auto|] end.
    constructor; auto.
  - constructor; auto.
Qed.

Definition clock0 (w : world) : Prop := w_final w = false -> w_T w = 0.
Lemma ostep_clock : forall c w w', ostep c w w' -> clock0 w -> clock0 w' /\ w_T w' = w_T w.
Proof.
  intros c w w' H C. unfold clock0 in *. destruct H; unfold wkeep in *; try (cbn; auto; fail).
  - rewrite (finalize_T _ _ _ _ H0), (C H). auto.
  - replace (w_final w') with (w_final w) by congruence. replace (w_T w') with (w_T w) by congruence. auto.
  - replace (w_final w') with (w_final w) by congruence. replace (w_T w') with (w_T w) by congruence. auto.
Qed.
Lemma reach_clock : forall c w, reach c w -> clock0 w.
Proof.
  intros c w H. induction H as [tm|w o w' H IH Hok Hx E|w w' H IH Hf E|w H IH]; auto.
  - intro; reflexivity.
  - apply apply_op_osteps in E; auto. clear - E IH. induction E; auto. apply IHE. eapply ostep_clock; eauto.
  - intro K. rewrite (tick_final _ _ _ E) in K. congruence.
Qed.

Section Scheme.
Variables (c : cfg) (A F B : world -> pend -> Prop).
Hypothesis HA : forall e w p w' p', k_first e = true -> Inv2 w p -> A w p -> mstep c e w p w' p' -> A w' p'.
Hypothesis HAF : forall w, Inv2 w None -> A w None -> F w None.
Hypothesis HF : forall e w p w' p', k_follow e = true -> Inv2 w p -> F w p -> mstep c e w p w' p' -> F w' p'.
Hypothesis HFB : forall w, Inv2 w None -> F w None -> B w None.
Hypothesis HB : forall e w p w' p', k_last e = true -> Inv2 w p -> B w p -> mstep c e w p w' p' -> B w' p'.

Lemma run_with : forall (J : world -> pend -> Prop) K,
  (forall e w p w' p', K e = true -> Inv2 w p -> J w p -> mstep c e w p w' p' -> J w' p') ->
  forall w w', Inv2 w None -> J w None -> run c K w w' -> Inv2 w' None /\ J w' None.
Proof.
  intros J K H w w' I Hj R. eapply run_inv with (I := fun w p => Inv2 w p /\ J w p); [|exact R|auto].
  intros e x p x' p' He [I2 J2] M. split; [eapply mstep_Inv2; eauto|eauto].
Qed.

Lemma body_phase : forall w w', Inv2 w None -> A w None -> body c w = Ok w' -> B w' None.
Proof.
  intros w w' I Ha H. apply body_runs in H.
  destruct H as (w1 & w2 & w3 & w4 & w5 & w6 & E1 & E2 & E3 & E4 & E5 & E6 & ->).
  apply phase_links_run in E1. apply phase_nodes_run in E2. apply phase_transfer_run in E3.
  apply phase_follow_run in E4. apply phase_vehicles_run in E5. apply route_phase_run in E6.
  destruct (run_with A k_first HA w w3 I Ha) as [I3 A3].
  { eapply run_trans; [|eapply run_trans]; eapply run_weaken; try eassumption;
    intros [] K; try discriminate K; reflexivity. }
  destruct (run_with F k_follow HF w3 w4 I3 (HAF _ I3 A3) E4) as [I4 F4].
  destruct (run_with B k_last HB w4 (sw_TIME (now c w6) w6) I4 (HFB _ I4 F4)) as [I6 B6]; auto.
  eapply run_trans; [|eapply run_trans].
  1,2: eapply run_weaken; try eassumption; intros [] K; try discriminate K; reflexivity.
  eapply run_one with (e := VTime); [reflexivity|constructor].
Qed.

Hypothesis H0 : forall tm, A (empty_world tm) None.
Hypothesis HBA : forall w, w_final w = true -> Inv2 w None -> B w None -> A (sw_T (S (w_T w)) w) None.

Lemma tick_phase : forall w w', w_final w = true -> Inv2 w None -> A w None -> tick c w = Ok w' -> A w' None.
Proof.
  intros w w' Hf I Ha H. apply tick_fr in H. destruct H as (w1 & E & ->).
  replace (w_T w) with (w_T w1) by exact (fr_w_T (body_fr _ _ E)). apply HBA.
  - rewrite (fr_w_final (body_fr _ _ E)). auto.
  - eapply (run_with (fun _ _ => True) k_all); eauto. apply body_run in E. exact E.
  - eapply body_phase; eauto.
Qed.

Lemma time_phase : forall w, Inv2 w None -> A w None -> A (sw_TIME (now c w) w) None.
Proof. intros w I Ha. eapply (HA VTime w None); eauto. constructor. Qed.

(** operations given as primitive steps *)
Theorem reach_phase :
  (forall w w', Inv2 w None -> clock0 w -> A w None -> ostep c w w' -> A w' None) ->
  forall w, reach c w -> A w None.
Proof.
  intros Ho w H. induction H as [tm|w o w' H IH Hok Hx E|w w' H IH Hf E|w H IH].
  - apply H0.
  - pose proof (reach_Inv2 _ _ H) as I. pose proof (reach_clock _ _ H) as C.
    apply apply_op_osteps in E; auto. clear H Hok. induction E; auto.
    apply IHE; [eapply Ho; eauto|eapply ostep_Inv2; eauto|eapply ostep_clock; eauto].
  - eapply tick_phase; eauto. eapply reach_Inv2; eauto.
  - apply time_phase; auto. eapply reach_Inv2; eauto.
Qed.

(** restricted operations *)
Theorem reachP_phase : forall P,
  (forall o w w', reachP c P w -> Inv2 w None -> A w None -> op_ok o w -> P o w ->
     (forall a, o <> OExec a) -> apply_op c o w = Ok w' -> A w' None) ->
  forall w, reachP c P w -> A w None.
Proof.
  intros P Ho w H. apply (reachP_ind' c P (fun w => A w None)); [auto| |exact H].
  intros a b R Ha S. pose proof (reach_Inv2 _ _ (reachP_reach _ _ _ R)) as I. destruct S as [a o b K1 K2 K3 K4|a b K1 K2|a].
  - eapply Ho; eauto.
  - eapply tick_phase; eauto.
  - apply time_phase; auto.
Qed.
End Scheme.
