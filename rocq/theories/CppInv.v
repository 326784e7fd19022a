(** * CppInv: the compiled engine keeps the books.

    The invariants of the Python engine (every vehicle in exactly one place, first in first out, cumulative curves that count the
    vehicles, ...) were shown for its timestep.  Here they are shown for the timestep of the compiled engine
    (uxsim/trafficpp/traffi.cpp 1681-1860 as modelled in [Cpp]), which differs in the order in which vehicles are treated, in
    the signals, in the capacities and in the car-following.

    Simplification: the building operations and queries between the timesteps are those of the Python model, which the wrapper
    (uxsim/uxsim_cpp_wrapper.py) offers under the same names. *)
From Verif Require Import Base Types Sim Build Heap Lists Inv FrameBase Tac Frame Eff Eff2 Trace InvStep Reach Steps Effects Phases Attr Life Incoming Vev Ride TripLog Route Signal Green Choice Enforce Counts LinkQueries FD NodeCap Origin Bucket Outflow Trials Motion Spacing Spec Distance Totals State.
From Verif Require Import Cpp SpecCpp CppOK CppOK2 CppLoop.
Local Open Scope nat_scope.

(** The states of the compiled engine: building operations and its timesteps, in any order *)
Inductive creach (c : cfg) : world -> Prop :=
| cr_init : forall tmax, creach c (empty_world tmax)
| cr_op : forall w o w', creach c w -> op_ok o w -> (forall a, o <> OExec a) -> apply_op c o w = Ok w' -> creach c w'
| cr_tick : forall w w', creach c w -> w_final w = true -> cpp_tick c w = Ok w' -> creach c w'.

(** ** A timestep of the compiled engine, cut into elementary steps *)

(** The four parts of a timestep: links, nodes, car-following, vehicles *)
Inductive phase := PhLinks | PhNodes | PhFollow | PhVehicles.

(** The steps shared with the Python engine *)
Definition k_cpp (ph : phase) (e : ev) : bool :=
  match ph with PhNodes => k_first e && not_link e | PhVehicles => k_last e | _ => false end.

(** Its own ones *)
Inductive cpart (c : cfg) : phase -> world -> world -> Prop :=
| cp_link : forall l w w', l < w_nl w -> cpp_link_update c l w = Ok w' -> cpart c PhLinks w w'
| cp_node : forall n nd w, n < w_nn w -> cpp_signal_update c (N w n) = Ok nd ->
    cpart c PhNodes w (modn n (fun _ => cpp_flow_capacity_update c nd) w)
| cp_sort : forall n w, n < w_nn w -> cpart c PhNodes w (modn n (fun nd => sn_incoming (sort_ids (n_incoming nd)) nd) w)
| cp_follow : forall v w w', cpp_follow c v w = Ok w' -> cpart c PhFollow w w'.

Inductive cchain (c : cfg) (b : phase) (w : world) : world -> Prop :=
| cc_refl : cchain c b w w
| cc_part : forall w1 w2, cchain c b w w1 -> cpart c b w1 w2 -> cchain c b w w2
| cc_run : forall w1 w2, cchain c b w w1 -> run c (k_cpp b) w1 w2 -> cchain c b w w2.
Lemma cchain_trans : forall c b w1 w2 w3, cchain c b w1 w2 -> cchain c b w2 w3 -> cchain c b w1 w3.
Proof. intros c b w1 w2 w3 H K. induction K as [|a d K IH P|a d K IH P]; [exact H|eapply cc_part; eauto|eapply cc_run; eauto]. Qed.

(** What the own steps leave alone *)
Lemma cpart_ceq : forall c b w w', cpart c b w w' -> fr w w' /\ ceq w w' /\ forall v, v_next (V w' v) = v_next (V w v).
Proof.
  intros c b w w' H. destruct H as [l w w' _ H|n nd w _ H|n w _|v w w' H].
  - split; [eapply cpp_link_fr; eauto|]. unfold cpp_link_update in H. injection H as <-. split; [|reflexivity].
    apply ceq_modl; cbn; unfold cpp_caps; cbv zeta; repeat match goal with |- context [if ?b then _ else _] => destruct b end; cbn; repeat match goal with |- context [match l_cin ?k with _ => _ end] => destruct (l_cin k) end; try reflexivity; repeat match goal with |- context [if ?b then _ else _] => destruct b end; reflexivity.
  - apply cpp_signal_stat in H. destruct H as (A & B & _). destruct (cpp_fcap_stat c nd) as (A' & B' & _). split; [|split; [|reflexivity]].
    + apply fr_modn. rewrite A'. exact A.
    + apply ceq_modn. rewrite B'. exact B.
  - split; [|split; [|reflexivity]]; [apply fr_modn|apply ceq_modn]; reflexivity.
  - split; [eapply cpp_follow_fr; eauto|]. unfold cpp_follow in H. apply bind_ok in H. destruct H as (l & _ & H). cbv zeta in H. injection H as <-. split.
    + apply ceq_modv. match goal with |- context [if qlt ?a ?b then sv_xnext _ _ else _] => destruct (qlt a b) end; reflexivity.
    + intro u. rewrite V_modv. destruct (Nat.eqb u v) eqn:E; [|reflexivity]. apply Nat.eqb_eq in E; subst u. match goal with |- context [if qlt ?a ?b then sv_xnext _ _ else _] => destruct (qlt a b) end; reflexivity.
Qed.
Lemma cpart_Inv2 : forall c b w w', Inv2 w None -> cpart c b w w' -> Inv2 w' None.
Proof.
  intros c b w w' [I J] H. apply cpart_ceq in H. destruct H as (F & C & N). split; [eapply Inv1_ceq; eauto|].
  eapply pair_NextInv; [exact F|intro v; left; apply N|exact J].
Qed.
Lemma cchain_Inv2 : forall c b w w', Inv2 w None -> cchain c b w w' -> Inv2 w' None.
Proof. intros c b w w' I H. induction H as [|a d H IH P|a d H IH P]; [exact I|eapply cpart_Inv2; eauto|eapply run_Inv2'; eauto]. Qed.
Lemma cchain_fr : forall c b w w', cchain c b w w' -> fr w w'.
Proof.
  intros c b w w' H. induction H as [|a d H IH P|a d H IH P]; [apply fr_refl|eapply fr_trans; [exact IH|apply (cpart_ceq _ _ _ _ P)]|].
  destruct P as (es & _ & T). eapply fr_trans; [exact IH|exact (trace_fr T)].
Qed.
Lemma cc_run' : forall c b K w w', run c K w w' -> (forall e, K e = true -> k_cpp b e = true) -> cchain c b w w'.
Proof. intros c b K w w' H S. eapply cc_run; [apply cc_refl|]. eapply run_weaken; eauto. Qed.

(** ** The phases *)
Lemma links_chain : forall c ls w w', Forall (fun l => l < w_nl w) ls -> foldM (cpp_link_update c) ls w = Ok w' -> cchain c PhLinks w w'.
Proof.
  intros c ls. induction ls as [|l ls IH]; intros w w' H E; cbn [foldM] in E; [injection E as <-; apply cc_refl|].
  apply bind_ok in E. destruct E as (w1 & E1 & E). inversion H as [|? ? Hl Hr]; subst. eapply cchain_trans; [eapply cc_part; [apply cc_refl|econstructor; eauto]|].
  apply IH; [|exact E]. apply cpp_link_fr in E1. eapply Forall_impl; [|exact Hr]. intros a Ha. cbn in Ha |- *. rewrite (fr_w_nl E1). exact Ha.
Qed.
Lemma node_chain : forall c n w w', n < w_nn w -> cpp_node_step c n w = Ok w' -> cchain c PhNodes w w'.
Proof.
  intros c n w w' Hn H. unfold cpp_node_step in H. apply bind_ok in H. destruct H as (w1 & G & H). apply bind_ok in H. destruct H as (nd & S1 & H). injection H as <-.
  pose proof (generate_frs _ _ _ G) as F. apply frs_fr in F. unfold generate in G. apply gen_loop_run in G; [|exact Hn].
  eapply cc_part; [eapply cc_run'; [exact G|intros [] K; try discriminate K; reflexivity]|]. apply cp_node; [rewrite (fr_w_nn F); exact Hn|exact S1].
Qed.
Lemma transfer_chain : forall c n w w', n < w_nn w -> cpp_transfer c n w = Ok w' -> cchain c PhNodes w w'.
Proof.
  intros c n w w' Hn H. unfold cpp_transfer in H. apply transfer_run in H; [|exact Hn].
  eapply cchain_trans; [eapply cc_part; [apply cc_refl|apply cp_sort; exact Hn]|]. eapply cc_run'; [exact H|intros [] K; try discriminate K; reflexivity].
Qed.
Lemma nodes_chain : forall c (f : nid -> world -> result world), (forall n w w', n < w_nn w -> f n w = Ok w' -> cchain c PhNodes w w') ->
  forall ns w w', Forall (fun n => n < w_nn w) ns -> foldM f ns w = Ok w' -> cchain c PhNodes w w'.
Proof.
  intros c f Hf ns. induction ns as [|n ns IH]; intros w w' H E; cbn [foldM] in E; [injection E as <-; apply cc_refl|].
  apply bind_ok in E. destruct E as (w1 & E1 & E). inversion H as [|? ? Hl Hr]; subst. apply Hf in E1; [|exact Hl]. eapply cchain_trans; [exact E1|].
  apply IH; [|exact E]. apply cchain_fr in E1. eapply Forall_impl; [|exact Hr]. intros a Ha. cbn in Ha |- *. rewrite (fr_w_nn E1). exact Ha.
Qed.
Lemma follow_chain : forall c vs w w', foldM (cpp_follow c) vs w = Ok w' -> cchain c PhFollow w w'.
Proof.
  intros c vs. induction vs as [|v vs IH]; intros w w' E; cbn [foldM] in E; [injection E as <-; apply cc_refl|].
  apply bind_ok in E. destruct E as (w1 & E1 & E). eapply cchain_trans; [eapply cc_part; [apply cc_refl|eapply cp_follow; eauto]|]. apply IH; exact E.
Qed.

(** Vehicles that live are updated one after the other *)
Lemma update_chain : forall c vs w w', Inv2 w None -> NoDup vs -> Forall (fun v => v < w_nv w /\ alive (v_state (V w v))) vs ->
  foldM (veh_update c) vs w = Ok w' -> cchain c PhVehicles w w'.
Proof.
  intros c vs. induction vs as [|v vs IH]; intros w w' I Nd H E; cbn [foldM] in E; [injection E as <-; apply cc_refl|].
  apply bind_ok in E. destruct E as (w1 & E1 & E). inversion H as [|? ? Hv Hr]; subst. inversion Nd as [|? ? Nv Nd']; subst.
  assert (Lv : In v (w_living w)) by (apply (s_living (proj2 (proj1 I))); exact Hv).
  pose proof (veh_update_other c v w w1 I Lv E1) as Oth. pose proof (frs_fr (veh_update_frs _ _ _ E1)) as F. apply veh_update_run in E1; [|exact Lv].
  eapply cchain_trans; [eapply cc_run'; [exact E1|intros [] K; try discriminate K; reflexivity]|]. apply IH; [eapply run_Inv2'; eauto|exact Nd'| |exact E].
  rewrite Forall_forall in Hr |- *. intros u Hu. destruct (Hr u Hu) as [A B]. rewrite (fr_w_nv F). split; [exact A|].
  assert (Ne : u <> v) by (intros ->; contradiction). destruct (vcalm_eq _ _ (Oth u Ne)) as (St & _). rewrite St. exact B.
Qed.
Lemma vehicles_chain : forall c w w', Inv2 w None -> cpp_phase_vehicles c w = Ok w' -> cchain c PhVehicles w w'.
Proof.
  intros c w w' I H. unfold cpp_phase_vehicles in H. apply bind_ok in H. destruct H as (w1 & H1 & H). apply bind_ok in H. destruct H as (w2 & H2 & H).
  assert (C1 : cchain c PhVehicles w w1).
  { clear H H2. revert I H1. generalize (seq 0 (w_nl w)). intros ls. revert w w1. induction ls as [|l ls IH]; intros w w1 I H1; cbn [foldM] in H1; [injection H1 as <-; apply cc_refl|].
    apply bind_ok in H1. destruct H1 as (x & E1 & H1). assert (C : cchain c PhVehicles w x).
    { eapply update_chain; [exact I| | |exact E1].
      - pose proof (s_D_nd (proj2 (proj1 I)) l) as Nd. rewrite Dq_none in Nd. exact Nd.
      - apply Forall_forall. intros v Hv. rewrite <- Dq_none in Hv. apply (s_D (proj2 (proj1 I))) in Hv. destruct Hv as (A & B & _). split; [exact A|]. rewrite B. right; right; reflexivity. }
    eapply cchain_trans; [exact C|]. apply IH; [eapply cchain_Inv2; eauto|exact H1]. }
  pose proof (cchain_Inv2 _ _ _ _ I C1) as I1. assert (C2 : cchain c PhVehicles w1 w2).
  { clear H H1 C1 I. revert I1 H2. generalize (seq 0 (w_nn w1)). intros ns. revert w1 w2. induction ns as [|n ns IH]; intros w1 w2 I H1; cbn [foldM] in H1; [injection H1 as <-; apply cc_refl|].
    apply bind_ok in H1. destruct H1 as (x & E1 & H1). assert (C : cchain c PhVehicles w1 x).
    { eapply update_chain; [exact I|apply (s_queue_nd (proj2 (proj1 I)))| |exact E1].
      apply Forall_forall. intros v Hv. apply (s_queue (proj2 (proj1 I))) in Hv. destruct Hv as (A & B & _). split; [exact A|]. rewrite B. right; left; reflexivity. }
    eapply cchain_trans; [exact C|]. apply IH; [eapply cchain_Inv2; eauto|exact H1]. }
  pose proof (cchain_Inv2 _ _ _ _ I1 C2) as I2. eapply cchain_trans; [exact C1|]. eapply cchain_trans; [exact C2|].
  eapply update_chain; [exact I2|apply NoDup_filter; apply (s_living_nd (proj2 (proj1 I2)))| |exact H].
  apply Forall_forall. intros v Hv. apply filter_In in Hv. destruct Hv as [Hv _]. apply (s_living (proj2 (proj1 I2))). exact Hv.
Qed.

(** A timestep: first the links, then the nodes, the car-following and the vehicles *)
Lemma cpp_body_chain : forall c w w', Inv2 w None -> cpp_body c w = Ok w' -> exists w1 w3 w4,
  foldM (cpp_link_update c) (seq 0 (w_nl w)) w = Ok w1 /\ cchain c PhLinks w w1 /\ cchain c PhNodes w1 w3 /\ cchain c PhFollow w3 w4 /\ cchain c PhVehicles w4 w'.
Proof.
  intros c w w' I H. unfold cpp_body in H.
  apply bind_ok in H. destruct H as (w1 & H1 & H). apply bind_ok in H. destruct H as (w2 & H2 & H). apply bind_ok in H. destruct H as (w3 & H3 & H).
  apply bind_ok in H. destruct H as (w4 & H4 & H). apply bind_ok in H. destruct H as (w5 & H5 & H). apply bind_ok in H. destruct H as (w6 & H6 & H). injection H as <-.
  assert (C1 : cchain c PhLinks w w1) by (eapply links_chain; [|exact H1]; apply Forall_forall; intros l Hl; apply in_seq in Hl; lia).
  assert (C2 : cchain c PhNodes w1 w2) by (eapply nodes_chain; [| |exact H2]; [intros; eapply node_chain; eauto|apply Forall_forall; intros l Hl; apply in_seq in Hl; lia]).
  assert (C3 : cchain c PhNodes w2 w3) by (eapply nodes_chain; [| |exact H3]; [intros; eapply transfer_chain; eauto|apply Forall_forall; intros l Hl; apply in_seq in Hl; lia]).
  assert (C4 : cchain c PhFollow w3 w4) by (eapply follow_chain; exact H4).
  assert (I4 : Inv2 w4 None) by (repeat (eapply cchain_Inv2; [|eassumption]); exact I).
  apply vehicles_chain in H5; [|exact I4]. apply route_phase_run in H6. exists w1, w3, w4. split; [exact H1|]. split; [exact C1|].
  split; [eapply cchain_trans; [exact C2|exact C3]|]. split; [exact C4|]. eapply cchain_trans; [exact H5|].
  eapply cchain_trans; [eapply cc_run'; [exact H6|intros [] K; try discriminate K; reflexivity]|]. eapply cc_run' with (K := k_last); [eapply run_one with (e := VTime); [reflexivity|constructor]|auto].
Qed.
Lemma cpp_tick_body : forall c w w', cpp_tick c w = Ok w' -> exists w1, cpp_body c w = Ok w1 /\ w' = sw_T (S (w_T w)) w1.
Proof. intros c w w' H. unfold cpp_tick in H. apply bind_ok in H. destruct H as (w1 & H & E). injection E as <-. exists w1. split; [exact H|]. rewrite (fr_w_T (cpp_body_fr _ _ _ H)). reflexivity. Qed.
Lemma cpp_tick_Inv2 : forall c w w', Inv2 w None -> cpp_tick c w = Ok w' -> Inv2 w' None.
Proof.
  intros c w w' I H. apply cpp_tick_body in H. destruct H as (w1 & H & ->). apply cpp_body_chain in H; [|exact I]. destruct H as (wa & wb & wc & _ & A & B & C & D).
  eapply Inv2_same with (w := w1); try reflexivity. repeat (eapply cchain_Inv2; [|eassumption]). exact I.
Qed.
Theorem creach_Inv2 : forall c w, creach c w -> Inv2 w None.
Proof. intros c w H. induction H as [tm|w o w' H IH _ Hx E|w w' H IH _ E]; [apply empty_Inv2|eapply op_Inv2; eauto|eapply cpp_tick_Inv2; eauto]. Qed.

(** ** Every vehicle is in exactly one place *)
Theorem cpp_books : forall c w, creach c w -> books_agree w.
Proof. intros c w H. apply Inv1_books. exact (proj1 (creach_Inv2 c w H)). Qed.

(** ** What holds of every later state *)
Inductive clater (c : cfg) (w : world) : world -> Prop :=
| cl_refl : clater c w w
| cl_op : forall w1 o w2, clater c w w1 -> op_ok o w1 -> (forall a, o <> OExec a) -> apply_op c o w1 = Ok w2 -> clater c w w2
| cl_tick : forall w1 w2, clater c w w1 -> w_final w1 = true -> cpp_tick c w1 = Ok w2 -> clater c w w2.
Lemma clater_creach : forall c w w', creach c w -> clater c w w' -> creach c w'.
Proof. intros c w w' R H. induction H as [|w1 o w2 H IH A B E|w1 w2 H IH F E]; [exact R|eapply cr_op; eauto|eapply cr_tick; eauto]. Qed.
Lemma creach_clater : forall c w, creach c w -> exists tm, clater c (empty_world tm) w.
Proof.
  intros c w H. induction H as [tm|w o w' H [tm IH] A B E|w w' H [tm IH] F E].
  - exists tm. apply cl_refl.
  - exists tm. eapply cl_op; eauto.
  - exists tm. eapply cl_tick; eauto.
Qed.
Lemma cchain_rel : forall c (Rel : world -> pend -> world -> pend -> Prop) b, (forall w p, Rel w p w p) -> (forall a p b q d r, Rel a p b q -> Rel b q d r -> Rel a p d r) ->
  (forall e w p w' p', k_cpp b e = true -> Inv2 w p -> mstep c e w p w' p' -> Rel w p w' p') -> (forall w w', Inv2 w None -> cpart c b w w' -> Rel w None w' None) ->
  forall w w', Inv2 w None -> cchain c b w w' -> Rel w None w' None.
Proof.
  intros c Rel b Hr Ht Hm Hp w w' I H. enough (Inv2 w' None /\ Rel w None w' None) by tauto. induction H as [|a d H IH P|a d H IH P].
  - split; [exact I|apply Hr].
  - destruct IH as [Ia Ra]. split; [eapply cpart_Inv2; eauto|]. eapply Ht; [exact Ra|]. eapply Hp; eauto.
  - destruct IH as [Ia Ra]. eapply run_inv with (I := fun x p => Inv2 x p /\ Rel w None x p); [|exact P|auto].
    intros e x p x' p' He [I2 J2] M. split; [eapply mstep_Inv2; eauto|]. eapply Ht; [exact J2|]. eapply Hm; eauto.
Qed.
Theorem clater_relp : forall c (Rel : world -> pend -> world -> pend -> Prop), (forall w p, Rel w p w p) -> (forall a p b q d r, Rel a p b q -> Rel b q d r -> Rel a p d r) ->
  (forall e w p w' p', Inv2 w p -> mstep c e w p w' p' -> Rel w p w' p') -> (forall b w w', Inv2 w None -> cpart c b w w' -> Rel w None w' None) ->
  (forall w, Rel w None (sw_T (S (w_T w)) w) None) -> (forall w w', Inv2 w None -> ostep c w w' -> Rel w None w' None) ->
  forall w w', creach c w -> clater c w w' -> Rel w None w' None.
Proof.
  intros c Rel Hr Ht Hm Hp HT Ho w w' R H. induction H as [|w1 o w2 H IH A B E|w1 w2 H IH F E]; [apply Hr| |].
  - pose proof (creach_Inv2 _ _ (clater_creach _ _ _ R H)) as I1. eapply Ht; [exact IH|]. apply apply_op_osteps in E; auto. clear - E I1 Hr Ht Ho. induction E; auto.
    eapply Ht; [eapply Ho; eauto|apply IHE; eapply ostep_Inv2; eauto].
  - pose proof (creach_Inv2 _ _ (clater_creach _ _ _ R H)) as I1. eapply Ht; [exact IH|]. apply cpp_tick_body in E. destruct E as (w3 & E & ->).
    replace (w_T w1) with (w_T w3) by exact (fr_w_T (cpp_body_fr _ _ _ E)). eapply Ht; [|apply HT].
    apply cpp_body_chain in E; [|exact I1]. destruct E as (wa & wb & wc & _ & C1 & C2 & C3 & C4).
    pose proof (cchain_Inv2 _ _ _ _ I1 C1) as Ia. pose proof (cchain_Inv2 _ _ _ _ Ia C2) as Ib. pose proof (cchain_Inv2 _ _ _ _ Ib C3) as Ic.
    eapply Ht; [eapply cchain_rel; eauto|]. eapply Ht; [eapply cchain_rel; eauto|]. eapply Ht; eapply cchain_rel; eauto.
Qed.

(** ** The order of the vehicles on the links and the cumulative curves *)
Lemma cpp_caps_hist : forall c k, lhist (cpp_caps c k) = lhist k.
Proof. intros c k. unfold cpp_caps. cbv zeta. repeat match goal with |- context [if ?b then _ else _] => destruct b end; cbn; repeat match goal with |- context [match l_cin ?k with _ => _ end] => destruct (l_cin k) end; try reflexivity; repeat match goal with |- context [if ?b then _ else _] => destruct b end; reflexivity. Qed.
Lemma cpp_link_at : forall c l w w', cpp_link_update c l w = Ok w' -> (forall k, k <> l -> L w' k = L w k) /\
  l_ca (L w' l) = l_ca (L w l) ++ [last0 (l_ca (L w l))] /\ l_cd (L w' l) = l_cd (L w l) ++ [last0 (l_cd (L w l))] /\
  (exists x, l_tti (L w' l) = l_tti (L w l) ++ [x]) /\ l_vehs (L w' l) = l_vehs (L w l).
Proof.
  intros c l w w' H. unfold cpp_link_update in H. injection H as <-. split.
  - intros k K. rewrite L_modl. destruct (Nat.eqb_spec k l); [contradiction|reflexivity].
  - rewrite L_modl, Nat.eqb_refl.
    pose proof (cpp_caps_hist c (sl_tti (l_tti (L w l) ++ [cpp_travel_time c w (last (l_tti (L w l)) 0%Q) (L w l)]) (L w l))) as H.
    match type of H with lhist ?x = _ => generalize dependent x end. intros x H. unfold lhist in H. cbn in H. injection H as E1 E2 E3 E4 _. cbn. rewrite E1, E2, E3, E4. repeat split; eauto.
Qed.
Lemma cpart_L : forall c b w w', cpart c b w w' -> (b = PhLinks /\ exists l, l < w_nl w /\ cpp_link_update c l w = Ok w') \/ forall l, L w' l = L w l.
Proof.
  intros c b w w' H. destruct H as [l w w' A H|n nd w A H|n w A|v w w' H]; [left; eauto|right; reflexivity|right; reflexivity|].
  right. unfold cpp_follow in H. apply bind_ok in H. destruct H as (l & _ & H). cbv zeta in H. injection H as <-. reflexivity.
Qed.
Lemma cpart_fifo : forall c b w w', cpart c b w w' -> fifo c w None w' None.
Proof.
  intros c b w w' H. pose proof (fr_w_nl (proj1 (cpart_ceq _ _ _ _ H))) as En. split; [lia|]. intros l Hl. exists [], 0. rewrite !Dq_none, app_nil_r. cbn [skipn List.length].
  rewrite (ce_vehs (proj1 (proj2 (cpart_ceq _ _ _ _ H)))). split; [reflexivity|]. split; [lia|].
  destruct (cpart_L _ _ _ _ H) as [(_ & k & _ & E)|E]; [|rewrite E; lia]. apply cpp_link_at in E. destruct E as (A & B & C & _ & _).
  destruct (Nat.eq_dec l k) as [->|Hn]; [rewrite B, C, !last0_app; lia|rewrite (A l Hn); lia].
Qed.
Lemma clater_fifo : forall c w w', creach c w -> clater c w w' -> fifo c w None w' None.
Proof.
  intros c. apply clater_relp.
  - intros w p. split; auto. intros l Hl. exists [], 0. rewrite !app_nil_r. cbn. repeat split; lia.
  - intros a p b q d r. apply fifo_trans.
  - intros e w p w' p' I M. pose proof (fr_w_nl (mstep_fr M)) as En. split; [lia|]. intros l Hl.
    destruct (mstep_link _ _ _ _ _ _ I M l) as [(_ & Ea & Ed & Eq)|(_ & a & d & Ba & Bd & Eq & Hd)].
    + exists [], 0. rewrite Ea, Ed, Eq, !last0_app, app_nil_r. cbn. repeat split; lia.
    + exists a, d. apply bump_spec in Ba, Bd. destruct Ba as (_ & _ & _ & _ & Ea), Bd as (_ & _ & _ & _ & Ed).
      rewrite app_length. repeat split; auto; lia.
  - intros b w w' _ H. eapply cpart_fifo; eauto.
  - intros w. split; [cbn; lia|]. intros l Hl. exists [], 0. rewrite !app_nil_r. cbn [skipn List.length]. change (L (sw_T (S (w_T w)) w) l) with (L w l).
    repeat split; lia.
  - intros w w' I H. assert (w_nl w <= w_nl w').
    { destruct (Counts.ostep_nl _ _ _ H) as [E|(s & e & k & a & nm & -> & En)]; [lia|cbn; lia]. }
    split; auto. intros l Hl. pose proof (ostep_lhist _ _ _ H l Hl) as E. unfold lhist in E.
    exists [], 0. rewrite !Dq_none, app_nil_r.
    replace (l_ca (L w' l)) with (l_ca (L w l)) by congruence.
    replace (l_cd (L w' l)) with (l_cd (L w l)) by congruence.
    replace (l_vehs (L w' l)) with (l_vehs (L w l)) by congruence. cbn. repeat split; lia.
Qed.
Theorem cpp_fifo : forall c w w' l, creach c w -> clater c w w' -> exists_link w l -> exists a d, in_out w w' l a d /\
  latest (l_ca (L w' l)) = (latest (l_ca (L w l)) + c_deltan c * Z.of_nat (List.length a))%Z /\
  latest (l_cd (L w' l)) = (latest (l_cd (L w l)) + c_deltan c * Z.of_nat d)%Z.
Proof.
  intros c w w' l R H Hl. destruct (clater_fifo c w w' R H) as [_ K]. destruct (K l Hl) as (a & d & A & B & C & D). exists a, d. unfold in_out. rewrite !Dq_none in A. rewrite !Dq_none in B. rewrite <- !last0_latest. auto.
Qed.

(** the curves *)
Lemma creach_CInv : forall c w, (0 <= c_deltan c)%Z -> creach c w -> CInv c w None.
Proof.
  intros c w Hd R. destruct (creach_clater c w R) as (tm & H).
  refine (clater_relp c (fun a p b q => CInv c a p -> CInv c b q) _ _ _ _ _ _ (empty_world tm) w (cr_init c tm) H _); auto.
  - intros e a p b q I M J l Hl. assert (El : w_nl b = w_nl a) by (apply mstep_fr in M; apply (fr_w_nl M)). rewrite El in Hl. eapply Cl_event; eauto. eapply mstep_link; eauto.
  - intros b x x' _ P J l Hl. rewrite (fr_w_nl (proj1 (cpart_ceq _ _ _ _ P))) in Hl. specialize (J l Hl). rewrite Dq_none in J |- *.
    rewrite (ce_vehs (proj1 (proj2 (cpart_ceq _ _ _ _ P)))). destruct (cpart_L _ _ _ _ P) as [(_ & k & _ & E)|E]; [|rewrite E; exact J].
    apply cpp_link_at in E. destruct E as (A & B & C & _ & _). destruct (Nat.eq_dec l k) as [->|Hn]; [|rewrite (A l Hn); exact J].
    destruct J as [K1 K2 [K3 K3'] [K4 K4'] K5]. constructor; rewrite B, C.
    + rewrite !app_length, K1. reflexivity.
    + rewrite !last0_app. auto.
    + split; apply mono_snoc; auto.
    + split; apply nonneg_snoc; auto.
    + apply below_snoc; auto.
  - intros a b I K J. eapply ostep_CInv; eauto.
  - intros l Hl. cbn in Hl. lia.
Qed.
Definition lens (k : link) := (List.length (l_ca k), List.length (l_cd k), List.length (l_tti k)).
Lemma links_lens : forall c ls w w', NoDup ls -> foldM (cpp_link_update c) ls w = Ok w' -> forall l,
  (In l ls -> lens (L w' l) = (S (List.length (l_ca (L w l))), S (List.length (l_cd (L w l))), S (List.length (l_tti (L w l))))) /\ (~ In l ls -> L w' l = L w l).
Proof.
  intros c ls. induction ls as [|k ls IH]; intros w w' Nd E l; cbn [foldM] in E; [injection E as <-; split; [intros []|reflexivity]|].
  apply bind_ok in E. destruct E as (w1 & E1 & E). inversion Nd as [|? ? Nk Nd']; subst. destruct (IH w1 w' Nd' E l) as [A B]. apply cpp_link_at in E1. destruct E1 as (P & Q1 & Q2 & (x & Q3) & _). split.
  - intros [->|Hl].
    + rewrite (B Nk). unfold lens. rewrite Q1, Q2, Q3, !app_length. cbn. repeat f_equal; lia.
    + rewrite (A Hl). rewrite (P l); [reflexivity|]. intros ->. contradiction.
  - intro Hl. rewrite B by (intro K; apply Hl; right; exact K). apply P. intros ->. apply Hl. left; reflexivity.
Qed.
Lemma cchain_lens : forall c b w w', b <> PhLinks -> Inv2 w None -> cchain c b w w' -> forall l, lens (L w' l) = lens (L w l).
Proof.
  intros c b w w' Hb I H l. enough (Inv2 w' None /\ lens (L w' l) = lens (L w l)) by tauto. induction H as [|x y H IH P|x y H IH P]; [auto| |]; destruct IH as [Ix Ex].
  - split; [eapply cpart_Inv2; eauto|]. destruct (cpart_L _ _ _ _ P) as [(K & _)|E]; [contradiction|]. rewrite E. exact Ex.
  - split; [eapply run_Inv2'; eauto|]. assert (R : run c not_link x y).
    { eapply run_weaken; [|exact P]. intros e He. destruct b; cbn in He; try discriminate; [apply andb_true_iff in He; tauto|]. destruct e; cbn in He |- *; congruence. }
    destruct (run_same_past _ _ _ Ix R l) as (S1 & _ & S2 & _ & S3). rewrite <- Ex. unfold lens. congruence.
Qed.
Lemma creach_TInv : forall c w, creach c w -> TInv w.
Proof.
  intros c w H. induction H as [tm|w o w' H IH Hok Hx E|w w' H IH F E].
  - split; [auto|]. intros l Hl. cbn in Hl. lia.
  - apply apply_op_osteps in E; auto. clear - E IH. induction E; auto. apply IHE. eapply ostep_T; eauto.
  - pose proof (creach_Inv2 _ _ H) as I. apply cpp_tick_body in E. destruct E as (w1 & E & ->). pose proof (cpp_body_fr _ _ _ E) as Fr.
    destruct IH as [T0 T1]. split.
    + intro K. cbn in K. rewrite (fr_w_final Fr) in K. congruence.
    + intros l Hl. cbn in Hl. rewrite (fr_w_nl Fr) in Hl. apply cpp_body_chain in E; [|exact I]. destruct E as (wa & wb & wc & E1 & C1 & C2 & C3 & C4).
      pose proof (cchain_Inv2 _ _ _ _ I C1) as Ia. pose proof (cchain_Inv2 _ _ _ _ Ia C2) as Ib. pose proof (cchain_Inv2 _ _ _ _ Ib C3) as Ic.
      change (L (sw_T (S (w_T w)) w1) l) with (L w1 l). change (w_T (sw_T (S (w_T w)) w1)) with (S (w_T w)).
      assert (G : lens (L w1 l) = lens (L wa l)).
      { rewrite (cchain_lens c PhVehicles wc w1 ltac:(discriminate) Ic C4 l), (cchain_lens c PhFollow wb wc ltac:(discriminate) Ib C3 l). apply (cchain_lens c PhNodes wa wb ltac:(discriminate) Ia C2 l). }
      destruct (links_lens c _ _ _ (seq_NoDup _ _) E1 l) as [A _]. rewrite A in G by (apply in_seq; lia). destruct (T1 l Hl) as (K1 & K2 & K3).
      unfold lens in G. injection G as -> -> ->. rewrite K1, K2, K3. auto.
Qed.
Theorem cpp_curves : forall c w l, (0 <= c_deltan c)%Z -> creach c w -> exists_link w l -> curves_ok c (w_T w) (L w l) (List.length (l_vehs (L w l))).
Proof.
  intros c w l Hd H Hl. destruct (creach_CInv c w Hd H l Hl) as [K1 K2 [K3 K4] [K5 K6] K7].
  destruct (creach_TInv c w H) as [_ T]. destruct (T l Hl) as (T1 & T2 & _).
  constructor; auto.
  - rewrite <- !last0_latest, K2, Dq_none. reflexivity.
  - intros i j a b Hij Ha Hb. apply nth_error_lt in Hb as Hb'. rewrite <- (nth_error_nth0 _ _ _ Ha), <- (nth_error_nth0 _ _ _ Hb).
    apply K3; auto.
  - intros i j a b Hij Ha Hb. apply nth_error_lt in Hb as Hb'. rewrite <- (nth_error_nth0 _ _ _ Ha), <- (nth_error_nth0 _ _ _ Hb).
    apply K4; auto.
  - intros i a d Ha Hb. rewrite <- (nth_error_nth0 _ _ _ Ha), <- (nth_error_nth0 _ _ _ Hb). split; [apply K6|apply K7].
Qed.

(** ** The life of a vehicle *)
Lemma cpart_life : forall c b w w', cpart c b w w' -> forall v, life (V w' v) = life (V w v).
Proof.
  intros c b w w' H v. destruct H as [l w w' A H|n nd w A H|n w A|u w w' H]; try reflexivity.
  - unfold cpp_link_update in H. injection H as <-. reflexivity.
  - unfold cpp_follow in H. apply bind_ok in H. destruct H as (l & _ & H). cbv zeta in H. injection H as <-. rewrite V_modv. destruct (Nat.eqb v u) eqn:E; [|reflexivity]. apply Nat.eqb_eq in E; subst u.
    match goal with |- context [if qlt ?a ?b then sv_xnext _ _ else _] => destruct (qlt a b) end; reflexivity.
Qed.
Lemma clater_onward : forall c w w', creach c w -> clater c w w' -> onward w w'.
Proof.
  intros c. apply (clater_relp c (fun a _ b _ => onward a b)).
  - intros w _. split; auto. intros; split; [constructor|auto].
  - intros a _ b _ d _. apply onward_trans.
  - intros e w p w' p' I M. split; [rewrite (fr_w_nv (mstep_fr M)); auto|]. intros v Hv.
    destruct (mstep_life c e w p w' p' I M v) as [H|_ H _ K|n out _ H K|l _ H K].
    + apply life_eq in H. destruct H as (-> & -> & -> & ->). split; [constructor|auto].
    + unfold life in K. injection K as -> -> -> ->. rewrite H. split; [apply mb_home; constructor|]. split; auto.
    + unfold life in K. injection K as -> -> -> ->. rewrite H. split; [apply mb_wait; constructor|]. split; auto.
    + destruct (v_aborted (V w v)); unfold life in K; injection K as -> -> -> ->; rewrite H.
      * split; [constructor|]. split; [auto|]. intros [K|K]; discriminate K.
      * split; [constructor|]. split; [auto|]. intros [K|K]; discriminate K.
  - intros b w w' _ P. split; [rewrite (fr_w_nv (proj1 (cpart_ceq _ _ _ _ P))); auto|]. intros v Hv. pose proof (cpart_life _ _ _ _ P v) as H. apply life_eq in H. destruct H as (-> & -> & -> & ->). split; [constructor|auto].
  - intros w. split; [cbn; lia|]. intros v Hv. change (V (sw_T (S (w_T w)) w) v) with (V w v). split; [constructor|auto].
  - intros w w' I H. assert (Nv : w_nv w <= w_nv w') by (apply (ostep_counts c); exact H). split; [exact Nv|]. intros v Hv.
    destruct (ostep_life c w w' H v) as [[_ K]|[K _]]; [lia| |lia]. apply life_eq in K. destruct K as (-> & -> & -> & ->). split; [constructor|auto].
Qed.
Theorem cpp_advance : forall c w w' v, creach c w -> clater c w w' -> exists_veh w v ->
  may_become (v_state (V w v)) (v_state (V w' v)) /\ v_dep (V w' v) = v_dep (V w v) /\
  (v_state (V w v) = End_ \/ v_state (V w v) = Abort -> v_arr (V w' v) = v_arr (V w v) /\ v_tt (V w' v) = v_tt (V w v)).
Proof. intros c w w' v R K Hv. destruct (clater_onward c w w' R K) as [_ H]. apply H; auto. Qed.
Theorem cpp_nothing_lost : forall c w w', creach c w -> clater c w w' -> w_nn w <= w_nn w' /\ w_nl w <= w_nl w' /\ w_nv w <= w_nv w'.
Proof.
  intros c. apply (clater_relp c (fun a _ b _ => w_nn a <= w_nn b /\ w_nl a <= w_nl b /\ w_nv a <= w_nv b)); [lia|lia| | |cbn; lia|].
  - intros e w p w' p' I M. pose proof (mstep_fr M) as F. rewrite (fr_w_nn F), (fr_w_nl F), (fr_w_nv F). lia.
  - intros b w w' _ P. pose proof (proj1 (cpart_ceq _ _ _ _ P)) as F. rewrite (fr_w_nn F), (fr_w_nl F), (fr_w_nv F). lia.
  - intros w w' _ H. apply (ostep_counts c); exact H.
Qed.

(** times of departure and arrival *)
Lemma creach_clock : forall c w, creach c w -> clock0 w.
Proof.
  intros c w H. induction H as [tm|w o w' H IH Hok Hx E|w w' H IH Hf E].
  - intro; reflexivity.
  - apply apply_op_osteps in E; auto. clear - E IH. induction E; auto. apply IHE. eapply ostep_clock; eauto.
  - intro K. apply cpp_tick_body in E. destruct E as (w1 & E & ->). cbn in K. rewrite (fr_w_final (cpp_body_fr _ _ _ E)) in K. congruence.
Qed.
Lemma cchain_keep : forall c (J : world -> pend -> Prop) b, (forall e w p w' p', k_cpp b e = true -> Inv2 w p -> J w p -> mstep c e w p w' p' -> J w' p') ->
  (forall w w', Inv2 w None -> J w None -> cpart c b w w' -> J w' None) -> forall w w', Inv2 w None -> cchain c b w w' -> J w None -> J w' None.
Proof.
  intros c J b Hm Hp w w' I H. apply (cchain_rel c (fun a p b q => J a p -> J b q) b); auto; intros; eauto.
Qed.
Lemma lifeA_cpart : forall c b w w', lifeA c w None -> cpart c b w w' -> lifeA c w' None.
Proof.
  intros c b w w' J P v Hv. pose proof (proj1 (cpart_ceq _ _ _ _ P)) as F. rewrite (fr_w_nv F) in Hv. rewrite (fr_w_T F). specialize (J v Hv).
  pose proof (cpart_life _ _ _ _ P v) as H. apply life_eq in H. destruct H as (-> & -> & -> & ->). exact J.
Qed.
Lemma cpp_body_life : forall c w w', Inv2 w None -> lifeA c w None -> cpp_body c w = Ok w' -> lifeB c w' None.
Proof.
  intros c w w' I J E. apply cpp_body_chain in E; [|exact I]. destruct E as (wa & wb & wc & _ & C1 & C2 & C3 & C4).
  pose proof (cchain_Inv2 _ _ _ _ I C1) as Ia. pose proof (cchain_Inv2 _ _ _ _ Ia C2) as Ib. pose proof (cchain_Inv2 _ _ _ _ Ib C3) as Ic.
  assert (Jc : lifeA c wc None).
  { apply (cchain_keep c (lifeA c) PhFollow) with (w := wb); auto; [discriminate|intros; eapply lifeA_cpart; eauto|].
    apply (cchain_keep c (lifeA c) PhNodes) with (w := wa); auto; [|intros; eapply lifeA_cpart; eauto|].
    - intros e x p x' p' He Ix Jx M. cbn in He. apply andb_true_iff in He. eapply lifeA_step; eauto. tauto.
    - apply (cchain_keep c (lifeA c) PhLinks) with (w := w); auto; [discriminate|intros; eapply lifeA_cpart; eauto]. }
  apply (cchain_keep c (lifeB c) PhVehicles) with (w := wc); auto; [intros; eapply lifeB_step; eauto|intros x x' _ _ P; inversion P|apply lifeA_B; exact Jc].
Qed.
Lemma creach_lifeA : forall c w, creach c w -> lifeA c w None.
Proof.
  intros c w H. induction H as [tm|w o w' H IH Hok Hx E|w w' H IH Hf E].
  - intros v Hv. cbn in Hv. lia.
  - pose proof (creach_clock _ _ H) as C. apply apply_op_osteps in E; auto. clear - E IH C. induction E; auto. apply IHE; [eapply ostep_lifeA; eauto|eapply ostep_clock; eauto].
  - pose proof (creach_Inv2 _ _ H) as I. apply cpp_tick_body in E. destruct E as (w1 & E & ->). rewrite <- (fr_w_T (cpp_body_fr _ _ _ E)). apply lifeB_A. eapply cpp_body_life; eauto.
Qed.
Lemma creach_past : forall c w, creach c w -> forall v, v < w_nv w -> v_state (V w v) = End_ -> (v_arr (V w v) < Z.of_nat (w_T w))%Z.
Proof.
  intros c w H. induction H as [tm|w o w' H IH Hok Hx E|w w' H IH Hf E]; auto.
  - intros v Hv. cbn in Hv. lia.
  - pose proof (creach_clock _ _ H) as C. apply apply_op_osteps in E; auto. clear - E IH C. induction E; auto.
    apply IHE; [|eapply ostep_clock; eauto]. intros v Hv Hs. destruct (ostep_clock _ _ _ H C) as [_ ->].
    destruct (ostep_life c a b H v Hv) as [[Hlt K]|(_ & K & _)]; [|congruence].
    apply life_eq in K. destruct K as (E1 & -> & _). apply IH; auto. congruence.
  - intros v Hv Hs. pose proof (creach_lifeA _ _ H) as A. pose proof (creach_Inv2 _ _ H) as I.
    apply cpp_tick_body in E. destruct E as (w1 & E & ->). pose proof (cpp_body_life c w w1 I A E) as B.
    change (V (sw_T (S (w_T w)) w1) v) with (V w1 v) in *. cbn [w_T sw_T].
    destruct (B v Hv) as (_ & _ & D). destruct (D Hs) as [D1 _]. rewrite (fr_w_T (cpp_body_fr _ _ _ E)) in D1. lia.
Qed.
Theorem cpp_times : forall c w v, creach c w -> exists_veh w v ->
  (v_state (V w v) <> Home -> (v_dep (V w v) < Z.of_nat (w_T w))%Z) /\
  (v_state (V w v) <> End_ -> v_arr (V w v) = (-1)%Z /\ v_tt (V w v) = (-1)%Q) /\
  (v_state (V w v) = End_ -> (v_dep (V w v) < v_arr (V w v) < Z.of_nat (w_T w))%Z /\
     v_tt (V w v) = (inject_Z (v_arr (V w v) - v_dep (V w v)) * dt c)%Q).
Proof.
  intros c w v R Hv. destruct (creach_lifeA c w R v Hv) as (A & B & D). split; [auto|]. split; [auto|].
  intro K. destruct (D K) as [D1 D2]. pose proof (creach_past c w R v Hv K). split; [lia|auto].
Qed.

(** the vehicle ahead in the same lane *)
Theorem cpp_lanes : forall c w l i v, creach c w -> nth_error (l_vehs (L w l)) i = Some v ->
  v_lane (V w v) < l_lanes (L w l) /\
  v_leader (V w v) = ahead w l i (l_lanes (L w l)) /\
  (forall u, v_leader (V w v) = Some u ->
     v_lane (V w u) = v_lane (V w v) /\ v_link (V w u) = Some l /\ v_follower (V w u) = Some v).
Proof.
  intros c w l i v H Hi. destruct (creach_Inv2 c w H) as [[T I] _]. rewrite <- Dq_none in Hi.
  pose proof (s_lane I _ _ Hi) as [La _]. pose proof (s_leader I _ _ Hi) as Le.
  split; [auto|]. split; [rewrite Le, Dq_none; reflexivity|].
  intros u Hu. rewrite Le in Hu. destruct (i <? l_lanes (L w l)) eqn:Ei; [discriminate|].
  apply Nat.ltb_ge in Ei. set (m := l_lanes (L w l)) in *.
  assert (Hl : l < w_nl w) by (eapply In_D_lt; [exact I|eapply nth_error_In; eauto]).
  assert (Hm : 1 <= m) by (apply (t_lanes T); auto).
  split; [|split].
  - (* lanes advance by one per place *)
    assert (K : forall d j a b, nth_error (Dq w None l) j = Some a -> nth_error (Dq w None l) (j + d) = Some b ->
              v_lane (V w b) = (v_lane (V w a) + d) mod m).
    { induction d; intros j a b Ha Hb.
      - rewrite Nat.add_0_r in Hb. assert (a = b) by congruence. subst b.
        rewrite Nat.add_0_r, Nat.mod_small; auto. apply (s_lane I _ _ Ha).
      - destruct (nth_error (Dq w None l) (j + d)) as [x|] eqn:Ex.
        + rewrite Nat.add_succ_r in Hb. destruct (s_lane I _ _ Ex) as [_ Kx]. rewrite (Kx _ Hb).
          rewrite (IHd _ _ _ Ha Ex). fold m. rewrite Nat.add_mod_idemp_l by lia. f_equal; lia.
        + apply nth_error_None in Ex. assert (nth_error (Dq w None l) (j + S d) <> None) as K by congruence.
          apply nth_error_Some in K. lia. }
    assert (Hi' : nth_error (Dq w None l) (i - m + m) = Some v) by (rewrite Nat.sub_add by lia; auto).
    rewrite (K m _ _ _ Hu Hi').
    assert (v_lane (V w u) < m) by apply (s_lane I _ _ Hu).
    rewrite <- Nat.add_mod_idemp_r, Nat.mod_same, Nat.add_0_r, Nat.mod_small by lia; auto.
  - apply nth_error_In in Hu. apply (s_D I) in Hu. tauto.
  - rewrite (s_follower I _ _ Hu). fold m. rewrite Nat.sub_add by lia. auto.
Qed.
