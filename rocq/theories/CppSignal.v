(** * CppSignal: the phases of the signals in the compiled engine (C72). *)
From Verif Require Import Base Types Sim Build Heap Lists Inv FrameBase Tac Frame Eff Eff2 Trace InvStep Reach Steps Effects Phases Attr Life Incoming Vev Ride TripLog Route Signal Green Choice Enforce Counts LinkQueries FD NodeCap Origin Bucket Outflow Trials Motion Spacing Spec Distance Totals.
From Verif Require Import State Cpp SpecCpp CppOK CppOK2 CppExt CppLog CppLoop CppInv CppSafe CppGreen CppFlow.
Local Open Scope nat_scope.

(** a node with one phase keeps its phase and its clock *)
Definition csig_step (c : cfg) (a b : node) : Prop :=
  (1 < List.length (n_signal a) /\ sig_step c a b) \/
  (List.length (n_signal a) <= 1 /\ n_phase b = n_phase a /\ n_signal b = n_signal a /\ n_siglog b = n_siglog a ++ [n_phase b]).
Lemma csig_ext : forall c a b a' b', nsig a = nsig a' -> nsig b = nsig b' -> csig_step c a b -> csig_step c a' b'.
Proof.
  intros c a b a' b' Ha Hb [[H1 H2]|(H1 & H2 & H3 & H4)].
  - left. split; [|eapply sig_step_ext; eauto]. unfold nsig in Ha. replace (n_signal a') with (n_signal a) by congruence. exact H1.
  - right. unfold nsig in Ha, Hb. replace (n_signal a') with (n_signal a) by congruence. replace (n_phase a') with (n_phase a) by congruence. replace (n_siglog a') with (n_siglog a) by congruence.
    replace (n_phase b') with (n_phase b) by congruence. replace (n_signal b') with (n_signal b) by congruence. replace (n_siglog b') with (n_siglog b) by congruence. auto.
Qed.
Lemma cpp_signal_csig : forall c nd nd', cpp_signal_update c nd = Ok nd' -> csig_step c nd nd'.
Proof.
  intros c nd nd' H. unfold cpp_signal_update in H. apply bind_ok in H. destruct H as (n2 & H & E). injection E as <-. destruct (1 <? List.length (n_signal nd)) eqn:L1.
  - apply Nat.ltb_lt in L1. left. split; [exact L1|]. apply bind_ok in H. destruct H as (g & E & H). apply of_opt_ok in E. cbv zeta in H. injection H as <-.
    split; [apply nth_error_Some; congruence|]. unfold sig_next, next_phase. rewrite (nth_error_nth _ _ 0%Q E). destruct (qlt g (n_sigt nd)); auto.
  - apply Nat.ltb_ge in L1. right. split; [exact L1|]. injection H as <-. cbn. auto.
Qed.
Lemma cpp_fcap_nsig : forall c nd, nsig (cpp_flow_capacity_update c nd) = nsig nd.
Proof. intros c nd. unfold cpp_flow_capacity_update. destruct (n_fcap nd); [|reflexivity]. cbv zeta. destruct (qlt _ _); reflexivity. Qed.

Lemma cnodes_sig : forall c ns w w', NoDup ns -> foldM (cpp_node_step c) ns w = Ok w' ->
  (forall n, In n ns -> csig_step c (N w n) (N w' n)) /\ (forall n, ~ In n ns -> nsig (N w' n) = nsig (N w n)).
Proof.
  intros c ns; induction ns as [|n ns IH]; intros w w' Nd H; cbn [foldM] in H.
  - injection H as <-. split; [intros n []|auto].
  - apply bind_ok in H. destruct H as (w2 & E & H). inversion Nd as [|x l Hx Hnd]; subst. destruct (IH _ _ Hnd H) as [A B].
    unfold cpp_node_step in E. apply bind_ok in E. destruct E as (w1 & E1 & E). apply bind_ok in E. destruct E as (nd & E2 & E). injection E as <-.
    apply generate_frs in E1. apply cpp_signal_csig in E2.
    assert (O : forall k, k <> n -> N (modn n (fun _ => cpp_flow_capacity_update c nd) w1) k = N w1 k) by (intros k Hk; rewrite N_at; apply Nat.eqb_neq in Hk; rewrite Hk; reflexivity).
    split.
    + intros k [<- | Hk].
      * eapply csig_ext; [apply (frs_sig E1)| |exact E2]. symmetry. rewrite (B n Hx), N_at, Nat.eqb_refl. apply cpp_fcap_nsig.
      * eapply csig_ext; [|reflexivity|apply A; exact Hk]. rewrite O, (frs_sig E1) by (intro; subst; auto). reflexivity.
    + intros k Hk. rewrite B by (intro; apply Hk; right; auto). rewrite O by (intro; apply Hk; left; auto). apply (frs_sig E1).
Qed.
Lemma clinks_N : forall c ls w w', foldM (cpp_link_update c) ls w = Ok w' -> (forall n, N w' n = N w n) /\ w_nn w' = w_nn w.
Proof.
  intros c ls. induction ls as [|k ls IH]; intros w w' E; cbn [foldM] in E; [injection E as <-; auto|].
  apply bind_ok in E. destruct E as (w1 & E1 & E). destruct (IH _ _ E) as [A B]. unfold cpp_link_update in E1. injection E1 as <-. split; [intro n; rewrite A; reflexivity|rewrite B; reflexivity].
Qed.
Lemma ctransfers_nsig : forall c ns w w', foldM (cpp_transfer c) ns w = Ok w' -> forall n, nsig (N w' n) = nsig (N w n).
Proof.
  intros c ns. induction ns as [|k ns IH]; intros w w' E n; cbn [foldM] in E; [injection E as <-; reflexivity|].
  apply bind_ok in E. destruct E as (w1 & E1 & E). rewrite (IH _ _ E n). unfold cpp_transfer in E1. apply transfer_frs in E1. rewrite (frs_sig E1), N_at. destruct (Nat.eqb n k); reflexivity.
Qed.
Lemma ctick_sig : forall c w w', cpp_tick c w = Ok w' -> forall n, n < w_nn w -> csig_step c (N w n) (N w' n).
Proof.
  intros c w w' H n Hn. apply cpp_tick_body in H. destruct H as (wz & H & ->). change (N (sw_T (S (w_T w)) wz) n) with (N wz n). unfold cpp_body in H.
  apply bind_ok in H. destruct H as (w1 & H1 & H). apply bind_ok in H. destruct H as (w2 & H2 & H). apply bind_ok in H. destruct H as (w3 & H3 & H).
  apply bind_ok in H. destruct H as (w4 & H4 & H). apply bind_ok in H. destruct H as (w5 & H5 & H). apply bind_ok in H. destruct H as (w6 & H6 & H). injection H as <-.
  destruct (clinks_N _ _ _ _ H1) as [A1 A2]. destruct (cnodes_sig _ _ _ _ (seq_NoDup _ _) H2) as [B _]. pose proof (ctransfers_nsig _ _ _ _ H3 n) as C3.
  destruct (follow_quiet _ _ _ _ H4) as [N4 _]. apply vehicles_frs in H5. apply route_phase_frs in H6.
  apply (csig_ext c (N w1 n) (N w2 n)); [rewrite (A1 n); reflexivity| |apply (B n); apply in_seq; lia].
  change (nsig (N w2 n) = nsig (N w6 n)). rewrite (frs_sig H6), (frs_sig H5), N4, C3. reflexivity.
Qed.
Lemma ctick_nn : forall c w w', cpp_tick c w = Ok w' -> w_nn w' = w_nn w /\ w_T w' = S (w_T w).
Proof. intros c w w' E. apply cpp_tick_body in E. destruct E as (w1 & E & ->). split; [exact (fr_w_nn (cpp_body_fr _ _ _ E))|reflexivity]. Qed.

(** ** The recorded phases *)
Theorem cpp_signal_plan : forall c w w' n, (0 < dt c)%Q -> creach c w -> exists_node w n ->
  (forall g, In g (n_signal (N w n)) -> (0 <= g)%Q) -> n_phase (N w n) < List.length (n_signal (N w n)) ->
  claterP c (no_override n) w w' ->
  n_siglog (N w' n) = n_siglog (N w n) ++
    map (signal_plan (dt c) (n_signal (N w n)) (n_phase (N w n)) (n_sigt (N w n))) (seq 0 (w_T w' - w_T w)).
Proof.
  intros c w w' n Hd R Hn Hg Hp H. unfold exists_node in Hn.
  enough (w_T w <= w_T w' /\ n < w_nn w' /\ n_signal (N w' n) = n_signal (N w n) /\
    (exists s, plan_inv (dt c) (n_signal (N w n)) (n_phase (N w n)) (n_sigt (N w n)) (w_T w' - w_T w) s /\ fst s = n_phase (N w' n) /\
       (1 < List.length (n_signal (N w n)) -> snd s = n_sigt (N w' n))) /\
    n_siglog (N w' n) = n_siglog (N w n) ++
    map (signal_plan (dt c) (n_signal (N w n)) (n_phase (N w n)) (n_sigt (N w n))) (seq 0 (w_T w' - w_T w))) by tauto.
  induction H as [|w1 o w2 H IH Hok Hq Hx E|w1 w2 H IH F E].
  - split; [auto|]. split; [auto|]. split; [auto|]. rewrite Nat.sub_diag. split; [|rewrite app_nil_r; auto].
    exists (n_phase (N w n), n_sigt (N w n)). split; [|auto]. left. split; [lia|]. split; [auto|]. cbn [snd]. change (inject_Z (Z.of_nat 0)) with 0%Q. lra.
  - destruct IH as (I1 & I2 & I3 & (s & I4 & I6 & I7) & I5). assert (R1 : creach c w1) by (eapply claterP_creach; eauto).
    pose proof (op_sig _ _ _ _ _ Hok Hx E I2 Hq) as S. rewrite (cpp_op_clock _ _ _ _ R1 Hok Hx E).
    pose proof (op_nn _ _ _ _ Hok Hx E). unfold nsig in S.
    replace (n_signal (N w2 n)) with (n_signal (N w1 n)) by congruence.
    replace (n_phase (N w2 n)) with (n_phase (N w1 n)) by congruence.
    replace (n_sigt (N w2 n)) with (n_sigt (N w1 n)) by congruence.
    replace (n_siglog (N w2 n)) with (n_siglog (N w1 n)) by congruence.
    split; [auto|]. split; [lia|]. split; [auto|]. split; [exists s; auto|auto].
  - destruct IH as (I1 & I2 & I3 & (s & I4 & I6 & I7) & I5). pose proof (ctick_sig _ _ _ E n I2) as St. destruct (ctick_nn _ _ _ E) as [En Et]. rewrite Et, En.
    destruct (plan_step (dt c) (n_signal (N w n)) (n_phase (N w n)) (n_sigt (N w n)) Hd Hg Hp _ _ I4) as [P1 P2].
    replace (S (w_T w1) - w_T w) with (S (w_T w1 - w_T w)) by lia. split; [lia|]. split; [auto|].
    assert (K : n_signal (N w2 n) = n_signal (N w n) /\ fst (sig_next (dt c) (n_signal (N w n)) s) = n_phase (N w2 n) /\
      (1 < List.length (n_signal (N w n)) -> snd (sig_next (dt c) (n_signal (N w n)) s) = n_sigt (N w2 n)) /\ n_siglog (N w2 n) = n_siglog (N w1 n) ++ [n_phase (N w2 n)]).
    { destruct St as [[S0 (S1 & S2 & S3 & S4)]|(S0 & S1 & S2 & S3)]; rewrite I3 in *.
      - split; [exact S3|]. destruct s as [i t]. cbn [fst snd] in I6, I7. specialize (I7 S0). subst i t. rewrite <- S2. cbn [fst snd]. auto.
      - split; [exact S2|]. split; [|split; [intro Z; lia|exact S3]]. destruct s as [i t]. cbn [fst] in I6. subst i. rewrite S1.
        unfold sig_next, next_phase. assert (Z : n_phase (N w1 n) = 0).
        { clear - I4 S0 Hg Hp Hd. destruct I4 as [(_ & A & _)|(_ & m & (A & _) & _)]; cbn [fst] in A; [lia|]. rewrite map_length in A. lia. }
        rewrite Z. destruct (qlt _ _); cbn [fst]; [|reflexivity]. destruct (List.length (n_signal (N w n)) <=? 1) eqn:Q; [reflexivity|]. apply Nat.leb_gt in Q. lia. }
    destruct K as (K1 & K2 & K3 & K4). split; [exact K1|]. split; [exists (sig_next (dt c) (n_signal (N w n)) s); auto|].
    rewrite K4, I5, <- K2, P1, seq_S, map_app, app_assoc. reflexivity.
Qed.

Theorem cpp_phase_valid : forall c w n, creachP c phase_safe w -> exists_node w n -> n_phase (N w n) < List.length (n_signal (N w n)).
Proof.
  intros c w n H. revert n. unfold exists_node. induction H as [tm|w o w' R IH Hok Hq Hx E|w w' R IH F E]; intros n Hn.
  - cbn in Hn. lia.
  - assert (D := overrides_dec n o). destruct D as [(s & g & f & r & ->)|D].
    + cbn [apply_op phase_safe] in *. pose proof (override_nn _ _ _ _ _ _ _ E) as En. rewrite (override_N _ _ _ _ _ _ _ E), Nat.eqb_refl.
      destruct r; cbn; [lia|]. destruct Hq as [_ [Hq|Hq]]; [discriminate|auto].
    + destruct (Nat.lt_ge_cases n (w_nn w)) as [Hlt|Hge].
      * pose proof (op_sig _ _ _ _ _ Hok Hx E Hlt D) as S. unfold nsig in S.
        replace (n_phase (N w' n)) with (n_phase (N w n)) by congruence.
        replace (n_signal (N w' n)) with (n_signal (N w n)) by congruence. auto.
      * destruct o; cbn [apply_op] in E;
        try (exfalso; unfold enforce_route, add_trip_request, change_free_flow_speed, change_jam_density in E; cbn zeta in E; binv E; cbn in Hn; lia).
        -- unfold add_node in E. apply bind_ok in E. destruct E as (nd & E & H). destruct (smem _ _); [discriminate|].
           injection H as <-. cbn in Hn. assert (n = w_nn w) by lia. subst n. unfold N; cbn. rewrite upd_same. eapply new_node_phase; eauto.
        -- exfalso. unfold add_link in E. cbn zeta in E. binv E. cbn in Hn. lia.
        -- exfalso. unfold add_vehicle in E. cbn zeta in E. binv E. cbn in Hn. lia.
        -- exfalso. apply adddemand_nodes in E. lia.
        -- exfalso. apply finalize_ok in E. pose proof (fz_cnt _ _ _ E) as X. injection X; intros. lia.
        -- elim (Hx a); auto.
        -- exfalso. apply add_dest_nodes in E. lia.
        -- exfalso. rewrite (override_nn _ _ _ _ _ _ _ E) in Hn. lia.
        -- exfalso. unfold assign_taxi in E. destruct (negb _); [discriminate|]. apply bind_ok in E.
           destruct E as (w1 & E & H). injection H as <-. apply add_dest_nodes in E. cbn in Hn. lia.
  - destruct (ctick_nn _ _ _ E) as [En _]. rewrite En in Hn. destruct (ctick_sig _ _ _ E n Hn) as [[S0 (S1 & S2 & S3 & S4)]|(S0 & S1 & S2 & S3)].
    + rewrite S3. unfold sig_next, next_phase in S2. destruct (qlt _ _); injection S2 as -> _; [|auto].
      destruct (List.length (n_signal (N w n)) <=? S (n_phase (N w n))) eqn:Q; [lia|]. apply Nat.leb_gt in Q. exact Q.
    + rewrite S1, S2. apply IH. exact Hn.
Qed.
