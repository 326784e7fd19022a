(** * Signal: traffic signal timing (C10, C11). *)
From Verif Require Import Base Types Sim Build Heap FrameBase Tac Frame Lists Inv Eff Eff2 Trace InvStep Reach Steps Phases Spec.

(** ** Arithmetic of the plan *)
Lemma green_steps_spec : forall d g k, (0 < d)%Q -> (inject_Z (Z.of_nat k) * d <= g)%Q <-> k < green_steps d g.
Proof.
  intros d g k Hd. unfold green_steps.
  assert (E : (inject_Z (Z.of_nat k) * d <= g)%Q <-> (inject_Z (Z.of_nat k) <= g / d)%Q).
  { split; intro H.
    - apply Qle_shift_div_l; auto.
    - apply Qmult_le_r with (z := d) in H; auto.
      assert (X : (g / d * d == g)%Q) by (field; lra). lra. }
  rewrite E. split; intro H.
  - assert (K : (Z.of_nat k <= Qfloor (g / d))%Z).
    { rewrite <- (Qfloor_Z (Z.of_nat k)). apply Qfloor_resp_le; auto. }
    lia.
  - assert (K : (Z.of_nat k <= Qfloor (g / d))%Z) by lia.
    eapply Qle_trans; [|apply Qfloor_le]. rewrite <- Zle_Qle. auto.
Qed.

Lemma green_steps_pos : forall d g, (0 < d)%Q -> (0 <= g)%Q -> 0 < green_steps d g.
Proof.
  intros d g Hd Hg. apply (green_steps_spec d g 0 Hd). change (inject_Z (Z.of_nat 0)) with 0%Q. lra.
Qed.

Lemma total_app : forall a b, total (a ++ b) = total a + total b.
Proof. intros a b; induction a; cbn; [auto|]. unfold total in *. lia. Qed.
Lemma total_firstn : forall ds i, i < List.length ds ->
  total (firstn (S i) ds) = total (firstn i ds) + nth i ds 0.
Proof.
  intros ds; induction ds as [|d ds IH]; intros i H; cbn in H; [lia|]. destruct i; cbn; [lia|].
  specialize (IH i ltac:(lia)). unfold total in *. cbn in IH. destruct ds; cbn in *; lia.
Qed.
Lemma total_firstn_le : forall ds i, total (firstn i ds) <= total ds.
Proof.
  intros ds; induction ds as [|d ds IH]; intros i; destruct i; cbn; try lia.
  specialize (IH i). unfold total in *. lia.
Qed.
Lemma phase_at_pos : forall ds i m, i < List.length ds -> m < nth i ds 0 ->
  phase_at ds (total (firstn i ds) + m) = i.
Proof.
  intros ds; induction ds as [|d ds IH]; intros i m Hi Hm; cbn in Hi; [lia|].
  destruct i; cbn [phase_at firstn nth total fold_right Nat.add] in *.
  - apply Nat.ltb_lt in Hm. rewrite Hm. auto.
  - specialize (IH i m ltac:(lia) Hm). unfold total in *.
    destruct (_ <? d) eqn:E; [apply Nat.ltb_lt in E; lia|]. f_equal.
    replace (d + fold_right Nat.add 0 (firstn i ds) + m - d) with (fold_right Nat.add 0 (firstn i ds) + m) by lia. auto.
Qed.

(** position [q] of the cycle is step [m] of phase [i] *)
Definition at_pos (ds : list nat) (q i m : nat) : Prop :=
  i < List.length ds /\ m < nth i ds 0 /\ q mod (total ds) = total (firstn i ds) + m.

Lemma at_pos_phase : forall ds q i m, at_pos ds q i m -> phase_at ds (q mod (total ds)) = i.
Proof. intros ds q i m (A & B & ->). apply phase_at_pos; auto. Qed.

Definition next_phase (n i : nat) : nat := if n <=? S i then 0 else S i.

Lemma at_pos_start : forall ds i, (forall d, In d ds -> 0 < d) -> i < List.length ds ->
  at_pos ds (total (firstn (S i) ds)) (next_phase (List.length ds) i) 0.
Proof.
  intros ds i Hp Hi. unfold next_phase. destruct (List.length ds <=? S i) eqn:E.
  - apply Nat.leb_le in E. assert (S i = List.length ds) by lia.
    assert (D : 0 < nth 0 ds 0). { destruct ds; cbn in *; [lia|]. apply Hp; auto. }
    split; [lia|]. split; [auto|]. rewrite H, firstn_all. cbn [firstn]. cbn [total fold_right].
    rewrite Nat.mod_same; [lia|]. destruct ds; cbn in *; lia.
  - apply Nat.leb_gt in E. split; [auto|].
    assert (D : 0 < nth (S i) ds 0) by (apply Hp, nth_In; auto).
    split; [auto|]. rewrite Nat.mod_small; [lia|].
    pose proof (total_firstn ds (S i) E). pose proof (total_firstn_le ds (S (S i))). lia.
Qed.

Lemma at_pos_next : forall ds q i m, (forall d, In d ds -> 0 < d) -> at_pos ds q i m ->
  if S m <? nth i ds 0 then at_pos ds (S q) i (S m) else at_pos ds (S q) (next_phase (List.length ds) i) 0.
Proof.
  intros ds q i m Hp (Hi & Hm & E).
  pose proof (total_firstn ds i Hi) as Hf. pose proof (total_firstn_le ds (S i)) as Hl.
  assert (Hd : total ds <> 0) by lia.
  assert (Es : (S q) mod total ds = (S (q mod total ds)) mod total ds).
  { replace (S q) with (q + 1) by lia. rewrite <- Nat.add_mod_idemp_l by auto. f_equal. lia. }
  destruct (S m <? nth i ds 0) eqn:Em.
  - apply Nat.ltb_lt in Em. split; [auto|]. split; [auto|]. rewrite Es, E, Nat.mod_small; lia.
  - apply Nat.ltb_ge in Em. destruct (at_pos_start ds i Hp Hi) as (A & B & C).
    split; [auto|]. split; [auto|]. rewrite Es, E, <- C. f_equal. lia.
Qed.

(** ** The signal automaton *)
Definition sig_next (d : Q) (sig : list Q) (s : nat * Q) : nat * Q :=
  let '(ph, t) := s in
  if qlt (nth ph sig 0%Q) t then (next_phase (List.length sig) ph, (0 + d)%Q) else (ph, (t + d)%Q).

Lemma signal_control_ok : forall c nd nd', signal_control c nd = Ok nd' ->
  n_phase nd < List.length (n_signal nd) /\
  (n_phase nd', n_sigt nd') = sig_next (dt c) (n_signal nd) (n_phase nd, n_sigt nd) /\
  n_signal nd' = n_signal nd /\ n_siglog nd' = n_siglog nd ++ [n_phase nd'].
Proof.
  intros c nd nd' H. unfold signal_control in H. apply bind_ok in H. destruct H as (g & E & H).
  apply of_opt_ok in E. cbv zeta in H. injection H as <-.
  split; [apply nth_error_Some; congruence|].
  unfold sig_next, next_phase. rewrite (nth_error_nth _ _ 0%Q E). destruct (qlt g (n_sigt nd)); auto.
Qed.

Section Plan.
Variables (d : Q) (sig : list Q) (ph : nat) (t0 : Q).
Hypothesis Hd : (0 < d)%Q.
Hypothesis Hg : forall g, In g sig -> (0 <= g)%Q.
Hypothesis Hph : ph < List.length sig.
Let ds := map (green_steps d) sig.
Let r := green_steps d (nth ph sig 0%Q - t0).
Let S0 := total (firstn (S ph) ds).

(** state before the [k]-th step *)
Definition plan_inv (k : nat) (s : nat * Q) : Prop :=
  (k <= r /\ fst s = ph /\ (snd s == t0 + inject_Z (Z.of_nat k) * d)%Q) \/
  (r < k /\ exists m, at_pos ds (S0 + (k - S r)) (fst s) m /\ (snd s == inject_Z (Z.of_nat (S m)) * d)%Q).

Lemma ds_len : List.length ds = List.length sig. Proof. unfold ds. apply map_length. Qed.
Lemma ds_pos : forall x, In x ds -> 0 < x.
Proof. intros x H. unfold ds in H. apply in_map_iff in H. destruct H as (g & <- & H). apply green_steps_pos; auto. Qed.
Lemma ds_nth : forall i, i < List.length sig -> nth i ds 0 = green_steps d (nth i sig 0%Q).
Proof.
  intros i H. unfold ds. rewrite nth_indep with (d' := green_steps d 0) by (rewrite map_length; auto). apply map_nth.
Qed.

Lemma plan_step : forall k s, plan_inv k s ->
  fst (sig_next d sig s) = signal_plan d sig ph t0 k /\ plan_inv (S k) (sig_next d sig s).
Proof.
  intros k [i t] [(H1 & H2 & H3)|(H1 & m & H2 & H3)]; cbn [fst snd] in *; unfold sig_next, signal_plan; cbv zeta; fold ds r.
  - subst i. destruct (qlt (nth ph sig 0%Q) t) eqn:E; qb.
    + assert (k = r).
      { destruct (Nat.eq_dec k r) as [|Hne]; auto. exfalso. assert (K : k < r) by lia.
        apply (green_steps_spec d _ k Hd) in K. lra. }
      subst k. rewrite Nat.ltb_irrefl. fold S0. replace (r - r) with 0 by lia. rewrite Nat.add_0_r.
      assert (P : at_pos ds S0 (next_phase (List.length sig) ph) 0).
      { rewrite <- ds_len. apply at_pos_start; [apply ds_pos|rewrite ds_len; auto]. }
      cbn [fst snd]. split; [symmetry; eapply at_pos_phase; eauto|].
      right. split; [lia|]. exists 0. cbn [fst snd]. replace (S r - S r) with 0 by lia. rewrite Nat.add_0_r. split; [auto|].
      change (inject_Z (Z.of_nat 1)) with 1%Q. lra.
    + assert (K : k < r).
      { apply (green_steps_spec d _ k Hd). lra. }
      apply Nat.ltb_lt in K as K'. rewrite K'. cbn [fst snd]. split; [auto|]. left. cbn [fst snd]. split; [lia|]. split; [auto|].
      rewrite Nat2Z.inj_succ. unfold Z.succ. rewrite inject_Z_plus. change (inject_Z 1) with 1%Q. lra.
  - assert (Ek : (k <? r) = false) by (apply Nat.ltb_ge; lia). rewrite Ek. fold S0.
    pose proof (at_pos_next ds _ _ _ ds_pos H2) as Hn. destruct H2 as (Hi & Hm & E2). rewrite ds_len in Hi, Hn.
    rewrite ds_nth in Hn, Hm by auto. replace (S (S0 + (k - S r))) with (S0 + (k - r)) in Hn by lia.
    destruct (qlt (nth i sig 0%Q) t) eqn:E; qb; cbn [fst snd].
    + assert (Em : (S m <? green_steps d (nth i sig 0%Q)) = false).
      { apply Nat.ltb_ge. destruct (Nat.le_gt_cases (green_steps d (nth i sig 0%Q)) (S m)) as [K|K]; auto. exfalso.
        apply (green_steps_spec d _ (S m) Hd) in K. lra. }
      rewrite Em in Hn. split; [symmetry; eapply at_pos_phase; eauto|]. right. split; [lia|]. exists 0. cbn [fst snd].
      replace (S k - S r) with (k - r) by lia. split; [auto|]. change (inject_Z (Z.of_nat 1)) with 1%Q. lra.
    + assert (Em : (S m <? green_steps d (nth i sig 0%Q)) = true).
      { apply Nat.ltb_lt. apply (green_steps_spec d _ (S m) Hd). lra. }
      rewrite Em in Hn. split; [symmetry; eapply at_pos_phase; eauto|]. right. split; [lia|]. exists (S m). cbn [fst snd].
      replace (S k - S r) with (k - r) by lia. split; [auto|].
      rewrite (Nat2Z.inj_succ (S m)). unfold Z.succ. rewrite inject_Z_plus. change (inject_Z 1) with 1%Q. lra.
Qed.
End Plan.

(** ** One timestep *)
Definition sig_step (c : cfg) (a b : node) : Prop :=
  n_phase a < List.length (n_signal a) /\
  (n_phase b, n_sigt b) = sig_next (dt c) (n_signal a) (n_phase a, n_sigt a) /\
  n_signal b = n_signal a /\ n_siglog b = n_siglog a ++ [n_phase b].

Lemma sig_step_ext : forall c a b a' b', nsig a = nsig a' -> nsig b = nsig b' -> sig_step c a b -> sig_step c a' b'.
Proof.
  unfold nsig, sig_step. intros c a b a' b' Ha Hb H.
  assert (n_signal a = n_signal a' /\ n_phase a = n_phase a' /\ n_sigt a = n_sigt a' /\ n_siglog a = n_siglog a') as (E1 & E2 & E3 & E4)
    by (repeat split; congruence).
  assert (n_signal b = n_signal b' /\ n_phase b = n_phase b' /\ n_sigt b = n_sigt b' /\ n_siglog b = n_siglog b') as (F1 & F2 & F3 & F4)
    by (repeat split; congruence).
  rewrite <- E1, <- E2, <- E3, <- E4, <- F1, <- F2, <- F3, <- F4. exact H.
Qed.

Lemma flow_capacity_nsig : forall c a b, flow_capacity_update c a = Ok b -> nsig b = nsig a.
Proof. intros c a b H. unfold flow_capacity_update in H. binv H; try reflexivity. destruct (qlt _ _); reflexivity. Qed.

Lemma node_update_sig : forall c n w w', node_update c n w = Ok w' ->
  sig_step c (N w n) (N w' n) /\ (forall k, k <> n -> N w' k = N w k).
Proof.
  intros c n w w' H. unfold node_update in H. apply bind_ok in H. destruct H as (n1 & E1 & H).
  apply bind_ok in H. destruct H as (n2 & E2 & H). injection H as <-. split.
  - apply signal_control_ok in E1. apply flow_capacity_nsig in E2.
    eapply sig_step_ext; [reflexivity| |exact E1]. rewrite N_at, Nat.eqb_refl. auto.
  - intros k Hk. rewrite N_at. apply Nat.eqb_neq in Hk. rewrite Hk. reflexivity.
Qed.

Lemma nodes_sig : forall c ns w w', NoDup ns ->
  foldM (fun n w => w1 <- generate c n w ;; node_update c n w1) ns w = Ok w' ->
  (forall n, In n ns -> sig_step c (N w n) (N w' n)) /\ (forall n, ~ In n ns -> nsig (N w' n) = nsig (N w n)).
Proof.
  intros c ns; induction ns as [|n ns IH]; intros w w' Nd H; cbn [foldM] in H.
  - injection H as <-. split; [intros n []|auto].
  - apply bind_ok in H. destruct H as (w2 & E & H). apply bind_ok in E. destruct E as (w1 & E1 & E2).
    inversion Nd as [|x l Hx Hnd]; subst. destruct (IH _ _ Hnd H) as [A B].
    apply generate_frs in E1. apply node_update_sig in E2. destruct E2 as [S O]. split.
    + intros k [<- | Hk].
      * eapply sig_step_ext; [apply (frs_sig E1)| |exact S]. symmetry. apply B. auto.
      * eapply sig_step_ext; [|reflexivity|apply A; exact Hk]. rewrite O, (frs_sig E1) by (intro; subst; auto). reflexivity.
    + intros k Hk. rewrite B by (intro; apply Hk; right; auto). rewrite O by (intro; apply Hk; left; auto). apply (frs_sig E1).
Qed.

Lemma tick_sig : forall c w w', tick c w = Ok w' -> forall n,
  (n < w_nn w -> sig_step c (N w n) (N w' n)) /\ (w_nn w <= n -> nsig (N w' n) = nsig (N w n)).
Proof.
  intros c w w' H n. apply tick_fr in H. destruct H as (w1 & H & ->).
  apply body_runs in H. destruct H as (a & b & d & e & f & g & E1 & E2 & E3 & E4 & E5 & E6 & ->).
  pose proof (fr_w_nn (frs_fr (phase_links_frs _ _ E1))) as Hnn.
  apply phase_links_frs in E1. apply phase_transfer_frs in E3.
  apply phase_follow_frs in E4. apply phase_vehicles_frs in E5. apply route_phase_frs in E6.
  assert (X : nsig (N b n) = nsig (N g n)).
  { rewrite (frs_sig E6), (frs_sig E5), (frs_sig E4), (frs_sig E3). reflexivity. }
  unfold phase_nodes in E2. apply nodes_sig in E2; [|apply seq_NoDup]. destruct E2 as [A B].
  change (N (sw_T _ (sw_TIME _ g)) n) with (N g n). split; intro Hn.
  - eapply sig_step_ext; [apply (frs_sig E1)|exact X|]. apply A. apply in_seq. lia.
  - rewrite <- X, B, (frs_sig E1); auto. rewrite in_seq. lia.
Qed.

(** ** Operations *)
Definition overrides (n : nid) (o : op) : Prop := exists s g f r, o = OOverrideSignal n s g f r.

Lemma readied_sig : forall a b, readied a b -> nsig b = nsig a.
Proof. intros a b [-> | (x & y & z & ->)]; reflexivity. Qed.

Lemma pref_update_nodes : forall c v q w w', route_pref_update c v q w = Ok w' -> w_nodes w' = w_nodes w /\ w_nn w' = w_nn w.
Proof. intros c v q w w' H. unfold route_pref_update in H. cbn zeta in H. binv H; auto. Qed.
Lemma add_dest_nodes : forall c v d o w w', add_dest c v d o w = Ok w' -> w_nodes w' = w_nodes w /\ w_nn w' = w_nn w.
Proof.
  intros c v d o w w' H. unfold add_dest in H. destruct (v_mode (V w v)); [discriminate|].
  destruct (v_dest (V w v)); [injection H as <-; auto|]. apply pref_update_nodes in H. exact H.
Qed.
Lemma adddemand_nodes : forall c o d t0 t1 fl vol w w', adddemand c o d t0 t1 fl vol w = Ok w' ->
  w_nodes w' = w_nodes w /\ w_nn w' = w_nn w.
Proof.
  intros c o d t0 t1 fl vol w w' H.
  eapply (adddemand_inv (fun x => w_nodes x = w_nodes w /\ w_nn x = w_nn w)); [|auto|exact H].
  intros t a b [K1 K2] E. unfold add_vehicle in E. cbn zeta in E. destruct (negb _); [discriminate|]. destruct (smem _ _); [discriminate|].
  injection E as <-. auto.
Qed.

Lemma override_N : forall n sig gs off rs w w', override_signal n sig gs off rs w = Ok w' -> forall k,
  N w' k = if Nat.eqb k n then
             let nd := sn_offset off (sn_cycle (qsum sig) (sn_signal sig (N w n))) in
             if rs then sn_sigt 0%Q (sn_phase 0 nd) else nd
           else N w k.
Proof.
  intros n sig gs off rs w w' H k. unfold override_signal in H. cbv zeta in H.
  assert (F : forall ls x gs, w_nodes (fold_left (fun w l => if existsb (mem l) gs
                                     then modl l (sl_group (groups_of l gs)) w else w) ls x) = w_nodes x).
  { intros ls; induction ls as [|l ls IH]; intros x gs'; cbn [fold_left]; auto. rewrite IH. destruct (existsb _ _); auto. }
  destruct gs as [gs|].
  - destruct (negb _); [discriminate|]. destruct (negb _); [discriminate|]. injection H as <-.
    unfold N at 1. rewrite F. match goal with |- w_nodes ?x k = _ => change (w_nodes x k) with (N x k) end.
    rewrite N_at. destruct (Nat.eqb k n) eqn:E; auto. apply Nat.eqb_eq in E; subst; auto.
  - injection H as <-. rewrite N_at. destruct (Nat.eqb k n) eqn:E; auto. apply Nat.eqb_eq in E; subst; auto.
Qed.

Lemma override_nn : forall n sig gs off rs w w', override_signal n sig gs off rs w = Ok w' -> w_nn w' = w_nn w.
Proof.
  intros n sig gs off rs w w' H. unfold override_signal in H. cbv zeta in H.
  assert (F : forall ls x gs, w_nn (fold_left (fun w l => if existsb (mem l) gs
                                     then modl l (sl_group (groups_of l gs)) w else w) ls x) = w_nn x).
  { intros ls; induction ls as [|l ls IH]; intros x gs'; cbn [fold_left]; auto. rewrite IH. destruct (existsb _ _); auto. }
  destruct gs as [gs|].
  - destruct (negb _); [discriminate|]. destruct (negb _); [discriminate|]. injection H as <-. rewrite F. reflexivity.
  - injection H as <-. reflexivity.
Qed.

(** an operation other than addNode keeps the number of nodes; one that does not override the
    signal of [n] keeps its state *)
Lemma op_sig : forall c o w w' n, op_ok o w -> (forall a, o <> OExec a) -> apply_op c o w = Ok w' -> n < w_nn w ->
  ~ overrides n o -> nsig (N w' n) = nsig (N w n).
Proof.
  intros c o w w' n Ho Hx H Hn Hov. destruct o; cbn [apply_op] in H.
  - unfold add_node in H. apply bind_ok in H. destruct H as (nd & _ & H). destruct (smem _ _); [discriminate|].
    injection H as <-. unfold N; cbn. rewrite upd_other by lia. reflexivity.
  - unfold add_link in H. cbn zeta in H. destruct (negb _); [discriminate|].
    apply bind_ok in H. destruct H as (k & _ & H). destruct (smem _ _); [discriminate|]. injection H as <-.
    rewrite !N_at. destruct (Nat.eqb n (la_end a)), (Nat.eqb n (la_start a)) eqn:E; reflexivity.
  - unfold add_vehicle in H. cbn zeta in H. destruct (negb _); [discriminate|]. destruct (smem _ _); [discriminate|].
    injection H as <-. reflexivity.
  - apply adddemand_nodes in H. unfold N. rewrite (proj1 H). reflexivity.
  - apply finalize_ok in H. apply readied_sig. apply (fz_N _ _ _ H).
  - elim (Hx a); auto.
  - apply add_dest_nodes in H. unfold N. rewrite (proj1 H). reflexivity.
  - unfold enforce_route in H. destruct (negb _); [discriminate|]. injection H as <-. reflexivity.
  - injection H as <-. reflexivity.
  - injection H as <-. reflexivity.
  - rewrite (override_N _ _ _ _ _ _ _ H). destruct (Nat.eqb n n0) eqn:E; auto.
    apply Nat.eqb_eq in E. subst. elim Hov. do 4 eexists; reflexivity.
  - unfold change_free_flow_speed in H. cbn zeta in H. binv H; reflexivity.
  - unfold change_jam_density in H. cbn zeta in H. binv H; reflexivity.
  - injection H as <-. reflexivity.
  - injection H as <-. reflexivity.
  - injection H as <-. reflexivity.
  - unfold add_trip_request in H. destruct (negb _); [discriminate|]. injection H as <-. reflexivity.
  - unfold assign_taxi in H. destruct (negb _); [discriminate|]. apply bind_ok in H. destruct H as (w1 & E & H).
    injection H as <-. apply add_dest_nodes in E. unfold N. cbn. rewrite (proj1 E). reflexivity.
Qed.

Lemma op_nn : forall c o w w', op_ok o w -> (forall a, o <> OExec a) -> apply_op c o w = Ok w' -> w_nn w <= w_nn w'.
Proof.
  intros c o w w' Ho Hx H. destruct o; cbn [apply_op] in H.
  - unfold add_node in H. apply bind_ok in H. destruct H as (nd & _ & H). destruct (smem _ _); [discriminate|].
    injection H as <-. cbn. lia.
  - unfold add_link in H. cbn zeta in H. destruct (negb _); [discriminate|].
    apply bind_ok in H. destruct H as (k & _ & H). destruct (smem _ _); [discriminate|]. injection H as <-. cbn. lia.
  - unfold add_vehicle in H. cbn zeta in H. destruct (negb _); [discriminate|]. destruct (smem _ _); [discriminate|].
    injection H as <-. auto.
  - apply adddemand_nodes in H. lia.
  - apply finalize_ok in H. pose proof (fz_cnt _ _ _ H) as E. injection E; intros. lia.
  - elim (Hx a); auto.
  - apply add_dest_nodes in H. lia.
  - unfold enforce_route in H. destruct (negb _); [discriminate|]. injection H as <-. auto.
  - injection H as <-. auto.
  - injection H as <-. auto.
  - rewrite (override_nn _ _ _ _ _ _ _ H). auto.
  - unfold change_free_flow_speed in H. cbn zeta in H. binv H; auto.
  - unfold change_jam_density in H. cbn zeta in H. binv H; auto.
  - injection H as <-. auto.
  - injection H as <-. auto.
  - injection H as <-. auto.
  - unfold add_trip_request in H. destruct (negb _); [discriminate|]. injection H as <-. auto.
  - unfold assign_taxi in H. destruct (negb _); [discriminate|]. apply bind_ok in H. destruct H as (w1 & E & H).
    injection H as <-. apply add_dest_nodes in E. cbn. lia.
Qed.

Lemma op_T : forall c o w w', reach c w -> op_ok o w -> (forall a, o <> OExec a) -> apply_op c o w = Ok w' -> w_T w' = w_T w.
Proof.
  intros c o w w' R Ho Hx H. pose proof (reach_clock _ _ R) as C. apply apply_op_osteps in H; auto.
  clear R Ho. induction H; auto. destruct (ostep_clock _ _ _ H C) as [C' E]. rewrite IHosteps; auto.
Qed.

(** ** The signal log follows the plan *)
Definition no_override (n : nid) (o : op) (w : world) : Prop := ~ overrides n o.

Theorem signal_plan_lemma : forall c w w' n, (0 < dt c)%Q -> reach c w -> exists_node w n ->
  (forall g, In g (n_signal (N w n)) -> (0 <= g)%Q) -> n_phase (N w n) < List.length (n_signal (N w n)) ->
  later c (no_override n) w w' ->
  n_siglog (N w' n) = n_siglog (N w n) ++
    map (signal_plan (dt c) (n_signal (N w n)) (n_phase (N w n)) (n_sigt (N w n))) (seq 0 (w_T w' - w_T w)).
Proof.
  intros c w w' n Hd R Hn Hg Hp H. unfold exists_node in Hn.
  enough (w_T w <= w_T w' /\ n < w_nn w' /\ n_signal (N w' n) = n_signal (N w n) /\
    plan_inv (dt c) (n_signal (N w n)) (n_phase (N w n)) (n_sigt (N w n)) (w_T w' - w_T w) (n_phase (N w' n), n_sigt (N w' n)) /\
    n_siglog (N w' n) = n_siglog (N w n) ++
    map (signal_plan (dt c) (n_signal (N w n)) (n_phase (N w n)) (n_sigt (N w n))) (seq 0 (w_T w' - w_T w))) by tauto.
  induction H as [|w1 w2 H IH K].
  - split; [auto|]. split; [auto|]. split; [auto|]. rewrite Nat.sub_diag. split; [|rewrite app_nil_r; auto].
    left. split; [lia|]. split; [auto|]. cbn [snd]. change (inject_Z (Z.of_nat 0)) with 0%Q. lra.
  - destruct IH as (I1 & I2 & I3 & I4 & I5). assert (R1 : reach c w1) by (eapply later_reach; eauto).
    destruct K as [w1 o w2 Hok Hq Hx E|w1 w2 F E|w1].
    + pose proof (op_sig _ _ _ _ _ Hok Hx E I2 Hq) as S. rewrite (op_T _ _ _ _ R1 Hok Hx E).
      pose proof (op_nn _ _ _ _ Hok Hx E). unfold nsig in S.
      replace (n_signal (N w2 n)) with (n_signal (N w1 n)) by congruence.
      replace (n_phase (N w2 n)) with (n_phase (N w1 n)) by congruence.
      replace (n_sigt (N w2 n)) with (n_sigt (N w1 n)) by congruence.
      replace (n_siglog (N w2 n)) with (n_siglog (N w1 n)) by congruence.
      split; [auto|]. split; [lia|auto].
    + destruct (proj1 (tick_sig _ _ _ E n) I2) as (S1 & S2 & S3 & S4).
      apply tick_fr in E. destruct E as (w3 & E & ->). pose proof (fr_w_nn (body_fr _ _ E)) as Enn.
      rewrite I3 in S2, S3. cbn [w_T sw_T w_nn]. 
      destruct (plan_step (dt c) (n_signal (N w n)) (n_phase (N w n)) (n_sigt (N w n)) Hd Hg Hp _ _ I4) as [P1 P2].
      rewrite <- S2 in P1, P2. cbn [fst] in P1.
      split; [lia|]. split; [cbn in *; lia|]. split; [auto|].
      replace (S (w_T w1) - w_T w) with (S (w_T w1 - w_T w)) by lia. split; [exact P2|].
      rewrite S4, I5, P1, seq_S, map_app, app_assoc. reflexivity.
    + split; [auto|]. auto.
Qed.

(** ** The starting position *)
Lemma qsum_firstn : forall l i, i < List.length l -> (qsum (firstn (S i) l) == qsum (firstn i l) + nth i l 0)%Q.
Proof.
  intros l; induction l as [|x l IH]; intros i H; [cbn in H; lia|].
  change (List.length (x :: l)) with (S (List.length l)) in H.
  destruct i.
  - cbn. lra.
  - change (firstn (S (S i)) (x :: l)) with (x :: firstn (S i) l). change (firstn (S i) (x :: l)) with (x :: firstn i l).
    change (nth (S i) (x :: l) 0%Q) with (nth i l 0%Q). cbn [qsum]. rewrite IH by lia. lra.
Qed.
Lemma qsum_firstn_le : forall l i, (forall g, In g l -> (0 <= g)%Q) -> (qsum (firstn i l) <= qsum l)%Q.
Proof.
  intros l; induction l as [|x l IH]; intros i H; destruct i; cbn [firstn qsum]; try lra.
  - assert (0 <= x)%Q by (apply H; left; auto).
    specialize (IH 0 (fun g K => H g (or_intror K))). cbn [firstn qsum] in IH. lra.
  - specialize (IH i (fun g K => H g (or_intror K))). lra.
Qed.

Section Start.
Variable sig : list Q.
Hypothesis Hg : forall g, In g sig -> (0 <= g)%Q.
Let cyc := qsum sig.
Hypothesis Hc : (0 < cyc)%Q.

Lemma floor_lt1 : forall x, (x < cyc)%Q -> (Qfloor (x / cyc) < 1)%Z.
Proof.
  intros x H. assert (K : (x / cyc < 1)%Q) by (apply Qlt_shift_div_r; auto; lra).
  pose proof (Qfloor_le (x / cyc)) as F.
  destruct (Z.lt_ge_cases (Qfloor (x / cyc)) 1) as [|G]; auto. exfalso.
  rewrite Zle_Qle in G. change (inject_Z 1) with 1%Q in G. lra.
Qed.
Lemma floor_minus : forall x, (Qfloor ((x - cyc) / cyc) = Qfloor (x / cyc) - 1)%Z.
Proof.
  intros x. assert (E : ((x - cyc) / cyc == x / cyc + inject_Z (-1))%Q) by (change (inject_Z (-1)) with (-1)%Q; field; lra).
  rewrite E. pose proof (Qfloor_le (x / cyc)) as F1. pose proof (Qlt_floor (x / cyc)) as F2.
  pose proof (Qfloor_le (x / cyc + inject_Z (-1))) as F3. pose proof (Qlt_floor (x / cyc + inject_Z (-1))) as F4.
  rewrite inject_Z_plus in F2, F4. change (inject_Z 1) with 1%Q in *. change (inject_Z (-1)) with (-1)%Q in *.
  set (a := Qfloor (x / cyc)) in *. set (b := Qfloor (x / cyc + -1)) in *.
  assert (inject_Z a < inject_Z b + 2)%Q by lra. assert (inject_Z b + 1 < inject_Z a + 1)%Q by lra.
  assert (a < b + 2)%Z. { rewrite Zlt_Qlt. rewrite inject_Z_plus. change (inject_Z 2) with 2%Q. lra. }
  assert (b < a)%Z. { rewrite Zlt_Qlt. lra. } lia.
Qed.

Lemma signal_start_ok : forall fuel i off, i < List.length sig -> (0 <= off)%Q ->
  (List.length sig - i) + List.length sig * Z.to_nat (Qfloor ((qsum (firstn i sig) + off) / cyc)) <= fuel ->
  exists j t, signal_start fuel sig i off = Ok (j, t) /\ j < List.length sig /\ (0 <= t < nth j sig 0)%Q /\
    exists m : nat, (qsum (firstn i sig) + off == inject_Z (Z.of_nat m) * cyc + qsum (firstn j sig) + t)%Q.
Proof.
  intros fuel; induction fuel as [|f IH]; intros i off Hi Ho Hf; [lia|]. cbn [signal_start].
  rewrite (nth_error_nth' sig 0%Q Hi). cbn [of_opt bind].
  pose proof (qsum_firstn sig i Hi) as Es. pose proof (qsum_firstn_le sig (S i) Hg) as El.
  assert (Gi : (0 <= nth i sig 0)%Q) by (apply Hg, nth_In; auto).
  destruct (qlt off (nth i sig 0%Q)) eqn:E; qb.
  - exists i, off. split; [auto|]. split; [auto|]. split; [split; auto|]. exists 0. change (inject_Z (Z.of_nat 0)) with 0%Q. lra.
  - destruct (List.length sig <=? S i) eqn:El2.
    + apply Nat.leb_le in El2. assert (S i = List.length sig) by lia.
      assert (Ec : (qsum (firstn i sig) + nth i sig 0 == cyc)%Q) by (rewrite <- Es, H, firstn_all; unfold cyc; lra).
      assert (Hx : (cyc <= qsum (firstn i sig) + off)%Q) by lra.
      assert (F1 : (1 <= Qfloor ((qsum (firstn i sig) + off) / cyc))%Z).
      { change 1%Z with (Qfloor 1). apply Qfloor_resp_le. apply Qle_shift_div_l; lra. }
      destruct (IH 0 (off - nth i sig 0%Q)%Q) as (j & t & K1 & K2 & K3 & m & K4); [lia|lra| |].
      { cbn [firstn qsum].
        assert (E2 : ((0 + (off - nth i sig 0)) / cyc == (qsum (firstn i sig) + off - cyc) / cyc)%Q).
        { assert (Y : (0 + (off - nth i sig 0) == qsum (firstn i sig) + off - cyc)%Q) by lra. rewrite Y. reflexivity. }
        rewrite E2, floor_minus. replace (Z.to_nat (Qfloor ((qsum (firstn i sig) + off) / cyc) - 1))
          with (Z.to_nat (Qfloor ((qsum (firstn i sig) + off) / cyc)) - 1) by lia.
        destruct (Z.to_nat (Qfloor ((qsum (firstn i sig) + off) / cyc))) eqn:En; [lia|]. nia. }
      exists j, t. split; [auto|]. split; [auto|]. split; [auto|]. exists (S m).
      rewrite Nat2Z.inj_succ. unfold Z.succ. rewrite inject_Z_plus. change (inject_Z 1) with 1%Q. cbn [firstn qsum] in K4. lra.
    + apply Nat.leb_gt in El2.
      destruct (IH (S i) (off - nth i sig 0%Q)%Q) as (j & t & K1 & K2 & K3 & m & K4); [lia|lra| |].
      { assert (E2 : ((qsum (firstn (S i) sig) + (off - nth i sig 0)) / cyc == (qsum (firstn i sig) + off) / cyc)%Q).
        { assert (Y : (qsum (firstn (S i) sig) + (off - nth i sig 0) == qsum (firstn i sig) + off)%Q) by lra. rewrite Y. reflexivity. }
        rewrite E2. lia. }
      exists j, t. split; [auto|]. split; [auto|]. split; [auto|]. exists m. lra.
Qed.

Theorem signal_init_ok : forall offset, (offset <= cyc)%Q -> is_no_signal sig = false ->
  exists i t, signal_init sig offset = Ok (i, t) /\ cycle_position sig (cyc - offset) i t.
Proof.
  intros offset Ho Hn. unfold signal_init. rewrite Hn. fold cyc. cbv zeta.
  assert (Hl : 0 < List.length sig). { destruct sig; [unfold cyc in Hc; cbn in Hc; lra|cbn; lia]. }
  destruct (signal_start_ok (signal_fuel sig (cyc - offset)) 0 (cyc - offset)%Q Hl) as (i & t & K1 & K2 & K3 & m & K4).
  - lra.
  - unfold signal_fuel. fold cyc. cbn [firstn qsum].
    assert (E2 : ((0 + (cyc - offset)) / cyc == (cyc - offset) / cyc)%Q).
    { assert (Y : (0 + (cyc - offset) == cyc - offset)%Q) by lra. rewrite Y. reflexivity. }
    rewrite E2. nia.
  - exists i, t. split; [auto|]. split; [auto|]. split; [auto|]. exists m. fold cyc. cbn [firstn qsum] in K4. lra.
Qed.
End Start.

Theorem offset_lemma : forall c a, (forall g, In g (na_signal a) -> (0 <= g)%Q) -> (0 < qsum (na_signal a))%Q ->
  (na_offset a <= qsum (na_signal a))%Q -> na_offset_old a = None ->
  exists nd, new_node c a = Ok nd /\ n_signal nd = na_signal a /\
    cycle_position (na_signal a) (qsum (na_signal a) - na_offset a) (n_phase nd) (n_sigt nd).
Proof.
  intros c a Hg Hc Ho Hold.
  assert (Hn : is_no_signal (na_signal a) = false).
  { unfold is_no_signal. destruct (na_signal a) as [|g [|]]; auto. cbn in Hc. apply qeq_false. lra. }
  destruct (signal_init_ok (na_signal a) Hg Hc (na_offset a) Ho Hn) as (i & t & E & P).
  unfold new_node. cbv zeta. rewrite Hold, E. cbn [bind]. eexists; split; [reflexivity|]. split; [reflexivity|exact P].
Qed.

(** ** C11 *)
(** override_signal keeps the phase an index of the new list *)
Definition phase_safe (o : op) (w : world) : Prop :=
  match o with
  | OOverrideSignal n sig _ _ reset => 0 < List.length sig /\ (reset = true \/ n_phase (N w n) < List.length sig)
  | _ => True
  end.

Lemma signal_start_lt : forall fuel sig i off j t, signal_start fuel sig i off = Ok (j, t) -> j < List.length sig.
Proof.
  intros fuel; induction fuel as [|f IH]; intros sig i off j t H; cbn [signal_start] in H; [discriminate|].
  apply bind_ok in H. destruct H as (g & E & H). apply of_opt_ok in E.
  destruct (qlt off g); [injection H as <- <-; apply nth_error_Some; congruence|]. eauto.
Qed.

Lemma new_node_phase : forall c a nd, new_node c a = Ok nd -> n_phase nd < List.length (n_signal nd).
Proof.
  intros c a nd H. unfold new_node in H. cbv zeta in H. apply bind_ok in H. destruct H as ([ph t] & E & H). injection H as <-.
  cbn. unfold signal_init in E. destruct (is_no_signal (na_signal a)) eqn:Es.
  - injection E as <- <-. destruct (na_signal a) as [|? [|]]; cbn in *; try discriminate; lia.
  - eapply signal_start_lt; eauto.
Qed.

Lemma overrides_dec : forall n o, overrides n o \/ ~ overrides n o.
Proof.
  intros n o. unfold overrides.
  destruct o as [| | | | | | | | | |m sg gs f r| | | | | | | ]; try (right; intros (s & g & f & r & K); discriminate K).
  all: try (right; intros (s & g & f' & r' & K); discriminate K).
  destruct (Nat.eq_dec n m) as [-> | Hne]; [left; do 4 eexists; reflexivity|].
  right; intros (s & g & f' & r' & K). congruence.
Qed.
Theorem phase_valid_lemma : forall c w n, reachP c phase_safe w -> exists_node w n ->
  n_phase (N w n) < List.length (n_signal (N w n)).
Proof.
  intros c w n H Hn. revert n Hn.
  apply (reachP_ind' c phase_safe (fun w => forall n, n < w_nn w -> n_phase (N w n) < List.length (n_signal (N w n)))); [| |exact H].
  - intros tm n Hn. cbn in Hn. lia.
  - clear w H. intros w w' R IH K n Hn. destruct K as [w o w' Hok Hq Hx E|w w' F E|w]; auto.
    + assert (D := overrides_dec n o).
      destruct D as [(s & g & f & r & ->)|D].
      * cbn [apply_op phase_safe] in *. rewrite (override_N _ _ _ _ _ _ _ E), Nat.eqb_refl.
        destruct r; cbn; [lia|]. destruct Hq as [_ [Hq|Hq]]; [discriminate|auto].
      * destruct (Nat.lt_ge_cases n (w_nn w)) as [Hlt|Hge].
        -- pose proof (op_sig _ _ _ _ _ Hok Hx E Hlt D) as S. unfold nsig in S.
           replace (n_phase (N w' n)) with (n_phase (N w n)) by congruence.
           replace (n_signal (N w' n)) with (n_signal (N w n)) by congruence. auto.
        -- (* a new node *)
           destruct o; cbn [apply_op] in E;
           try (exfalso; unfold enforce_route, add_trip_request, change_free_flow_speed, change_jam_density in E; cbn zeta in E; binv E; cbn in Hn; lia).
           ++ unfold add_node in E. apply bind_ok in E. destruct E as (nd & E & H). destruct (smem _ _); [discriminate|].
              injection H as <-. cbn in Hn. assert (n = w_nn w) by lia. subst n. unfold N; cbn. rewrite upd_same.
              eapply new_node_phase; eauto.
           ++ exfalso. unfold add_link in E. cbn zeta in E. binv E. cbn in Hn. lia.
           ++ exfalso. unfold add_vehicle in E. cbn zeta in E. binv E. cbn in Hn. lia.
           ++ exfalso. apply adddemand_nodes in E. lia.
           ++ exfalso. apply finalize_ok in E. pose proof (fz_cnt _ _ _ E) as X. injection X; intros. lia.
           ++ elim (Hx a); auto.
           ++ exfalso. apply add_dest_nodes in E. lia.
           ++ exfalso. rewrite (override_nn _ _ _ _ _ _ _ E) in Hn. lia.
           ++ exfalso. unfold assign_taxi in E. destruct (negb _); [discriminate|]. apply bind_ok in E.
              destruct E as (w1 & E & H). injection H as <-. apply add_dest_nodes in E. cbn in Hn. lia.
    + assert (Hn' : n < w_nn w).
      { apply tick_fr in E. destruct E as (w1 & E & ->). rewrite <- (fr_w_nn (body_fr _ _ E)). exact Hn. }
      destruct (proj1 (tick_sig _ _ _ E n) Hn') as (S1 & S2 & S3 & S4). rewrite S3.
      unfold sig_next, next_phase in S2. destruct (qlt _ _); injection S2 as -> _; auto.
      destruct (_ <=? _) eqn:El; [lia|]. apply Nat.leb_gt in El. lia.
    + apply IH; exact Hn.
Qed.
