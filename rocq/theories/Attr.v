(** * Attr: how the public operations change the attributes of links and nodes. *)
From Verif Require Import Base Types Sim Build Heap Lists Inv FrameBase Tac Frame Eff Eff2 Trace InvStep Reach Steps Effects Phases.
Local Open Scope nat_scope.

(** flow-model parameters of a link *)
Definition lpar (k : link) :=
  (l_len k, l_lanes k, (l_u k, l_kappa k, l_tau k, l_w k, l_cap k, l_delta k, l_dpl k), (l_ffs k, l_jam k, l_jampl k), l_prio k, l_eulardx k, l_ediedx k).

Inductive link_case (c : cfg) (o : op) (w w' : world) (l : lid) : Prop :=
| lc_same : l < w_nl w -> lpar (L w' l) = lpar (L w l) -> l_cin (L w' l) = l_cin (L w l) -> l_cout (L w' l) = l_cout (L w l) -> link_case c o w w' l
| lc_new : forall a nm, o = OAddLink a -> l = w_nl w -> new_link c a nm = Ok (L w' l) -> link_case c o w w' l
| lc_speed : forall q, o = OChangeSpeed l q -> change_free_flow_speed l q w = Ok w' -> link_case c o w w' l
| lc_jam : forall q, o = OChangeJam l q -> change_jam_density l q w = Ok w' -> link_case c o w w' l
| lc_cin : forall q, o = OSetCapIn l q -> L w' l = sl_cin (Some q) (L w l) -> link_case c o w w' l
| lc_cout : forall q, o = OSetCapOut l q -> L w' l = sl_cout q (L w l) -> link_case c o w w' l.

Lemma lc_eq : forall c o w w' l, l < w_nl w -> L w' l = L w l -> link_case c o w w' l.
Proof. intros c o w w' l Hl E. apply lc_same; [exact Hl|rewrite E; reflexivity ..]. Qed.

Lemma adddemand_L : forall c o d t0 t1 fl vol w w', adddemand c o d t0 t1 fl vol w = Ok w' ->
  w_links w' = w_links w /\ w_nl w' = w_nl w /\ w_nodes w' = w_nodes w /\ w_nn w' = w_nn w.
Proof.
  intros c o d t0 t1 fl vol w w' H.
  eapply (adddemand_inv (fun x => w_links x = w_links w /\ w_nl x = w_nl w /\ w_nodes x = w_nodes w /\ w_nn x = w_nn w)); [|auto|exact H].
  intros t a b K E. unfold add_vehicle in E. cbn zeta in E. destruct (negb _); [discriminate|]. destruct (smem _ _); [discriminate|].
  injection E as <-. exact K.
Qed.
Lemma pref_update_L : forall c v q w w', route_pref_update c v q w = Ok w' -> w_links w' = w_links w /\ w_nodes w' = w_nodes w.
Proof. intros c v q w w' H. unfold route_pref_update in H. cbn zeta in H. binv H; auto. Qed.
Lemma add_dest_L : forall c v d o w w', add_dest c v d o w = Ok w' -> w_links w' = w_links w /\ w_nodes w' = w_nodes w.
Proof.
  intros c v d o w w' H. unfold add_dest in H. destruct (v_mode (V w v)); [discriminate|]. destruct (v_dest (V w v)).
  - injection H as <-. auto.
  - apply pref_update_L in H. exact H.
Qed.
Lemma override_L : forall n sig gs off rs w w', override_signal n sig gs off rs w = Ok w' ->
  forall l, exists g, L w' l = sl_group g (L w l).
Proof.
  intros n sig gs off rs w w' H l. unfold override_signal in H. cbv zeta in H.
  assert (Z : forall k, k = sl_group (l_group k) k) by (intros []; reflexivity).
  assert (F : forall ls x gs, exists g, L (fold_left (fun w l => if existsb (mem l) gs
                                     then modl l (sl_group (groups_of l gs)) w else w) ls x) l = sl_group g (L x l)).
  { intros ls; induction ls as [|k ls IH]; intros x gs'; cbn [fold_left]; [exists (l_group (L x l)); apply Z|].
    destruct (IH (if existsb (mem k) gs' then modl k (sl_group (groups_of k gs')) x else x) gs') as (g & E). rewrite E.
    destruct (existsb _ _); [|eauto]. rewrite L_at. destruct (Nat.eqb l k) eqn:El; [|eauto]. exists g. reflexivity. }
  destruct gs as [gs|].
  - destruct (negb _); [discriminate|]. destruct (negb _); [discriminate|]. injection H as <-.
    match goal with |- exists g, L (fold_left _ ?ls ?x) l = _ => destruct (F ls x gs) as (g & E) end. exists g. rewrite E. reflexivity.
  - injection H as <-. exists (l_group (L w l)). apply Z.
Qed.

Lemma op_nl : forall c o w w', (forall a, o <> OExec a) -> apply_op c o w = Ok w' -> op_ok o w ->
  w_nl w <= w_nl w' /\ w_nn w <= w_nn w' /\ w_nv w <= w_nv w' /\ (w_final w = true -> w_final w' = true /\ w_nl w' = w_nl w /\ w_nn w' = w_nn w).
Proof.
  intros c o w w' Hx H Ho. pose proof (apply_op_osteps _ _ _ _ Ho Hx H) as O. clear - O. induction O as [w|a b d O1 O IH]; [repeat split; auto|].
  assert (K : w_nl a <= w_nl b /\ w_nn a <= w_nn b /\ w_nv a <= w_nv b /\ (w_final a = true -> w_final b = true /\ w_nl b = w_nl a /\ w_nn b = w_nn a)).
  { destruct O1; unfold wkeep in *; try (cbn; repeat split; try lia; congruence).
    - apply finalize_ok in H0. pose proof (fz_cnt _ _ _ H0) as E. injection E; intros. repeat split; try lia; congruence.
    - injection H2; intros; repeat split; try lia; congruence.
    - injection H2; intros; repeat split; try lia; congruence. }
  destruct K as (K1 & K2 & K3 & K4), IH as (I1 & I2 & I3 & I4). split; [lia|]. split; [lia|]. split; [lia|]. intro F.
  destruct (K4 F) as (F1 & F2 & F3), (I4 F1) as (G1 & G2 & G3). repeat split; congruence.
Qed.

Lemma op_nl_same : forall c o w w', (forall a, o <> OExec a) -> apply_op c o w = Ok w' -> op_ok o w -> (forall a, o <> OAddLink a) -> w_nl w' = w_nl w.
Proof.
  intros c o w w' Hx H Ho Ha. destruct o; cbn [apply_op] in H.
  - unfold add_node in H. apply bind_ok in H. destruct H as (nd & _ & H). destruct (smem _ _); [discriminate|]. injection H as <-. reflexivity.
  - elim (Ha a); reflexivity.
  - unfold add_vehicle in H. cbn zeta in H. destruct (negb _); [discriminate|]. destruct (smem _ _); [discriminate|]. injection H as <-. reflexivity.
  - apply adddemand_L in H. tauto.
  - apply finalize_ok in H. pose proof (fz_cnt _ _ _ H) as E. injection E; auto.
  - elim (Hx a); reflexivity.
  - unfold add_dest in H. destruct (v_mode (V w v)); [discriminate|]. destruct (v_dest (V w v)).
    + injection H as <-. reflexivity.
    + unfold route_pref_update in H. cbn zeta in H. binv H; reflexivity.
  - unfold enforce_route in H. destruct (negb _); [discriminate|]. injection H as <-. reflexivity.
  - injection H as <-. reflexivity.
  - injection H as <-. reflexivity.
  - unfold override_signal in H. cbv zeta in H.
    assert (F : forall ls x gs, w_nl (fold_left (fun w l => if existsb (mem l) gs
                                     then modl l (sl_group (groups_of l gs)) w else w) ls x) = w_nl x).
    { intros ls; induction ls as [|k ls IH]; intros x gs'; cbn [fold_left]; auto. rewrite IH. destruct (existsb _ _); reflexivity. }
    destruct groups as [gs|]; [|injection H as <-; reflexivity].
    destruct (negb _); [discriminate|]. destruct (negb _); [discriminate|]. injection H as <-. rewrite F. reflexivity.
  - unfold change_free_flow_speed in H. cbn zeta in H. binv H; reflexivity.
  - unfold change_jam_density in H. cbn zeta in H. binv H; reflexivity.
  - injection H as <-. reflexivity.
  - injection H as <-. reflexivity.
  - injection H as <-. reflexivity.
  - unfold add_trip_request in H. destruct (negb _); [discriminate|]. injection H as <-. reflexivity.
  - unfold assign_taxi in H. destruct (negb _); [discriminate|]. apply bind_ok in H. destruct H as (w1 & E & H). injection H as <-.
    unfold add_dest in E. destruct (v_mode (V w v)); [discriminate|]. destruct (v_dest (V w v)).
    + injection E as <-. reflexivity.
    + unfold route_pref_update in E. cbn zeta in E. binv E; reflexivity.
Qed.

Theorem op_link : forall c o w w' l, op_ok o w -> (forall a, o <> OExec a) -> apply_op c o w = Ok w' -> l < w_nl w' -> link_case c o w w' l.
Proof.
  intros c o w w' l Ho Hx H Hl.
  assert (Hl0 : (forall a, o <> OAddLink a) -> l < w_nl w).
  { intro K. rewrite <- (op_nl_same c o w w' Hx H Ho K). exact Hl. }
  destruct o; cbn [apply_op] in H; try (specialize (Hl0 ltac:(discriminate))).
  - unfold add_node in H. apply bind_ok in H. destruct H as (nd & _ & H). destruct (smem _ _); [discriminate|].
    injection H as <-. apply lc_eq; [first [exact Hl0|cbn in Hl; lia]|]. reflexivity.
  - unfold add_link in H. cbn zeta in H. destruct (negb _); [discriminate|].
    apply bind_ok in H. destruct H as (k & E & H). destruct (smem _ _); [discriminate|]. injection H as <-.
    destruct (Nat.eq_dec l (w_nl w)) as [-> |Hn].
    + eapply lc_new; [reflexivity|reflexivity|]. unfold L; cbn. rewrite upd_same. exact E.
    + apply lc_eq; [first [exact Hl0|cbn in Hl; lia]|]. unfold L; cbn. rewrite upd_other by auto. reflexivity.
  - unfold add_vehicle in H. cbn zeta in H. destruct (negb _); [discriminate|]. destruct (smem _ _); [discriminate|].
    injection H as <-. apply lc_eq; [first [exact Hl0|cbn in Hl; lia]|]. reflexivity.
  - apply adddemand_L in H. apply lc_eq; [first [exact Hl0|cbn in Hl; lia]|]. unfold L. destruct H as (-> & _). reflexivity.
  - apply finalize_ok in H. destruct (fz_L _ _ _ H l) as (q & E). apply lc_same; [exact Hl0|rewrite E; reflexivity ..].
  - exfalso; eapply Hx; reflexivity.
  - apply add_dest_L in H. apply lc_eq; [first [exact Hl0|cbn in Hl; lia]|]. unfold L. destruct H as (-> & _). reflexivity.
  - unfold enforce_route in H. destruct (negb _); [discriminate|]. injection H as <-. apply lc_eq; [first [exact Hl0|cbn in Hl; lia]|]. reflexivity.
  - injection H as <-. apply lc_eq; [first [exact Hl0|cbn in Hl; lia]|]. reflexivity.
  - injection H as <-. apply lc_eq; [first [exact Hl0|cbn in Hl; lia]|]. reflexivity.
  - destruct (override_L _ _ _ _ _ _ _ H l) as (g & E). apply lc_same; [exact Hl0|rewrite E; reflexivity ..].
  - destruct (Nat.eq_dec l l0) as [-> |Hn]; [eapply lc_speed; [reflexivity|exact H]|].
    unfold change_free_flow_speed in H. cbn zeta in H. apply lc_eq; [first [exact Hl0|cbn in Hl; lia]|]. binv H; rewrite ?L_at, ?(proj2 (Nat.eqb_neq _ _) Hn); reflexivity.
  - destruct (Nat.eq_dec l l0) as [-> |Hn]; [eapply lc_jam; [reflexivity|exact H]|].
    unfold change_jam_density in H. cbn zeta in H. apply lc_eq; [first [exact Hl0|cbn in Hl; lia]|]. binv H; rewrite ?L_at, ?(proj2 (Nat.eqb_neq _ _) Hn); reflexivity.
  - injection H as <-. destruct (Nat.eq_dec l l0) as [-> |Hn].
    + eapply lc_cin; [reflexivity|]. rewrite L_at, Nat.eqb_refl. reflexivity.
    + apply lc_eq; [first [exact Hl0|cbn in Hl; lia]|]. rewrite L_at, (proj2 (Nat.eqb_neq _ _) Hn). reflexivity.
  - injection H as <-. destruct (Nat.eq_dec l l0) as [-> |Hn].
    + eapply lc_cout; [reflexivity|]. rewrite L_at, Nat.eqb_refl. reflexivity.
    + apply lc_eq; [first [exact Hl0|cbn in Hl; lia]|]. rewrite L_at, (proj2 (Nat.eqb_neq _ _) Hn). reflexivity.
  - injection H as <-. apply lc_same; [exact Hl0|rewrite L_at; destruct (Nat.eqb l l0) eqn:E; try (apply Nat.eqb_eq in E; subst); reflexivity ..].
  - unfold add_trip_request in H. destruct (negb _); [discriminate|]. injection H as <-. apply lc_eq; [first [exact Hl0|cbn in Hl; lia]|]. reflexivity.
  - unfold assign_taxi in H. destruct (negb _); [discriminate|]. apply bind_ok in H. destruct H as (w1 & E & H).
    injection H as <-. apply add_dest_L in E. apply lc_eq; [first [exact Hl0|cbn in Hl; lia]|]. destruct E as (E & _). unfold L; cbn. rewrite E. reflexivity.
Qed.
