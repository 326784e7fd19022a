(** * CppOK: the rules of the compiled engine against those of the Python engine (property C65). *)
From Coq Require Import Bool Sorted Permutation.
From Verif Require Import Base Types Sim Build Heap Lists Inv FrameBase Tac Frame Eff Eff2 Trace InvStep Reach Steps Effects Phases Attr Life Incoming Spec Demand AreaStats Cpp SpecCpp.
Local Open Scope nat_scope.

(** ** Car following *)
Lemma follow_ge : forall c w l a, (0 <= l_u (L w l) * dt c)%Q -> (v_x a <= follow_x c w l a)%Q.
Proof.
  intros c w l a H. unfold follow_x. cbn zeta. generalize dependent (l_u (L w l) * dt c)%Q. intros f H.
  destruct (v_leader a) as [b|]; [|lra]. generalize (v_x (V w b) - l_dpl (L w l) * dN c)%Q. intro g.
  destruct (qlt g (v_x a)) eqn:E1; [clear E1|apply qlt_false in E1]; match goal with |- context [if ?b then _ else _] => destruct b end; lra.
Qed.
Lemma follow_same : forall c v w, (forall l, v_link (V w v) = Some l -> (0 <= l_u (L w l) * dt c)%Q) -> cpp_follow c v w = carfollow c v w.
Proof.
  intros c v w H. unfold cpp_follow, carfollow. cbn zeta. destruct (v_link (V w v)) as [l|] eqn:El; [|reflexivity]. specialize (H l eq_refl).
  cbn [of_opt bind]. apply (follow_ge c w l (V w v)), qlt_false in H. unfold follow_x in H. cbn zeta in H. rewrite H. reflexivity.
Qed.

Definition follow1 (c : cfg) (w : world) (v : vid) : vehicle :=
  match v_link (V w v) with Some l => followed c w l (V w v) | None => V w v end.

Lemma followed_x : forall c w l a, v_x (followed c w l a) = v_x a /\ v_link (followed c w l a) = v_link a /\ v_leader (followed c w l a) = v_leader a.
Proof. intros. unfold followed. destruct (qlt _ _); auto. Qed.

Lemma carfollow_step : forall c v w l, v_link (V w v) = Some l -> exists w', carfollow c v w = Ok w' /\
  (forall f, sw_vehs f w' = sw_vehs f w) /\ (forall u, V w' u = if Nat.eqb u v then followed c w l (V w v) else V w u) /\ forall k, L w' k = L w k.
Proof.
  intros c v w l El. unfold carfollow. cbn zeta. rewrite El. cbn [of_opt bind]. eexists. split; [reflexivity|].
  split; [reflexivity|]. split; [|reflexivity]. intro u. rewrite V_at. destruct (Nat.eqb u v) eqn:E; [|reflexivity]. apply Nat.eqb_eq in E. subst u. reflexivity.
Qed.

Lemma follow_x_same : forall c w w' l a, (forall k, L w' k = L w k) -> (forall u, v_x (V w' u) = v_x (V w u)) -> follow_x c w' l a = follow_x c w l a.
Proof. intros c w w' l a EL EV. unfold follow_x. rewrite EL. destruct (v_leader a); [rewrite EV|]; reflexivity. Qed.
Lemma followed_same : forall c w w' l a, (forall k, L w' k = L w k) -> (forall u, v_x (V w' u) = v_x (V w u)) -> followed c w' l a = followed c w l a.
Proof. intros c w w' l a EL EV. unfold followed. rewrite (follow_x_same c w w' l a EL EV), EL. reflexivity. Qed.

Lemma follow_all : forall c xs w, NoDup xs -> (forall v, In v xs -> v_link (V w v) <> None) ->
  exists w', foldM (carfollow c) xs w = Ok w' /\ (forall f, sw_vehs f w' = sw_vehs f w) /\
    forall u, V w' u = if mem u xs then follow1 c w u else V w u.
Proof.
  intros c xs. induction xs as [|v xs IH]; intros w Nd Hl.
  - exists w. split; [reflexivity|]. split; reflexivity.
  - inversion Nd as [|? ? N1 N2]; subst. destruct (v_link (V w v)) as [l|] eqn:El; [|elim (Hl v); [left; reflexivity|exact El]].
    destruct (carfollow_step c v w l El) as (w1 & E1 & S1 & V1 & L1).
    assert (X1 : forall u, v_x (V w1 u) = v_x (V w u)).
    { intro u. rewrite V1. destruct (Nat.eqb u v) eqn:Eu; [|reflexivity]. apply Nat.eqb_eq in Eu. subst. apply followed_x. }
    assert (O1 : forall u, u <> v -> V w1 u = V w u) by (intros u Hu; rewrite V1; apply Nat.eqb_neq in Hu; rewrite Hu; reflexivity).
    destruct (IH w1 N2) as (w' & E2 & S2 & V2).
    { intros u Hu. rewrite O1 by (intros ->; contradiction). apply Hl. right; exact Hu. }
    exists w'. cbn [foldM]. rewrite E1. cbn [bind]. split; [exact E2|]. split; [intro f; rewrite S2; apply S1|].
    intro u. rewrite V2. change (mem u (v :: xs)) with (Nat.eqb u v || mem u xs). destruct (Nat.eqb u v) eqn:Eu.
    + apply Nat.eqb_eq in Eu. subst u. cbn [orb]. destruct (mem v xs) eqn:Em; [apply mem_iff in Em; contradiction|].
      rewrite V1, Nat.eqb_refl. unfold follow1. rewrite El. reflexivity.
    + cbn [orb]. apply Nat.eqb_neq in Eu. destruct (mem u xs); [|apply O1; exact Eu]. unfold follow1. rewrite (O1 u Eu).
      destruct (v_link (V w u)) as [k|]; [|reflexivity]. apply followed_same; assumption.
Qed.

Lemma NoDup_app_intro : forall A (xs ys : list A), NoDup xs -> NoDup ys -> (forall x, In x xs -> In x ys -> False) -> NoDup (xs ++ ys).
Proof.
  intros A xs ys H1 H2 H3. induction H1 as [|x xs N1 N2 IH]; [exact H2|]. cbn. constructor.
  - rewrite in_app_iff. intros [K|K]; [contradiction|]. apply (H3 x); [left; reflexivity|exact K].
  - apply IH. intros y Hy. apply H3. right; exact Hy.
Qed.

(** the queues of the links hold the running vehicles, each once *)
Lemma on_links_in : forall w v, Inv2 w None -> In v (on_links w) <-> In v (w_running w).
Proof.
  intros w v [[T I] _]. unfold on_links. rewrite in_concat. rewrite (s_running I). split.
  - intros (q & Hq & Hv). apply in_map_iff in Hq. destruct Hq as (l & <- & _). rewrite <- Dq_none in Hv. apply (s_D I) in Hv. tauto.
  - intros [Hv Hr]. destruct (s_link I Hv) as [K _]; [discriminate|]. destruct (K Hr) as (l & El & Hl).
    exists (l_vehs (L w l)). split; [apply (in_map (fun l => l_vehs (L w l))); apply in_seq; lia|]. rewrite <- Dq_none. apply (s_D I). repeat split; auto. discriminate.
Qed.
Lemma on_links_nodup : forall w, Inv2 w None -> NoDup (on_links w).
Proof.
  intros w [[T I] _]. unfold on_links. generalize (seq_NoDup (w_nl w) 0). generalize (seq 0 (w_nl w)). intros ls Nd. induction Nd as [|l ls N1 N2 IH]; cbn [map List.concat]; [constructor|].
  apply NoDup_app_intro; [rewrite <- Dq_none; apply (s_D_nd I)|exact IH|].
  intros v H1 H2. rewrite in_concat in H2. destruct H2 as (q & Hq & Hv). apply in_map_iff in Hq. destruct Hq as (l' & <- & Hl').
  rewrite <- Dq_none in H1, Hv. apply (s_D I) in H1. apply (s_D I) in Hv. destruct H1 as (_ & _ & H1 & _). destruct Hv as (_ & _ & Hv & _).
  rewrite H1 in Hv. injection Hv as <-. contradiction.
Qed.

Lemma cpp_follow_all : forall c xs w, (forall v l, In v xs -> v_link (V w v) = Some l -> (0 <= l_u (L w l) * dt c)%Q) ->
  NoDup xs -> foldM (cpp_follow c) xs w = foldM (carfollow c) xs w.
Proof.
  intros c xs. induction xs as [|v xs IH]; intros w H Nd; [reflexivity|]. cbn [foldM]. inversion Nd as [|? ? N1 N2]; subst.
  rewrite follow_same by (intros l; apply H; left; reflexivity). destruct (v_link (V w v)) as [l|] eqn:El.
  - destruct (carfollow_step c v w l El) as (w1 & E1 & S1 & V1 & L1). rewrite E1. cbn [bind]. apply IH; [|exact N2].
    intros u k Hu. rewrite L1, V1. destruct (Nat.eqb u v) eqn:Eu; [apply Nat.eqb_eq in Eu; subst; contradiction|]. apply H. right; exact Hu.
  - unfold carfollow. rewrite El. reflexivity.
Qed.

Lemma cpp_follow_phase : forall c w, Inv2 w None -> forward c w ->
  exists w1 w2, cpp_phase_follow c w = Ok w1 /\ phase_follow c w = Ok w2 /\ same_world w1 w2.
Proof.
  intros c w I0 Fw. pose proof I0 as [[T I] _]. unfold cpp_phase_follow, phase_follow.
  assert (HL : forall v, In v (w_running w) -> exists l, v_link (V w v) = Some l /\ l < w_nl w).
  { intros v Hv. apply (s_running I) in Hv. destruct Hv as [Hv Hr]. destruct (s_link I Hv) as [K _]; [discriminate|]. apply K; exact Hr. }
  destruct (follow_all c (on_links w) w) as (w1 & E1 & S1 & V1).
  { apply on_links_nodup; exact I0. }
  { intros v Hv. apply on_links_in in Hv; [|exact I0]. destruct (HL v Hv) as (l & El & _). rewrite El. discriminate. }
  destruct (follow_all c (w_running w) w) as (w2 & E2 & S2 & V2).
  { apply (s_running_nd I). }
  { intros v Hv. destruct (HL v Hv) as (l & El & _). rewrite El. discriminate. }
  exists w1, w2. split; [|split; [exact E2|]].
  - rewrite cpp_follow_all; [exact E1| |apply on_links_nodup; exact I0].
    intros v l Hv El. apply on_links_in in Hv; [|exact I0]. destruct (HL v Hv) as (l' & El' & Hl). rewrite El in El'. injection El' as <-. apply Fw; exact Hl.
  - split; [|intro f; rewrite S1, S2; reflexivity]. intro v. rewrite V1, V2.
    replace (mem v (w_running w)) with (mem v (on_links w)); [reflexivity|].
    apply eq_true_iff_eq. rewrite !mem_iff. apply on_links_in; exact I0.
Qed.

Theorem follow_phase_agrees : forall c w w1 w2 w3, reach c w ->
  phase_links c w = Ok w1 -> phase_nodes c w1 = Ok w2 -> phase_transfer c w2 = Ok w3 -> forward c w3 ->
  exists w4 w4', phase_follow c w3 = Ok w4 /\ cpp_phase_follow c w3 = Ok w4' /\ same_world w4' w4.
Proof.
  intros c w w1 w2 w3 R E1 E2 E3 Fw. pose proof (reach_Inv2 _ _ R) as I0.
  apply phase_links_run in E1. apply phase_nodes_run in E2. apply phase_transfer_run in E3.
  pose proof (run_Inv2' _ _ _ _ I0 E1) as I1. pose proof (run_Inv2' _ _ _ _ I1 E2) as I2. pose proof (run_Inv2' _ _ _ _ I2 E3) as I3.
  destruct (cpp_follow_phase c w3 I3 Fw) as (x1 & x2 & X1 & X2 & X3). exists x2, x1. auto.
Qed.

(** ** Signals and node capacities *)
Lemma cpp_signal_many : forall c nd, 1 < List.length (n_signal nd) ->
  cpp_signal_update c nd = match signal_control c nd with Ok x => Ok (sn_cycle (n_cycle nd) x) | Err e => Err e end.
Proof.
  intros c nd H. unfold cpp_signal_update, signal_control. apply Nat.ltb_lt in H. rewrite H.
  destruct (nth_error (n_signal nd) (n_phase nd)) as [g|]; [|reflexivity]. cbn [of_opt bind]. cbn zeta.
  destruct (qlt g (n_sigt nd)); destruct nd; reflexivity.
Qed.
Lemma cpp_signal_one : forall c nd, List.length (n_signal nd) <= 1 -> n_phase nd = 0 -> n_signal nd <> [] ->
  exists x y, cpp_signal_update c nd = Ok x /\ signal_control c nd = Ok y /\ n_phase x = 0 /\ n_phase y = 0 /\ n_siglog x = n_siglog y /\
    n_sigt x = n_sigt nd.
Proof.
  intros c nd H Hp Hn. unfold cpp_signal_update, signal_control. assert (K : 1 <? List.length (n_signal nd) = false) by (apply Nat.ltb_ge; exact H). rewrite K, Hp.
  destruct (n_signal nd) as [|g [|? ?]] eqn:Es; [contradiction| |cbn in H; lia]. cbn [nth_error of_opt bind]. cbn zeta.
  eexists. eexists. split; [reflexivity|]. split; [reflexivity|]. destruct (qlt g (n_sigt nd)); destruct nd; cbn in *; subst; auto.
Qed.

Lemma cpp_capacity_same : forall c nd, (n_fcap nd <> None -> exists m, n_lanes nd = Some (S m)) ->
  flow_capacity_update c nd = Ok (cpp_flow_capacity_update c nd).
Proof.
  intros c nd H. unfold flow_capacity_update, cpp_flow_capacity_update. destruct (n_fcap nd) as [fc|]; [|reflexivity].
  destruct H as [m Hm]; [discriminate|]. rewrite Hm. reflexivity.
Qed.

(** ** Links *)
Lemma cpp_caps_same : forall c k cin, l_cin k = Some cin -> (cin < 10e9)%Q -> (l_cout k < 10e9)%Q -> cpp_caps c k = in_out_flow_constraint c k.
Proof.
  intros c k cin E H1 H2. unfold cpp_caps, in_out_flow_constraint. cbn zeta. apply qlt_iff in H1, H2. rewrite H2, E.
  destruct (qlt (l_coutr k) _); cbn [l_cin sl_coutr]; rewrite E, H1; reflexivity.
Qed.

Lemma cpp_tt_same : forall c w k k', tti_interval c <> 0 -> (0 < l_u k)%Q ->
  set_traveltime_instant c w k = Ok k' -> l_tti k' = l_tti k ++ [cpp_travel_time c w (last (l_tti k) 0%Q) k].
Proof.
  intros c w k k' Hi Hp E. unfold set_traveltime_instant, cpp_travel_time, link_speed in *.
  destruct (Nat.eqb (tti_interval c) 0); [discriminate|]. destruct (Nat.eqb (w_T w mod tti_interval c) 0) eqn:Em; cbn [negb] in *; cbn zeta in *.
  - destruct (l_vehs k) as [|v vs]; [assert (X : qlt 0 (l_u k) = true) by (apply qlt_iff; exact Hp); rewrite X in E; injection E as <-; reflexivity|].
    destruct (qlt 0 _); [injection E as <-; reflexivity|]. unfold qdiv in E. destruct (qeq _ 0); [discriminate|]. cbn [bind] in E. injection E as <-. reflexivity.
  - destruct (Nat.eqb (w_T w) 0) eqn:E0; [apply Nat.eqb_eq in E0; rewrite E0, Nat.mod_0_l in Em by exact Hi; discriminate|].
    destruct (last_opt (l_tti k)) as [d|] eqn:Ed; [|discriminate]. injection E as <-. cbn [l_tti sl_tti]. f_equal. f_equal.
    clear -Ed. induction (l_tti k) as [|a t IH]; [discriminate|]. destruct t as [|b t]; [cbn in Ed; injection Ed as <-; reflexivity|].
    change (last_opt (b :: t) = Some d) in Ed. change (last (a :: b :: t) 0%Q) with (last (b :: t) 0%Q). auto.
Qed.
