(** * Taxi: destinations, events and trip requests through the simulation (C30, C31). *)
From Coq Require Import Permutation.
From Verif Require Import Base Types Sim Build Heap Lists Inv FrameBase Tac Frame Eff Eff2 Trace InvStep Reach Steps Effects Phases Attr Life Incoming Vev Ride TripLog Route Choice Enforce Clock SpecTaxi.
Local Open Scope nat_scope.

Definition vtx (a : vehicle) := (v_dest a, v_dests a, v_events a).

Lemma mstep_taxi : forall c e w p w' p' v, Inv2 w p -> mstep c e w p w' p' -> (forall u te, e <> VEvent u te) -> e <> VNextDest v ->
  vtx (V w' v) = vtx (V w v).
Proof.
  intros c e w p w' p' v I M Ne Nd.
  pose proof (mstep_eff c e w p w' p' I M) as H. destruct e; cbn [eff] in H.
  - destruct H as (_ & _ & _ & H & _). rewrite H. reflexivity.
  - destruct H as (_ & _ & H & _). rewrite H. reflexivity.
  - destruct H as (-> & _ & q & ca & H1 & H2 & _ & _ & _ & _ & _ & _ & _ & _ & _ & _ & _ & _ & A & B).
    destruct (Nat.eq_dec v v0) as [-> | Hne]; [rewrite A; reflexivity|rewrite B by auto; destruct (opt_eqb _ _); reflexivity].
  - destruct H as (_ & _ & _ & H & _). rewrite H. reflexivity.
  - destruct H as (-> & _ & cd & ca & rest & q & H).
    do 19 (destruct H as [_ H]). destruct H as (_ & _ & A & B).
    destruct (Nat.eq_dec v v0) as [-> | Hne]; [rewrite A; reflexivity|].
    rewrite B by auto. cbv zeta. destruct (opt_eqb (t_leader _ _ _) _), (opt_eqb (v_follower _) _); reflexivity.
  - destruct H as (-> & rest & cd & lg & tl & H1 & _ & H2 & H3 & _ & _ & _ & _ & _ & _ & _ & A & _ & _ & B).
    destruct (Nat.eq_dec v v0) as [-> | Hne].
    + assert (E : forall (b : bool) tl lg a, vtx (let x := sv_linkold None (sv_tlog tl (sv_log lg a)) in
        if b then sv_pref PrefNone x else x) = vtx a) by (intros [] ? ? ?; reflexivity).
      rewrite B, E. unfold ended. rs. destruct (v_aborted _); reflexivity.
    + rewrite A by auto. destruct (opt_eqb _ _); reflexivity.
  - destruct H as (_ & _ & H & _). rewrite H. reflexivity.
  - destruct H as (_ & _ & H & _). rewrite H. reflexivity.
  - destruct H as (_ & _ & _ & _ & _ & _ & l & _ & H). rewrite H.
    destruct (Nat.eqb v v0) eqn:E; [|reflexivity]. apply Nat.eqb_eq in E; subst. unfold followed. destruct (qlt _ _); reflexivity.
  - destruct H as (_ & _ & _ & _ & _ & _ & _ & H). rewrite H.
    destruct (Nat.eqb v v0) eqn:E; [|reflexivity]. apply Nat.eqb_eq in E; subst. reflexivity.
  - destruct H as (_ & _ & _ & _ & _ & _ & _ & _ & H & _). rewrite H. destruct (Nat.eqb v v0); reflexivity.
  - destruct H as (_ & _ & _ & _ & _ & _ & _ & _ & H). rewrite H. destruct (Nat.eqb v v0); reflexivity.
  - exfalso. apply (Ne v0 e). reflexivity.
  - destruct H as (_ & _ & _ & _ & _ & A & pf & B). destruct (Nat.eq_dec v v0) as [-> | Hne]; [rewrite B; reflexivity|rewrite A by auto; reflexivity].
  - destruct H as (_ & _ & _ & _ & _ & _ & _ & _ & H). rewrite H. destruct (Nat.eqb v v0); reflexivity.
  - destruct H as (_ & _ & H0 & _ & _ & _ & _ & _ & H). rewrite H. destruct (Nat.eqb v v0) eqn:E; [|reflexivity].
    apply Nat.eqb_eq in E; subst. exfalso. apply Nd. reflexivity.
  - destruct H as (_ & _ & _ & _ & _ & _ & _ & _ & H). rewrite H. destruct (Nat.eqb v v0); reflexivity.
  - destruct H as (_ & _ & _ & _ & _ & A & l & _ & _ & B).
    destruct (Nat.eq_dec v v0) as [-> | Hne]; [|rewrite A by auto; reflexivity].
    destruct B as [(B & _)|[(B & _)|(o & _ & B)]]; rewrite B; reflexivity.
  - destruct H as (_ & _ & _ & H & _). rewrite H. reflexivity.
  - destruct H as (_ & _ & H & _). rewrite H. reflexivity.
  - destruct H as (_ & _ & H & _). rewrite H. reflexivity.
  - destruct H as (_ & _ & H & _). rewrite H. reflexivity.
Qed.

Lemma mstep_req : forall c e w p w' p', Inv2 w p -> mstep c e w p w' p' -> (forall u te, e <> VEvent u te) -> sameR w w'.
Proof.
  intros c e w p w' p' I M Ne. pose proof (mstep_eff c e w p w' p' I M) as H. destruct e; cbn [eff] in H.
  all: try (exfalso; eapply Ne; reflexivity).
  all: try (decompose [and ex] H; assumption).
Qed.

(** ** Destinations and events *)
Definition wtx (w : world) := (w_nv w, w_nr w, w_pending w, w_TIME w, w_T w, w_final w).

Lemma add_dest_ok : forall c v d o w w', add_dest c v d o w = Ok w' ->
  v_mode (V w v) = Taxi /\ v_mode (V w' v) = Taxi /\ (forall u, u <> v -> V w' u = V w u) /\ w_reqs w' = w_reqs w /\ wtx w' = wtx w /\
  w_links w' = w_links w /\ w_nodes w' = w_nodes w /\
  v_events (V w' v) = v_events (V w v) /\ v_next (V w' v) = v_next (V w v) /\
  (v_dest (V w v) = None /\ v_dest (V w' v) = Some d /\ v_dests (V w' v) = v_dests (V w v) \/
   exists x, v_dest (V w v) = Some x /\ v_dest (V w' v) = Some x /\
     v_dests (V w' v) = match o with None => v_dests (V w v) ++ [d] | Some i => firstn i (v_dests (V w v)) ++ d :: skipn i (v_dests (V w v)) end).
Proof.
  intros c v d o w w' H. unfold add_dest in H. destruct (v_mode (V w v)) eqn:Em; [discriminate|]. split; [reflexivity|].
  destruct (v_dest (V w v)) as [x|] eqn:Ed.
  - injection H as <-. split; [rewrite V_at, Nat.eqb_refl; exact Em|]. split.
    { intros u Hu. rewrite V_at. apply Nat.eqb_neq in Hu. rewrite Hu. reflexivity. }
    do 4 (split; [reflexivity|]). rewrite V_at, Nat.eqb_refl. split; [reflexivity|]. split; [reflexivity|].
    right. exists x. split; [reflexivity|]. split; [exact Ed|]. destruct o; reflexivity.
  - assert (Wt : w_reqs w' = w_reqs w /\ wtx w' = wtx w /\ w_links w' = w_links w /\ w_nodes w' = w_nodes w).
    { unfold route_pref_update in H. cbn zeta in H. binv H; auto. }
    destruct (pref_update_V _ _ _ _ _ H) as (A & (pf & B) & C). rewrite V_at, Nat.eqb_refl in B. rewrite B.
    split; [exact Em|]. split.
    { intros u Hu. rewrite A by exact Hu. rewrite V_at. apply Nat.eqb_neq in Hu. rewrite Hu. reflexivity. }
    destruct Wt as (W1 & W2 & W3 & W4). do 6 (split; [auto|]). left. auto.
Qed.

Lemma event_ok : forall c te w w', run_event c te w = Ok w' ->
  wtx w' = wtx w /\ w_links w' = w_links w /\ w_nodes w' = w_nodes w /\
  match te with
  | GetOn r => exists v, r_taxi (R w r) = Some v /\ v_mode (V w v) = Taxi /\ (forall u, u <> v -> V w' u = V w u) /\
      ddel (r_orig (R w r)) (dset (r_dest (R w r)) (Arrive r) (v_events (V w v))) = Some (v_events (V w' v)) /\
      (forall k, R w' k = if Nat.eqb k r then sr_geton (Some (w_TIME w)) (R w k) else R w k) /\
      v_mode (V w' v) = Taxi /\ v_next (V w' v) = v_next (V w v) /\
      (v_dest (V w v) = None /\ v_dest (V w' v) = Some (r_dest (R w r)) /\ v_dests (V w' v) = v_dests (V w v) \/
       exists x, v_dest (V w v) = Some x /\ v_dest (V w' v) = Some x /\ v_dests (V w' v) = v_dests (V w v) ++ [r_dest (R w r)])
  | Arrive r => exists v, r_taxi (R w r) = Some v /\ (forall u, u <> v -> V w' u = V w u) /\
      ddel (r_dest (R w r)) (v_events (V w v)) = Some (v_events (V w' v)) /\
      (forall k, R w' k = if Nat.eqb k r then sr_arrived (Some (w_TIME w)) (R w k) else R w k) /\
      v_mode (V w' v) = v_mode (V w v) /\ v_next (V w' v) = v_next (V w v) /\
      v_dest (V w' v) = v_dest (V w v) /\ v_dests (V w' v) = v_dests (V w v)
  end.
Proof.
  intros c te w w' H. destruct te as [r|r]; cbn [run_event] in H; cbn zeta in H.
  - apply bind_ok in H. destruct H as (v & E1 & H). apply of_opt_ok in E1. apply bind_ok in H. destruct H as (w1 & E2 & H).
    apply bind_ok in H. destruct H as (ev & E3 & H). apply of_opt_ok in E3. injection H as <-.
    apply add_dest_ok in E2. destruct E2 as (A1 & A2 & A3 & A4 & A5 & A6 & A7 & A8 & A9 & A10).
    assert (ER : forall k, R w1 k = R w k) by (intro; unfold R; rewrite A4; reflexivity).
    assert (ET : w_TIME w1 = w_TIME w) by (unfold wtx in A5; congruence).
    assert (EV : forall ev ev' f, V (modv v (sv_events ev) (modr r f (modv v (fun a => sv_events (ev' a) a) w1))) v = sv_events ev (sv_events (ev' (V w1 v)) (V w1 v))).
    { intros. rewrite V_at, Nat.eqb_refl. change (V (modr r f ?x) v) with (V x v). rewrite V_at, Nat.eqb_refl. reflexivity. }
    split; [exact A5|]. split; [exact A6|]. split; [exact A7|]. exists v. split; [exact E1|]. split; [exact A1|]. split.
    { intros u Hu. rewrite V_at. pose proof Hu as Hu'. apply Nat.eqb_neq in Hu. rewrite Hu. change (V (modr r ?f ?x) u) with (V x u). rewrite V_at, Hu.
      apply A3. exact Hu'. }
    rewrite EV. cbn [v_events sv_events v_mode v_next v_dest v_dests]. split.
    { rewrite R_at, Nat.eqb_refl in E3. change (R (modv v ?f ?x) r) with (R x r) in E3. cbn [r_orig sr_geton] in E3.
      change (V (modr r ?f ?x) v) with (V x v) in E3. rewrite V_at, Nat.eqb_refl in E3.
      cbn [v_events sv_events] in E3. rewrite !ER, A8 in E3. exact E3. }
    split.
    { intro k. change (R (modv v (sv_events ev) ?x) k) with (R x k). rewrite R_at. change (R (modv v ?f w1) k) with (R w1 k). rewrite ER.
      change (w_TIME (modv v ?f w1)) with (w_TIME w1). rewrite ET. destruct (Nat.eqb k r); reflexivity. }
    split; [exact A2|]. split; [exact A9|]. exact A10.
  - apply bind_ok in H. destruct H as (v & E1 & H). apply of_opt_ok in E1. rewrite R_at, Nat.eqb_refl in E1.
    apply bind_ok in H. destruct H as (ev & E3 & H). apply of_opt_ok in E3. rewrite R_at, Nat.eqb_refl in E3. injection H as <-.
    split; [reflexivity|]. split; [reflexivity|]. split; [reflexivity|]. exists v. split; [exact E1|]. split.
    { intros u Hu. rewrite V_at. apply Nat.eqb_neq in Hu. rewrite Hu. reflexivity. }
    rewrite V_at, Nat.eqb_refl. split; [exact E3|]. split.
    { intro k. change (R (modv v ?f ?x) k) with (R x k). rewrite R_at. reflexivity. }
    auto.
Qed.

(** ** Dictionaries *)
Lemma dset_In : forall A k (x : A) d n y, NoDup (map fst d) -> In (n, y) (dset k x d) -> (n = k /\ y = x) \/ (n <> k /\ In (n, y) d).
Proof.
  intros A k x d; induction d as [|[a b] d IH]; intros n y Nd H; cbn [dset] in H.
  - destruct H as [H|[]]. injection H as <- <-. auto.
  - cbn [map fst] in Nd. inversion Nd as [|? ? N1 N2]; subst. destruct (Nat.eqb k a) eqn:E.
    + apply Nat.eqb_eq in E; subst a. destruct H as [H|H]; [injection H as <- <-; auto|]. right. split; [|right; exact H].
      intros ->. apply N1. apply (in_map fst) in H. exact H.
    + apply Nat.eqb_neq in E. destruct H as [H|H]; [injection H as <- <-; right; split; [auto|left; reflexivity]|].
      destruct (IH n y N2 H) as [K|[K1 K2]]; [auto|right; split; [auto|right; exact K2]].
Qed.
Lemma dset_keys : forall A k (x : A) d n, In n (map fst (dset k x d)) -> n = k \/ In n (map fst d).
Proof.
  intros A k x d; induction d as [|[a b] d IH]; intros n H; cbn [dset] in H.
  - destruct H as [H|[]]. auto.
  - destruct (Nat.eqb k a) eqn:E.
    + apply Nat.eqb_eq in E; subst a. destruct H as [H|H]; [auto|right; right; exact H].
    + destruct H as [H|H]; [right; left; exact H|]. destruct (IH n H); [auto|right; right; auto].
Qed.
Lemma dset_NoDup : forall A k (x : A) d, NoDup (map fst d) -> NoDup (map fst (dset k x d)).
Proof.
  intros A k x d; induction d as [|[a b] d IH]; intro Nd; cbn [dset].
  - constructor; [intros []|constructor].
  - cbn [map fst] in Nd. inversion Nd as [|? ? N1 N2]; subst. destruct (Nat.eqb k a) eqn:E.
    + apply Nat.eqb_eq in E; subst a. exact Nd.
    + cbn [map fst]. constructor; [|auto]. intro K. apply dset_keys in K. apply Nat.eqb_neq in E. destruct K; [congruence|auto].
Qed.
Lemma ddel_ok : forall A k (d d' : list (nat * A)), ddel k d = Some d' -> NoDup (map fst d) ->
  NoDup (map fst d') /\ (forall n y, In (n, y) d' <-> n <> k /\ In (n, y) d).
Proof.
  intros A k d; induction d as [|[a b] d IH]; intros d' H Nd; cbn [ddel] in H; [discriminate|].
  cbn [map fst] in Nd. inversion Nd as [|? ? N1 N2]; subst. destruct (Nat.eqb k a) eqn:E.
  - apply Nat.eqb_eq in E; subst a. injection H as <-. split; [exact N2|]. intros n y. split.
    + intro H. split; [|right; exact H]. intros ->. apply N1. apply (in_map fst) in H. exact H.
    + intros (H1 & [H|H]); [congruence|exact H].
  - apply Nat.eqb_neq in E. destruct (ddel k d) as [tl|] eqn:Et; [|discriminate]. injection H as <-.
    destruct (IH tl eq_refl N2) as (I1 & I2). split.
    + cbn [map fst]. constructor; [|exact I1]. intro K. apply N1. apply in_map_iff in K. destruct K as ((n & y) & K1 & K2). cbn in K1. subst n.
      apply I2 in K2. destruct K2 as [_ K2]. apply (in_map fst) in K2. exact K2.
    + intros n y. split.
      * intros [K|K]; [injection K as <- <-; split; [auto|left; reflexivity]|]. apply I2 in K. destruct K. split; [auto|right; auto].
      * intros (K1 & [K|K]); [left; exact K|right; apply I2; auto].
Qed.

(** ** The invariant *)
Definition evok (w : world) (v : vid) (n : nid) (e : tevent) : Prop :=
  match e with
  | GetOn r => r < w_nr w /\ r_taxi (R w r) = Some v /\ r_orig (R w r) = n /\ r_geton (R w r) = None
  | Arrive r => r < w_nr w /\ r_taxi (R w r) = Some v /\ r_dest (R w r) = n /\ r_geton (R w r) <> None /\ r_arrived (R w r) = None
  end.
Record TX (c : cfg) (w : world) : Prop := mkTX {
  tx_dest : forall v, v_dest (V w v) = None -> v_dests (V w v) = [];
  tx_keys : forall v, NoDup (map fst (v_events (V w v)));
  tx_ev : forall v n e, In (n, e) (v_events (V w v)) -> evok w v n e;
  tx_nd : NoDup (w_pending w);
  tx_lt : forall r, In r (w_pending w) -> r < w_nr w;
  tx_stage : forall r, r < w_nr w -> stage w r;
  tx_time : (0 <= w_TIME w)%Q /\ (w_TIME w <= now c w)%Q /\ (w_final w = false -> w_TIME w == 0)%Q /\ (w_final w = false -> w_T w = 0) }.

Lemma stage_same : forall w w' r, R w' r = R w r -> (In r (w_pending w') <-> In r (w_pending w)) -> w_nv w <= w_nv w' ->
  (forall v, v < w_nv w -> v_mode (V w' v) = v_mode (V w v)) -> (w_TIME w <= w_TIME w')%Q -> stage w r -> stage w' r.
Proof.
  intros w w' r ER EP En Em Et S. unfold pending, assigned in *.
  destruct S as [S1 S2 S3 S4|v S1 S2 S3 S4 S5 S6|v t S1 S2 S3 S4 S5 S6 S7|v t t' S1 S2 S3 S4 S5 S6 S7 S8].
  - apply sg_pending; unfold pending; rewrite ?ER; tauto.
  - apply (sg_assigned _ _ v); unfold pending, assigned; rewrite ?ER, ?Em by exact S3; auto; try tauto. lia.
  - apply (sg_riding _ _ v t); unfold pending, assigned; rewrite ?ER, ?Em by exact S3; auto; try tauto; [lia|lra].
  - apply (sg_delivered _ _ v t t'); unfold pending, assigned; rewrite ?ER, ?Em by exact S3; auto; try tauto; [lia|lra].
Qed.

(** worlds with the same taxi data *)
Record quiet (w w' : world) : Prop := mkQuiet {
  q_nv : w_nv w <= w_nv w';
  q_v : forall v, vtx (V w' v) = vtx (V w v) \/ w_nv w <= v /\ v_dests (V w' v) = [] /\ v_events (V w' v) = [];
  q_m : forall v, v < w_nv w -> v_mode (V w' v) = v_mode (V w v);
  q_R : forall r, R w' r = R w r;
  q_nr : w_nr w' = w_nr w;
  q_pd : w_pending w' = w_pending w;
  q_T : w_T w' = w_T w /\ w_TIME w' = w_TIME w /\ w_final w' = w_final w \/ w_final w = false /\ w_TIME w' = 0%Q /\ w_T w' = 0 }.
Lemma quiet_refl : forall w, quiet w w.
Proof. intro w. constructor; auto. Qed.
Lemma quiet_trans_same : forall a b d, quiet a b -> quiet b d -> w_final d = w_final b -> w_T d = w_T b -> w_TIME d = w_TIME b -> quiet a d.
Proof.
  intros a b d A B F1 F2 F3. pose proof (q_nv _ _ A) as A1. pose proof (q_nv _ _ B) as B1. constructor.
  - lia.
  - intro v. destruct (q_v _ _ B v) as [B2|(B2 & B3)]; [|right; split; [lia|auto]].
    destruct (q_v _ _ A v) as [A2|(A2 & A3 & A4)]; [left; congruence|]. right. unfold vtx in B2. injection B2 as B2 B3 B4. split; [auto|split; congruence].
  - intros v Hv. rewrite (q_m _ _ B) by lia. apply (q_m _ _ A v Hv).
  - intro r. rewrite (q_R _ _ B), (q_R _ _ A). reflexivity.
  - rewrite (q_nr _ _ B), (q_nr _ _ A). reflexivity.
  - rewrite (q_pd _ _ B), (q_pd _ _ A). reflexivity.
  - destruct (q_T _ _ A) as [(K1 & K2 & K3)|(K1 & K2 & K3)]; [left|right]; rewrite F2, F3; auto. rewrite F1. auto.
Qed.
Lemma quiet_TX : forall c w w', TX c w -> quiet w w' -> TX c w'.
Proof.
  intros c w w' T Q. pose proof (q_nv _ _ Q) as Q0.
  assert (Ht : (w_TIME w <= w_TIME w')%Q).
  { destruct (q_T _ _ Q) as [(_ & -> & _)|(K1 & -> & _)]; [lra|]. destruct (tx_time _ _ T) as (_ & _ & K & _). specialize (K K1). lra. }
  constructor.
  - intros v Hd. destruct (q_v _ _ Q v) as [E|(_ & K & _)]; [|exact K]. unfold vtx in E. injection E as E1 E2 E3. rewrite E2.
    apply (tx_dest _ _ T v). congruence.
  - intro v. destruct (q_v _ _ Q v) as [E|(_ & _ & K)]; [|rewrite K; constructor]. unfold vtx in E. injection E as E1 E2 E3. rewrite E3.
    apply (tx_keys _ _ T v).
  - intros v n e Hi. destruct (q_v _ _ Q v) as [E|(_ & _ & K)]; [|rewrite K in Hi; destruct Hi]. unfold vtx in E. injection E as E1 E2 E3. rewrite E3 in Hi.
    pose proof (tx_ev _ _ T v n e Hi) as X. destruct e; cbn [evok] in *; rewrite (q_R _ _ Q), (q_nr _ _ Q); exact X.
  - rewrite (q_pd _ _ Q). apply (tx_nd _ _ T).
  - intros r. rewrite (q_pd _ _ Q), (q_nr _ _ Q). apply (tx_lt _ _ T).
  - intros r Hr. rewrite (q_nr _ _ Q) in Hr. eapply stage_same; [apply (q_R _ _ Q)|rewrite (q_pd _ _ Q); tauto|exact Q0| |exact Ht|apply (tx_stage _ _ T r Hr)].
    intros v Hv. apply (q_m _ _ Q v Hv).
  - destruct (q_T _ _ Q) as [(K1 & K2 & K3)|(K1 & K2 & K3)].
    + unfold now. rewrite K1, K2, K3. exact (tx_time _ _ T).
    + unfold now. rewrite K2, K3. change (Qof_nat 0) with 0%Q. split; [lra|]. split; [lra|]. split; intros; reflexivity.
Qed.

(** ** Microsteps *)
Lemma dget_in : forall A k (d : list (nat * A)) a, dget k d = Some a -> In (k, a) d.
Proof.
  intros A k d; induction d as [|[j b] d IH]; intros a H; cbn in H; [discriminate|].
  destruct (Nat.eqb k j) eqn:E; [apply Nat.eqb_eq in E; subst; injection H as <-; left; reflexivity|right; auto].
Qed.

(** what an event does to the plan of a vehicle *)
Inductive pstep (w w' : world) (v : vid) (e : ev) : Prop :=
| ps_same : plan w' v = plan w v -> pstep w w' v e
| ps_pop : forall n, e = VNextDest v -> standing w v n -> plan w v = n :: plan w' v -> pstep w w' v e
| ps_add : forall r, e = VEvent v (GetOn r) -> r_taxi (R w r) = Some v -> plan w' v = plan w v ++ [r_dest (R w r)] -> pstep w w' v e.

Lemma at_end_standing : forall w v l, at_end w v l -> standing w v (l_end (L w l)).
Proof. intros w v l (A & B & C). exists l. apply qeq_iff in C. auto. Qed.

Lemma mode_same : forall c e w p w' p' v, mstep c e w p w' p' -> v_mode (V w' v) = v_mode (V w v).
Proof. intros c e w p w' p' v M. exact (fr_v_mode (mstep_fr M) v). Qed.

Lemma upd_stage : forall w w' r f, (forall k, R w' k = if Nat.eqb k r then f (R w k) else R w k) -> wtx w' = wtx w ->
  (forall v, v_mode (V w' v) = v_mode (V w v)) -> (forall k, k < w_nr w -> stage w k) -> stage w' r ->
  forall k, k < w_nr w' -> stage w' k.
Proof.
  intros w w' r f HR Hw Hm S Sr k Hk. unfold wtx in Hw. injection Hw as W1 W2 W3 W4 W5 W6.
  destruct (Nat.eq_dec k r) as [-> | Hne]; [exact Sr|].
  eapply stage_same; [| | | | |apply S; lia].
  - rewrite HR. apply Nat.eqb_neq in Hne. rewrite Hne. reflexivity.
  - rewrite W3. tauto.
  - lia.
  - intros; apply Hm.
  - rewrite W4. lra.
Qed.

Lemma mstep_TX : forall c e w p w' p', Inv2 w p -> TX c w -> mstep c e w p w' p' -> TX c w' /\ forall v, pstep w w' v e.
Proof.
  intros c e w p w' p' I T M. pose proof (mstep_fr M) as F.
  assert (Hm : forall v, v_mode (V w' v) = v_mode (V w v)) by (intro; eapply mode_same; eauto).
  destruct (match e with VEvent _ _ | VNextDest _ | VTime => false | _ => true end) eqn:Ek.
  { assert (Q : quiet w w').
    { constructor.
      - rewrite (fr_w_nv F). auto.
      - intro v. left. eapply mstep_taxi; eauto; destruct e; try discriminate Ek; intros; discriminate.
      - auto.
      - eapply mstep_req; eauto. intros; destruct e; try discriminate Ek; discriminate.
      - exact (fr_w_nr F).
      - exact (fr_w_pending F).
      - left. split; [exact (fr_w_T F)|]. split; [|exact (fr_w_final F)]. eapply mstep_time; [|exact M]. destruct e; try discriminate Ek; discriminate. }
    split; [eapply quiet_TX; eauto|]. intro v. apply ps_same. unfold plan. 
    assert (E : vtx (V w' v) = vtx (V w v)) by (eapply mstep_taxi; eauto; destruct e; try discriminate Ek; intros; discriminate).
    unfold vtx in E. injection E as E1 E2 E3. rewrite E1, E2. reflexivity. }
  destruct e; try discriminate Ek; clear Ek.
  - (* an event at a node *)
    rename v into u. rename e into te.
    pose proof (mstep_eff c _ w p w' p' I M) as Hx. cbn [eff] in Hx. destruct Hx as (_ & _ & _ & _ & (l & Ha & Hd) & Hr).
    apply dget_in in Hd. pose proof (tx_ev _ _ T u _ te Hd) as X.
    apply event_ok in Hr. destruct Hr as (W & WL & WN & Hr). pose proof W as W'. unfold wtx in W. injection W as W1 W2 W3 W4 W5 W6.
    destruct te as [r|r]; cbn [evok] in X.
    + destruct X as (X1 & X2 & X3 & X4). destruct Hr as (v & H1 & H2 & H3 & H4 & H5 & H6 & _ & H7).
      assert (v = u) by congruence. subst v.
      pose proof (tx_keys _ _ T u) as Nd. pose proof (dset_NoDup _ (r_dest (R w r)) (Arrive r) _ Nd) as Nd2.
      destruct (ddel_ok _ _ _ _ H4 Nd2) as (Nd3 & Din).
      assert (Hold : forall v n x, v <> u \/ n <> r_orig (R w r) -> In (n, x) (v_events (V w v)) -> evok w' v n x).
      { intros v n x Hne Hi. pose proof (tx_ev _ _ T v n x Hi) as Y.
        destruct x as [k|k]; cbn [evok] in Y |- *; rewrite H5, W2; destruct (Nat.eqb k r) eqn:Ekr; try exact Y;
        apply Nat.eqb_eq in Ekr; subst k; exfalso.
        - destruct Y as (_ & Y1 & Y2 & _). destruct Hne as [Hne|Hne]; [apply Hne; congruence|apply Hne; auto].
        - destruct Y as (_ & _ & _ & Y1 & _). congruence. }
      split.
      * constructor.
        -- intros v Hd0. destruct (Nat.eq_dec v u) as [-> | Hne]; [|rewrite H3 in * by auto; apply (tx_dest _ _ T); auto].
           exfalso. destruct H7 as [(_ & K & _)|(x & _ & K & _)]; congruence.
        -- intro v. destruct (Nat.eq_dec v u) as [-> | Hne]; [exact Nd3|rewrite H3 by auto; apply (tx_keys _ _ T)].
        -- intros v n x Hi. destruct (Nat.eq_dec v u) as [-> | Hne].
           ++ apply Din in Hi. destruct Hi as (Hn & Hi). apply (dset_In _ _ _ _ _ _ Nd) in Hi. destruct Hi as [(-> & ->)|(_ & Hi)].
              ** cbn [evok]. rewrite H5, Nat.eqb_refl, W2. cbn. destruct (tx_stage _ _ T r X1) as [? ? ? S4|? ? ? ? ? ? S4|? ? ? ? ? ? ? S4|? ? ? ? ? ? ? ? S4]; try congruence;
                 (split; [auto|split; [auto|split; [auto|split; [discriminate|auto]]]]).
              ** apply Hold; auto.
           ++ rewrite H3 in Hi by auto. apply Hold; auto.
        -- rewrite W3. apply (tx_nd _ _ T).
        -- intro k. rewrite W3, W2. apply (tx_lt _ _ T).
        -- eapply (upd_stage w w' r (sr_geton (Some (w_TIME w)))); eauto; [apply (tx_stage _ _ T)|].
           destruct (tx_stage _ _ T r X1) as [S1 S2 S3 S4|v S1 S2 S3 S4 S5 S6|v t S1 S2 S3 S4 S5 S6 S7|v t t' S1 S2 S3 S4 S5 S6 S7 S8]; try congruence.
           unfold assigned, pending in *. apply (sg_riding _ _ v (w_TIME w)); unfold assigned, pending; rewrite ?H5, ?Nat.eqb_refl, ?W3, ?W1, ?W4; auto; [|lra].
           rewrite Hm. exact S4.
        -- unfold now. rewrite W4, W5, W6. exact (tx_time _ _ T).
      * intro v. destruct (Nat.eq_dec v u) as [-> | Hne]; [|apply ps_same; unfold plan; rewrite H3 by auto; reflexivity].
        apply (ps_add _ _ _ _ r); [reflexivity|exact H1|]. unfold plan. destruct H7 as [(K1 & K2 & K3)|(x & K1 & K2 & K3)]; rewrite K1, K2, K3; [|reflexivity].
        rewrite (tx_dest _ _ T u K1). reflexivity.
    + destruct X as (X1 & X2 & X3 & X4 & X5). destruct Hr as (v & H1 & H3 & H4 & H5 & H6 & _ & H7 & H8).
      assert (v = u) by congruence. subst v.
      destruct (ddel_ok _ _ _ _ H4 (tx_keys _ _ T u)) as (Nd3 & Din).
      assert (Hold : forall v n x, v <> u \/ n <> r_dest (R w r) -> In (n, x) (v_events (V w v)) -> evok w' v n x).
      { intros v n x Hne Hi. pose proof (tx_ev _ _ T v n x Hi) as Y.
        destruct x as [k|k]; cbn [evok] in Y |- *; rewrite H5, W2; destruct (Nat.eqb k r) eqn:Ekr; try exact Y;
        apply Nat.eqb_eq in Ekr; subst k; exfalso.
        destruct Y as (_ & Y1 & Y2 & _); destruct Hne as [Hne|Hne]; [apply Hne; congruence|apply Hne; auto]. }
      split.
      * constructor.
        -- intros v Hd0. destruct (Nat.eq_dec v u) as [-> | Hne]; [rewrite H8; apply (tx_dest _ _ T); congruence|rewrite H3 in * by auto; apply (tx_dest _ _ T); auto].
        -- intro v. destruct (Nat.eq_dec v u) as [-> | Hne]; [exact Nd3|rewrite H3 by auto; apply (tx_keys _ _ T)].
        -- intros v n x Hi. destruct (Nat.eq_dec v u) as [-> | Hne].
           ++ apply Din in Hi. destruct Hi as (Hn & Hi). apply Hold; auto.
           ++ rewrite H3 in Hi by auto. apply Hold; auto.
        -- rewrite W3. apply (tx_nd _ _ T).
        -- intro k. rewrite W3, W2. apply (tx_lt _ _ T).
        -- eapply (upd_stage w w' r (sr_arrived (Some (w_TIME w)))); eauto; [apply (tx_stage _ _ T)|].
           destruct (tx_stage _ _ T r X1) as [S1 S2 S3 S4|v S1 S2 S3 S4 S5 S6|v t S1 S2 S3 S4 S5 S6 S7|v t t' S1 S2 S3 S4 S5 S6 S7 S8]; try congruence.
           unfold assigned, pending in *. apply (sg_delivered _ _ v t (w_TIME w)); unfold assigned, pending; rewrite ?H5, ?Nat.eqb_refl, ?W3, ?W1, ?W4; auto; [|lra].
           rewrite Hm. exact S4.
        -- unfold now. rewrite W4, W5, W6. exact (tx_time _ _ T).
      * intro v. destruct (Nat.eq_dec v u) as [-> | Hne]; apply ps_same; unfold plan; [rewrite H7, H8; reflexivity|rewrite H3 by auto; reflexivity].
  - (* the next destination *)
    rename v into u.
    pose proof (mstep_req _ _ _ _ _ _ I M ltac:(intros; discriminate)) as HR.
    pose proof (mstep_time c (VNextDest u) w p w' p' ltac:(discriminate) M) as Et.
    pose proof (mstep_eff c _ w p w' p' I M) as Hx. cbn [eff] in Hx. destruct Hx as (_ & _ & Hmo & (l & Ha & Hd) & _ & _ & _ & _ & HV).
    assert (Ev : forall v, v_events (V w' v) = v_events (V w v)).
    { intro v. rewrite HV. destruct (Nat.eqb v u); [|reflexivity]. unfold next_dest. destruct (v_dests (V w v)); reflexivity. }
    split.
    + constructor.
      * intro v. rewrite HV. destruct (Nat.eqb v u) eqn:E; [|apply (tx_dest _ _ T)]. unfold next_dest. destruct (v_dests (V w v)); cbn; [auto|discriminate].
      * intro v. rewrite Ev. apply (tx_keys _ _ T).
      * intros v n x Hi. rewrite Ev in Hi. pose proof (tx_ev _ _ T v n x Hi) as Y. destruct x; cbn [evok] in *; rewrite HR, (fr_w_nr F); exact Y.
      * rewrite (fr_w_pending F). apply (tx_nd _ _ T).
      * intro k. rewrite (fr_w_pending F), (fr_w_nr F). apply (tx_lt _ _ T).
      * intros r Hr. rewrite (fr_w_nr F) in Hr. eapply stage_same; [apply HR| | | | |apply (tx_stage _ _ T); exact Hr].
        -- rewrite (fr_w_pending F). tauto.
        -- rewrite (fr_w_nv F). auto.
        -- intros; apply Hm.
        -- rewrite Et. lra.
      * unfold now. rewrite Et, (fr_w_T F), (fr_w_final F). exact (tx_time _ _ T).
    + intro v. destruct (Nat.eqb v u) eqn:E; [|apply ps_same; unfold plan; rewrite HV, E; reflexivity].
      apply Nat.eqb_eq in E. subst v. apply (ps_pop _ _ _ _ (l_end (L w l))); [reflexivity|apply at_end_standing; exact Ha|].
      unfold plan. rewrite HV, Nat.eqb_refl, Hd. f_equal. unfold next_dest. destruct (v_dests (V w u)); reflexivity.
  - (* the clock *)
    inversion M; subst. split; [|intro; apply ps_same; reflexivity].
    destruct (tx_time _ _ T) as (T1 & T2 & T3 & T4). constructor.
    + exact (tx_dest _ _ T).
    + exact (tx_keys _ _ T).
    + intros v n x Hi. pose proof (tx_ev _ _ T v n x Hi) as Y. exact Y.
    + exact (tx_nd _ _ T).
    + exact (tx_lt _ _ T).
    + intros r Hr. apply (stage_same w); [reflexivity|tauto|apply Nat.le_refl|reflexivity| |apply (tx_stage _ _ T r Hr)]. exact T2.
    + change (w_TIME (sw_TIME (now c w) w)) with (now c w). change (now c (sw_TIME (now c w) w)) with (now c w). split; [lra|]. split; [lra|].
      change (w_final (sw_TIME (now c w) w)) with (w_final w). split; [|exact T4].
      intro Hf. unfold now. rewrite (T4 Hf). change (Qof_nat 0) with 0%Q. lra.
Qed.

Lemma run_TX : forall c K w w', Inv2 w None -> TX c w -> run c K w w' -> TX c w'.
Proof.
  intros c K w w' I T R.
  destruct (run_with c (fun x _ => TX c x) K) with (w := w) (w' := w') as (_ & Z); auto.
  intros e x p x' p' _ Ix Tx M. apply (mstep_TX c e x p x' p' Ix Tx M).
Qed.

(** ** Operations *)
Inductive taxi_op (c : cfg) (w w' : world) : op -> Prop :=
| to_quiet : forall o, quiet w w' -> (forall v, v < w_nv w -> v_dest (V w' v) = v_dest (V w v) /\ v_dests (V w' v) = v_dests (V w v)) -> taxi_op c w w' o
| to_dest : forall v d i, add_dest c v d i w = Ok w' -> taxi_op c w w' (OAddDest v d i)
| to_req : forall o d t, add_trip_request o d t w = Ok w' -> taxi_op c w w' (OAddRequest o d t)
| to_assign : forall v r, v < w_nv w -> assign_taxi c v r w = Ok w' -> taxi_op c w w' (OAssignTaxi v r).

Lemma quiet_dest : forall w w', quiet w w' -> forall v, v < w_nv w -> v_dest (V w' v) = v_dest (V w v) /\ v_dests (V w' v) = v_dests (V w v).
Proof.
  intros w w' Q v Hv. destruct (q_v _ _ Q v) as [E|(K & _)]; [|lia]. unfold vtx in E. injection E as E1 E2 E3. auto.
Qed.
Lemma quiet_modl : forall l f w, quiet w (modl l f w).
Proof. intros. constructor; auto. Qed.
Lemma quiet_modn : forall l f w, quiet w (modn l f w).
Proof. intros. constructor; auto. Qed.
Lemma quiet_modv : forall u f w, (forall a, vtx (f a) = vtx a /\ v_mode (f a) = v_mode a) -> quiet w (modv u f w).
Proof.
  intros u f w H. constructor; auto.
  - intro v. left. rewrite V_at. destruct (Nat.eqb v u); [apply H|reflexivity].
  - intros v _. rewrite V_at. destruct (Nat.eqb v u); [apply H|reflexivity].
Qed.
Lemma quiet_vehicle : forall c a w w', add_vehicle c a w = Ok w' -> quiet w w' /\ w_final w' = w_final w /\ w_T w' = w_T w /\ w_TIME w' = w_TIME w.
Proof.
  intros c a w w' H. unfold add_vehicle in H. cbn zeta in H. destruct (negb _); [discriminate|]. destruct (smem _ _); [discriminate|].
  injection H as <-. split; [|auto]. constructor; auto.
  - cbn. lia.
  - intro v. unfold V. cbn. unfold upd. destruct (Nat.eqb v (w_nv w)) eqn:E; [|auto]. apply Nat.eqb_eq in E. subst v. right. auto.
  - intros v Hv. unfold V. cbn. rewrite upd_other by lia. reflexivity.
Qed.
Lemma op_taxi : forall c o w w', op_ok o w -> (forall a, o <> OExec a) -> apply_op c o w = Ok w' -> taxi_op c w w' o.
Proof.
  intros c o w w' Ho Hx H.
  assert (Q : quiet w w' -> taxi_op c w w' o) by (intro K; apply to_quiet; [exact K|apply quiet_dest; exact K]).
  destruct o; cbn [apply_op] in H; cbn [op_ok] in Ho.
  - apply Q. unfold add_node in H. apply bind_ok in H. destruct H as (nd & E & H). destruct (smem _ _) in H; [discriminate|]. injection H as <-. constructor; auto.
  - apply Q. unfold add_link in H. cbn zeta in H. destruct (negb _); [discriminate|]. apply bind_ok in H. destruct H as (k & E & H).
    destruct (smem _ _) in H; [discriminate|]. injection H as <-. constructor; auto.
  - apply Q. apply (quiet_vehicle c a); exact H.
  - apply Q. refine (proj1 (adddemand_inv (fun x => quiet w x /\ w_final x = w_final w /\ w_T x = w_T w /\ w_TIME x = w_TIME w) c o d t0 t1 flow volume _ w w' _ H)).
    + intros t a b (K1 & K2 & K3 & K4) E. apply quiet_vehicle in E. destruct E as (E1 & E2 & E3 & E4).
      split; [|repeat split; congruence]. eapply quiet_trans_same; eauto.
    + split; [apply quiet_refl|auto].
  - apply Q. apply finalize_ok in H. pose proof (fz_cnt _ _ _ H) as Z. injection Z as Z1 Z2 Z3 Z4 Z5 Z6 Z7 Z8 Z9.
    constructor; try lia; auto.
    + intro v. left. unfold V. rewrite (fz_V _ _ _ H). reflexivity.
    + intros v _. unfold V. rewrite (fz_V _ _ _ H). reflexivity.
    + intro r. unfold R. rewrite (fz_R _ _ _ H). reflexivity.
    + right. split; [exact Ho|]. split; [exact (fz_TIME _ _ _ H)|exact (fz_T _ _ _ H)].
  - elim (Hx a); auto.
  - apply to_dest. exact H.
  - apply Q. unfold enforce_route in H. destruct (negb _); [discriminate|]. injection H as <-. apply quiet_modv. intro a. destruct set_avoid; auto.
  - apply Q. injection H as <-. apply quiet_modv. auto.
  - apply Q. injection H as <-. apply quiet_modv. auto.
  - apply Q. unfold override_signal in H. cbn zeta in H.
    match type of H with context [modn n ?f w] => set (g := f) in *; clearbody g end.
    destruct groups as [gs|]; [|injection H as <-; apply quiet_modn].
    destruct (negb _); [discriminate|]. destruct (negb _); [discriminate|]. injection H as <-.
    assert (X : forall ls x, quiet w x /\ w_final x = w_final w /\ w_T x = w_T w /\ w_TIME x = w_TIME w ->
      quiet w (fold_left (fun w l => if existsb (mem l) gs then modl l (sl_group (groups_of l gs)) w else w) ls x)).
    { intro ls; induction ls as [|l ls IH]; intros x Hq; cbn [fold_left]; [apply Hq|]. apply IH. destruct (existsb _ _); [|exact Hq].
      destruct Hq as (K1 & K2 & K3 & K4). split; [|auto]. eapply quiet_trans_same; [exact K1|apply quiet_modl|reflexivity|reflexivity|reflexivity]. }
    apply X. split; [apply quiet_modn|auto].
  - apply Q. unfold change_free_flow_speed in H. cbn zeta in H. destruct (qlt _ _); [injection H as <-; apply quiet_refl|].
    repeat (apply bind_ok in H; let x := fresh "x" in destruct H as (x & _ & H)). injection H as <-. apply quiet_modl.
  - apply Q. unfold change_jam_density in H. cbn zeta in H. destruct (qlt _ _); [injection H as <-; apply quiet_refl|].
    repeat (apply bind_ok in H; let x := fresh "x" in destruct H as (x & _ & H)). injection H as <-. apply quiet_modl.
  - apply Q. injection H as <-. apply quiet_modl.
  - apply Q. injection H as <-. apply quiet_modl.
  - apply Q. injection H as <-. apply quiet_modl.
  - apply to_req. exact H.
  - apply to_assign; auto.
Qed.

Lemma assign_ok : forall c v r w w', assign_taxi c v r w = Ok w' ->
  In r (w_pending w) /\ v_mode (V w v) = Taxi /\ v_mode (V w' v) = Taxi /\ (forall u, u <> v -> V w' u = V w u) /\
  (forall k, R w' k = if Nat.eqb k r then sr_taxi (Some v) (R w k) else R w k) /\
  w_nv w' = w_nv w /\ w_nr w' = w_nr w /\ w_pending w' = remove_first r (w_pending w) /\ w_TIME w' = w_TIME w /\ w_T w' = w_T w /\ w_final w' = w_final w /\
  w_links w' = w_links w /\ w_nodes w' = w_nodes w /\
  v_events (V w' v) = dset (r_orig (R w r)) (GetOn r) (v_events (V w v)) /\ v_next (V w' v) = v_next (V w v) /\
  (v_dest (V w v) = None /\ v_dest (V w' v) = Some (r_orig (R w r)) /\ v_dests (V w' v) = v_dests (V w v) \/
   exists x, v_dest (V w v) = Some x /\ v_dest (V w' v) = Some x /\ v_dests (V w' v) = v_dests (V w v) ++ [r_orig (R w r)]).
Proof.
  intros c v r w w' H. unfold assign_taxi in H. destruct (mem r (w_pending w)) eqn:Em; [|discriminate]. cbn [negb] in H. apply mem_iff in Em.
  apply bind_ok in H. destruct H as (w1 & E & H). cbn zeta in H. injection H as <-.
  apply add_dest_ok in E. destruct E as (A1 & A2 & A3 & A4 & A5 & A6 & A7 & A8 & A9 & A10).
  unfold wtx in A5. injection A5 as B1 B2 B3 B4 B5 B6.
  assert (ER : forall k, R w1 k = R w k) by (intro; unfold R; rewrite A4; reflexivity).
  match goal with |- context [V ?x v] => change (V x v) with (V (modv v (fun a => sv_events (dset (r_orig (R w1 r)) (GetOn r) (v_events a)) a) w1) v) end.
  split; [exact Em|]. split; [exact A1|]. rewrite V_at, Nat.eqb_refl. cbn [v_mode v_events v_next v_dest v_dests sv_events].
  split; [exact A2|]. split.
  { intros u Hu. match goal with |- V ?x u = _ => change (V x u) with (V (modv v (fun a => sv_events (dset (r_orig (R w1 r)) (GetOn r) (v_events a)) a) w1) u) end.
    rewrite V_at. pose proof Hu as Hu'. apply Nat.eqb_neq in Hu. rewrite Hu. apply A3. exact Hu'. }
  split.
  { intro k. match goal with |- R ?x k = _ => change (R x k) with (R (modr r (sr_taxi (Some v)) (modv v (fun a => sv_events (dset (r_orig (R w1 r)) (GetOn r) (v_events a)) a) w1)) k) end.
    rewrite R_at. change (R (modv v ?f w1) k) with (R w1 k). rewrite ER. reflexivity. }
  split; [exact B1|]. split; [exact B2|]. split; [cbn; f_equal; exact B3|]. split; [exact B4|]. split; [exact B5|]. split; [exact B6|].
  split; [exact A6|]. split; [exact A7|]. split; [rewrite ER, A8; reflexivity|]. split; [exact A9|exact A10].
Qed.

Lemma dest_TX : forall c v d i w w', TX c w -> add_dest c v d i w = Ok w' -> TX c w'.
Proof.
  intros c v d i w w' T H. apply add_dest_ok in H. destruct H as (A1 & A2 & A3 & A4 & A5 & _ & _ & A8 & _ & A10).
  unfold wtx in A5. injection A5 as B1 B2 B3 B4 B5 B6.
  assert (ER : forall k, R w' k = R w k) by (intro; unfold R; rewrite A4; reflexivity).
  assert (Ev : forall u, v_events (V w' u) = v_events (V w u)) by (intro u; destruct (Nat.eq_dec u v) as [-> | K]; [exact A8|rewrite A3 by auto; reflexivity]).
  constructor.
  - intros u Hd. destruct (Nat.eq_dec u v) as [-> | K]; [|rewrite A3 in * by auto; apply (tx_dest _ _ T); auto].
    exfalso. destruct A10 as [(_ & X & _)|(x & _ & X & _)]; congruence.
  - intro u. rewrite Ev. apply (tx_keys _ _ T).
  - intros u n e Hi. rewrite Ev in Hi. pose proof (tx_ev _ _ T u n e Hi) as Y. destruct e; cbn [evok] in *; rewrite ER, B2; exact Y.
  - rewrite B3. apply (tx_nd _ _ T).
  - intro r. rewrite B3, B2. apply (tx_lt _ _ T).
  - intros r Hr. rewrite B2 in Hr. apply (stage_same w); [apply ER|rewrite B3; tauto|lia| |rewrite B4; lra|apply (tx_stage _ _ T r Hr)].
    intros u _. destruct (Nat.eq_dec u v) as [-> | K]; [congruence|rewrite A3 by auto; reflexivity].
  - unfold now. rewrite B4, B5, B6. exact (tx_time _ _ T).
Qed.
Lemma req_TX : forall c o d t w w', TX c w -> add_trip_request o d t w = Ok w' -> TX c w'.
Proof.
  intros c o d t w w' T H. unfold add_trip_request in H. destruct (negb _); [discriminate|]. cbn zeta in H. injection H as <-.
  match goal with |- TX c ?x => set (w' := x) end.
  assert (ER : forall k, k < w_nr w -> R w' k = R w k) by (intros k Hk; unfold R, w'; cbn; apply upd_other; lia).
  constructor.
  - exact (tx_dest _ _ T).
  - exact (tx_keys _ _ T).
  - intros u n e Hi. pose proof (tx_ev _ _ T u n e Hi) as Y. change (w_nr w') with (S (w_nr w)).
    destruct e as [r|r]; cbn [evok] in *; change (w_nr w') with (S (w_nr w)); (destruct Y as (Y1 & Y); rewrite ER by exact Y1; split; [lia|exact Y]).
  - change (w_pending w') with (w_pending w ++ [w_nr w]). apply NoDup_app_last; [apply (tx_nd _ _ T)|]. intro K. apply (tx_lt _ _ T) in K. lia.
  - intro r. change (w_pending w') with (w_pending w ++ [w_nr w]). change (w_nr w') with (S (w_nr w)). intro K. apply in_app_iff in K.
    destruct K as [K|[K|[]]]; [apply (tx_lt _ _ T) in K; lia|lia].
  - intros r Hr. change (w_nr w') with (S (w_nr w)) in Hr. destruct (Nat.eq_dec r (w_nr w)) as [-> | K].
    + apply sg_pending; unfold pending; [change (w_pending w') with (w_pending w ++ [w_nr w]); apply in_app_iff; right; left; reflexivity| | |];
      unfold R, w'; cbn; rewrite upd_same; reflexivity.
    + apply (stage_same w); [apply ER; lia| |apply Nat.le_refl|reflexivity|apply Qle_refl|apply (tx_stage _ _ T); lia].
      change (w_pending w') with (w_pending w ++ [w_nr w]). rewrite in_app_iff. split; [intros [X|[X|[]]]; [exact X|congruence]|auto].
  - exact (tx_time _ _ T).
Qed.
Lemma assign_TX : forall c v r w w', TX c w -> v < w_nv w -> assign_taxi c v r w = Ok w' -> TX c w'.
Proof.
  intros c v r w w' T Hv H. apply assign_ok in H.
  destruct H as (P & A1 & A2 & A3 & A4 & B1 & B2 & B3 & B4 & B5 & B6 & _ & _ & A8 & _ & A10).
  assert (Hr : r < w_nr w) by (apply (tx_lt _ _ T); exact P).
  assert (Sr : r_taxi (R w r) = None /\ r_geton (R w r) = None /\ r_arrived (R w r) = None).
  { destruct (tx_stage _ _ T r Hr) as [S1 S2 S3 S4|? S1 S2|? ? S1 S2|? ? ? S1 S2]; [auto|contradiction..]. }
  destruct Sr as (S1 & S2 & S3).
  assert (Hm : forall u, v_mode (V w' u) = v_mode (V w u)) by (intro u; destruct (Nat.eq_dec u v) as [-> | K]; [congruence|rewrite A3 by auto; reflexivity]).
  assert (Hold : forall u n e, In (n, e) (v_events (V w u)) -> evok w' u n e).
  { intros u n e Hi. pose proof (tx_ev _ _ T u n e Hi) as Y. destruct e as [k|k]; cbn [evok] in *; rewrite A4, B2; destruct (Nat.eqb k r) eqn:Ek; try exact Y;
    apply Nat.eqb_eq in Ek; subst k; exfalso; destruct Y as (_ & Y & _); congruence. }
  destruct (@remove_first_NoDup r _ (tx_nd _ _ T)) as [N1 N2].
  constructor.
  - intros u Hd. destruct (Nat.eq_dec u v) as [-> | K]; [|rewrite A3 in * by auto; apply (tx_dest _ _ T); auto].
    exfalso. destruct A10 as [(_ & X & _)|(x & _ & X & _)]; congruence.
  - intro u. destruct (Nat.eq_dec u v) as [-> | K]; [rewrite A8; apply dset_NoDup|rewrite A3 by auto]; apply (tx_keys _ _ T).
  - intros u n e Hi. destruct (Nat.eq_dec u v) as [-> | K]; [|rewrite A3 in Hi by auto; apply Hold; exact Hi].
    rewrite A8 in Hi. apply (dset_In _ _ _ _ _ _ (tx_keys _ _ T v)) in Hi. destruct Hi as [(-> & ->)|(_ & Hi)]; [|apply Hold; exact Hi].
    cbn [evok]. rewrite A4, Nat.eqb_refl, B2. cbn. auto.
  - rewrite B3. exact N1.
  - intro k. rewrite B3, B2. intro K. apply remove_first_sub in K. apply (tx_lt _ _ T); exact K.
  - intros k Hk. rewrite B2 in Hk. destruct (Nat.eq_dec k r) as [-> | K].
    + apply (sg_assigned _ _ v); unfold pending, assigned; rewrite ?A4, ?Nat.eqb_refl, ?B3, ?B1; auto.
    + apply (stage_same w); [rewrite A4; apply Nat.eqb_neq in K; rewrite K; reflexivity| |lia|auto|rewrite B4; lra|apply (tx_stage _ _ T k Hk)].
      rewrite B3. apply remove_first_In. auto.
  - unfold now. rewrite B4, B5, B6. exact (tx_time _ _ T).
Qed.

Theorem reach_TX : forall c w, (0 <= dt c)%Q -> reach c w -> TX c w.
Proof.
  intros c w D R. induction R as [tm|w o w' R IH Ho Hx H|w w' R IH Hf H|w R IH].
  - constructor; cbn; auto; try (intros; contradiction); try (intros; lia).
    + intros; constructor.
    + constructor.
    + unfold now. cbn. change (Qof_nat 0) with 0%Q. split; [lra|]. split; [lra|]. auto with qarith.
  - destruct (op_taxi c o w w' Ho Hx H) as [o K _|v d i K|o d t K|v r Hv K].
    + eapply quiet_TX; eauto.
    + eapply dest_TX; eauto.
    + eapply req_TX; eauto.
    + eapply assign_TX; eauto.
  - apply tick_fr in H. destruct H as (w1 & E & ->). pose proof (body_run _ _ E) as Rn.
    assert (T : TX c w1) by (eapply run_TX; [exact (reach_Inv2 _ _ R)|exact IH|exact Rn]).
    pose proof (fr_w_T (body_fr _ _ E)) as ET. pose proof (fr_w_final (body_fr _ _ E)) as EF.
    destruct (tx_time _ _ T) as (T1 & T2 & T3 & T4). constructor.
    + exact (tx_dest _ _ T).
    + exact (tx_keys _ _ T).
    + intros v n e Hi. exact (tx_ev _ _ T v n e Hi).
    + exact (tx_nd _ _ T).
    + exact (tx_lt _ _ T).
    + intros r Hr. apply (stage_same w1); [reflexivity|tauto|apply Nat.le_refl|reflexivity|apply Qle_refl|apply (tx_stage _ _ T r Hr)].
    + split; [exact T1|]. split; [|split; [exact T3|]].
      * unfold now in T2 |- *. change (w_T (sw_T (S (w_T w)) w1)) with (S (w_T w)). change (w_TIME (sw_T (S (w_T w)) w1)) with (w_TIME w1).
        rewrite ET in T2. assert (X : (Qof_nat (S (w_T w)) == Qof_nat (w_T w) + 1)%Q).
        { unfold Qof_nat. rewrite Nat2Z.inj_succ. unfold Z.succ. rewrite inject_Z_plus. reflexivity. }
        rewrite X. nra.
      * change (w_final (sw_T (S (w_T w)) w1)) with (w_final w1). intro K. congruence.
  - destruct (mstep_TX c VTime w None (sw_TIME (now c w) w) None (reach_Inv2 _ _ R) IH (m_time c w)) as (T & _). exact T.
Qed.
