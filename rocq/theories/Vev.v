(** * Vev: every event, seen from one vehicle. *)
From Verif Require Import Base Types Sim Build Heap Lists Inv FrameBase Tac Frame Eff Eff2 Trace InvStep Reach Steps Effects Phases Life Incoming.
Local Open Scope nat_scope.

(** all fields of a vehicle except the destinations and events of taxis, the route
    preference and the references to the neighbours on the link *)
Definition vride (a : vehicle) :=
  (v_name a, v_orig a, v_dep a, v_depsec a, v_arr a, v_larr a, v_tt a, v_state a, v_link a,
   (v_x a, v_xnext a, v_xold a, v_v a, v_lane a, v_flag a, v_remain a),
   (v_princ a, v_mode a, v_prefer a, v_avoid a, v_spec a, v_abortopt a, v_aborted a, v_log a,
    v_tlog a, v_linkold a, v_dist a, v_next a)).

Inductive vev (c : cfg) (w : world) (e : ev) (v : vid) (b : vehicle) : Prop :=
| ve_same : vride b = vride (V w v) -> vev c w e v b
| ve_enter : forall n out q, e = VEnter n v out -> n < w_nn w -> n_queue (N w n) = v :: q ->
    v_state (V w v) = Wait -> In out (n_out (N w n)) -> out < w_nl w ->
    (exists outs, gen_outlinks w (V w v) (n_out (N w n)) = Ok outs /\ In out outs) ->
    b = gen_veh c w out (V w v) -> vev c w e v b
| ve_shift : forall n out il q ld ln, e = VShift n out v il -> n < w_nn w -> In v (n_incoming (N w n)) ->
    v_next (V w v) = Some (Some out) -> out < w_nl w -> il < w_nl w ->
    v_link (V w v) = Some il -> v_state (V w v) = Run ->
    (In (n_phase (N w n)) (l_group (L w il)) \/ List.length (n_signal (N w n)) <= 1) ->
    qdiv (v_remain (V w v) * l_u (L w out)) (l_u (L w il)) = Ok q ->
    b = moved c w out ld ln q (V w v) -> vev c w e v b
| ve_end : forall l tl lg, e = VEnd v l -> v_flag (V w v) = true -> v_link (V w v) = Some l ->
    v_state (V w v) = Run -> l < w_nl w ->
    lg = v_log (V w v) ++ (if negb (Z.eqb (c_logint c) (-1))
               then [mkLog (now c w) (v_state (ended c w (V w v))) None None None None None] else []) ->
    tl = v_tlog (V w v) ++ (if opt_eqb None (v_linkold (V w v)) then []
               else if v_aborted (V w v) then [] else [(now c w, PEnd)]) ->
    vride b = vride (sv_linkold None (sv_tlog tl (sv_log lg (ended c w (V w v))))) -> vev c w e v b
| ve_follow : forall l, e = VFollow v -> v_link (V w v) = Some l -> b = followed c w l (V w v) -> vev c w e v b
| ve_log : e = VLog v -> In v (w_living w) -> b = logged c w v false -> vev c w e v b
| ve_depart : e = VDepart v -> In v (w_living w) -> v_state (V w v) = Home ->
    (v_dep (V w v) <= Z.of_nat (w_T w))%Z -> b = sv_state Wait (V w v) -> vev c w e v b
| ve_move : e = VMove v -> In v (w_living w) -> v_state (V w v) = Run -> b = driven c (V w v) -> vev c w e v b
| ve_flag : forall l, e = VFlag v l -> at_end w v l ->
    (v_dest (V w v) = Some (l_end (L w l)) /\ v_mode (V w v) = SingleTrip \/
     n_out (N w (l_end (L w l))) = [] /\ v_aborted (V w v) = true) ->
    b = sv_flag true (V w v) -> vev c w e v b
| ve_abort : forall l, e = VAbort v -> at_end w v l -> v_dest (V w v) <> Some (l_end (L w l)) ->
    n_out (N w (l_end (L w l))) = [] -> v_abortopt (V w v) = true -> b = aborting (V w v) -> vev c w e v b
| ve_choose : forall l nx, e = VChoose v -> at_end w v l ->
    (v_mode (V w v) = SingleTrip -> v_dest (V w v) <> Some (l_end (L w l))) ->
    (nx = None /\ n_out (N w (l_end (L w l))) = [] \/
     exists out, In out (n_out (N w (l_end (L w l)))) /\ nx = Some out) ->
    b = sv_next (Some nx) (V w v) -> vev c w e v b.

Lemma vride_next_dest : forall a, vride (next_dest a) = vride a.
Proof. intro a. unfold next_dest. destruct (v_dests a); reflexivity. Qed.
Lemma vride_hard : forall a b, vhard a = vhard b -> v_next a = v_next b -> vride a = vride b.
Proof. unfold vhard, vride; intros. congruence. Qed.
Lemma vride_pref : forall (b : bool) (a : vehicle), vride (if b then sv_pref PrefNone a else a) = vride a.
Proof. intros [] a; reflexivity. Qed.

Lemma mstep_vev : forall c e w p w' p', Inv2 w p -> mstep c e w p w' p' -> forall v, vev c w e v (V w' v).
Proof.
  intros c e w p w' p' I M v. pose proof (mstep_eff c e w p w' p' I M) as H. destruct e; cbn [eff] in H.
  - destruct H as (_ & _ & _ & H & _). apply ve_same. rewrite H. reflexivity.
  - destruct H as (_ & _ & H & _). apply ve_same. rewrite H. reflexivity.
  - destruct H as (-> & _ & q & ca & H1 & H2 & H3 & H4 & H5 & _ & _ & _ & _ & _ & _ & _ & _ & _ & A & B).
    destruct (Nat.eq_dec v v0) as [-> | Hne].
    + eapply ve_enter; [reflexivity|exact H1|exact H2| |exact H3|exact H4|exact H5|exact A].
      destruct I as [[T I] _]. assert (K : In v0 (n_queue (N w n))) by (rewrite H2; left; auto).
      apply (s_queue I) in K. tauto.
    + apply ve_same. rewrite B by auto. destruct (opt_eqb _ _); reflexivity.
  - destruct H as (_ & _ & _ & H & _). apply ve_same. rewrite H. reflexivity.
  - destruct H as (-> & _ & cd & ca & rest & q & H1 & H2 & H3 & H4 & H5 & H6 & H7 & H8 & H9 & H10 & H11 & H12 & H13 &
      H14 & H15 & H16 & H17 & H18 & H19 & H20 & H21 & A & B).
    destruct (Nat.eq_dec v v0) as [-> | Hne].
    + eapply ve_shift; [reflexivity|exact H1|exact H2|exact H3|exact H4|exact H5|exact H11|exact H12|exact H6|exact H16|exact A].
    + apply ve_same. rewrite B by auto. cbv zeta. destruct (opt_eqb (t_leader _ _ _) _), (opt_eqb (v_follower _) _); reflexivity.
  - destruct H as (-> & rest & cd & lg & tl & H1 & Hf & H2 & H3 & H4 & _ & _ & _ & _ & _ & _ & A & Elg & Etl & B).
    destruct (Nat.eq_dec v v0) as [-> | Hne].
    + eapply ve_end; [reflexivity|exact Hf|exact H2|exact H3|exact H4|exact Elg|exact Etl|].
      rewrite B. cbv zeta. apply vride_pref.
    + apply ve_same. rewrite A by auto. destruct (opt_eqb (v_follower _) _); reflexivity.
  - destruct H as (_ & _ & H & _). apply ve_same. rewrite H. reflexivity.
  - destruct H as (_ & _ & H & _). apply ve_same. rewrite H. reflexivity.
  - destruct H as (_ & _ & _ & _ & _ & _ & l & Hl & H). specialize (H v).
    destruct (Nat.eqb v v0) eqn:E.
    + apply Nat.eqb_eq in E; subst. eapply ve_follow; eauto.
    + apply ve_same. rewrite H. reflexivity.
  - destruct H as (_ & _ & Hl & _ & _ & _ & _ & H). specialize (H v).
    destruct (Nat.eqb v v0) eqn:E.
    + apply Nat.eqb_eq in E; subst. eapply ve_log; eauto.
    + apply ve_same. rewrite H. reflexivity.
  - destruct H as (_ & _ & Hl & H1 & H2 & _ & _ & _ & H & _). specialize (H v).
    destruct (Nat.eqb v v0) eqn:E.
    + apply Nat.eqb_eq in E; subst. apply ve_depart; auto.
    + apply ve_same. rewrite H. reflexivity.
  - destruct H as (_ & _ & Hl & H1 & _ & _ & _ & _ & H). specialize (H v). destruct (Nat.eqb v v0) eqn:E.
    + apply Nat.eqb_eq in E; subst. apply ve_move; auto.
    + apply ve_same. rewrite H. reflexivity.
  - destruct H as (_ & _ & S & H & _). apply ve_same. apply vride_hard; [apply (so_v S)|apply H].
  - destruct H as (_ & _ & S & _ & _ & H & pf & H2). apply ve_same. destruct (Nat.eq_dec v v0) as [-> | Hne].
    + rewrite H2; reflexivity.
    + rewrite H by auto; reflexivity.
  - destruct H as (_ & _ & H1 & H2 & _ & _ & _ & _ & H). specialize (H v). destruct (Nat.eqb v v0) eqn:E.
    + apply Nat.eqb_eq in E; subst. eapply ve_flag; eauto.
    + apply ve_same. rewrite H. reflexivity.
  - destruct H as (_ & _ & _ & _ & _ & _ & _ & _ & H). apply ve_same. rewrite H.
    destruct (Nat.eqb v v0); [apply vride_next_dest|reflexivity].
  - destruct H as (_ & _ & H1 & (l & H2 & H3 & H4) & _ & _ & _ & _ & H). specialize (H v). destruct (Nat.eqb v v0) eqn:E.
    + apply Nat.eqb_eq in E; subst. eapply ve_abort; eauto.
    + apply ve_same. rewrite H. reflexivity.
  - destruct H as (_ & _ & S & _ & _ & H & l & H1 & H2 & H3). destruct (Nat.eq_dec v v0) as [-> | Hne].
    + destruct H3 as [(E & _ & _)|[(E & Ho)|(out & Ho & E)]].
      * apply ve_same. rewrite E. reflexivity.
      * eapply ve_choose; [reflexivity|exact H1|exact H2|left; split; [reflexivity|exact Ho]|exact E].
      * eapply ve_choose; [reflexivity|exact H1|exact H2|right; exists out; split; [exact Ho|reflexivity]|exact E].
    + apply ve_same. rewrite H by auto; reflexivity.
  - destruct H as (_ & _ & _ & H & _). apply ve_same. rewrite H. reflexivity.
  - destruct H as (_ & _ & H & _). apply ve_same. rewrite H. reflexivity.
  - destruct H as (_ & _ & H & _). apply ve_same. rewrite H. reflexivity.
  - destruct H as (_ & _ & H & _). apply ve_same. rewrite H. reflexivity.
Qed.

(** ** Reading fields *)
Lemma vride_f : forall A (f : _ -> A) a b, vride a = vride b -> f (vride a) = f (vride b).
Proof. intros; congruence. Qed.
Lemma vride_eq : forall a b, vride a = vride b ->
  v_orig a = v_orig b /\ v_dep a = v_dep b /\ v_arr a = v_arr b /\ v_larr a = v_larr b /\ v_tt a = v_tt b /\
  v_state a = v_state b /\ v_link a = v_link b /\ v_x a = v_x b /\ v_xnext a = v_xnext b /\ v_xold a = v_xold b /\
  v_v a = v_v b /\ v_lane a = v_lane b /\ v_flag a = v_flag b /\ v_remain a = v_remain b /\ v_mode a = v_mode b /\
  v_spec a = v_spec b /\ v_aborted a = v_aborted b /\ v_log a = v_log b /\ v_tlog a = v_tlog b /\
  v_linkold a = v_linkold b /\ v_dist a = v_dist b /\ v_next a = v_next b.
Proof. unfold vride; intros a b H. repeat split; congruence. Qed.

(** the outcome of a trip end *)
Lemma ended_fields : forall c w a tl lg b, vride b = vride (sv_linkold None (sv_tlog tl (sv_log lg (ended c w a)))) ->
  v_link b = None /\ v_linkold b = None /\ v_tlog b = tl /\ v_log b = lg /\ v_x b = 0%Q /\ v_flag b = v_flag a /\
  v_aborted b = v_aborted a /\ v_mode b = v_mode a /\ v_spec b = v_spec a /\ v_dist b = v_dist a /\ v_dep b = v_dep a /\
  v_orig b = v_orig a /\ v_next b = v_next a /\
  v_state b = (if v_aborted a then Abort else End_) /\
  v_tt b = (if v_aborted a then (-1)%Q else (inject_Z (Z.of_nat (w_T w) - v_dep a) * dt c)%Q).
Proof.
  intros c w a tl lg b H. apply vride_eq in H.
  destruct H as (A1 & A2 & A3 & A4 & A5 & A6 & A7 & A8 & A9 & A10 & A11 & A12 & A13 & A14 & A15 & A16 & A17 & A18 & A19 & A20 & A21 & A22).
  rewrite A1, A2, A5, A6, A7, A8, A13, A15, A16, A17, A18, A19, A20, A21, A22. clear.
  unfold ended. rs. destruct (v_aborted a) eqn:E; rs; rewrite ?E; repeat split; reflexivity.
Qed.

(** ** Vehicles marked as ending or aborted *)

(** Before a trip no mark is set; an aborted running vehicle stands at a dead end; a vehicle
    waiting to end is aborted or at its destination. *)
Record EndOK (w : world) (v : vid) : Prop := mkEndOK {
  eo_start : v_state (V w v) = Home \/ v_state (V w v) = Wait -> v_flag (V w v) = false /\ v_aborted (V w v) = false;
  eo_abort : v_state (V w v) = Run -> v_aborted (V w v) = true ->
    exists l, v_link (V w v) = Some l /\ n_out (N w (l_end (L w l))) = [] /\ v_next (V w v) = Some None;
  eo_flag : v_state (V w v) = Run -> v_flag (V w v) = true ->
    v_aborted (V w v) = true \/
    v_mode (V w v) = SingleTrip /\ exists l, v_link (V w v) = Some l /\ v_dest (V w v) = Some (l_end (L w l)) }.

Definition Ends (w : world) (p : pend) : Prop := forall v, v < w_nv w -> EndOK w v.
(** before [finalize_scenario] every vehicle is at home *)
Definition AllHome (w : world) : Prop := w_final w = false -> forall v, v < w_nv w -> v_state (V w v) = Home.

Lemma EndOK_same : forall w w' v, fr w w' -> same_dest w w' -> vride (V w' v) = vride (V w v) -> EndOK w v -> EndOK w' v.
Proof.
  intros w w' v F SD E [A1 A2 A3]. apply vride_eq in E.
  destruct E as (_ & _ & _ & _ & _ & E1 & E2 & _ & _ & _ & _ & _ & E3 & _ & E4 & _ & E5 & _ & _ & _ & _ & E6).
  destruct (SD v) as [S1 S2].
  constructor; rewrite E1, ?E2, ?E3, ?E4, ?E5, ?E6.
  - exact A1.
  - intros H1 H2. destruct (A2 H1 H2) as (l & B). exists l. rewrite (fr_l_end F), (fr_n_out F). exact B.
  - intros H1 H2. destruct (A3 H1 H2) as [B|(B1 & l & B2 & B3)]; [left; exact B|right]. split; [exact B1|].
    exists l. rewrite (fr_l_end F), (S2 B1). auto.
Qed.

Lemma vride_followed : forall c w l a, v_state (followed c w l a) = v_state a /\ v_link (followed c w l a) = v_link a /\
  v_flag (followed c w l a) = v_flag a /\ v_aborted (followed c w l a) = v_aborted a /\
  v_next (followed c w l a) = v_next a /\ v_mode (followed c w l a) = v_mode a /\ v_dest (followed c w l a) = v_dest a.
Proof. intros. unfold followed. destruct (qlt _ _); repeat split; reflexivity. Qed.

Lemma Ends_step : forall c e w p w' p', (forall n o v l, e = VShift n o v l -> IncA w p) -> Inv2 w p -> Ends w p ->
  mstep c e w p w' p' -> Ends w' p'.
Proof.
  intros c e w p w' p' J I H M v Hv. pose proof (mstep_fr M) as F. pose proof (mstep_dest c e w p w' p' I M) as SD.
  rewrite (fr_w_nv F) in Hv. specialize (H v Hv). destruct (SD v) as [S1 S2].
  pose proof (mstep_vev c e w p w' p' I M v) as K.
  assert (Keep : v_state (V w' v) = v_state (V w v) -> v_link (V w' v) = v_link (V w v) ->
    v_flag (V w' v) = v_flag (V w v) -> v_aborted (V w' v) = v_aborted (V w v) -> v_next (V w' v) = v_next (V w v) ->
    EndOK w' v).
  { intros E1 E2 E3 E5 E6. destruct H as [A1 A2 A3]. constructor; rewrite E1, ?E2, ?E3, ?E5, ?E6, ?S1.
    - exact A1.
    - intros H1 H2. destruct (A2 H1 H2) as (l & B). exists l. rewrite (fr_l_end F), (fr_n_out F). exact B.
    - intros H1 H2. destruct (A3 H1 H2) as [B|(B1 & l & B2 & B3)]; [left; exact B|right]. split; [exact B1|].
      exists l. rewrite (fr_l_end F), (S2 B1). auto. }
  destruct K as [E|n out q E1 E2 E3 E4 E5 E6 E7 E8|n out il q ld ln E1 E2 E3 E4 E5 E6 E7 E8 E9 E10 E11|
    l tl lg E1 E2 E3 E4 E5 E6 E7 E8|l E1 E2 E3|E1 E2 E3|E1 E2 E3 E4 E5|E1 E2 E3 E4|l E1 E2 E3 E4|l E1 E2 E3 E4 E5 E6|
    l nx E1 E2 E3 E4 E5].
  - apply vride_eq in E. apply Keep; tauto.
  - destruct (eo_start _ _ H) as [B1 B2]; [auto|].
    constructor; rewrite E8; unfold gen_veh; rs; try congruence. intros [K|K]; discriminate.
  - assert (B : v_aborted (V w v) = false).
    { destruct (v_aborted (V w v)) eqn:Ea; [|reflexivity]. destruct (eo_abort _ _ H E8 Ea) as (l & _ & _ & K). congruence. }
    assert (B' : v_flag (V w v) = false).
    { destruct (v_flag (V w v)) eqn:Ea; [|reflexivity]. destruct (eo_flag _ _ H E8 Ea) as [K|(K1 & l & K2 & K3)]; [congruence|].
      specialize (J _ _ _ _ E1).
      assert (p = None) as -> by (subst e; inversion M; auto).
      exfalso. apply (ia_dest _ _ J n v E3 K1).
      destruct (ia_in _ _ J n v E3) as (_ & [(l' & (_ & X & _) & Y & _)|[(o & X)|[X|X]]]); try congruence. }
    constructor; rewrite E11; unfold moved; rs; try congruence. intros [K|K]; congruence.
  - apply ended_fields in E8. destruct E8 as (_ & _ & _ & _ & _ & _ & _ & _ & _ & _ & _ & _ & _ & Es & _).
    constructor; rewrite Es; destruct (v_aborted (V w v)); intuition congruence.
  - destruct (vride_followed c w l (V w v)) as (B1 & B2 & B3 & B4 & B5 & B6 & B7). apply Keep; rewrite E3; auto.
  - apply Keep; rewrite E3; reflexivity.
  - destruct (eo_start _ _ H) as [B1 B2]; [auto|]. constructor; rewrite E5; rs; try congruence. auto.
  - apply Keep; rewrite E4; reflexivity.
  - destruct E2 as (B1 & B2 & B3). destruct H as [A1 A2 A3]. constructor; rewrite E4; rs.
    + intros [K|K]; congruence.
    + intros H1 H2. destruct (A2 H1 H2) as (k & B). exists k. rewrite (fr_l_end F), (fr_n_out F). exact B.
    + intros _ _. destruct E3 as [[K1 K2]|[K1 K2]]; [right|left; exact K2]. split; [exact K2|]. exists l.
      rewrite (fr_l_end F). auto.
  - destruct E2 as (B1 & B2 & B3). constructor; rewrite E6; unfold aborting; rs.
    + intros [K|K]; congruence.
    + intros _ _. exists l. rewrite (fr_l_end F), (fr_n_out F). auto.
    + auto.
  - destruct E2 as (B1 & B2 & B3). destruct H as [A1 A2 A3]. constructor; rewrite E5; rs.
    + exact A1.
    + intros H1 H2. destruct (A2 H1 H2) as (k & K1 & K2 & K3). assert (k = l) by congruence. subst k.
      exists l. rewrite (fr_l_end F), (fr_n_out F). split; [exact K1|]. split; [exact K2|].
      destruct E4 as [(-> & _)|(out & Ho & _)]; [reflexivity|]. rewrite K2 in Ho. destruct Ho.
    + intros H1 H2. destruct (A3 H1 H2) as [K|(K1 & k & K2 & K3)]; [left; exact K|right]. split; [exact K1|].
      exists k. rewrite (fr_l_end F). auto.
Qed.

Lemma EndOK_new : forall w v, v_state (V w v) = Home -> v_flag (V w v) = false -> v_aborted (V w v) = false -> EndOK w v.
Proof. intros w v H1 H2 H3. constructor; rewrite ?H1; intros; try congruence; auto. Qed.

Lemma ostep_home : forall c w w', ostep c w w' -> AllHome w -> AllHome w'.
Proof.
  intros c w w' H A Hf v Hv. unfold AllHome in A. destruct H; unfold wkeep in *.
  - apply A; auto.
  - apply A; auto.
  - cbn in Hv. destruct (Nat.eq_dec v (w_nv w)) as [-> | Hne].
    + unfold V; cbn. rewrite upd_same. reflexivity.
    + unfold V; cbn. rewrite upd_other by auto. apply A; auto; lia.
  - rewrite (fz_final _ _ _ (finalize_ok _ _ _ _ H0)) in Hf. discriminate.
  - specialize (H v). unfold vkeep in H. assert (E : v_state (V w' v) = v_state (V w v)) by congruence. rewrite E.
    apply A; [congruence|]. replace (w_nv w) with (w_nv w') by congruence. exact Hv.
  - assert (E : V w' v = V w v) by (unfold V; rewrite H; reflexivity). rewrite E.
    apply A; [congruence|]. replace (w_nv w) with (w_nv w') by congruence. exact Hv.
Qed.

Lemma ostep_Ends : forall c w w', Inv2 w None -> AllHome w -> ostep c w w' -> Ends w None -> Ends w' None.
Proof.
  intros c w w' I AH H E v Hv. unfold Ends in E.
  assert (St : w_final w = false -> v < w_nv w -> V w' v = V w v -> EndOK w' v).
  { intros Hf Hn Ev. pose proof (AH Hf v Hn) as Hh. destruct (eo_start _ _ (E v Hn)) as [B1 B2]; [auto|].
    apply EndOK_new; rewrite Ev; auto. }
  destruct H; unfold wkeep in *.
  - apply St; auto.
  - apply St; auto.
  - cbn in Hv. destruct (Nat.eq_dec v (w_nv w)) as [-> | Hne].
    + apply EndOK_new; unfold V; cbn; rewrite upd_same; reflexivity.
    + assert (Hn : v < w_nv w) by lia. specialize (E v Hn).
      assert (Ev : V (added_veh (new_vehicle c a nl nm) pv w) v = V w v) by (unfold V; cbn; rewrite upd_other by auto; reflexivity).
      destruct E as [A1 A2 A3]. constructor; rewrite Ev; auto.
  - pose proof (finalize_ok _ _ _ _ H0) as Z. assert (Ev : V w' v = V w v) by (unfold V; rewrite (fz_V _ _ _ Z); reflexivity).
    pose proof (fz_cnt _ _ _ Z) as Zc. apply St; auto. replace (w_nv w) with (w_nv w') by congruence. exact Hv.
  - assert (Hn : v < w_nv w) by (replace (w_nv w) with (w_nv w') by congruence; exact Hv). specialize (E v Hn).
    specialize (H v). unfold vkeep in H. destruct E as [A1 A2 A3]. specialize (H3 v).
    assert (B1 : v_state (V w' v) = v_state (V w v)) by congruence. assert (B2 : v_link (V w' v) = v_link (V w v)) by congruence.
    assert (B3 : v_flag (V w' v) = v_flag (V w v)) by congruence. assert (B4 : v_aborted (V w' v) = v_aborted (V w v)) by congruence.
    assert (B5 : v_next (V w' v) = v_next (V w v)) by congruence. assert (B6 : v_mode (V w' v) = v_mode (V w v)) by congruence.
    assert (EL : forall l, L w' l = L w l) by (intro; unfold L; rewrite H0; auto).
    assert (EN : forall l, N w' l = N w l) by (intro; unfold N; rewrite H1; auto).
    constructor; rewrite B1, ?B2, ?B3, ?B4, ?B5, ?B6; auto.
    + intros X Y. destruct (A2 X Y) as (l & Z). exists l. rewrite EL, EN. exact Z.
    + intros X Y. destruct (A3 X Y) as [Z|(Z1 & l & Z2 & Z3)]; [left; exact Z|right; split; [exact Z1|]].
      exists l. rewrite EL, (H3 Z1). auto.
  - assert (Hn : v < w_nv w) by (replace (w_nv w) with (w_nv w') by congruence; exact Hv). specialize (E v Hn).
    assert (Ev : V w' v = V w v) by (unfold V; rewrite H; reflexivity).
    assert (EL : forall l, l_end (L w' l) = l_end (L w l)) by (intro l; specialize (H0 l); unfold lkeep in H0; congruence).
    assert (EN : forall n, n_out (N w' n) = n_out (N w n)) by (intro n; specialize (H1 n); unfold nkeep in H1; congruence).
    destruct E as [A1 A2 A3]. constructor; rewrite Ev; auto.
    + intros X Y. destruct (A2 X Y) as (l & Z). exists l. rewrite EL, EN. exact Z.
    + intros X Y. destruct (A3 X Y) as [Z|(Z1 & l & Z2 & Z3)]; [left; exact Z|right; split; [exact Z1|]].
      exists l. rewrite EL. auto.
Qed.

Lemma reach_home : forall c w, reach c w -> AllHome w.
Proof.
  intros c w H. induction H as [tm|w o w' H IH Hok Hx E|w w' H IH Hf E|w H IH]; auto.
  - intros _ v Hv. cbn in Hv. lia.
  - apply apply_op_osteps in E; auto. clear - E IH. induction E; auto. apply IHE. eapply ostep_home; eauto.
  - intro K. rewrite (tick_final _ _ _ E) in K. congruence.
Qed.

Lemma first_home : forall c e w p w' p', k_first e = true -> Inv2 w p -> AllHome w -> mstep c e w p w' p' -> AllHome w'.
Proof.
  intros c e w p w' p' Ke I A M Hf v Hv. pose proof (mstep_fr M) as F. rewrite (fr_w_nv F) in Hv. rewrite (fr_w_final F) in Hf.
  specialize (A Hf v Hv). pose proof (mstep_vev c e w p w' p' I M v) as K.
  destruct K; try (subst e; discriminate Ke); try congruence. apply vride_eq in H. intuition congruence.
Qed.

Theorem reach_Ends : forall c w, reach c w -> Ends w None.
Proof.
  intros c w R. enough (AllHome w /\ Ends w None) by tauto.
  revert w R. apply (reach_inc_phase c (fun w p => AllHome w /\ Ends w p) Ends Ends).
  - intros e w p w' p' Ke I J [A1 A2] M. split; [eapply first_home; eauto|eapply Ends_step; eauto].
  - tauto.
  - intros e w p w' p' Ke I A M. eapply Ends_step; eauto. intros; subst e; discriminate.
  - auto.
  - intros e w p w' p' Ke I A M. destruct e; try discriminate Ke; try (eapply Ends_step; eauto; intros; discriminate).
  - intro tm. split; intros; [intros ? v Hv|intros v Hv]; cbn in Hv; lia.
  - intros w Hf I E. split; [intro K; cbn in K; congruence|]. intros v Hv. destruct (E v Hv) as [A1 A2 A3]. constructor; auto.
  - intros w w' I C J [A1 A2] O. split; [eapply ostep_home; eauto|eapply ostep_Ends; eauto].
Qed.
