(** * Ride: one timestep, seen from one vehicle. *)
From Verif Require Import Base Types Sim Build Heap Lists Inv FrameBase Tac Frame Eff Eff2 Trace InvStep Reach Steps Effects Phases Life Incoming Vev.
Local Open Scope nat_scope.

Lemma run_fr : forall c K w w', run c K w w' -> fr w w'.
Proof. intros c K w w' (es & _ & T). exact (trace_fr T). Qed.

(** ** Links, nodes and transfers: at most one event concerns the vehicle *)

Definition touches (v : vid) (e : ev) : bool :=
  match e with VEnter _ u _ => Nat.eqb u v | VShift _ _ u _ => Nat.eqb u v | VEnd u _ => Nat.eqb u v | _ => false end.

(** no further event of these phases can concern [v] *)
Definition quiet (w : world) (p : pend) (v : vid) : Prop :=
  v_state (V w v) <> Wait /\
  (v_state (V w v) = Run -> v_flag (V w v) = false /\ forall n, In v (n_incoming (N w n)) -> exists o, p = Some (v, o)).

Lemma untouched : forall c e w p w' p' v, k_first e = true -> Inv2 w p -> mstep c e w p w' p' -> touches v e = false ->
  vride (V w' v) = vride (V w v).
Proof.
  intros c e w p w' p' v Ke I M Ht. pose proof (mstep_vev c e w p w' p' I M v) as K.
  destruct K; try assumption; subst e; try discriminate Ke; cbn [touches] in Ht; rewrite Nat.eqb_refl in Ht; discriminate.
Qed.

(** waiting lists only shrink in these phases *)
Lemma first_inc : forall c e w p w' p', k_first e = true -> Inv2 w p -> mstep c e w p w' p' ->
  forall n v, In v (n_incoming (N w' n)) -> In v (n_incoming (N w n)).
Proof.
  intros c e w p w' p' Ke I M k v Hv. pose proof (mstep_eff c e w p w' p' I M) as H.
  destruct e; try discriminate Ke; cbn [eff] in H.
  - destruct H as (_ & _ & _ & _ & H & _). rewrite H in Hv. auto.
  - destruct H as (_ & _ & _ & _ & H & _). rewrite H in Hv. auto.
  - destruct H as (_ & _ & q & ca & H). do 9 (destruct H as [_ H]). destruct H as (H & _).
    rewrite H in Hv. destruct (Nat.eqb k n) eqn:Ek; [|auto]. apply Nat.eqb_eq in Ek; subst. exact Hv.
  - destruct H as (_ & _ & _ & _ & _ & _ & _ & n1 & n2 & E1 & E2 & H). rewrite H in Hv.
    destruct (Nat.eqb k n) eqn:Ek; [|auto]. apply Nat.eqb_eq in Ek; subst.
    rewrite (flow_capacity_inc _ _ _ E2), (signal_control_inc _ _ _ E1) in Hv. exact Hv.
  - destruct H as (_ & _ & cd & ca & rest & q & H). do 17 (destruct H as [_ H]). destruct H as (H & _).
    rewrite H in Hv. destruct (Nat.eqb k n) eqn:Ek; [|auto]. apply Nat.eqb_eq in Ek; subst.
    unfold charge in Hv. destruct (n_fcap _); exact Hv.
  - destruct H as (_ & rest & cd & lg & tl & H). do 8 (destruct H as [_ H]). destruct H as (H & _). rewrite H in Hv. auto.
  - destruct H as (_ & _ & _ & _ & _ & _ & H & _). rewrite H in Hv. destruct (Nat.eqb k n) eqn:Ek; [|auto].
    cbn [n_incoming sn_incoming] in Hv. apply remove_first_sub in Hv. exact Hv.
  - destruct H as (_ & _ & _ & _ & _ & _ & H). rewrite H in Hv. destruct (Nat.eqb k n) eqn:Ek; [destruct Hv|auto].
  - destruct H as (_ & _ & _ & _ & H & _). rewrite H in Hv. auto.
Qed.

Lemma quiet_step : forall c e w p w' p' v, k_first e = true -> Inv2 w p -> IncA w p -> quiet w p v ->
  mstep c e w p w' p' -> touches v e = false /\ quiet w' p' v /\ vride (V w' v) = vride (V w v).
Proof.
  intros c e w p w' p' v Ke I J [Q1 Q2] M.
  assert (Ht : touches v e = false).
  { destruct (touches v e) eqn:Et; [|reflexivity]. exfalso.
    pose proof (mstep_eff c e w p w' p' I M) as H. destruct e; try discriminate Et; cbn [touches] in Et; apply Nat.eqb_eq in Et; subst; cbn [eff] in H.
    - destruct H as (_ & _ & q & ca & _ & Hq & _). destruct I as [[T I] _].
      assert (K : In v (n_queue (N w n))) by (rewrite Hq; left; auto). apply (s_queue I) in K. tauto.
    - destruct H as (-> & _ & cd & ca & rest & q & H). destruct H as (_ & Hin & _ & _ & _ & _ & _ & _ & _ & _ & _ & Hr & _).
      destruct (Q2 Hr) as [_ K]. destruct (K _ Hin) as (o & Ho). discriminate.
    - destruct H as (_ & rest & cd & lg & tl & _ & Hf & _ & Hr & _). destruct (Q2 Hr) as [K _]. congruence. }
  pose proof (untouched c e w p w' p' v Ke I M Ht) as E. split; [exact Ht|]. split; [|exact E].
  apply vride_eq in E. destruct E as (_ & _ & _ & _ & _ & E1 & _ & _ & _ & _ & _ & _ & E2 & _).
  unfold quiet. rewrite E1, E2. split; [exact Q1|]. intro Hr. destruct (Q2 Hr) as [A B]. split; [exact A|].
  intros n Hn. pose proof (first_inc c e w p w' p' Ke I M n v Hn) as Hn0. destruct (B n Hn0) as (o & ->).
  pose proof (mstep_eff c e w _ w' p' I M) as H.
  destruct e; cbn [eff] in H; try discriminate Ke; try (destruct H as (Hp & _); discriminate Hp).
  - destruct H as (-> & _). eauto.
  - destruct H as (Hp & -> & _ & _ & _ & _ & HN & Hin). injection Hp as <- <-.
    exfalso. assert (n = n0) by (eapply (ia_uniq _ _ J); eauto). subst n0.
    rewrite HN, Nat.eqb_refl in Hn. cbn [n_incoming sn_incoming] in Hn. revert Hn. apply remove_first_not_in. apply (ia_nodup _ _ J).
Qed.

Lemma quiet_trace : forall c es w p w' p' v, trace c es w p w' p' -> Forall (fun e => k_first e = true) es ->
  Inv2 w p -> IncA w p -> quiet w p v -> vride (V w' v) = vride (V w v).
Proof.
  intros c es w p w' p' v T; induction T as [|e es w p w1 p1 w2 p2 M T IH]; intros F I J Q; [reflexivity|].
  inversion F as [|? ? F1 F2]; subst. destruct (quiet_step c e w p w1 p1 v F1 I J Q M) as (_ & Q1 & E).
  rewrite IH; auto; [eapply mstep_Inv2; eauto|eapply IncA_step; eauto].
Qed.

(** a vehicle that is transferred does not wait for its trip end *)
Lemma shift_flag : forall c n out v il w p w' p', Inv2 w p -> IncA w p -> EndOK w v ->
  mstep c (VShift n out v il) w p w' p' -> v_flag (V w v) = false /\ v_aborted (V w v) = false /\ l_end (L w il) = n.
Proof.
  intros c n out v il w p w' p' I J E M. apply (mstep_eff c _ _ _ _ _ I) in M. cbn [eff] in M.
  destruct M as (-> & -> & cd & ca & rest & q & H).
  destruct H as (_ & Hi & Hnx & _ & _ & _ & _ & _ & _ & _ & Hl & Hr & _).
  assert (En : l_end (L w il) = n).
  { destruct (ia_in _ _ J n v Hi) as (_ & [(l' & (_ & Y & _) & Z & _)|[(o & Y)|[Y|Y]]]); congruence. }
  assert (Ab : v_aborted (V w v) = false).
  { destruct (v_aborted (V w v)) eqn:Ea; [|reflexivity]. destruct (eo_abort _ _ E Hr Ea) as (l & _ & _ & Y). congruence. }
  split; [|auto]. destruct (v_flag (V w v)) eqn:Ea; [|reflexivity]. exfalso.
  destruct (eo_flag _ _ E Hr Ea) as [X|(X1 & l & X2 & X3)]; [congruence|].
  apply (ia_dest _ _ J n v Hi X1). congruence.
Qed.
Lemma moved_state : forall c w out ld ln q a, v_state (moved c w out ld ln q a) = v_state a.
Proof. reflexivity. Qed.
Lemma moved_flag : forall c w out ld ln q a, v_flag (moved c w out ld ln q a) = v_flag a.
Proof. reflexivity. Qed.
Lemma gen_state : forall c w out a, v_state (gen_veh c w out a) = Run.
Proof. reflexivity. Qed.
Lemma gen_flag : forall c w out a, v_flag (gen_veh c w out a) = v_flag a.
Proof. reflexivity. Qed.

(** after a touching event the vehicle is quiet *)
Lemma touch_quiet : forall c e w p w' p' v, Inv2 w p -> IncA w p -> EndOK w v -> v < w_nv w ->
  mstep c e w p w' p' -> touches v e = true -> quiet w' p' v.
Proof.
  intros c e w p w' p' v I J E Hv M Ht.
  assert (Ke : k_first e = true) by (destruct e; try discriminate Ht; reflexivity).
  pose proof (fun n => first_inc c e w p w' p' Ke I M n v) as Hin.
  pose proof (mstep_eff c e w p w' p' I M) as Hf.
  destruct e; try discriminate Ht; cbn [touches] in Ht; apply Nat.eqb_eq in Ht; subst; cbn [eff] in Hf.
  - destruct Hf as (-> & -> & q & ca & _ & Hq & _ & _ & _ & _ & _ & _ & _ & _ & _ & _ & _ & _ & Ev & _).
    assert (Hw : v_state (V w v) = Wait).
    { destruct I as [[T I] _]. assert (X : In v (n_queue (N w n))) by (rewrite Hq; left; auto). apply (s_queue I) in X. tauto. }
    destruct (eo_start _ _ E) as [B1 B2]; [auto|]. unfold quiet. rewrite Ev, gen_state, gen_flag.
    split; [discriminate|]. intros _. split; [exact B1|]. intros k Hk. apply Hin in Hk.
    destruct (ia_in _ _ J k v Hk) as (_ & [(l' & (Y & _) & _)|[(o & Y)|[Y|Y]]]); congruence.
  - destruct (shift_flag _ _ _ _ _ _ _ _ _ I J E M) as (B & _).
    destruct Hf as (-> & -> & cd & ca & rest & q & _ & Hi & Hnx & _ & _ & _ & _ & _ & _ & _ & Hl & Hr & _ & _ & _ & _ & _ & _ & _ & _ & _ & Ev & _).
    unfold quiet. rewrite Ev, moved_state, moved_flag. split; [congruence|]. intros _. split; [exact B|eauto].
  - destruct Hf as (-> & rest & cd & lg & tl & _ & _ & _ & Hr & _ & _ & _ & _ & _ & _ & _ & _ & _ & _ & Ev).
    assert (X : forall (b : bool) t g a, v_state (let x := sv_linkold None (sv_tlog t (sv_log g a)) in
      if b then sv_pref PrefNone x else x) = v_state a) by (intros [] t g a; reflexivity).
    assert (Y : v_state (V w' v) = if v_aborted (V w v) then Abort else End_) by (rewrite Ev, X; apply ended_state).
    unfold quiet. rewrite Y. destruct (v_aborted (V w v)); split; intros; discriminate.
Qed.

(** The first three phases, from the point of view of vehicle [v]: either nothing happens to
    it, or exactly one event. *)
Inductive first_view (c : cfg) (v : vid) (w w3 : world) : Prop :=
| fv_stay : vride (V w3 v) = vride (V w v) -> first_view c v w w3
| fv_event : forall e m p m' p' es1 es2, touches v e = true ->
    Forall (fun e => k_first e = true) es1 -> Forall (fun e => k_first e = true) es2 ->
    trace c es1 w None m p -> mstep c e m p m' p' -> trace c es2 m' p' w3 None ->
    Inv2 m p -> IncA m p -> Ends m p -> fr w m -> fr m m' -> fr m' w3 ->
    vride (V m v) = vride (V w v) -> vride (V w3 v) = vride (V m' v) -> first_view c v w w3.

Lemma first_view_trace : forall c es v w p w3, v < w_nv w -> trace c es w p w3 None -> Forall (fun e => k_first e = true) es ->
  Inv2 w p -> IncA w p -> Ends w p ->
  vride (V w3 v) = vride (V w v) \/
  exists e m q m' q' es1 es2, es = es1 ++ e :: es2 /\ touches v e = true /\
    trace c es1 w p m q /\ mstep c e m q m' q' /\ trace c es2 m' q' w3 None /\
    Inv2 m q /\ IncA m q /\ Ends m q /\ vride (V m v) = vride (V w v) /\ vride (V w3 v) = vride (V m' v).
Proof.
  intros c es. induction es as [|e es IH]; intros v w p w3 Hv T F I J En; inversion T; subst; [left; reflexivity|].
  inversion F as [|? ? F1 F2]; subst.
  match goal with K : mstep c e _ _ _ _ |- _ => rename K into M end.
  match goal with K : trace c es _ _ _ _ |- _ => rename K into T' end.
  pose proof (mstep_Inv2 _ _ _ _ _ _ I M) as I1. pose proof (IncA_step _ _ _ _ _ _ F1 I J M) as J1.
  assert (En1 : Ends w1 p1) by (eapply Ends_step; [|exact I|exact En|exact M]; auto).
  destruct (touches v e) eqn:Et.
  - right. exists e, w, p, w1, p1, [], es. split; [reflexivity|]. split; [exact Et|]. split; [constructor|]. split; [exact M|].
    split; [exact T'|]. split; [exact I|]. split; [exact J|]. split; [exact En|]. split; [reflexivity|].
    eapply quiet_trace; eauto. eapply touch_quiet; [exact I|exact J|exact (En v Hv)|exact Hv|exact M|exact Et].
  - pose proof (untouched c e w p w1 p1 v F1 I M Et) as E.
    assert (Hv1 : v < w_nv w1) by (rewrite (fr_w_nv (mstep_fr M)); exact Hv).
    destruct (IH v w1 p1 w3 Hv1 T' F2 I1 J1 En1) as [K|(e' & m & q & m' & q' & es1 & es2 & K0 & K1 & K2 & K3 & K4 & K5 & K6 & K7 & K8 & K9)].
    + left. congruence.
    + right. exists e', m, q, m', q', (e :: es1), es2. subst es. split; [reflexivity|]. split; [exact K1|].
      split; [econstructor; eauto|]. split; [exact K3|]. split; [exact K4|]. split; [exact K5|]. split; [exact K6|].
      split; [exact K7|]. split; [congruence|exact K9].
Qed.

Lemma first_view_run : forall c v K w w3, (forall e, K e = true -> k_first e = true) -> v < w_nv w -> run c K w w3 ->
  Inv2 w None -> IncA w None -> Ends w None -> first_view c v w w3.
Proof.
  intros c v K w w3 HK Hv (es & F & T) I J En.
  assert (F' : Forall (fun e => k_first e = true) es) by (eapply Forall_impl; [|exact F]; cbn; auto).
  destruct (first_view_trace c es v w None w3 Hv T F' I J En) as [E|(e & m & q & m' & q' & es1 & es2 & -> & K1 & K2 & K3 & K4 & K5 & K6 & K7 & K8 & K9)].
  - apply fv_stay; auto.
  - apply Forall_app in F'. destruct F' as [F1 F2]. inversion F2; subst.
    exact (fv_event c v w w3 e m q m' q' es1 es2 K1 F1 H2 K2 K3 K4 K5 K6 K7 (trace_fr K2) (mstep_fr K3) (trace_fr K4) K8 K9).
Qed.

(** ** Car following *)
Lemma carfollow_at : forall c v w w', Inv2 w None -> carfollow c v w = Ok w' ->
  exists l, v_link (V w v) = Some l /\ (forall u, V w' u = if Nat.eqb u v then followed c w l (V w v) else V w u) /\
    (forall k, L w' k = L w k).
Proof.
  intros c v w w' I H. assert (M : mstep c (VFollow v) w None w' None) by (constructor; exact H).
  apply (mstep_eff c _ _ _ _ _ I) in M. cbn [eff] in M. destruct M as (_ & _ & SL & _ & _ & _ & l & E & K).
  exists l. auto.
Qed.

Lemma followed_x : forall c w l a, v_x (followed c w l a) = v_x a.
Proof. intros. unfold followed. destruct (qlt _ _); reflexivity. Qed.
Lemma followed_ext : forall c w w' l a, (forall u, v_x (V w' u) = v_x (V w u)) -> L w' l = L w l ->
  followed c w' l a = followed c w l a.
Proof.
  intros c w w' l a H E. unfold followed, follow_x. rewrite E. destruct (v_leader a); [rewrite H|]; reflexivity.
Qed.

Lemma follow_loop : forall c vs w w', Inv2 w None -> NoDup vs -> foldM (carfollow c) vs w = Ok w' ->
  (forall k, L w' k = L w k) /\
  (forall v, In v vs -> exists l, v_link (V w v) = Some l /\ V w' v = followed c w l (V w v)) /\
  (forall v, ~ In v vs -> V w' v = V w v).
Proof.
  intros c vs; induction vs as [|u vs IH]; intros w w' I Nd H; cbn [foldM] in H.
  - injection H as <-. repeat split; auto. intros v [].
  - apply bind_ok in H. destruct H as (w1 & E & H). inversion Nd as [|? ? Nu Nd']; subst.
    assert (I1 : Inv2 w1 None) by (eapply (mstep_Inv2 c (VFollow u)); [exact I|constructor; exact E]).
    destruct (carfollow_at c u w w1 I E) as (l & El & EV & EL).
    destruct (IH w1 w' I1 Nd' H) as (A1 & A2 & A3).
    assert (Ex : forall z, v_x (V w1 z) = v_x (V w z)).
    { intro z. rewrite EV. destruct (Nat.eqb z u) eqn:Ez; [|reflexivity]. apply Nat.eqb_eq in Ez; subst. apply followed_x. }
    split; [intro k; rewrite A1; apply EL|]. split.
    + intros v [-> | Hv].
      * exists l. split; [exact El|]. rewrite A3 by auto. rewrite EV, Nat.eqb_refl. reflexivity.
      * destruct (A2 v Hv) as (k & B1 & B2). assert (Hne : v <> u) by (intros ->; auto). apply Nat.eqb_neq in Hne.
        rewrite EV, Hne in B1, B2. exists k. split; [exact B1|]. rewrite B2. apply followed_ext; auto.
    + intros v Hv. rewrite A3 by (intro; apply Hv; right; auto). rewrite EV.
      assert (Hne : v <> u) by (intros ->; apply Hv; left; auto). apply Nat.eqb_neq in Hne. rewrite Hne. reflexivity.
Qed.

(** ** Vehicle.update *)

(** the data of a vehicle whose trip has just ended *)
Definition end_tlog (c : cfg) (w : world) (a : vehicle) : list (Q * place) :=
  v_tlog a ++ (if opt_eqb None (v_linkold a) then [] else if v_aborted a then [] else [(now c w, PEnd)]).
Definition end_log (c : cfg) (w : world) (a : vehicle) : list logrow :=
  v_log a ++ (if negb (Z.eqb (c_logint c) (-1))
              then [mkLog (now c w) (v_state (ended c w a)) None None None None None] else []).
Definition finished (c : cfg) (w : world) (a : vehicle) : vehicle :=
  sv_linkold None (sv_tlog (end_tlog c w a) (sv_log (end_log c w a) (ended c w a))).

(** Vehicle [v] has come to the end of link [l], with data [d]; [b] is the outcome.
    The intermediate world [m] is the one in which the route choice or end is decided. *)
Inductive reached (c : cfg) (v : vid) (w : world) (l : lid) (d b : vehicle) : Prop :=
| re_choose : forall m m', fr w m -> same_dest w m -> Inv2 m None -> vride (V m v) = vride d -> at_end m v l ->
    (v_mode d = SingleTrip -> v_dest (V w v) <> Some (l_end (L w l))) ->
    route_next_link_choice c v m = Ok m' -> vride b = vride (V m' v) -> reached c v w l d b
| re_end : forall d' b', (d' = d /\ v_mode d = SingleTrip /\ v_dest (V w v) = Some (l_end (L w l)) \/
                       d' = aborting d /\ n_out (N w (l_end (L w l))) = [] /\
                       (v_mode d = SingleTrip -> v_dest (V w v) <> Some (l_end (L w l)))) ->
    b' = sv_flag true d' -> (vride b = vride b' \/ vride b = vride (finished c w b')) ->
    reached c v w l d b.

Lemma ended_T : forall c w w' a, w_T w' = w_T w -> ended c w' a = ended c w a.
Proof. intros c w w' a H. unfold ended. rewrite H. reflexivity. Qed.
Lemma now_T : forall c w w', w_T w' = w_T w -> now c w' = now c w.
Proof. intros c w w' H. unfold now. rewrite H. reflexivity. Qed.

Lemma finished_T : forall c w w' a, w_T w' = w_T w -> finished c w' a = finished c w a.
Proof.
  intros c w w' a H. unfold finished, end_tlog, end_log. rewrite (ended_T _ _ _ _ H), (now_T _ _ _ H). reflexivity.
Qed.
Lemma finished_eq : forall c w a b, vride a = vride b -> vride (finished c w a) = vride (finished c w b).
Proof.
  intros c w a b H. destruct a, b. cbv in H. injection H; clear H; intros; subst.
  unfold finished, end_tlog, end_log, ended.
  cbn [v_aborted v_log v_tlog v_linkold v_dep sv_tt sv_arr sv_x sv_link sv_state v_state sv_log sv_tlog sv_linkold].
  destruct v_aborted0; reflexivity.
Qed.

Lemma prepare_end_view : forall c v l w w' , Inv2 w None -> at_end w v l ->
  (v_dest (V w v) = Some (l_end (L w l)) /\ v_mode (V w v) = SingleTrip \/
     n_out (N w (l_end (L w l))) = [] /\ v_aborted (V w v) = true) ->
  prepare_end c v l w = Ok w' ->
  vride (V w' v) = vride (sv_flag true (V w v)) \/ vride (V w' v) = vride (finished c w (sv_flag true (V w v))).
Proof.
  intros c v l w w' I A D H. unfold prepare_end in H. cbn zeta in H.
  assert (M : mstep c (VFlag v l) w None (modv v (sv_flag true) w) None) by (constructor; auto).
  pose proof (mstep_Inv2 _ _ _ _ _ _ I M) as I1.
  assert (E1 : V (modv v (sv_flag true) w) v = sv_flag true (V w v)) by apply V_modv_same.
  assert (ET : w_T (modv v (sv_flag true) w) = w_T w) by reflexivity.
  set (w1 := modv v (sv_flag true) w) in *. clearbody w1.
  destruct (l_vehs (L w1 l)) as [|u rest] eqn:E; [discriminate|].
  destruct (Nat.eqb u v) eqn:Eu.
  - apply Nat.eqb_eq in Eu; subst u. right.
    assert (M2 : mstep c (VEnd v l) w1 None w' None) by (econstructor; eauto; rewrite E1; reflexivity).
    apply (mstep_eff c _ _ _ _ _ I1) in M2. cbn [eff] in M2.
    destruct M2 as (_ & rest' & cd & lg & tl & H1 & Hf & H2 & H3 & H4 & _ & _ & _ & _ & _ & _ & _ & Elg & Etl & B).
    rewrite B. cbv zeta. rewrite vride_pref, <- (finished_T c w w1) by exact ET. unfold finished, end_tlog, end_log.
    rewrite <- E1. subst lg tl. reflexivity.
  - injection H as <-. left. rewrite E1. reflexivity.
Qed.

Lemma soft_fr : forall w w', soft w w' -> fr w w'.
Proof. intros w w' S. exact (frs_fr (so_frs S)). Qed.

Lemma dest_back : forall w m v x, same_dest w m -> v_mode (V m v) = SingleTrip -> v_dest (V m v) = x -> v_dest (V w v) = x.
Proof. intros w m v x S Hm <-. destruct (S v) as [S1 S2]. symmetry. apply S2. congruence. Qed.

Lemma request_view : forall c v l w m w' d, Inv2 m None -> fr w m -> same_dest w m -> at_end m v l -> vride (V m v) = vride d ->
  (v_mode (V m v) = SingleTrip -> v_dest (V m v) <> Some (l_end (L m l))) ->
  request_transfer c v (l_end (L m l)) m = Ok w' -> reached c v w l d (V w' v).
Proof.
  intros c v l w m w' d I F SD A E D H. unfold request_transfer in H.
  apply bind_ok in H. destruct H as (m' & E1 & H). injection H as <-. rewrite V_modn.
  assert (Em : v_mode (V m v) = v_mode d) by (apply vride_eq in E; tauto).
  eapply re_choose; [exact F|exact SD|exact I|exact E|exact A| |exact E1|reflexivity].
  intros Hs K. rewrite <- Em in Hs. apply D; [exact Hs|]. destruct (SD v) as [S1 S2]. rewrite S2 by congruence.
  rewrite (fr_l_end F). exact K.
Qed.

Lemma at_link_end_view : forall c v l w w', Inv2 w None -> at_end w v l ->
  at_link_end c v l w = Ok w' -> reached c v w l (V w v) (V w' v).
Proof.
  intros c v l w w' I A H. unfold at_link_end in H. cbn zeta in H.
  apply bind_ok in H. destruct H as (w1 & E1 & H).
  apply bind_ok in H. destruct H as (w2 & E2 & H).
  assert (R1 : run c (k_veh v) w w1 /\ vride (V w1 v) = vride (V w v) /\ soft w w1).
  { destruct (dget (l_end (L w l)) (v_events (V w v))) as [e|] eqn:Ee.
    - assert (M : mstep c (VEvent v e) w None w1 None) by (econstructor; eauto).
      split; [|split; [|eapply run_event_soft; eauto]].
      + eapply run_one with (e := VEvent v e); [apply Nat.eqb_refl|exact M].
      + pose proof (mstep_vev c _ _ _ _ _ I M v) as K. destruct K; try discriminate. assumption.
    - injection E1 as <-. split; [apply run_refl|]. split; [reflexivity|apply soft_refl]. }
  destruct R1 as (R1 & V1 & S1).
  pose proof (maybe_pref_run _ _ _ E2) as R2. pose proof (maybe_pref_update_soft _ _ _ E2) as S2.
  pose proof (run_Inv2' _ _ _ _ I R1) as I1.
  assert (V2 : vride (V w2 v) = vride (V w1 v)).
  { unfold maybe_pref_update in E2. destruct (c_gradual c); [|injection E2 as <-; reflexivity].
    assert (M : mstep c (VPref v 1%Q) w1 None w2 None) by (constructor; auto).
    pose proof (mstep_vev c _ _ _ _ _ I1 M v) as K. destruct K; try discriminate. assumption. }
  assert (S : soft w w2) by (eapply soft_trans; eauto).
  pose proof (run_Inv2' _ _ _ _ I1 R2) as I2.
  assert (A2 : at_end w2 v l) by (eapply at_end_soft; eauto).
  assert (SD : same_dest w w2) by (eapply same_dest_trans; eapply run_dest; eauto).
  assert (VV : vride (V w2 v) = vride (V w v)) by congruence.
  pose proof (soft_fr _ _ S) as F.
  rewrite <- (so_l S l) in H. clear E1 E2 R1 R2 S1 S2 V1 V2 I1.
  assert (Em0 : v_mode (V w2 v) = v_mode (V w v)) by (apply vride_eq in VV; tauto).
  destruct (opt_eqb (Some (l_end (L w2 l))) (v_dest (V w2 v))) eqn:Ed.
  - apply opt_eqb_eq in Ed. symmetry in Ed.
    destruct (v_mode (V w2 v)) eqn:Em.
    + pose proof (prepare_end_view c v l w2 w' I2 A2 (or_introl (conj Ed Em)) H) as K.
      eapply re_end with (d' := V w v); [left; split; [reflexivity|]|reflexivity|].
      * split; [congruence|]. rewrite <- (fr_l_end F). eapply dest_back; eauto.
      * assert (X : vride (sv_flag true (V w2 v)) = vride (sv_flag true (V w v))) by (unfold vride in VV |- *; rs; congruence).
        destruct K as [K|K]; [left; congruence|right]. rewrite K. rewrite (finished_T c w w2) by exact (fr_w_T F).
        apply finished_eq. exact X.
    + apply bind_ok in H. destruct H as (w3 & E3 & H).
      assert (M3 : mstep c (VNextDest v) w2 None (modv v next_dest w2) None) by (eapply m_nextdest; eauto).
      pose proof (mstep_Inv2 _ _ _ _ _ _ I2 M3) as I3.
      assert (M4 : mstep c (VPref v 1%Q) (modv v next_dest w2) None w3 None) by (constructor; [exact E3|left; reflexivity]).
      pose proof (mstep_Inv2 _ _ _ _ _ _ I3 M4) as I4.
      assert (S23 : soft w2 w3).
      { apply route_pref_update_soft in E3. eapply soft_trans; [|exact E3]. apply soft_modv; destruct (v_dests _); reflexivity. }
      assert (V3 : vride (V w3 v) = vride (V w2 v)).
      { pose proof (mstep_vev c _ _ _ _ _ I2 M3 v) as K. pose proof (mstep_vev c _ _ _ _ _ I3 M4 v) as K'.
        destruct K; try discriminate. destruct K'; try discriminate. congruence. }
      assert (SD3 : same_dest w2 w3) by (eapply same_dest_trans; [eapply mstep_dest; [exact I2|exact M3]|eapply mstep_dest; [exact I3|exact M4]]).
      eapply request_view with (m := w3).
      * exact I4.
      * eapply fr_trans; [exact F|exact (soft_fr _ _ S23)].
      * eapply same_dest_trans; eauto.
      * eapply at_end_soft; eauto.
      * congruence.
      * intro K. assert (v_mode (V w3 v) = v_mode (V w2 v)) by (apply vride_eq in V3; tauto). congruence.
      * rewrite (so_l S23). exact H.
  - assert (Ed' : v_dest (V w2 v) <> Some (l_end (L w2 l))).
    { intro K. symmetry in K. apply opt_eqb_eq in K. congruence. }
    assert (Ed2 : v_mode (V w v) = SingleTrip -> v_dest (V w v) <> Some (l_end (L w l))).
    { intros Hs K. apply Ed'. destruct (SD v) as [X1 X2]. rewrite X2 by exact Hs. rewrite (fr_l_end F). exact K. }
    destruct (is_nil (n_out (N w2 (l_end (L w2 l)))) && v_abortopt (V w2 v)) eqn:Eb.
    + apply andb_true_iff in Eb. destruct Eb as [Eb1 Eb2].
      assert (Eo : n_out (N w2 (l_end (L w2 l))) = []) by (destruct (n_out _); [auto|discriminate]).
      assert (M3 : mstep c (VAbort v) w2 None (modv v aborting w2) None) by (econstructor; eauto).
      pose proof (mstep_Inv2 _ _ _ _ _ _ I2 M3) as I3.
      assert (V3 : V (modv v aborting w2) v = aborting (V w2 v)) by apply V_modv_same.
      change (modv v (fun a : vehicle => sv_next (Some None) (sv_aborted true a)) w2) with (modv v aborting w2) in H.
      assert (K : vride (V w' v) = vride (sv_flag true (aborting (V w2 v))) \/
                  vride (V w' v) = vride (finished c w2 (sv_flag true (aborting (V w2 v))))).
      { rewrite <- V3. rewrite <- (finished_T c w2 (modv v aborting w2)) by reflexivity.
        eapply prepare_end_view; [exact I3| | |exact H].
        - destruct A2 as (X & Y & Z). unfold at_end. rewrite V_modv_same. auto.
        - right. rewrite V_modv_same. split; auto. }
      assert (X : vride (sv_flag true (aborting (V w2 v))) = vride (sv_flag true (aborting (V w v)))).
      { unfold aborting. unfold vride in VV |- *. rs. congruence. }
      eapply re_end with (d' := aborting (V w v)); [right; split; [reflexivity|]|reflexivity|].
      * rewrite (fr_l_end F), (fr_n_out F) in Eo. auto.
      * destruct K as [K|K]; [left; congruence|right]. rewrite K. rewrite (finished_T c w w2) by exact (fr_w_T F).
        apply finished_eq. exact X.
    + eapply request_view with (m := w2); eauto.
Qed.

(** [Vehicle.update] of [v] *)
Inductive updated (c : cfg) (v : vid) (w : world) (b : vehicle) : Prop :=
| up_home : v_state (V w v) = Home -> (Z.of_nat (w_T w) < v_dep (V w v))%Z ->
    vride b = vride (logged c w v false) -> updated c v w b
| up_depart : v_state (V w v) = Home -> (v_dep (V w v) <= Z.of_nat (w_T w))%Z ->
    vride b = vride (sv_state Wait (logged c w v false)) -> updated c v w b
| up_wait : v_state (V w v) = Wait -> vride b = vride (logged c w v false) -> updated c v w b
| up_go : forall l, v_state (V w v) = Run -> v_link (V w v) = Some l -> ~ v_xnext (V w v) == l_len (L w l) ->
    vride b = vride (driven c (logged c w v false)) -> updated c v w b
| up_reach : forall l m d, v_state (V w v) = Run -> v_link (V w v) = Some l -> v_xnext (V w v) == l_len (L w l) ->
    fr w m -> same_dest w m -> d = driven c (logged c w v false) -> reached c v m l d b -> updated c v w b.

Lemma reached_vride : forall c v w l d d' b b', vride d = vride d' -> vride b = vride b' ->
  reached c v w l d b -> reached c v w l d' b'.
Proof.
  intros c v w l d d' b b' Ed Eb H. assert (Em : v_mode d = v_mode d') by (apply vride_eq in Ed; tauto).
  destruct H as [m m' H1 H2 H3 H4 H5 H6 H7 H8|e e' H1 -> H3].
  - apply (re_choose c v w l d' b' m m'); auto; try congruence. rewrite <- Em. exact H6.
  - destruct H1 as [(-> & H1)|(-> & H1)].
    + assert (X : vride (sv_flag true d) = vride (sv_flag true d')) by (unfold vride in Ed |- *; rs; congruence).
      eapply re_end with (d' := d'); [left; rewrite <- Em; auto|reflexivity|].
      destruct H3 as [H3|H3]; [left; congruence|right]. rewrite <- Eb, H3. apply finished_eq. exact X.
    + assert (X : vride (sv_flag true (aborting d)) = vride (sv_flag true (aborting d'))).
      { unfold aborting. unfold vride in Ed |- *; rs; congruence. }
      eapply re_end with (d' := aborting d'); [right; rewrite <- Em; auto|reflexivity|].
      destruct H3 as [H3|H3]; [left; congruence|right]. rewrite <- Eb, H3. apply finished_eq. exact X.
Qed.

Lemma veh_update_view : forall c v w w', Inv2 w None -> In v (w_living w) -> veh_update c v w = Ok w' ->
  updated c v w (V w' v).
Proof.
  intros c v w w' I Hl H. unfold veh_update in H. cbn zeta in H.
  assert (M0 : mstep c (VLog v) w None (record_log c v false w) None) by (constructor; auto).
  pose proof (mstep_Inv2 _ _ _ _ _ _ I M0) as I0. pose proof (mstep_fr M0) as F0.
  pose proof (mstep_dest c _ _ _ _ _ I M0) as D0.
  assert (E0 : V (record_log c v false w) v = logged c w v false) by (rewrite record_log_V, Nat.eqb_refl; reflexivity).
  pose proof (record_log_living c v false w) as P3.
  set (w0 := record_log c v false w) in *. clearbody w0.
  assert (Hl0 : In v (w_living w0)) by (rewrite P3; auto).
  assert (Es0 : v_state (V w0 v) = v_state (V w v)) by (rewrite E0; reflexivity).
  assert (Ed0 : v_dep (V w0 v) = v_dep (V w v)) by (rewrite E0; reflexivity).
  assert (ET : w_T w0 = w_T w) by exact (fr_w_T F0).
  destruct (v_state (V w v)) eqn:Es; rewrite Es0 in H.
  - destruct (Z.leb (v_dep (V w0 v)) (Z.of_nat (w_T w0))) eqn:Ed.
    + assert (E1 : V (modn (v_orig (V w0 v)) (fun nd => sn_queue (n_queue nd ++ [v]) nd) (modv v (sv_state Wait) w0)) v =
                   sv_state Wait (V w0 v)) by (rewrite V_modn; apply V_modv_same).
      assert (M1 : mstep c (VDepart v) w0 None
        (modn (v_orig (V w0 v)) (fun nd => sn_queue (n_queue nd ++ [v]) nd) (modv v (sv_state Wait) w0)) None) by (constructor; auto).
      pose proof (mstep_Inv2 _ _ _ _ _ _ I0 M1) as I1.
      set (w1 := modn _ _ _) in *. clearbody w1. rewrite E1 in H. cbn [v_state sv_state] in H.
      assert (Vp : vride (V w' v) = vride (V w1 v)).
      { unfold maybe_pref_update in H. destruct (c_gradual c); [|injection H as <-; reflexivity].
        assert (M : mstep c (VPref v 1%Q) w1 None w' None) by (constructor; auto).
        pose proof (mstep_vev c _ _ _ _ _ I1 M v) as K. destruct K; try discriminate. assumption. }
      apply up_depart; [exact Es|apply Z.leb_le in Ed; rewrite <- Ed0, <- ET; exact Ed|].
      rewrite Vp, E1, E0. reflexivity.
    + rewrite Es0 in H. injection H as <-. apply up_home; [exact Es| |rewrite E0; reflexivity].
      apply Z.leb_gt in Ed. rewrite <- Ed0, <- ET. exact Ed.
  - rewrite Es0 in H. apply up_wait; [exact Es|]. rewrite <- E0.
    unfold maybe_pref_update in H. destruct (c_gradual c); [|injection H as <-; reflexivity].
    assert (M : mstep c (VPref v 1%Q) w0 None w' None) by (constructor; auto).
    pose proof (mstep_vev c _ _ _ _ _ I0 M v) as K. destruct K; try discriminate. assumption.
  - rewrite Es0 in H. unfold drive in H. cbn zeta in H.
    assert (M2 : mstep c (VMove v) w0 None (modv v (driven c) w0) None) by (constructor; auto).
    pose proof (mstep_Inv2 _ _ _ _ _ _ I0 M2) as I2. pose proof (mstep_fr M2) as F2.
    pose proof (mstep_dest c _ _ _ _ _ I0 M2) as D2.
    change (modv v (fun a : vehicle => sv_dist (v_dist a + (v_xnext a - v_x a)) (sv_x (v_xnext a)
      (sv_xold (v_x a) (sv_v ((v_xnext a - v_x a) / dt c) a)))) w0) with (modv v (driven c) w0) in H.
    assert (E2 : V (modv v (driven c) w0) v = driven c (V w0 v)) by apply V_modv_same.
    set (w2 := modv v (driven c) w0) in *. clearbody w2.
    apply bind_ok in H. destruct H as (l & E & H). apply of_opt_ok in E.
    assert (El : v_link (V w v) = Some l) by (rewrite E2, E0 in E; exact E).
    assert (Ex : v_x (V w2 v) = v_xnext (V w v)) by (rewrite E2, E0; reflexivity).
    assert (F02 : fr w w2) by (eapply fr_trans; eauto).
    destruct (qeq (v_x (V w2 v)) (l_len (L w2 l))) eqn:Eq.
    + eapply up_reach with (l := l) (m := w2); [exact Es|exact El| |exact F02|eapply same_dest_trans; eauto|reflexivity|].
      * apply qeq_iff in Eq. rewrite Ex, (fr_l_len F02) in Eq. exact Eq.
      * rewrite <- E0, <- E2. apply at_link_end_view; auto. repeat split; auto. rewrite E2, E0. exact Es.
    + injection H as <-. eapply up_go; [exact Es|exact El| |rewrite E2, E0; reflexivity].
      intro K. rewrite <- Ex, <- (fr_l_len F02) in K. apply qeq_iff in K. congruence.
  - exfalso. apply (s_living (proj2 (proj1 I0))) in Hl0. rewrite Es0 in Hl0. unfold alive in Hl0. intuition congruence.
  - exfalso. apply (s_living (proj2 (proj1 I0))) in Hl0. rewrite Es0 in Hl0. unfold alive in Hl0. intuition congruence.
Qed.

(** ** All vehicle updates *)
Lemma vcalm_ride : forall a b, vcalm a = vcalm b -> vride a = vride b.
Proof. unfold vcalm, vride; intros. congruence. Qed.

Lemma vehicles_at : forall c vs w w', Inv2 w None -> NoDup vs -> foldM (update_living c) vs w = Ok w' ->
  forall v,
  (~ In v vs -> vride (V w' v) = vride (V w v)) /\
  (In v vs -> exists wa wb, run c k_vehicles w wa /\ Inv2 wa None /\ In v (w_living wa) /\ vride (V wa v) = vride (V w v) /\
     veh_update c v wa = Ok wb /\ run c k_vehicles wb w' /\ vride (V w' v) = vride (V wb v)).
Proof.
  intros c vs; induction vs as [|u vs IH]; intros w w' I Nd H v; cbn [foldM] in H.
  - injection H as <-. split; [reflexivity|intros []].
  - apply bind_ok in H. destruct H as (w1 & E & H). inversion Nd as [|? ? Nu Nd']; subst.
    unfold update_living in E. destruct (mem u (w_living w)) eqn:Em; [|discriminate]. apply mem_iff in Em.
    pose proof (veh_update_other c u w w1 I Em E) as Oth.
    pose proof (veh_update_run _ _ _ Em E) as R.
    pose proof (run_Inv2' _ _ _ _ I R) as I1.
    assert (R' : run c k_vehicles w w1) by (eapply run_weaken; [apply k_veh_vehicles|exact R]).
    destruct (IH w1 w' I1 Nd' H v) as [A B].
    assert (Rr : run c k_vehicles w1 w').
    { eapply foldM_run with (P := fun _ w => True); [| intros; exact Logic.I | intros; exact Logic.I |exact H].
      intros z a a' _ _ Ez. unfold update_living in Ez. destruct (mem z (w_living a)) eqn:Ez'; [|discriminate].
      eapply run_weaken; [apply k_veh_vehicles|]. eapply veh_update_run; eauto. apply mem_iff; auto. }
    split.
    + intro Hn. rewrite A by (intro; apply Hn; right; auto). apply vcalm_ride, Oth. intros ->. apply Hn; left; auto.
    + intros [-> | Hv].
      * exists w, w1. split; [apply run_refl|]. split; [exact I|]. split; [exact Em|]. split; [reflexivity|].
        split; [exact E|]. split; [exact Rr|]. apply A. exact Nu.
      * destruct (B Hv) as (wa & wb & B1 & B2 & B3 & B4 & B5 & B6 & B7). exists wa, wb.
        split; [eapply run_trans; eauto|]. split; [exact B2|]. split; [exact B3|].
        split; [rewrite B4; apply vcalm_ride, Oth; intros ->; auto|]. auto.
Qed.

Lemma route_ride : forall c w w', Inv2 w None -> run c k_route w w' -> forall v, vride (V w' v) = vride (V w v).
Proof.
  intros c w w' I R v.
  destruct (run_with c (fun x _ => vride (V x v) = vride (V w v)) k_route) with (w := w) (w' := w') as [_ K]; auto.
  intros e x p x' p' Ke Ix Jx M. rewrite <- Jx. pose proof (mstep_vev c e x p x' p' Ix M v) as K.
  destruct K; try assumption; subst e; discriminate Ke.
Qed.

(** The timestep for vehicle [v]: links, nodes and transfers lead to [w3]; car following to
    [w4]; [wa] is the state in which [Vehicle.update] of [v] starts. *)
Record body_view (c : cfg) (v : vid) (w w' : world) (w3 w4 : world) : Prop := mkBodyView {
  bv_first : first_view c v w w3;
  bv_fr3 : fr w w3;
  bv_dest3 : same_dest w w3;
  bv_inv3 : Inv2 w3 None;
  bv_ends3 : Ends w3 None;
  bv_follow : v_state (V w3 v) = Run -> exists l, v_link (V w3 v) = Some l /\ V w4 v = followed c w3 l (V w3 v);
  bv_still : v_state (V w3 v) <> Run -> V w4 v = V w3 v;
  bv_gone : ~ alive (v_state (V w3 v)) -> vride (V w' v) = vride (V w3 v);
  bv_update : alive (v_state (V w3 v)) -> exists wa b, fr w wa /\ same_dest w wa /\ Inv2 wa None /\
    vride (V wa v) = vride (V w4 v) /\ updated c v wa b /\ vride (V w' v) = vride b;
  bv_phases : exists w1 w2, phase_links c w = Ok w1 /\ phase_nodes c w1 = Ok w2 /\ phase_transfer c w2 = Ok w3 /\
    phase_follow c w3 = Ok w4 }.

Lemma body_viewed : forall c v w w', v < w_nv w -> Inv2 w None -> IncB w -> Ends w None -> body c w = Ok w' ->
  exists w3 w4, body_view c v w w' w3 w4.
Proof.
  intros c v w w' Hv I J En H. apply body_runs in H.
  destruct H as (w1 & w2 & w3 & w4 & w5 & w6 & E1 & E2 & E3 & E4 & E5 & E6 & ->).
  assert (Ph : exists w1 w2, phase_links c w = Ok w1 /\ phase_nodes c w1 = Ok w2 /\ phase_transfer c w2 = Ok w3 /\
    phase_follow c w3 = Ok w4) by (exists w1, w2; auto).
  apply phase_links_run in E1. apply phase_nodes_run in E2. apply phase_transfer_run in E3.
  assert (R3 : run c k_first w w3).
  { eapply run_trans; [|eapply run_trans]; eapply run_weaken; try eassumption;
    intros [] K; try discriminate K; reflexivity. }
  pose proof (IncOK_A _ (ib_ok _ J)) as JA.
  pose proof (run_Inv2' _ _ _ _ I R3) as I3. pose proof (run_fr _ _ _ _ R3) as F3.
  assert (En3 : Ends w3 None).
  { destruct (run_with c (fun x p => IncA x p /\ Ends x p) k_first) with (w := w) (w' := w3) as (_ & _ & K); auto.
    intros e x p x' p' Ke Ix [Jx Ex] M. split; [eapply IncA_step; eauto|eapply Ends_step; eauto]. }
  exists w3, w4.
  pose proof (phase_follow_run _ _ E4) as R4. pose proof (run_Inv2' _ _ _ _ I3 R4) as I4.
  unfold phase_follow in E4. destruct (follow_loop c _ _ _ I3 (s_running_nd (proj2 (proj1 I3))) E4) as (FL & FV & FN).
  pose proof (phase_vehicles_run _ _ E5) as R5. pose proof (run_Inv2' _ _ _ _ I4 R5) as I5.
  apply route_phase_run in E6. pose proof (route_ride c w5 w6 I5 E6 v) as E56.
  assert (Hv3 : v < w_nv w3) by (rewrite (fr_w_nv F3); exact Hv).
  assert (Ev4 : v_state (V w4 v) = v_state (V w3 v)).
  { destruct (in_dec Nat.eq_dec v (w_running w3)) as [Hin|Hn].
    - destruct (FV v Hin) as (l & _ & ->). unfold followed. destruct (qlt _ _); reflexivity.
    - rewrite FN by exact Hn. reflexivity. }
  assert (F4 : fr w w4) by (eapply fr_trans; [exact F3|exact (run_fr _ _ _ _ R4)]).
  assert (Hv4 : v < w_nv w4) by (rewrite (fr_w_nv F4); exact Hv).
  unfold phase_vehicles in E5.
  destruct (vehicles_at c _ _ _ I4 (s_living_nd (proj2 (proj1 I4))) E5 v) as [VN VI].
  constructor; auto.
  - eapply first_view_run; eauto.
  - eapply run_dest; eauto.
  - intro Hr. apply FV. apply (s_running (proj2 (proj1 I3))). auto.
  - intro Hr. apply FN. intro K. apply (s_running (proj2 (proj1 I3))) in K. tauto.
  - intro Ha. change (V (sw_TIME (now c w6) w6) v) with (V w6 v). rewrite E56, VN.
    + f_equal. apply FN. intro K. apply (s_running (proj2 (proj1 I3))) in K. apply Ha. destruct K as [_ K]. rewrite K. unfold alive. auto.
    + intro K. apply (s_living (proj2 (proj1 I4))) in K. rewrite Ev4 in K. tauto.
  - intro Ha. destruct VI as (wa & wb & B1 & B2 & B3 & B4 & B5 & B6 & B7).
    { apply (s_living (proj2 (proj1 I4))). rewrite Ev4. auto. }
    exists wa, (V wb v). split; [eapply fr_trans; [exact F4|exact (run_fr _ _ _ _ B1)]|].
    split. { eapply same_dest_trans; [eapply run_dest; [exact I|exact R3]|]. eapply same_dest_trans; [eapply run_dest; [exact I3|exact R4]|].
             eapply run_dest; eauto. }
    split; [exact B2|]. split; [exact B4|]. split; [apply veh_update_view; auto|].
    change (V (sw_TIME (now c w6) w6) v) with (V w6 v). congruence.
Qed.

(** ** Invariants of one vehicle between timesteps *)

(** [J w v] speaks about vehicle [v] of [w] between calls. *)
Theorem reach_ride : forall c (J : world -> vid -> Prop),
  (forall w w3 w4 w' v, reach c w -> w_final w = true -> v < w_nv w -> Inv2 w None -> IncB w -> Ends w None ->
     body c w = Ok w' -> J w v -> body_view c v w w' w3 w4 -> J (sw_T (S (w_T w)) w') v) ->
  (forall w, Inv2 w None -> forall v, J w v -> J (sw_TIME (now c w) w) v) ->
  (forall w w' v, Inv2 w None -> AllHome w -> Ends w None -> ostep c w w' -> v < w_nv w' -> (v < w_nv w -> J w v) -> J w' v) ->
  forall w, reach c w -> forall v, v < w_nv w -> J w v.
Proof.
  intros c J Hb Ht Ho w R. induction R as [tm|w o w' H IH Hok Hx E|w w' H IH Hf E|w H IH]; intros v Hv.
  - cbn in Hv. lia.
  - pose proof (reach_Inv2 _ _ H) as I. pose proof (reach_home _ _ H) as A. pose proof (reach_Ends _ _ H) as En.
    apply apply_op_osteps in E; auto. clear H Hok Hx. induction E as [w|a b d O E IHE]; auto.
    assert (Eb : forall z, z < w_nv b -> J b z) by (intros z Hz; eapply Ho; eauto).
    apply IHE; auto; [eapply ostep_Inv2; eauto|eapply ostep_home; eauto|eapply ostep_Ends; eauto].
  - pose proof (reach_Inv2 _ _ H) as I. pose proof (reach_IncB _ _ H) as B. pose proof (reach_Ends _ _ H) as En.
    apply tick_fr in E. destruct E as (w1 & E & ->).
    assert (Hv' : v < w_nv w) by (cbn in Hv; rewrite (fr_w_nv (body_fr _ _ E)) in Hv; exact Hv).
    destruct (body_viewed c v w w1 Hv' I B En E) as (w3 & w4 & BV). eapply Hb; eauto.
  - apply Ht; [eapply reach_Inv2; eauto|]. apply IH. exact Hv.
Qed.
