(** * TripLog: the links recorded for a vehicle (log_t_link). *)
From Verif Require Import Base Types Sim Build Heap Lists Inv FrameBase Tac Frame Eff Eff2 Trace InvStep Reach Steps Effects Phases Life Incoming Vev Ride Spec.
From Coq Require Import Sorting.Sorted.
Local Open Scope nat_scope.

(** the entries for links entered at the timesteps [es] *)
Definition rows (c : cfg) (es : list (nat * lid)) : list (Q * place) :=
  map (fun e => ((Qof_nat (fst e) * dt c)%Q, PLink (snd e))) es.
Definition end_row (c : cfg) (a : vehicle) : list (Q * place) :=
  match v_state a with End_ => [((inject_Z (v_arr a) * dt c)%Q, PEnd)] | _ => [] end.

(** Vehicle data [a] (destination [dst]) in a World like [w], after [T] timesteps: [es] lists
    the links it entered, with the timesteps.  [mid]: the last link may not be recorded yet. *)
Record TripD (mid : bool) (c : cfg) (w : world) (T : nat) (a : vehicle) (dst : option nid) (es : list (nat * lid)) : Prop := mkTrip {
  tp_log : exists t0, v_tlog a = (t0, PHome) :: rows c es ++ end_row c a;
  tp_sorted : StronglySorted lt (map fst es);
  tp_before : Forall (fun e => fst e < T /\ (v_dep a < Z.of_nat (fst e))%Z) es;
  tp_links : Forall (fun e => snd e < w_nl w) es;
  tp_chain : connected w (map snd es);
  tp_orig : forall e tl, es = e :: tl -> l_start (L w (snd e)) = v_orig a;
  tp_home : v_state a = Home \/ v_state a = Wait -> es = [] /\ v_linkold a = None /\ v_link a = None;
  tp_wait : v_state a = Wait -> (v_dep a < Z.of_nat T)%Z;
  tp_run : v_state a = Run -> exists l, v_link a = Some l /\ l < w_nl w /\
    ((exists es' t, v_linkold a = Some l /\ es = es' ++ [(t, l)]) \/
     mid = true /\ es = [] /\ v_linkold a = None /\ l_start (L w l) = v_orig a /\ (v_dep a < Z.of_nat T)%Z \/
     mid = true /\ exists k es' t, v_linkold a = Some k /\ es = es' ++ [(t, k)] /\
       l_end (L w k) = l_start (L w l) /\ k <> l);
  tp_end : v_state a = End_ -> v_mode a = SingleTrip /\
    exists es' t l, es = es' ++ [(t, l)] /\ dst = Some (l_end (L w l)) /\
      (Z.of_nat t <= v_arr a < Z.of_nat (if mid then S T else T))%Z;
  tp_abort : v_state a = Abort -> exists es' t l, es = es' ++ [(t, l)] /\ n_out (N w (l_end (L w l))) = [] }.

(** the same network *)
Definition samenet (w w' : world) : Prop :=
  w_nl w' = w_nl w /\ (forall l, l_start (L w' l) = l_start (L w l)) /\ (forall l, l_end (L w' l) = l_end (L w l)) /\
  forall n, n_out (N w' n) = n_out (N w n).
Lemma fr_samenet : forall w w', fr w w' -> samenet w w'.
Proof.
  intros w w' F. split; [exact (fr_w_nl F)|]. split; [exact (fr_l_start F)|]. split; [exact (fr_l_end F)|exact (fr_n_out F)].
Qed.

Lemma connected_net : forall w w' ls, samenet w w' -> connected w ls -> connected w' ls.
Proof.
  intros w w' ls (F1 & F2 & F3 & F4); induction ls as [|a [|b ls] IH]; cbn [connected]; auto. intros [A B].
  rewrite F2, F3. split; [exact A|]. apply IH. exact B.
Qed.
Lemma connected_snoc : forall w ls k l, connected w (ls ++ [k]) -> l_end (L w k) = l_start (L w l) -> connected w ((ls ++ [k]) ++ [l]).
Proof.
  intros w ls k l; induction ls as [|a [|b ls] IH]; cbn [app connected]; intros H E; auto.
  - destruct H as [H _]. auto.
  - destruct H as [H1 H2]. split; [exact H1|]. apply IH; auto.
Qed.

Lemma end_row_eq : forall c a b, v_state a = v_state b -> v_arr a = v_arr b -> end_row c a = end_row c b.
Proof. intros c a b H1 H2. unfold end_row. rewrite H1, H2. reflexivity. Qed.

(** the fields [TripD] depends on *)
Definition vtrip (a : vehicle) := (v_orig a, v_dep a, v_arr a, v_state a, v_link a, v_mode a, v_tlog a, v_linkold a).
Lemma vride_trip : forall a b, vride a = vride b -> vtrip a = vtrip b.
Proof. intros a b H. apply vride_eq in H. unfold vtrip. intuition congruence. Qed.

Lemma Trip_frame : forall mid c w w' T a b dst dst' es, samenet w w' -> vtrip b = vtrip a ->
  (v_mode a = SingleTrip -> dst' = dst) -> TripD mid c w T a dst es -> TripD mid c w' T b dst' es.
Proof.
  intros mid c w w' T a b dst dst' es F E Ed [A1 A2 A3 A4 A5 A6 A7 A8 A9 A10 A11]. unfold vtrip in E.
  injection E as E1 E2 E3 E4 E5 E6 E7 E8. pose proof F as (F1 & F2 & F3 & F4).
  constructor; rewrite ?E1, ?E2, ?E3, ?E4, ?E5, ?E6, ?E7, ?E8, ?F1.
  - rewrite (end_row_eq c b a) by auto. exact A1.
  - exact A2.
  - exact A3.
  - exact A4.
  - eapply connected_net; eauto.
  - intros e tl He. rewrite F2. eauto.
  - exact A7.
  - exact A8.
  - intro H. destruct (A9 H) as (l & B1 & B2 & B3). exists l. split; [exact B1|]. split; [exact B2|].
    rewrite F2. destruct B3 as [B3|[B3|(B0 & k & es' & t & B3)]]; [auto|auto|].
    right; right. split; [exact B0|]. exists k, es', t. rewrite F3. exact B3.
  - intro H. destruct (A10 H) as (B0 & es' & t & l & B1 & B2 & B3). split; [exact B0|]. exists es', t, l.
    rewrite F3, (Ed B0). auto.
  - intro H. destruct (A11 H) as (es' & t & l & B1 & B2). exists es', t, l. rewrite F3, F4. auto.
Qed.

Lemma Trip_mid : forall c w T a dst es, TripD false c w T a dst es -> TripD true c w T a dst es.
Proof.
  intros c w T a dst es [A1 A2 A3 A4 A5 A6 A7 A8 A9 A10 A11]. constructor; auto.
  - intro H. destruct (A9 H) as (l & B1 & B2 & [B3|[(B3 & _)|(B3 & _)]]); try discriminate. exists l; auto.
  - intro H. destruct (A10 H) as (B0 & es' & t & l & B1 & B2 & B3). split; [exact B0|]. exists es', t, l. repeat split; auto; lia.
Qed.

(** once recorded, one timestep later *)
Lemma Trip_later : forall c w T a dst es, v_state a <> Run -> TripD true c w T a dst es -> TripD false c w (S T) a dst es.
Proof.
  intros c w T a dst es Hr [A1 A2 A3 A4 A5 A6 A7 A8 A9 A10 A11]. constructor; auto.
  - eapply Forall_impl; [|exact A3]. cbn beta. intros e H. lia.
  - intro H. apply A8 in H. lia.
  - intro H. contradiction.
Qed.

Lemma ended_arr : forall c w a tl lg b, vride b = vride (sv_linkold None (sv_tlog tl (sv_log lg (ended c w a)))) ->
  v_arr b = (if v_aborted a then (-1)%Z else Z.of_nat (w_T w)).
Proof.
  intros c w a tl lg b H. apply vride_eq in H. destruct H as (_ & _ & A3 & _). rewrite A3. clear.
  unfold ended. rs. destruct (v_aborted a) eqn:E; rs; rewrite ?E; reflexivity.
Qed.

(** a vehicle on link [l], recorded, whose trip ends *)
Lemma Trip_ended : forall c w T a dst es es' t l tl lg b w0 (mid : bool), w_T w0 < (if mid then S T else T) -> t <= w_T w0 ->
  TripD mid c w T a dst es -> v_state a = Run -> v_linkold a = Some l -> es = es' ++ [(t, l)] ->
  (v_aborted a = true /\ n_out (N w (l_end (L w l))) = [] \/ v_aborted a = false /\ v_mode a = SingleTrip /\ dst = Some (l_end (L w l))) ->
  tl = v_tlog a ++ (if opt_eqb None (v_linkold a) then [] else if v_aborted a then [] else [(now c w0, PEnd)]) ->
  vride b = vride (sv_linkold None (sv_tlog tl (sv_log lg (ended c w0 a)))) -> TripD mid c w T b dst es.
Proof.
  intros c w T a dst es es' t l tl lg b w0 mid ET Ht [A1 A2 A3 A4 A5 A6 A7 A8 A9 A10 A11] Hr Hlo He Hd Htl H.
  pose proof (ended_arr _ _ _ _ _ _ H) as Harr. apply ended_fields in H.
  destruct H as (B1 & B2 & B3 & B4 & B5 & B6 & B7 & B8 & B9 & B10 & B11 & B12 & B13 & B14 & B15).
  rewrite Hlo in Htl. cbn [opt_eqb] in Htl.
  destruct A1 as (t0 & A1). unfold end_row in A1. rewrite Hr, app_nil_r in A1.
  destruct (v_aborted a) eqn:Ea.
  - constructor; rewrite ?B14; try discriminate.
    + exists t0. unfold end_row. rewrite B14, B3, Htl, A1, !app_nil_r. reflexivity.
    + exact A2.
    + rewrite B11. exact A3.
    + exact A4.
    + exact A5.
    + rewrite B12. exact A6.
    + intros [K|K]; discriminate.
    + intros _. destruct Hd as [[_ Hd]|[Hd _]]; [|discriminate]. eauto.
  - destruct Hd as [[Hd _]|(_ & Hm & Hd)]; [discriminate|].
    constructor; rewrite ?B14; try discriminate.
    + exists t0. unfold end_row. rewrite B14, B3, Htl, A1, Harr. unfold now. cbn [app]. reflexivity.
    + exact A2.
    + rewrite B11. exact A3.
    + exact A4.
    + exact A5.
    + rewrite B12. exact A6.
    + intros [K|K]; discriminate.
    + intros _. rewrite B8. split; [exact Hm|]. exists es', t, l. rewrite Harr. repeat split; auto; lia.
Qed.

Lemma StronglySorted_snoc : forall (l : list nat) x, StronglySorted lt l -> Forall (fun y => y < x) l -> StronglySorted lt (l ++ [x]).
Proof.
  induction l as [|a l IH]; intros x H1 H2; cbn [app]; [constructor; constructor|].
  inversion H1; subst. inversion H2; subst. constructor; [apply IH; auto|]. apply Forall_app. auto.
Qed.

(** recording the link *)
Lemma Trip_logged : forall c w T a dst es wl v, V wl v = a -> w_T wl = T -> TripD true c w T a dst es -> v_state a = Run ->
  exists es', TripD false c w (S T) (logged c wl v false) dst es'.
Proof.
  intros c w T a dst es wl v Hv ET [A1 A2 A3 A4 A5 A6 A7 A8 A9 A10 A11] Hr. unfold logged. rewrite Hv.
  set (lg := v_log a ++ _). clearbody lg.
  destruct (A9 Hr) as (l & Hl & Hn & D). destruct A1 as (t0 & A1). unfold end_row in A1. rewrite Hr, app_nil_r in A1.
  assert (A3' : Forall (fun e => fst e < S T /\ (v_dep a < Z.of_nat (fst e))%Z) es)
    by (eapply Forall_impl; [|exact A3]; cbn beta; intros e H; lia).
  assert (HT : Forall (fun y => y < T) (map fst es)).
  { apply Forall_map. eapply Forall_impl; [|exact A3]. cbn beta. tauto. }
  destruct D as [(es' & t & D1 & D2)|[(_ & D1 & D2 & D3 & D4)|(_ & k & es' & t & D1 & D2 & D3 & D4)]].
  - exists es. assert (E : tlog_rows c wl a = []) by (unfold tlog_rows; rewrite Hl, D1; cbn [opt_eqb]; rewrite Nat.eqb_refl; reflexivity).
    rewrite E, app_nil_r. constructor; rs; rewrite ?Hr; try discriminate; auto.
    + exists t0. unfold end_row. rs. rewrite Hr, app_nil_r. exact A1.
    + intros [K|K]; discriminate.
    + intros _. exists l. rewrite Hl. repeat split; auto. left. eauto.
  - exists [(T, l)]. assert (E : tlog_rows c wl a = [(now c wl, PLink l)]) by (unfold tlog_rows; rewrite Hl, D2, Hr; reflexivity).
    rewrite E. subst es. constructor; rs; rewrite ?Hr; try discriminate.
    + exists t0. unfold end_row. rs. rewrite Hr, A1. unfold now. rewrite ET. reflexivity.
    + cbn. constructor; constructor.
    + constructor; [|constructor]. cbn. lia.
    + constructor; [exact Hn|constructor].
    + exact Logic.I.
    + intros e tl [= <- _]. exact D3.
    + intros [K|K]; discriminate.
    + intros _. exists l. rewrite Hl. repeat split; auto. left. exists [], T. auto.
  - exists (es ++ [(T, l)]). assert (E : tlog_rows c wl a = [(now c wl, PLink l)]).
    { unfold tlog_rows. rewrite Hl, D1, Hr. cbn [opt_eqb]. replace (Nat.eqb l k) with false; [reflexivity|].
      symmetry. apply Nat.eqb_neq. congruence. }
    rewrite E. constructor; rs; rewrite ?Hr; try discriminate; auto.
    + exists t0. unfold end_row. rs. rewrite Hr, A1. unfold now, rows. rewrite ET, map_app, app_nil_r. reflexivity.
    + rewrite map_app. apply StronglySorted_snoc; auto.
    + apply Forall_app. split; [exact A3'|]. constructor; [|constructor]. cbn [fst]. split; [lia|].
      rewrite D2, Forall_app in A3. destruct A3 as [_ A3]. inversion A3; subst. cbn [fst] in *. lia.
    + apply Forall_app. split; [exact A4|]. constructor; [exact Hn|constructor].
    + rewrite map_app. cbn [map snd]. rewrite D2, map_app in *. cbn [map snd] in *.
      apply connected_snoc; auto.
    + intros e tl He. destruct es as [|e0 tl0]; [destruct es'; discriminate D2|]. injection He as <- _. eapply A6; eauto.
    + intros [K|K]; discriminate.
    + intros _. exists l. rewrite Hl. repeat split; auto. left. eauto.
Qed.

Lemma Trip_driven : forall mid c w T a dst es, TripD mid c w T a dst es -> TripD mid c w T (driven c a) dst es.
Proof. intros mid c w T a dst es. apply Trip_frame; [repeat split|reflexivity|auto]. Qed.

Lemma vstate_dec : forall a b : vstate, {a = b} + {a <> b}.
Proof. decide equality. Qed.
Lemma vride_state : forall a b, vride a = vride b -> v_state a = v_state b.
Proof. intros a b H. apply vride_eq in H. tauto. Qed.
(** ** The next link: the link it is on, or one leaving the end of it *)
Definition NextD (w : world) (a : vehicle) : Prop := v_state a = Run -> forall out, v_next a = Some (Some out) ->
  v_link a = Some out \/ exists l, v_link a = Some l /\ In out (n_out (N w (l_end (L w l)))).
Definition NextV (w : world) (a : vehicle) : Prop := NextD w a /\ (v_state a = Home \/ v_state a = Wait -> v_next a = None).
Definition vnext (a : vehicle) := (v_state a, v_link a, v_next a).
Lemma vride_next : forall a b, vride a = vride b -> vnext a = vnext b.
Proof. intros a b H. apply vride_eq in H. unfold vnext. intuition congruence. Qed.
Lemma NextV_frame : forall w w' a b, samenet w w' -> vnext b = vnext a -> NextV w a -> NextV w' b.
Proof.
  intros w w' a b (F1 & F2 & F3 & F4) E [A B]. unfold vnext in E. injection E as E1 E2 E3. unfold NextV, NextD. rewrite E1, E2, E3.
  split; [|exact B]. intros Hr out Ho. destruct (A Hr out Ho) as [K|(l & K1 & K2)]; [auto|]. right. exists l. rewrite F3, F4. auto.
Qed.
Lemma Next_frame : forall w w' a b, samenet w w' -> vride b = vride a -> NextD w a -> NextD w' b.
Proof.
  intros w w' a b (F1 & F2 & F3 & F4) E A. apply vride_next in E. unfold vnext in E. injection E as E1 E2 E3. unfold NextD. rewrite E1, E2, E3.
  intros Hr out Ho. destruct (A Hr out Ho) as [K|(l & K1 & K2)]; [auto|]. right. exists l. rewrite F3, F4. auto.
Qed.
Lemma NextV_home : forall w' a, v_state a = Home -> v_next a = None -> NextV w' a.
Proof. intros w' a H1 H2. split; [intro K; congruence|auto]. Qed.
Lemma NextV_gone : forall w' a, v_state a = End_ \/ v_state a = Abort -> NextV w' a.
Proof. intros w' a H. split; [intro K; destruct H; congruence|intro K; destruct H, K; congruence]. Qed.
Lemma NextV_here : forall w a l, v_state a = Run -> v_link a = Some l -> v_next a = None \/ v_next a = Some None \/ v_next a = Some (Some l) \/
  (exists out, v_next a = Some (Some out) /\ In out (n_out (N w (l_end (L w l))))) -> NextV w a.
Proof.
  intros w a l Hr Hl H. split; [|intros [K|K]; congruence]. intros _ out Ho. destruct H as [H|[H|[H|(o & H1 & H2)]]]; try congruence.
  - left; congruence.
  - right. exists l. split; [auto|congruence].
Qed.
Lemma finished_state : forall c w a, v_state (finished c w a) = End_ \/ v_state (finished c w a) = Abort.
Proof.
  intros c w a. pose proof (ended_fields c w a (end_tlog c w a) (end_log c w a) (finished c w a) eq_refl) as H.
  destruct H as (_ & _ & _ & _ & _ & _ & _ & _ & _ & _ & _ & _ & _ & H & _). rewrite H. destruct (v_aborted a); auto.
Qed.
Lemma followed_next : forall c w l a, vnext (followed c w l a) = vnext a.
Proof. intros. unfold followed. destruct (qlt _ _); reflexivity. Qed.
Lemma driven_next : forall c w v, vnext (driven c (logged c w v false)) = vnext (V w v).
Proof. intros. unfold logged. reflexivity. Qed.
Lemma logged_next : forall c w v, vnext (logged c w v false) = vnext (V w v).
Proof. intros. unfold logged. reflexivity. Qed.

Lemma NextV_first : forall c v w w3, first_view c v w w3 -> NextV w (V w v) -> NextV w (V w3 v).
Proof.
  intros c v w w3 FV A. destruct FV as [E|e m p m' p' es1 es2 Ht _ _ Tr M _ I1 J1 E1 F1 F2 _ Va Vb].
  - eapply NextV_frame; [split; [|split; [|split]]; reflexivity|apply vride_next; exact E|exact A].
  - apply NextV_frame with (w := w) (a := V m' v); [repeat split|apply vride_next; exact Vb|].
    apply vride_next in Va.
    pose proof (mstep_vev c e m p m' p' I1 M v) as K.
    destruct K as [E|n out q E2 E3 E4 E5 E6 E7 E8 E9|n out il q ld ln E2 E3 E4 E5 E6 E7 E8 E9 E10 E11 E12|l tl lg E2 E3 E4 E5 E6 E7 E8 E9|l E2 E3 E4|E2 E3 E4|E2 E3 E4 E5 E6|E2 E3 E4 E5|l E2 E3 E4 E5|l E2 E3 E4 E5 E6 E7|l nx E2 E3 E4 E5 E6];
      try (subst e; discriminate Ht).
    + eapply NextV_frame; [repeat split| |exact A]. apply vride_next in E. congruence.
    + destruct A as [_ A]. unfold vnext in Va. injection Va as V1 V2 V3. rewrite E9.
      apply (NextV_here w _ out); [reflexivity|reflexivity|]. left. unfold gen_veh. cbn. rewrite V3. apply A. right. congruence.
    + rewrite E12. apply (NextV_here w _ out); [rewrite moved_state; exact E9|reflexivity|]. right; right; left. exact E5.
    + apply NextV_gone. apply ended_fields in E9. destruct E9 as (_ & _ & _ & _ & _ & _ & _ & _ & _ & _ & _ & _ & _ & H & _).
      rewrite H. destruct (v_aborted (V m v)); auto.
Qed.

Lemma NextV_update : forall c v w wa b, fr w wa -> NextV w (V wa v) -> updated c v wa b -> NextV w b.
Proof.
  intros c v w wa b F A U. pose proof (logged_next c wa v) as L1. pose proof (driven_next c wa v) as L2.
  destruct U as [U1 U2 U3|U1 U2 U3|U1 U2|l U1 U2 U3 U4|l m d U1 U2 U3 Fm Sm -> U4];
    remember (logged c wa v false) as lg eqn:Elg.
  - eapply NextV_frame; [repeat split| |exact A]. apply vride_next in U3. congruence.
  - destruct A as [_ A]. specialize (A (or_introl U1)). apply vride_next in U3. unfold vnext in *. injection U3 as V1 V2 V3.
    split; [intro K; rewrite V1 in K; discriminate K|]. intros _. rewrite V3. change (v_next (sv_state Wait lg)) with (v_next lg). congruence.
  - eapply NextV_frame; [repeat split| |exact A]. apply vride_next in U2. congruence.
  - eapply NextV_frame; [repeat split| |exact A]. apply vride_next in U4. congruence.
  - remember (driven c lg) as d eqn:Ed. assert (Fw : fr w m) by (eapply fr_trans; eauto).
    assert (Hd : v_state d = Run /\ v_link d = Some l) by (unfold vnext in L2; split; congruence).
    assert (Ad : NextV w d) by (eapply NextV_frame; [repeat split|exact L2|exact A]).
    destruct U4 as [x x' G1 G2 G3 G4 G5 G6 G7 G8|d' b' G1 -> G3].
    + destruct G5 as (H1 & H2 & _). apply vride_next in G4. apply vride_next in G8. eapply NextV_frame; [repeat split|exact G8|].
      assert (Fx : fr w x) by (eapply fr_trans; eauto).
      apply choose_next in G7. destruct G7 as (_ & k & K1 & [(-> & _)|[(-> & _)|(out & K2 & ->)]]).
      * eapply NextV_frame; [repeat split|exact G4|exact Ad].
      * apply (NextV_here w _ l); [exact H1|exact H2|]. right; left. reflexivity.
      * assert (k = l) by congruence. subst k. rewrite (fr_l_end Fx), (fr_n_out Fx) in K2.
        apply (NextV_here w _ l); [exact H1|exact H2|]. right; right; right. exists out. split; [reflexivity|exact K2].
    + destruct G3 as [G3|G3].
      * apply vride_next in G3. eapply NextV_frame; [repeat split|exact G3|]. destruct Hd as [Hd1 Hd2].
        destruct G1 as [(-> & _)|(-> & _)].
        -- eapply NextV_frame; [repeat split| |exact Ad]. reflexivity.
        -- apply (NextV_here w _ l); [exact Hd1|exact Hd2|]. right; left. reflexivity.
      * apply NextV_gone. apply vride_state in G3. rewrite G3. apply finished_state.
Qed.

Theorem reach_next : forall c w, reach c w -> forall v, v < w_nv w -> NextV w (V w v).
Proof.
  intro c. apply (reach_ride c (fun w v => NextV w (V w v))).
  - intros w w3 w4 w' v Rc Hf Hv I J En Hb A BV.
    assert (Fb : fr w w') by (eapply body_fr; eauto).
    assert (A3 : NextV w (V w3 v)) by (eapply NextV_first; eauto; apply BV).
    change (V (sw_T (S (w_T w)) w') v) with (V w' v).
    apply NextV_frame with (w := w) (a := V w' v); [apply fr_samenet in Fb; exact Fb|reflexivity|].
    assert (Dec : alive (v_state (V w3 v)) \/ ~ alive (v_state (V w3 v))) by (unfold alive; destruct (v_state (V w3 v)); intuition congruence).
    destruct Dec as [Ha|Ha].
    + destruct (bv_update _ _ _ _ _ _ BV Ha) as (wa & b & B1 & B2 & B3 & B4 & B5 & B6).
      assert (E34 : vnext (V w4 v) = vnext (V w3 v)).
      { destruct (vstate_dec (v_state (V w3 v)) Run) as [Hr|Hr].
        - destruct (bv_follow _ _ _ _ _ _ BV Hr) as (l & _ & ->). apply followed_next.
        - rewrite (bv_still _ _ _ _ _ _ BV Hr). auto. }
      apply NextV_frame with (w := w) (a := b); [repeat split|apply vride_next; exact B6|].
      apply (NextV_update c v w wa b); auto. eapply NextV_frame; [repeat split| |exact A3]. apply vride_next in B4. congruence.
    + eapply NextV_frame; [repeat split| |exact A3]. apply vride_next. apply (bv_gone _ _ _ _ _ _ BV Ha).
  - intros w _ v A. eapply NextV_frame; [|reflexivity|exact A]. repeat split.
  - intros w w' v I AH En O Hv IH.
    assert (St : w_final w = false -> v < w_nv w -> V w' v = V w v -> NextV w' (V w' v)).
    { intros Hf Hn Ev. rewrite Ev. specialize (AH Hf v Hn). apply NextV_home; [exact AH|]. destruct (IH Hn) as [_ K]. auto. }
    destruct O; unfold wkeep in *.
    + apply St; auto.
    + apply St; auto.
    + cbn in Hv. destruct (Nat.eq_dec v (w_nv w)) as [-> | Hne].
      * unfold V; cbn. rewrite upd_same. apply NextV_home; reflexivity.
      * assert (Ev : V (added_veh (new_vehicle c a nl nm) pv w) v = V w v) by (unfold V; cbn; rewrite upd_other by auto; reflexivity).
        rewrite Ev. eapply NextV_frame; [|reflexivity|apply IH; lia]. repeat split.
    + pose proof (finalize_ok _ _ _ _ H0) as Z. assert (Ev : V w' v = V w v) by (unfold V; rewrite (fz_V _ _ _ Z); reflexivity).
      pose proof (fz_cnt _ _ _ Z) as Zc. apply St; auto. replace (w_nv w) with (w_nv w') by congruence. exact Hv.
    + eapply NextV_frame; [| |apply IH; replace (w_nv w) with (w_nv w') by congruence; exact Hv].
      * unfold samenet, L, N. rewrite H0, H1. repeat split. congruence.
      * specialize (H v). unfold vkeep in H. unfold vnext. congruence.
    + assert (Ev : V w' v = V w v) by (unfold V; rewrite H; reflexivity). rewrite Ev.
      eapply NextV_frame; [|reflexivity|apply IH; replace (w_nv w) with (w_nv w') by congruence; exact Hv].
      split; [congruence|]. split; [intro l; specialize (H0 l); unfold lkeep in H0; congruence|].
      split; [intro l; specialize (H0 l); unfold lkeep in H0; congruence|].
      intro n; specialize (H1 n); unfold nkeep in H1; congruence.
Qed.

(** ** The first phases *)
Lemma trace_dest : forall c es w p w' p', Inv2 w p -> trace c es w p w' p' -> same_dest w w'.
Proof.
  intros c es w p w' p' I H. induction H as [w p|e es w p w1 p1 w' p' M H IH]; [split; auto|].
  eapply same_dest_trans; [eapply mstep_dest; eauto|apply IH]. eapply mstep_Inv2; eauto.
Qed.
Lemma Trip_first : forall c v w w3 es, reach c w -> v < w_nv w -> Inv2 w None -> Ends w None -> first_view c v w w3 -> same_dest w w3 -> fr w w3 -> NextD w (V w v) ->
  TripD false c w (w_T w) (V w v) (v_dest (V w v)) es -> TripD true c w (w_T w) (V w3 v) (v_dest (V w v)) es.
Proof.
  intros c v w w3 es Rc Hv I En FV SD F3 NXw A.
  destruct FV as [E|e m p m' p' es1 es2 Ht _ _ Tr M _ I1 J1 E1 F1 F2 _ Va Vb].
  - eapply Trip_frame; [split; [|split; [|split]]; reflexivity|apply vride_trip; exact E|auto|apply Trip_mid; exact A].
  - apply Trip_frame with (w := w) (a := V m' v) (dst := v_dest (V w v)); [repeat split|apply vride_trip; exact Vb|auto|].
    pose proof (mstep_vev c e m p m' p' I1 M v) as K. pose proof (fr_samenet _ _ F1) as FN.
    assert (Am : TripD true c m (w_T w) (V m v) (v_dest (V w v)) es)
      by (eapply Trip_frame; [exact FN|apply vride_trip; exact Va|auto|apply Trip_mid; exact A]).
    assert (FB : samenet m w) by (destruct FN as (B1 & B2 & B3 & B4); split; [|split; [|split]]; auto).
    apply Trip_frame with (w := m) (a := V m' v) (dst := v_dest (V w v)); [exact FB|reflexivity|auto|].
    assert (Wt : w_T m = w_T w) by exact (fr_w_T F1).
    destruct K as [E|n out q E2 E3 E4 E5 E6 E7 E8 E9|n out il q ld ln E2 E3 E4 E5 E6 E7 E8 E9 E10 E11 E12|l tl lg E2 E3 E4 E5 E6 E7 E8 E9|l E2 E3 E4|E2 E3 E4|E2 E3 E4 E5 E6|E2 E3 E4 E5|l E2 E3 E4 E5|l E2 E3 E4 E5 E6 E7|l nx E2 E3 E4 E5 E6];
      try (subst e; discriminate Ht).
    + eapply Trip_frame; [repeat split|apply vride_trip; exact E|auto|exact Am].
    + destruct I1 as [[T1 S1] _]. destruct (tp_home _ _ _ _ _ _ _ Am) as (B1 & B2 & B3); [auto|].
      assert (B4 : v_orig (V m v) = n).
      { assert (Hq : In v (n_queue (N m n))) by (rewrite E4; left; auto). apply (s_queue S1) in Hq. tauto. }
      pose proof (tp_wait _ _ _ _ _ _ _ Am E5) as B5.
      destruct Am as [A1 A2 A3 A4 A5 A6 A7 A8 A9 A10 A11]. rewrite E9. unfold gen_veh. subst es.
      unfold end_row in A1. rewrite E5 in A1.
      constructor; rs; try discriminate; auto.
      * intros [K|K]; discriminate.
      * intros _. exists out. split; [reflexivity|]. split; [exact E7|]. right; left. repeat split; auto.
        rewrite B4. apply (t_out T1) in E6. tauto.
    + pose proof (Next_frame _ _ _ _ FN Va NXw E9) as NX.
      pose proof (E1 v) as EO. destruct (shift_flag c n out v il m p m' p') as (_ & _ & B3); auto.
      { apply EO. rewrite (fr_w_nv F1). exact Hv. } { rewrite <- E2. exact M. }
      destruct (tp_run _ _ _ _ _ _ _ Am E9) as (l & B4 & B5 & B6). rewrite E8 in B4. injection B4 as <-.
      assert (B7 : exists es' t, v_linkold (V m v) = Some il /\ es = es' ++ [(t, il)]).
      { apply vride_eq in Va. destruct (tp_run _ _ _ _ _ _ _ A) as (l & C1 & C2 & C3); [intuition congruence|].
        destruct C3 as [(es' & t & C3 & C4)|[(C3 & _)|(C3 & _)]]; try discriminate.
        assert (l = il) by intuition congruence. subst l. exists es', t. split; [intuition congruence|exact C4]. }
      clear B6. destruct B7 as (es' & t & B7 & B8).
      destruct Am as [A1 A2 A3 A4 A5 A6 A7 A8 A9 A10 A11]. rewrite E12. unfold moved. cbv zeta.
      unfold end_row in A1. rewrite E9 in A1.
      constructor; rs; rewrite ?E9; try discriminate; auto.
      * unfold end_row. rs. rewrite E9. exact A1.
      * intros [K|K]; discriminate.
      * intros _. exists out. split; [reflexivity|]. split; [exact E6|].
        destruct (Nat.eq_dec il out) as [<-|Hne]; [left; eauto|right; right]. split; [reflexivity|].
        exists il, es', t. repeat split; auto. rewrite B3.
        destruct (NX out) as [K|(k & K1 & K2)]; auto; [congruence|]. assert (k = il) by congruence. subst k. rewrite B3 in K2.
        apply (t_out (proj1 (proj1 I1))) in K2. symmetry. tauto.
    + destruct (tp_run _ _ _ _ _ _ _ A) as (k & C1 & C2 & C3); [apply vride_eq in Va; intuition congruence|].
      destruct C3 as [(es' & t & C3 & C4)|[(C3 & _)|(C3 & _)]]; try discriminate.
      assert (Ek : k = l) by (apply vride_eq in Va; intuition congruence). subst k.
      assert (Ht' : t < w_T w).
      { pose proof (tp_before _ _ _ _ _ _ _ A) as B. rewrite C4, Forall_app in B. destruct B as [_ B]. inversion B; subst. cbn in *. lia. }
      apply (Trip_ended c m (w_T w) (V m v) (v_dest (V w v)) es es' t l tl lg (V m' v) m true); auto; try lia.
      * apply vride_eq in Va; intuition congruence.
      * assert (EO : EndOK m v) by (apply E1; rewrite (fr_w_nv F1); exact Hv).
        destruct (v_aborted (V m v)) eqn:Ea.
        -- left. split; [reflexivity|]. destruct (eo_abort _ _ EO E5 Ea) as (k & D1 & D2 & _). congruence.
        -- right. split; [reflexivity|]. destruct (eo_flag _ _ EO E5 E3) as [D|(D & k & D1 & D2)]; [congruence|].
           split; [exact D|]. destruct (trace_dest _ _ _ _ _ _ I Tr v) as [G1 G2]. rewrite <- G2; congruence.
Qed.

(** ** The vehicle update *)
Lemma driven_trip : forall c a, vtrip (driven c a) = vtrip a.
Proof. reflexivity. Qed.
Lemma flag_trip : forall a, vtrip (sv_flag true a) = vtrip a.
Proof. reflexivity. Qed.
Lemma aborting_trip : forall a, vtrip (aborting a) = vtrip a.
Proof. reflexivity. Qed.
Lemma next_trip : forall x a, vtrip (sv_next x a) = vtrip a.
Proof. reflexivity. Qed.
Lemma logged_fields : forall c w v, v_state (logged c w v false) = v_state (V w v) /\ v_link (logged c w v false) = v_link (V w v) /\
  v_mode (logged c w v false) = v_mode (V w v) /\ v_aborted (logged c w v false) = v_aborted (V w v).
Proof. intros. unfold logged. repeat split; reflexivity. Qed.
Lemma driven_fields : forall c a, v_state (driven c a) = v_state a /\ v_link (driven c a) = v_link a /\
  v_mode (driven c a) = v_mode a /\ v_aborted (driven c a) = v_aborted a.
Proof. intros. repeat split; reflexivity. Qed.
Lemma flag_fields : forall a, v_state (sv_flag true a) = v_state a /\ v_linkold (sv_flag true a) = v_linkold a /\
  v_mode (sv_flag true a) = v_mode a /\ v_aborted (sv_flag true a) = v_aborted a.
Proof. intros. repeat split; reflexivity. Qed.
Lemma aborting_fields : forall a, v_state (aborting a) = v_state a /\ v_linkold (aborting a) = v_linkold a /\
  v_mode (aborting a) = v_mode a /\ v_aborted (aborting a) = true.
Proof. intros. repeat split; reflexivity. Qed.
Lemma Trip_update : forall c v w wa b es, fr w wa -> same_dest w wa -> Inv2 wa None -> v < w_nv w ->
  TripD true c w (w_T w) (V wa v) (v_dest (V w v)) es -> v_aborted (V wa v) = false \/ v_state (V wa v) <> Run \/
     (exists l, v_link (V wa v) = Some l /\ n_out (N w (l_end (L w l))) = []) -> updated c v wa b ->
  exists es', TripD false c w (S (w_T w)) b (v_dest (V w v)) es'.
Proof.
  intros c v w wa b es F SD I Hv A Hab U.
  assert (ET : w_T wa = w_T w) by exact (fr_w_T F).
  assert (Calm : v_state (V wa v) = Home \/ v_state (V wa v) = Wait -> vtrip (logged c wa v false) = vtrip (V wa v)).
  { intro Hs. destruct (tp_home _ _ _ _ _ _ _ A Hs) as (_ & B2 & B3). unfold logged, tlog_rows, vtrip. rs.
    rewrite B2, B3. cbn [opt_eqb]. rewrite app_nil_r. reflexivity. }
  destruct (logged_fields c wa v) as (L1 & L2 & L3 & L4).
  destruct U as [U1 U2 U3|U1 U2 U3|U1 U2|l U1 U2 U3 U4|l m d U1 U2 U3 Fm Sm -> U4];
    remember (logged c wa v false) as lg eqn:Elg.
  - exists es. apply Trip_later; [apply vride_state in U3; congruence|].
    eapply Trip_frame; [repeat split| |auto|exact A]. apply vride_trip in U3. rewrite U3. auto.
  - exists es.
    assert (Hb : vtrip b = vtrip (sv_state Wait (V wa v))).
    { apply vride_trip in U3. rewrite U3. clear U3. specialize (Calm (or_introl U1)). unfold vtrip in *. rs. congruence. }
    destruct A as [A1 A2 A3 A4 A5 A6 A7 A8 A9 A10 A11]. destruct (A7 (or_introl U1)) as (-> & B2 & B3).
    unfold end_row in A1. rewrite U1 in A1.
    eapply Trip_frame; [repeat split|exact Hb|auto|].
    constructor; rs; try discriminate; auto. intros _. rewrite ET in U2. lia.
  - exists es. apply Trip_later; [apply vride_state in U2; congruence|].
    eapply Trip_frame; [repeat split| |auto|exact A]. apply vride_trip in U2. rewrite U2. auto.
  - destruct (Trip_logged c w (w_T w) (V wa v) (v_dest (V w v)) es wa v eq_refl ET A U1) as (es' & B). exists es'. rewrite <- Elg in B.
    eapply Trip_frame; [repeat split| |auto|exact B]. apply vride_trip in U4. rewrite U4. apply driven_trip.
  - destruct (Trip_logged c w (w_T w) (V wa v) (v_dest (V w v)) es wa v eq_refl ET A U1) as (es' & B). exists es'. rewrite <- Elg in B.
    assert (B' : TripD false c w (S (w_T w)) (driven c lg) (v_dest (V w v)) es').
    { eapply Trip_frame; [repeat split| |auto|exact B]. apply driven_trip. }
    clear B. destruct (driven_fields c lg) as (D1 & D2 & D3 & D4). remember (driven c lg) as d eqn:Ed.
    assert (Hs : v_state d = Run) by congruence.
    assert (Hl : v_link d = Some l) by congruence.
    assert (Hm : v_mode d = v_mode (V wa v)) by congruence.
    assert (Ha : v_aborted d = v_aborted (V wa v)) by congruence.
    clear D1 D2 D3 D4 Ed L1 L2 L3 L4 Elg Calm lg.
    assert (Fw : fr w m) by (eapply fr_trans; eauto).
    destruct U4 as [x x' G1 G2 G3 G4 G5 G6 G7 G8|d' b' G1 -> G3].
    + eapply Trip_frame; [repeat split| |auto|exact B'].
      apply vride_trip in G8. rewrite G8. apply vride_trip in G4. rewrite <- G4.
      apply choose_next in G7. destruct G7 as (_ & k & _ & [(-> & _)|[(-> & _)|(out & _ & ->)]]); try apply next_trip; reflexivity.
    + destruct (tp_run _ _ _ _ _ _ _ B' Hs) as (k & C1 & C2 & C3). assert (k = l) by congruence. subst k.
      destruct C3 as [(es1 & t & C3 & C4)|[(C3 & _)|(C3 & _)]]; try discriminate.
      assert (Ht : t <= w_T m).
      { pose proof (tp_before _ _ _ _ _ _ _ B') as D. rewrite C4, Forall_app in D. destruct D as [_ D]. inversion D; subst. cbn in *.
        rewrite (fr_w_T Fw). lia. }
      assert (B2 : TripD false c w (S (w_T w)) (sv_flag true d') (v_dest (V w v)) es').
      { eapply Trip_frame; [repeat split| |auto|exact B']. rewrite flag_trip. destruct G1 as [(-> & _)|(-> & _)]; [reflexivity|apply aborting_trip]. }
      destruct (flag_fields d') as (J1 & J2 & J3 & J4). destruct (aborting_fields d) as (Q1 & Q2 & Q3 & Q4).
      destruct G3 as [G3|G3].
      * eapply Trip_frame; [repeat split| |auto|exact B2]. apply vride_trip. exact G3.
      * unfold finished in G3. eapply (Trip_ended c w (S (w_T w)) (sv_flag true d') _ es' es1 t l) with (w0 := m); [| | | | | | |reflexivity|exact G3]; auto.
        -- rewrite (fr_w_T Fw). lia.
        -- destruct G1 as [(-> & _)|(-> & _)]; congruence.
        -- destruct G1 as [(-> & _)|(-> & _)]; congruence.
        -- rewrite J3, J4. destruct G1 as [(-> & D1 & D2)|(-> & D1 & D2)].
           ++ destruct (v_aborted d) eqn:Ea.
              ** left. split; [reflexivity|]. destruct Hab as [Hab|[Hab|(k & Hab1 & Hab2)]]; [congruence|congruence|]. congruence.
              ** right. split; [reflexivity|]. split; [exact D1|]. rewrite (fr_l_end Fw) in D2. rewrite <- D2.
                 destruct (SD v) as [S1 S2]. destruct (Sm v) as [S3 S4]. rewrite S4, S2; congruence.
           ++ left. split; [exact Q4|]. rewrite (fr_l_end Fw), (fr_n_out Fw) in D1. exact D1.
Qed.

Definition Trip (c : cfg) (w : world) (v : vid) (es : list (nat * lid)) : Prop :=
  TripD false c w (w_T w) (V w v) (v_dest (V w v)) es.

Lemma Trip_at_home : forall c w w' T T' a b dst dst' es, vtrip b = vtrip a -> v_state a = Home ->
  TripD false c w T a dst es -> TripD false c w' T' b dst' [].
Proof.
  intros c w w' T T' a b dst dst' es E Hh [A1 A2 A3 A4 A5 A6 A7 A8 A9 A10 A11]. unfold vtrip in E. injection E as E1 E2 E3 E4 E5 E6 E7 E8.
  destruct (A7 (or_introl Hh)) as (-> & B2 & B3). unfold end_row in A1. rewrite Hh in A1.
  constructor; rewrite ?E1, ?E2, ?E3, ?E4, ?E5, ?E6, ?E7, ?E8, ?Hh; try discriminate; auto.
  - unfold end_row. rewrite E4, Hh. exact A1.
Qed.

Lemma followed_trip : forall c w l a, vtrip (followed c w l a) = vtrip a /\ v_aborted (followed c w l a) = v_aborted a.
Proof. intros. unfold followed. destruct (qlt _ _); split; reflexivity. Qed.

Lemma vtrip_eq : forall a b, vtrip a = vtrip b -> v_state a = v_state b /\ v_link a = v_link b.
Proof. unfold vtrip. intros a b H. split; congruence. Qed.


Theorem reach_trip : forall c w, reach c w -> forall v, v < w_nv w -> exists es, Trip c w v es.
Proof.
  intro c. apply (reach_ride c (fun w v => exists es, Trip c w v es)).
  - intros w w3 w4 w' v Rc Hf Hv I J En Hb (es & A) BV.
    assert (Fb : fr w w') by (eapply body_fr; eauto).
    assert (A3 : TripD true c w (w_T w) (V w3 v) (v_dest (V w v)) es).
    { eapply Trip_first; eauto; try apply BV. apply reach_next with (c := c); auto. }
    assert (SD : same_dest w w') by (eapply run_dest; [exact I|apply body_run; exact Hb]).
    assert (G : exists es', TripD false c w (S (w_T w)) (V w' v) (v_dest (V w v)) es').
    { assert (Dec : alive (v_state (V w3 v)) \/ ~ alive (v_state (V w3 v))) by (unfold alive; destruct (v_state (V w3 v)); intuition congruence).
      destruct Dec as [Ha|Ha].
      - destruct (bv_update _ _ _ _ _ _ BV Ha) as (wa & b & B1 & B2 & B3 & B4 & B5 & B6).
        assert (E34 : vtrip (V w4 v) = vtrip (V w3 v) /\ v_aborted (V w4 v) = v_aborted (V w3 v)).
        { destruct (vstate_dec (v_state (V w3 v)) Run) as [Hr|Hr].
          - destruct (bv_follow _ _ _ _ _ _ BV Hr) as (l & _ & ->). apply followed_trip.
          - rewrite (bv_still _ _ _ _ _ _ BV Hr). auto. }
        destruct E34 as [E34 Eab].
        assert (Ea3 : vtrip (V wa v) = vtrip (V w3 v)) by (apply vride_trip in B4; congruence).
        destruct (Trip_update c v w wa b es) as (es' & K); auto.
        + eapply Trip_frame; [repeat split|exact Ea3|auto|exact A3].
        + apply vtrip_eq in Ea3. destruct Ea3 as [X1 X2]. rewrite X1, X2.
          replace (v_aborted (V wa v)) with (v_aborted (V w3 v)) by (apply vride_eq in B4; intuition congruence).
          destruct (vstate_dec (v_state (V w3 v)) Run) as [Hr|Hr]; [|auto].
          destruct (v_aborted (V w3 v)) eqn:Ea; [right; right|auto].
          assert (Hv3 : v < w_nv w3) by (rewrite (fr_w_nv (bv_fr3 _ _ _ _ _ _ BV)); exact Hv).
          destruct (eo_abort _ _ (bv_ends3 _ _ _ _ _ _ BV v Hv3) Hr Ea) as (l & Y1 & Y2 & _). exists l. split; [exact Y1|].
          rewrite (fr_l_end (bv_fr3 _ _ _ _ _ _ BV)), (fr_n_out (bv_fr3 _ _ _ _ _ _ BV)) in Y2. exact Y2.
        + exists es'. eapply Trip_frame; [repeat split| |auto|exact K]. apply vride_trip. exact B6.
      - exists es. pose proof (bv_gone _ _ _ _ _ _ BV Ha) as Eg. apply Trip_later.
        + apply vride_state in Eg. intro K. apply Ha. unfold alive. rewrite <- Eg, K. auto.
        + eapply Trip_frame; [repeat split| |auto|exact A3]. apply vride_trip. exact Eg. }
    destruct G as (es' & G). exists es'. unfold Trip. change (w_T (sw_T (S (w_T w)) w')) with (S (w_T w)).
    change (V (sw_T (S (w_T w)) w') v) with (V w' v).
    eapply Trip_frame; [apply fr_samenet in Fb; exact Fb|reflexivity| |exact G].
    intro Hm. destruct (SD v) as [S1 S2]. apply S2. congruence.
  - intros w _ v (es & A). exists es. unfold Trip in *. eapply Trip_frame; [|reflexivity|auto|exact A]. repeat split.
  - intros w w' v I AH En O Hv IH. unfold Trip in *.
    assert (St : w_final w = false -> v < w_nv w -> V w' v = V w v -> exists es, TripD false c w' (w_T w') (V w' v) (v_dest (V w' v)) es).
    { intros Hf Hn Ev. destruct (IH Hn) as (es & A). exists []. eapply Trip_at_home; [rewrite Ev; reflexivity|apply AH; auto|exact A]. }
    destruct O; unfold wkeep in *.
    + apply St; auto.
    + apply St; auto.
    + cbn in Hv. destruct (Nat.eq_dec v (w_nv w)) as [-> | Hne].
      * exists []. unfold V; cbn. rewrite upd_same. cbn. constructor; cbn; try discriminate; auto using Forall_nil, SSorted_nil.
        eexists. reflexivity.
      * destruct IH as (es & A); [lia|]. exists es.
        assert (Ev : V (added_veh (new_vehicle c a nl nm) pv w) v = V w v) by (unfold V; cbn; rewrite upd_other by auto; reflexivity).
        rewrite Ev. eapply Trip_frame; [|reflexivity|auto|exact A]. repeat split.
    + pose proof (finalize_ok _ _ _ _ H0) as Z. assert (Ev : V w' v = V w v) by (unfold V; rewrite (fz_V _ _ _ Z); reflexivity).
      pose proof (fz_cnt _ _ _ Z) as Zc. apply St; auto. replace (w_nv w) with (w_nv w') by congruence. exact Hv.
    + destruct IH as (es & A); [replace (w_nv w) with (w_nv w') by congruence; exact Hv|]. exists es.
      replace (w_T w') with (w_T w) by congruence.
      eapply Trip_frame; [| | |exact A].
      * unfold samenet, L, N. rewrite H0, H1. repeat split. congruence.
      * specialize (H v). unfold vkeep in H. unfold vtrip. congruence.
      * auto.
    + destruct IH as (es & A); [replace (w_nv w) with (w_nv w') by congruence; exact Hv|]. exists es.
      assert (Ev : V w' v = V w v) by (unfold V; rewrite H; reflexivity). rewrite Ev.
      replace (w_T w') with (w_T w) by congruence.
      eapply Trip_frame; [|reflexivity|auto|exact A].
      split; [congruence|]. split; [intro l; specialize (H0 l); unfold lkeep in H0; congruence|].
      split; [intro l; specialize (H0 l); unfold lkeep in H0; congruence|].
      intro n; specialize (H1 n); unfold nkeep in H1; congruence.
Qed.
