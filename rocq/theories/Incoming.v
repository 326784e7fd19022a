(** * Incoming: the vehicles waiting for transfer at a node. *)
From Verif Require Import Base Types Sim Build Heap FrameBase Tac Frame Lists Inv Eff Eff2 Trace InvStep Reach Steps Effects Phases.

(** ** One vehicle's update does not touch the others *)

(** fields of a vehicle that the updates of other vehicles leave alone *)
Definition vcalm (a : vehicle) :=
  (v_name a, v_orig a, v_dep a, v_depsec a, v_arr a, v_larr a, v_tt a, v_state a, v_link a,
   (v_x a, v_xnext a, v_xold a, v_v a, v_lane a, v_follower a, v_flag a, v_remain a),
   (v_princ a, v_mode a, v_prefer a, v_avoid a, v_spec a, v_abortopt a, v_aborted a, v_log a,
    v_tlog a, v_linkold a, v_dist a, v_next a)).

Lemma vcalm_hard : forall a b, vhard a = vhard b -> v_next a = v_next b -> vcalm a = vcalm b.
Proof. unfold vhard, vcalm; intros. congruence. Qed.

Lemma k_veh_other : forall c e w p w' p' u v, Inv2 w p -> mstep c e w p w' p' -> k_veh u e = true -> v <> u ->
  vcalm (V w' v) = vcalm (V w v).
Proof.
  intros c e w p w' p' u v I M Ke Hv. pose proof (mstep_eff c e w p w' p' I M) as H.
  destruct e; cbn [k_veh] in Ke; try discriminate Ke; apply Nat.eqb_eq in Ke; subst v0; cbn [eff] in H;
  apply Nat.eqb_neq in Hv.
  - destruct H as (_ & rest & cd & lg & tl & _ & _ & _ & _ & _ & _ & _ & _ & _ & _ & _ & A & _).
    apply Nat.eqb_neq in Hv. rewrite A by auto. destruct (opt_eqb _ _); reflexivity.
  - destruct H as (_ & _ & _ & _ & _ & _ & _ & H). rewrite H, Hv. reflexivity.
  - destruct H as (_ & _ & _ & _ & _ & _ & _ & _ & H & _). rewrite H, Hv. reflexivity.
  - destruct H as (_ & _ & _ & _ & _ & _ & _ & _ & H). rewrite H, Hv. reflexivity.
  - destruct H as (_ & _ & S & H & _). apply vcalm_hard; [apply (so_v S)|apply H].
  - destruct H as (_ & _ & _ & _ & _ & H & _). apply Nat.eqb_neq in Hv. rewrite H by auto. reflexivity.
  - destruct H as (_ & _ & _ & _ & _ & _ & _ & _ & H). rewrite H, Hv. reflexivity.
  - destruct H as (_ & _ & _ & _ & _ & _ & _ & _ & H). rewrite H, Hv. reflexivity.
  - destruct H as (_ & _ & _ & _ & _ & _ & _ & _ & H). rewrite H, Hv. reflexivity.
  - destruct H as (_ & _ & _ & _ & _ & H & _). apply Nat.eqb_neq in Hv. rewrite H by auto. reflexivity.
  - destruct H as (_ & _ & _ & H & _). rewrite H. reflexivity.
Qed.

Lemma run_Inv2' : forall c K w w', Inv2 w None -> run c K w w' -> Inv2 w' None.
Proof. intros c K w w' I R. eapply (run_with c (fun _ _ => True) K); eauto. Qed.

Lemma veh_update_other : forall c u w w', Inv2 w None -> In u (w_living w) -> veh_update c u w = Ok w' ->
  forall v, v <> u -> vcalm (V w' v) = vcalm (V w v).
Proof.
  intros c u w w' I Hl H v Hv. apply veh_update_run in H; auto.
  destruct (run_with c (fun x _ => vcalm (V x v) = vcalm (V w v)) (k_veh u)) with (w := w) (w' := w') as [_ K]; auto.
  intros e x p x' p' Ke Ix Jx M. rewrite <- Jx. eapply k_veh_other; eauto.
Qed.

(** ** What stands at a node *)

(** the target of a vehicle at the end of its link *)
Definition nextok (w : world) (v : vid) (n : nid) : Prop :=
  (v_next (V w v) = Some None /\ n_out (N w n) = []) \/
  (exists out, In out (n_out (N w n)) /\ v_next (V w v) = Some (Some out)) \/ v_mode (V w v) = Taxi.

Definition stands (w : world) (v : vid) (n : nid) : Prop :=
  exists l, at_end w v l /\ l_end (L w l) = n /\ nextok w v n.

Lemma stands_keep : forall w w' v n, fr w w' ->
  v_state (V w' v) = v_state (V w v) -> v_link (V w' v) = v_link (V w v) -> v_x (V w' v) = v_x (V w v) ->
  v_next (V w' v) = v_next (V w v) -> stands w v n -> stands w' v n.
Proof.
  intros w w' v n F E1 E2 E3 E4 (l & (A1 & A2 & A3) & B & D). exists l. unfold at_end, nextok in *.
  rewrite E1, E2, E3, E4, (fr_l_len F), (fr_l_end F), (fr_n_out F), (fr_v_mode F). auto.
Qed.

Lemma vcalm_eq : forall a b, vcalm a = vcalm b ->
  v_state a = v_state b /\ v_link a = v_link b /\ v_x a = v_x b /\ v_next a = v_next b /\ v_mode a = v_mode b /\
  v_flag a = v_flag b.
Proof. unfold vcalm; intros a b H. repeat split; congruence. Qed.

(** ** The waiting lists during [Vehicle.update] *)

(** the waiting lists, seen from an update of vehicle [v] *)
Definition same_inc (w w' : world) : Prop := forall k, n_incoming (N w' k) = n_incoming (N w k).
Definition plus_inc (v : vid) (n : nid) (w w' : world) : Prop :=
  forall k, n_incoming (N w' k) = if Nat.eqb k n then n_incoming (N w k) ++ [v] else n_incoming (N w k).

Definition requested (v : vid) (w w' : world) : Prop :=
  exists n, plus_inc v n w w' /\ stands w' v n /\ (v_mode (V w' v) = SingleTrip -> v_dest (V w' v) <> Some n).

Lemma request_requested : forall c v l w w', Inv2 w None -> at_end w v l ->
  (v_mode (V w v) = SingleTrip -> v_dest (V w v) <> Some (l_end (L w l))) ->
  request_transfer c v (l_end (L w l)) w = Ok w' -> requested v w w'.
Proof.
  intros c v l w w' I A D H. unfold request_transfer in H.
  apply bind_ok in H. destruct H as (w1 & E & H). injection H as <-.
  pose proof (choose_soft _ _ _ E) as S.
  assert (M : mstep c (VChoose v) w None w1 None) by (eapply m_choose; eauto).
  apply (mstep_eff c _ w None w1 None I) in M. cbn [eff] in M.
  destruct M as (_ & _ & _ & _ & _ & _ & l' & A' & _ & K).
  assert (l' = l) by (destruct A as (_ & X & _), A' as (_ & Y & _); congruence). subst l'.
  pose proof (at_end_soft S A) as A1.
  exists (l_end (L w l)). split; [|split].
  - intro k. rewrite N_at, (so_n S). destruct (Nat.eqb k (l_end (L w l))); reflexivity.
  - exists l. unfold at_end. rewrite V_modn, L_modn. split; [exact A1|]. split; [rewrite (so_l S); reflexivity|].
    unfold nextok. rewrite !V_modn, N_at, Nat.eqb_refl. cbn [n_out sn_incoming]. rewrite (so_n S).
    destruct K as [(E1 & E2 & E3)|[(E1 & E2)|(out & E1 & E2)]].
    + right; right. destruct (v_mode (V w v)) eqn:Em; [elim (D eq_refl); auto|]. rewrite E1. auto.
    + left. rewrite E1. auto.
    + right; left. exists out. rewrite E2. auto.
  - rewrite !V_modn. destruct K as [(E1 & _)|[(E1 & _)|(out & _ & E1)]]; rewrite E1; cbn; exact D.
Qed.

Lemma prepare_end_inc : forall c v l w w', prepare_end c v l w = Ok w' -> same_inc w w'.
Proof.
  intros c v l w w' H k. unfold prepare_end in H. cbn zeta in H.
  destruct (l_vehs _); [discriminate|]. destruct (Nat.eqb _ _).
  - rewrite (@end_trip_N _ _ _ _ H). reflexivity.
  - injection H as <-. reflexivity.
Qed.

Lemma plus_soft : forall v w w1 w2, same_inc w w1 -> requested v w1 w2 -> requested v w w2.
Proof.
  intros v w w1 w2 S (n & P & Q). exists n. split; [|exact Q]. intro k. rewrite (P k), (S k). reflexivity.
Qed.
Lemma soft_inc : forall w w', soft w w' -> same_inc w w'.
Proof. intros w w' S k. rewrite (so_n S). reflexivity. Qed.
Lemma inc_trans : forall a b d, same_inc a b -> same_inc b d -> same_inc a d.
Proof. intros a b d H K k. rewrite (K k). apply H. Qed.

Lemma at_link_end_inc : forall c v l w w', Inv2 w None -> at_end w v l ->
  at_link_end c v l w = Ok w' -> same_inc w w' \/ requested v w w'.
Proof.
  intros c v l w w' I A H. unfold at_link_end in H. cbn zeta in H.
  apply bind_ok in H. destruct H as (w1 & E1 & H).
  apply bind_ok in H. destruct H as (w2 & E2 & H).
  assert (R1 : run c (k_veh v) w w1 /\ soft w w1).
  { destruct (dget (l_end (L w l)) (v_events (V w v))) as [e|] eqn:Ee.
    - split; [|eapply run_event_soft; eauto].
      eapply run_one with (e := VEvent v e); [apply Nat.eqb_refl|]. econstructor; eauto.
    - injection E1 as <-. split; [apply run_refl|apply soft_refl]. }
  destruct R1 as [R1 S1].
  pose proof (maybe_pref_run _ _ _ E2) as R2. pose proof (maybe_pref_update_soft _ _ _ E2) as S2.
  assert (S : soft w w2) by (eapply soft_trans; eauto).
  assert (I2 : Inv2 w2 None) by (eapply run_Inv2'; [eapply run_Inv2'; [exact I|exact R1]|exact R2]).
  assert (A2 : at_end w2 v l) by (eapply at_end_soft; eauto).
  rewrite <- (so_l S l) in H. pose proof (soft_inc _ _ S) as Sinc. clear A E1 E2 R1 R2 S1 S2 S.
  destruct (opt_eqb (Some (l_end (L w2 l))) (v_dest (V w2 v))) eqn:Ed.
  - apply opt_eqb_eq in Ed. symmetry in Ed.
    destruct (v_mode (V w2 v)) eqn:Em.
    + left. eapply inc_trans; [exact Sinc|]. eapply prepare_end_inc; eauto.
    + right. apply bind_ok in H. destruct H as (w3 & E3 & H).
      assert (S23 : soft w2 w3).
      { apply route_pref_update_soft in E3. eapply soft_trans; [|exact E3]. apply soft_modv; destruct (v_dests _); reflexivity. }
      assert (M3 : v_mode (V w3 v) = Taxi) by (destruct (vhard_eq (so_v S23 v)) as (_ & _ & _ & K & _); congruence).
      assert (I3 : Inv2 w3 None).
      { eapply run_Inv2' with (K := k_veh v); [exact I2|].
        eapply run_trans; [eapply run_one with (e := VNextDest v); [apply Nat.eqb_refl|eapply m_nextdest; eauto]|].
        eapply run_one with (e := VPref v 1%Q); [apply Nat.eqb_refl|constructor; [exact E3|left; reflexivity]]. }
      eapply plus_soft; [eapply inc_trans; [exact Sinc|eapply soft_inc; exact S23]|].
      eapply request_requested; eauto; [eapply at_end_soft; eauto|congruence|]. rewrite (so_l S23). exact H.
  - assert (Ed' : v_dest (V w2 v) <> Some (l_end (L w2 l))).
    { intro K. symmetry in K. apply opt_eqb_eq in K. congruence. }
    destruct (is_nil (n_out (N w2 (l_end (L w2 l)))) && v_abortopt (V w2 v)) eqn:Eb.
    + left. apply prepare_end_inc in H. eapply inc_trans; [exact Sinc|]. intro k. rewrite H. reflexivity.
    + right. eapply plus_soft; [exact Sinc|]. eapply request_requested; eauto.
Qed.

Lemma veh_update_inc : forall c v w w', Inv2 w None -> In v (w_living w) -> veh_update c v w = Ok w' ->
  same_inc w w' \/ requested v w w'.
Proof.
  intros c v w w' I Hl H. unfold veh_update in H. cbn zeta in H.
  assert (M0 : mstep c (VLog v) w None (record_log c v false w) None) by (constructor; auto).
  pose proof (mstep_Inv2 _ _ _ _ _ _ I M0) as I0.
  assert (S0 : same_inc w (record_log c v false w)) by (intro k; rewrite record_log_N; reflexivity).
  pose proof (record_log_living c v false w) as P3.
  set (w0 := record_log c v false w) in *. clearbody w0.
  assert (Hl0 : In v (w_living w0)) by (rewrite P3; auto).
  match type of H with match v_state (V ?W v) with _ => _ end = _ => set (w1 := W) in * end.
  assert (Inv2 w1 None /\ same_inc w0 w1) as [I1 S1].
  { unfold w1. destruct (v_state (V w0 v)) eqn:Es; try (split; [exact I0|intro; reflexivity]).
    destruct (Z.leb (v_dep (V w0 v)) (Z.of_nat (w_T w0))) eqn:Ed; [|split; [exact I0|intro; reflexivity]].
    split; [eapply (mstep_Inv2 c (VDepart v)); [exact I0|constructor; auto]|].
    intro k. rewrite N_at. rewrite N_modv. destruct (Nat.eqb _ _); reflexivity. }
  assert (S : same_inc w w1) by (eapply inc_trans; eauto).
  assert (Hl1 : In v (w_living w1)).
  { unfold w1. destruct (v_state (V w0 v)); auto. destruct (Z.leb _ _); exact Hl0. }
  clearbody w1.
  destruct (v_state (V w1 v)) eqn:Es; try (injection H as <-; left; exact S).
  - left. apply maybe_pref_update_soft in H. eapply inc_trans; [exact S|apply soft_inc; auto].
  - unfold drive in H. cbn zeta in H.
    assert (M2 : mstep c (VMove v) w1 None (modv v (driven c) w1) None) by (constructor; auto).
    pose proof (mstep_Inv2 _ _ _ _ _ _ I1 M2) as I2.
    change (modv v (fun a : vehicle => sv_dist (v_dist a + (v_xnext a - v_x a)) (sv_x (v_xnext a)
      (sv_xold (v_x a) (sv_v ((v_xnext a - v_x a) / dt c) a)))) w1) with (modv v (driven c) w1) in H.
    assert (S2 : same_inc w1 (modv v (driven c) w1)) by (intro; reflexivity).
    assert (Es2 : v_state (V (modv v (driven c) w1) v) = Run) by (rewrite V_modv_same; exact Es).
    set (w2 := modv v (driven c) w1) in *. clearbody w2.
    apply bind_ok in H. destruct H as (l & E & H). apply of_opt_ok in E.
    destruct (qeq (v_x (V w2 v)) (l_len (L w2 l))) eqn:Eq.
    + destruct (at_link_end_inc c v l w2 w' I2) as [K|K]; auto; [repeat split; auto| |].
      * left. eapply inc_trans; [exact S|]. eapply inc_trans; eauto.
      * right. eapply plus_soft; [|exact K]. eapply inc_trans; eauto.
    + injection H as <-. left. eapply inc_trans; eauto.
Qed.

Lemma signal_control_inc : forall c nd nd', signal_control c nd = Ok nd' -> n_incoming nd' = n_incoming nd.
Proof.
  intros c nd nd' H. unfold signal_control in H. apply bind_ok in H. destruct H as (g & _ & H). cbn zeta in H.
  injection H as <-. destruct (qlt _ _); reflexivity.
Qed.
Lemma flow_capacity_inc : forall c nd nd', flow_capacity_update c nd = Ok nd' -> n_incoming nd' = n_incoming nd.
Proof.
  intros c nd nd' H. unfold flow_capacity_update in H. destruct (n_fcap nd).
  - apply bind_ok in H. destruct H as (m & _ & H). injection H as <-. destruct (qlt _ _); reflexivity.
  - injection H as <-. reflexivity.
Qed.

(** ** All waiting lists are empty after the transfer phase *)

Lemma k_tr_other : forall c n w w', Inv2 w None -> run c (k_tr n) w w' -> forall k, k <> n -> N w' k = N w k.
Proof.
  intros c n w w' I R k Hk.
  destruct (run_with c (fun x _ => N x k = N w k) (k_tr n)) with (w := w) (w' := w') as [_ K]; auto.
  intros e x p x' p' Ke Ix Jx M. rewrite <- Jx. clear Jx.
  pose proof (mstep_eff c e x p x' p' Ix M) as H. apply Nat.eqb_neq in Hk.
  destruct e; cbn [k_tr] in Ke; try discriminate Ke; cbn [eff] in H; try (apply Nat.eqb_eq in Ke; subst n0).
  - destruct H as (_ & _ & _ & _ & H & _). apply H.
  - destruct H as (_ & _ & cd & ca & rest & q & H). do 17 (destruct H as [_ H]). destruct H as [H _].
    rewrite H, Hk. reflexivity.
  - destruct H as (_ & rest & cd & lg & tl & _ & _ & _ & _ & _ & _ & _ & _ & H & _). apply H.
  - destruct H as (_ & _ & _ & _ & _ & _ & H & _). rewrite H, Hk. reflexivity.
  - destruct H as (_ & _ & _ & _ & _ & _ & H). rewrite H, Hk. reflexivity.
Qed.

Lemma transfer_clears : forall c n w w', transfer c n w = Ok w' -> n_incoming (N w' n) = [].
Proof.
  intros c n w w' H. unfold transfer in H.
  apply bind_ok in H. destruct H as (cands & _ & H). cbn zeta in H.
  destruct (if c_det c then _ else _) as [outs w1].
  apply bind_ok in H. destruct H as (w2 & E2 & H).
  apply bind_ok in H. destruct H as (w3 & E3 & H). injection H as <-.
  rewrite N_at, Nat.eqb_refl. reflexivity.
Qed.

Lemma transfers_clear : forall c ns w w', Inv2 w None -> (forall n, In n ns -> n < w_nn w) ->
  foldM (transfer c) ns w = Ok w' -> Inv2 w' None /\ (forall n, In n ns -> n_incoming (N w' n) = []) /\
  (forall n, ~ In n ns -> N w' n = N w n).
Proof.
  intros c ns; induction ns as [|n ns IH]; intros w w' I Hn H; cbn [foldM] in H.
  - injection H as <-. split; [auto|]. split; [intros n []|auto].
  - apply bind_ok in H. destruct H as (w1 & E & H).
    pose proof (transfer_clears _ _ _ _ E) as C.
    pose proof (transfer_frs _ _ _ E) as F.
    apply transfer_run in E; [|apply Hn; left; auto].
    pose proof (run_Inv2' _ _ _ _ I E) as I1.
    destruct (IH w1 w' I1) as (I' & A & B); auto.
    { intros m Hm. rewrite (fr_w_nn (frs_fr F)). apply Hn; right; auto. }
    split; [auto|]. split.
    + intros m [<- | Hm]; [|auto]. destruct (in_dec Nat.eq_dec n ns) as [Hi|Hi]; [auto|]. rewrite B by auto. exact C.
    + intros m Hm. rewrite B by (intro; apply Hm; right; auto). eapply k_tr_other; eauto. intros ->. apply Hm; left; auto.
Qed.

(** ** The vehicle phase fills them with vehicles standing at the node *)

(** what is known of the waiting lists while the vehicles in [done] have been updated *)
Record IncOK (done : vid -> Prop) (w : world) : Prop := mkIncOK {
  ic_out : forall n, w_nn w <= n -> n_incoming (N w n) = [];
  ic_nodup : forall n, NoDup (n_incoming (N w n));
  ic_in : forall n v, In v (n_incoming (N w n)) -> v < w_nv w /\ done v /\ stands w v n;
  ic_dest : forall n v, In v (n_incoming (N w n)) -> v_mode (V w v) = SingleTrip -> v_dest (V w v) <> Some n }.

(** the destination of a single-trip vehicle never changes *)
Lemma route_pref_update_dest : forall c v q w w', route_pref_update c v q w = Ok w' ->
  forall u, v_dest (V w' u) = v_dest (V w u) /\ v_mode (V w' u) = v_mode (V w u).
Proof.
  intros c v q w w' H u. destruct (pref_update_V _ _ _ _ _ H) as (A & (pf & B) & _).
  destruct (Nat.eq_dec u v) as [-> | Hne]; [rewrite B; auto|rewrite A by auto; auto].
Qed.
Lemma add_dest_single : forall c v d o w w', add_dest c v d o w = Ok w' ->
  forall u, v_mode (V w' u) = v_mode (V w u) /\ (v_mode (V w u) = SingleTrip -> v_dest (V w' u) = v_dest (V w u)).
Proof.
  intros c v d o w w' H u. unfold add_dest in H. destruct (v_mode (V w v)) eqn:Em; [discriminate|].
  destruct (v_dest (V w v)) eqn:Ed.
  - injection H as <-. rewrite V_at. destruct (Nat.eqb u v) eqn:E; [|auto]. apply Nat.eqb_eq in E; subst u. split; reflexivity.
  - destruct (route_pref_update_dest _ _ _ _ _ H u) as [-> ->]. rewrite !V_at.
    destruct (Nat.eqb u v) eqn:E; [|auto]. apply Nat.eqb_eq in E; subst u. cbn. split; [reflexivity|congruence].
Qed.
Lemma run_event_single : forall c e w w', run_event c e w = Ok w' ->
  forall u, v_mode (V w' u) = v_mode (V w u) /\ (v_mode (V w u) = SingleTrip -> v_dest (V w' u) = v_dest (V w u)).
Proof.
  intros c e w w' H u. destruct e; cbn [run_event] in H; cbn zeta in H.
  - apply bind_ok in H. destruct H as (v & E1 & H). apply bind_ok in H. destruct H as (w1 & E2 & H).
    apply bind_ok in H. destruct H as (ev & E3 & H). injection H as <-.
    destruct (add_dest_single _ _ _ _ _ _ E2 u) as [A B].
    rewrite V_at. destruct (Nat.eqb u v) eqn:E.
    + apply Nat.eqb_eq in E; subst u. cbn. unfold V. cbn. rewrite upd_same. cbn. exact (conj A B).
    + change (V (modr ?r ?f ?x) u) with (V x u). rewrite V_at, E. exact (conj A B).
  - apply bind_ok in H. destruct H as (v & E1 & H). apply bind_ok in H. destruct H as (ev & E3 & H). injection H as <-.
    rewrite V_at. destruct (Nat.eqb u v) eqn:E; [|split; reflexivity].
    apply Nat.eqb_eq in E; subst u. split; reflexivity.
Qed.

Definition same_dest (w w' : world) : Prop := forall v,
  v_mode (V w' v) = v_mode (V w v) /\ (v_mode (V w v) = SingleTrip -> v_dest (V w' v) = v_dest (V w v)).
Lemma mstep_dest : forall c e w p w' p', Inv2 w p -> mstep c e w p w' p' -> same_dest w w'.
Proof.
  intros c e w p w' p' I M v. split; [exact (fr_v_mode (mstep_fr M) v)|].
  pose proof (mstep_eff c e w p w' p' I M) as H. intro Hm. destruct e; cbn [eff] in H.
  - destruct H as (_ & _ & _ & H & _). rewrite H. reflexivity.
  - destruct H as (_ & _ & H & _). rewrite H. reflexivity.
  - destruct H as (-> & _ & q & ca & H1 & H2 & _ & _ & _ & _ & _ & _ & _ & _ & _ & _ & _ & _ & A & B).
    destruct (Nat.eq_dec v v0) as [-> | Hne]; [rewrite A; reflexivity|rewrite B by auto; destruct (opt_eqb _ _); reflexivity].
  - destruct H as (_ & _ & _ & H & _). rewrite H. reflexivity.
  - destruct H as (-> & _ & cd & ca & rest & q & H).
    do 19 (destruct H as [_ H]). destruct H as (_ & _ & A & B).
    destruct (Nat.eq_dec v v0) as [-> | Hne]; [rewrite A; reflexivity|].
    rewrite B by auto. cbv zeta. destruct (opt_eqb (t_leader _ _ _) _), (opt_eqb (v_follower _) _); reflexivity.
  - destruct H as (-> & rest & cd & lg & tl & H1 & _ & H2 & H3 & _ & _ & _ & _ & _ & _ & _ & A & _ & _ & B).
    destruct (Nat.eq_dec v v0) as [-> | Hne].
    + assert (E : forall (b : bool) tl lg a, v_dest (let x := sv_linkold None (sv_tlog tl (sv_log lg a)) in
        if b then sv_pref PrefNone x else x) = v_dest a) by (intros [] ? ? ?; reflexivity).
      rewrite B, E. unfold ended. rs. destruct (v_aborted _); reflexivity.
    + rewrite A by auto. destruct (opt_eqb _ _); reflexivity.
  - destruct H as (_ & _ & H & _). rewrite H. reflexivity.
  - destruct H as (_ & _ & H & _). rewrite H. reflexivity.
  - destruct H as (_ & _ & _ & _ & _ & _ & l & _ & H). rewrite H.
    destruct (Nat.eqb v v0) eqn:E; [|reflexivity]. apply Nat.eqb_eq in E; subst. unfold followed. destruct (qlt _ _); reflexivity.
  - destruct H as (_ & _ & _ & _ & _ & _ & _ & H). rewrite H.
    destruct (Nat.eqb v v0) eqn:E; [|reflexivity]. apply Nat.eqb_eq in E; subst. reflexivity.
  - destruct H as (_ & _ & _ & _ & _ & _ & _ & _ & H & _). rewrite H. destruct (Nat.eqb v v0); reflexivity.
  - destruct H as (_ & _ & _ & _ & _ & _ & _ & _ & H). rewrite H. destruct (Nat.eqb v v0); reflexivity.
  - destruct H as (_ & _ & _ & _ & _ & H). apply (run_event_single _ _ _ _ H); auto.
  - destruct H as (_ & _ & _ & H & _). apply (route_pref_update_dest _ _ _ _ _ H).
  - destruct H as (_ & _ & _ & _ & _ & _ & _ & _ & H). rewrite H. destruct (Nat.eqb v v0); reflexivity.
  - destruct H as (_ & _ & H0 & _ & _ & _ & _ & _ & H). rewrite H. destruct (Nat.eqb v v0) eqn:E; [|reflexivity].
    apply Nat.eqb_eq in E; subst. congruence.
  - destruct H as (_ & _ & _ & _ & _ & _ & _ & _ & H). rewrite H. destruct (Nat.eqb v v0); reflexivity.
  - destruct H as (_ & _ & _ & _ & _ & A & l & _ & _ & B).
    destruct (Nat.eq_dec v v0) as [-> | Hne]; [|rewrite A by auto; reflexivity].
    destruct B as [(B & _)|[(B & _)|(o & _ & B)]]; rewrite B; reflexivity.
  - destruct H as (_ & _ & _ & H & _). rewrite H. reflexivity.
  - destruct H as (_ & _ & H & _). rewrite H. reflexivity.
  - destruct H as (_ & _ & H & _). rewrite H. reflexivity.
  - destruct H as (_ & _ & H & _). rewrite H. reflexivity.
Qed.
Lemma same_dest_trans : forall a b d, same_dest a b -> same_dest b d -> same_dest a d.
Proof.
  intros a b d H K v. destruct (H v) as [H1 H2], (K v) as [K1 K2]. split; [congruence|].
  intro E. rewrite K2 by congruence. auto.
Qed.
Lemma run_dest : forall c K w w', Inv2 w None -> run c K w w' -> same_dest w w'.
Proof.
  intros c K w w' I R. eapply (run_with c (fun x _ => same_dest w x) K) with (w := w); [|exact I|split; auto|exact R].
  intros e x p x' p' _ Ix Jx M. eapply same_dest_trans; [exact Jx|eapply mstep_dest; eauto].
Qed.

Lemma update_loop_inc : forall c vs w w' (done : vid -> Prop), Inv2 w None -> NoDup vs ->
  (forall v, In v vs -> ~ done v) -> (forall v, In v vs -> v < w_nv w) -> IncOK done w -> foldM (update_living c) vs w = Ok w' ->
  Inv2 w' None /\ IncOK (fun v => done v \/ In v vs) w'.
Proof.
  intros c vs; induction vs as [|v vs IH]; intros w w' done I Nd Hd Hlt J H; cbn [foldM] in H.
  - injection H as <-. split; [auto|]. destruct J as [J1 J2 J3 J4]. constructor; auto.
    intros n v Hv. destruct (J3 n v Hv) as (A & B & D). auto.
  - apply bind_ok in H. destruct H as (w1 & E & H). unfold update_living in E.
    destruct (mem v (w_living w)) eqn:Em; [|discriminate]. apply mem_iff in Em.
    pose proof (veh_update_inc c v w w1 I Em E) as Inc.
    pose proof (veh_update_other c v w w1 I Em E) as Oth.
    apply veh_update_run in E; auto.
    pose proof (run_Inv2' _ _ _ _ I E) as I1. pose proof (run_dest _ _ _ _ I E) as SD.
    assert (F : fr w w1).
    { destruct E as (es & _ & T). clear - T. eapply trace_fr; eauto. }
    inversion Nd as [|? ? Nv Nd']; subst.
    destruct J as [J1 J2 J3 J4].
    assert (Hne : forall n u, In u (n_incoming (N w n)) -> u <> v).
    { intros n u Hu ->. destruct (J3 n v Hu) as (_ & B & _). apply (Hd v); [left; auto|auto]. }
    assert (Keep : forall n u, In u (n_incoming (N w n)) -> stands w1 u n).
    { intros n u Hu. destruct (J3 n u Hu) as (_ & _ & B). pose proof (Oth u (Hne n u Hu)) as K. apply vcalm_eq in K.
      eapply stands_keep; [exact F|..|exact B]; tauto. }
    assert (KeepD : forall n u, In u (n_incoming (N w n)) -> v_mode (V w1 u) = SingleTrip -> v_dest (V w1 u) <> Some n).
    { intros n u Hu Hs. destruct (SD u) as [S1 S2]. rewrite S1 in Hs. rewrite (S2 Hs). auto. }
    destruct (IH w1 w' (fun u => done u \/ u = v)) as [I' J']; auto.
    + intros u Hu [Hdu| ->]; [apply (Hd u); [right; auto|auto]|auto].
    + intros u Hu. rewrite (fr_w_nv F). apply Hlt; right; auto.
    + assert (Hvl : v < w_nv w1) by (rewrite (fr_w_nv F); apply Hlt; left; auto).
      destruct Inc as [S|(m & P & St & Dd)].
      * constructor.
        -- intros n Hn. rewrite S. apply J1. rewrite <- (fr_w_nn F). auto.
        -- intro n. rewrite S. auto.
        -- intros n u Hu. rewrite S in Hu. destruct (J3 n u Hu) as (A & B & _). rewrite (fr_w_nv F). auto.
        -- intros n u Hu. rewrite S in Hu. eauto.
      * assert (Hm : m < w_nn w1).
        { destruct St as (l & (A1 & A2 & _) & B & _). destruct I1 as [[T1 I1] _].
          assert (Hl : l < w_nl w1).
          { destruct (s_link I1 Hvl) as [K _]; [discriminate|]. destruct (K A1) as (l' & K1 & K2). congruence. }
          subst m. apply (t_ends T1); auto. }
        constructor.
        -- intros n Hn. rewrite P. destruct (Nat.eqb n m) eqn:En; [apply Nat.eqb_eq in En; lia|]. apply J1.
           rewrite <- (fr_w_nn F). auto.
        -- intro n. rewrite P. destruct (Nat.eqb n m); [|auto]. apply NoDup_app_last; auto. intro K. apply (Hne n v); auto.
        -- intros n u Hu. rewrite P in Hu. destruct (Nat.eqb n m) eqn:En.
           ++ apply Nat.eqb_eq in En; subst n. apply in_app_iff in Hu. destruct Hu as [Hu|[<- |[]]].
              ** destruct (J3 m u Hu) as (A & B & _). rewrite (fr_w_nv F). auto.
              ** auto.
           ++ destruct (J3 n u Hu) as (A & B & _). rewrite (fr_w_nv F). auto.
        -- intros n u Hu. rewrite P in Hu. destruct (Nat.eqb n m) eqn:En; [|eauto].
           apply Nat.eqb_eq in En; subst n. apply in_app_iff in Hu. destruct Hu as [Hu|[<- |[]]]; [eauto|auto].
    + split; [auto|]. destruct J' as [K1 K2 K3 K4]. constructor; auto.
      intros n u Hu. destruct (K3 n u Hu) as (A & B & D). split; [auto|]. split; [|auto].
      destruct B as [[B|B]|B]; [left; auto|right; left; auto|right; right; auto].
Qed.

(** ** Between timesteps *)

Record IncB (w : world) : Prop := mkIncB {
  ib_ok : IncOK (fun _ => True) w;
  ib_start : w_final w = false -> forall n, n_incoming (N w n) = [] }.

Lemma follow_inc : forall c w w', Inv2 w None -> run c k_follow w w' -> forall n, N w' n = N w n.
Proof.
  intros c w w' I R n.
  destruct (run_with c (fun x _ => N x n = N w n) k_follow) with (w := w) (w' := w') as [_ K]; auto.
  intros e x p x' p' Ke Ix Jx M. rewrite <- Jx. clear Jx.
  pose proof (mstep_eff c e x p x' p' Ix M) as H.
  destruct e; try discriminate Ke; cbn [eff] in H. destruct H as (_ & _ & _ & H & _). apply H.
Qed.

Definition k_end (e : ev) : bool := match e with VTime => true | _ => k_route e end.
Lemma IncOK_end : forall c w w', Inv2 w None -> run c k_end w w' -> IncOK (fun _ => True) w -> IncOK (fun _ => True) w'.
Proof.
  intros c w w' I R J.
  destruct (run_with c (fun x _ => IncOK (fun _ => True) x) k_end) with (w := w) (w' := w') as [_ K]; auto.
  clear - c. intros e x p x' p' Ke Ix J M.
  pose proof (mstep_dest c e x p x' p' Ix M) as SD.
  pose proof (mstep_fr M) as F. pose proof (mstep_eff c e x p x' p' Ix M) as H.
  assert (EN : forall n, n_incoming (N x' n) = n_incoming (N x n)).
  { intro n. destruct e; try discriminate Ke; cbn [eff] in H.
    - destruct H as (_ & _ & S & _). rewrite (so_n S). reflexivity.
    - destruct H as (_ & _ & _ & _ & H & _). rewrite H. reflexivity.
    - destruct H as (_ & _ & _ & _ & H & _). rewrite H. reflexivity.
    - destruct H as (_ & _ & _ & _ & H & _). rewrite H. reflexivity. }
  assert (EV : forall v, v_state (V x' v) = v_state (V x v) /\ v_link (V x' v) = v_link (V x v) /\
     v_x (V x' v) = v_x (V x v) /\ v_next (V x' v) = v_next (V x v)).
  { intro v. destruct e; try discriminate Ke; cbn [eff] in H.
    - destruct H as (_ & _ & _ & _ & _ & A & (pf & B)).
      destruct (Nat.eq_dec v v0) as [-> | Hne]; [rewrite B; auto|rewrite A by auto; auto].
    - destruct H as (_ & _ & H & _). rewrite H. auto.
    - destruct H as (_ & _ & H & _). rewrite H. auto.
    - destruct H as (_ & _ & H & _). rewrite H. auto. }
  destruct J as [J1 J2 J3 J4]. constructor.
  - intros n Hn. rewrite EN. apply J1. rewrite <- (fr_w_nn F). auto.
  - intro n. rewrite EN. auto.
  - intros n v Hv. rewrite EN in Hv. destruct (J3 n v Hv) as (A & B & D). rewrite (fr_w_nv F).
    split; [auto|]. split; [auto|]. destruct (EV v) as (E1 & E2 & E3 & E4). eapply stands_keep; eauto.
  - intros n v Hv Hs. rewrite EN in Hv. destruct (SD v) as [S1 S2]. rewrite S1 in Hs. rewrite (S2 Hs). eauto.
Qed.

(** The waiting lists through a timestep. *)
Lemma body_inc : forall c w w', Inv2 w None -> (forall n, w_nn w <= n -> n_incoming (N w n) = []) ->
  body c w = Ok w' -> IncOK (fun _ => True) w'.
Proof.
  intros c w w' I Hout H. apply body_runs in H.
  destruct H as (w1 & w2 & w3 & w4 & w5 & w6 & E1 & E2 & E3 & E4 & E5 & E6 & ->).
  pose proof (phase_links_frs _ _ E1) as F1. pose proof (phase_nodes_fr _ _ E2) as F2.
  pose proof (phase_transfer_frs _ _ E3) as F3. 
  apply phase_links_run in E1. apply phase_nodes_run in E2.
  assert (Hinc : forall w w', Inv2 w None -> run c k_nodes w w' \/ run c k_links w w' -> same_inc w w').
  { clear. intros w w' I R k.
    assert (R' : run c (fun e => k_nodes e || k_links e) w w').
    { destruct R as [R|R]; eapply run_weaken; try exact R; intros e Ke; rewrite Ke; auto. apply orb_true_r. }
    clear R. destruct (run_with c (fun x _ => n_incoming (N x k) = n_incoming (N w k)) (fun e => k_nodes e || k_links e)) with (w := w) (w' := w') as [_ K]; auto.
    intros e x p x' p' Ke Ix Jx M. rewrite <- Jx. clear Jx.
    pose proof (mstep_eff c e x p x' p' Ix M) as H.
    destruct e; try discriminate Ke; cbn [eff] in H.
    - destruct H as (_ & _ & _ & _ & H & _). rewrite H. reflexivity.
    - destruct H as (_ & _ & _ & _ & H & _). rewrite H. reflexivity.
    - destruct H as (-> & _ & q & ca & H1 & H2 & _ & _ & _ & _ & _ & _ & _ & H & _). rewrite H.
      destruct (Nat.eqb k n) eqn:E; [|reflexivity]. apply Nat.eqb_eq in E; subst; reflexivity.
    - destruct H as (_ & _ & _ & _ & _ & _ & _ & n1 & n2 & A & B & H). rewrite H.
      destruct (Nat.eqb k n) eqn:E; [|reflexivity]. apply Nat.eqb_eq in E; subst.
      rewrite (flow_capacity_inc _ _ _ B). apply (signal_control_inc _ _ _ A). }
  pose proof (run_Inv2' _ _ _ _ I E1) as I1. pose proof (run_Inv2' _ _ _ _ I1 E2) as I2.
  pose proof (Hinc _ _ I (or_intror E1)) as S1. pose proof (Hinc _ _ I1 (or_introl E2)) as S2. clear Hinc.
  unfold phase_transfer in E3. destruct (transfers_clear c (seq 0 (w_nn w2)) w2 w3 I2) as (I3 & C1 & C2); auto.
  { intros n Hn. apply in_seq in Hn. lia. }
  assert (C : forall n, n_incoming (N w3 n) = []).
  { intro n. destruct (in_dec Nat.eq_dec n (seq 0 (w_nn w2))) as [Hi|Hi]; [auto|]. rewrite C2 by auto.
    rewrite S2, S1. apply Hout. rewrite in_seq in Hi. rewrite (fr_w_nn F2), (fr_w_nn (frs_fr F1)) in Hi. lia. }
  clear C1 C2. apply phase_follow_run in E4. pose proof (run_Inv2' _ _ _ _ I3 E4) as I4.
  assert (C4 : forall n, n_incoming (N w4 n) = []) by (intro n; rewrite (follow_inc _ _ _ I3 E4); auto).
  unfold phase_vehicles in E5.
  destruct (update_loop_inc c (w_living w4) w4 w5 (fun _ => False)) as [I5 J5]; auto.
  - destruct I4 as [[T4 I4] _]. apply (s_living_nd I4).
  - intros v Hv. destruct I4 as [[T4 I4] _]. apply (s_living I4) in Hv. tauto.
  - constructor; try (intros n v Hv; rewrite C4 in Hv; destruct Hv); intro n; rewrite C4; auto. constructor.
  - eapply IncOK_end; [exact I5| |].
    + eapply run_trans; [eapply run_weaken; [|eapply route_phase_run; exact E6]|].
      * intros [] K; try discriminate K; reflexivity.
      * eapply run_one with (e := VTime); [reflexivity|constructor].
    + destruct J5 as [A1 A2 A3 A4]. constructor; auto. intros n v Hv. destruct (A3 n v Hv) as (B1 & _ & B2). auto.
Qed.

Lemma ostep_IncB : forall c w w', Inv2 w None -> IncB w -> ostep c w w' -> IncB w'.
Proof.
  intros c w w' I [[J1 J2 J3 J4] J5] H. destruct H.
  - assert (E : forall n, n_incoming (N (added_node nd w) n) = []).
    { intro n. unfold N; cbn. destruct (Nat.eq_dec n (w_nn w)) as [-> | Hne].
      - rewrite upd_same. unfold new_node in H0. cbn zeta in H0. apply bind_ok in H0. destruct H0 as ([ph t0] & _ & H0).
        injection H0 as <-. reflexivity.
      - rewrite upd_other by auto. apply J5; auto. }
    constructor; [constructor|auto]; try (intros; rewrite E in *; auto; contradiction). intro n; rewrite E; constructor.
  - assert (E : forall n, n_incoming (N (added_link (la_start a) (la_end a) k w) n) = []).
    { intro n. unfold added_link. rewrite !N_at. change (N (sw_nl _ (sw_links _ w)) n) with (N w n).
      destruct (Nat.eqb n (la_end a)), (Nat.eqb n (la_start a)); cbn; apply J5; auto. }
    constructor; [constructor|auto]; try (intros; rewrite E in *; auto; contradiction). intro n; rewrite E; constructor.
  - constructor; [constructor|exact J5].
    + exact J1.
    + exact J2.
    + intros n v Hv. destruct (J3 n v Hv) as (A & _ & B).
      assert (EV : V (added_veh (new_vehicle c a nl nm) pv w) v = V w v).
      { unfold V; cbn. rewrite upd_other by lia. reflexivity. }
      split; [cbn; lia|]. split; [auto|]. destruct B as (l & B1 & B2 & B3). exists l. unfold at_end, nextok in *. rewrite EV. auto.
    + intros n v Hv. destruct (J3 n v Hv) as (A & _ & _).
      assert (EV : V (added_veh (new_vehicle c a nl nm) pv w) v = V w v).
      { unfold V; cbn. rewrite upd_other by lia. reflexivity. }
      rewrite EV. apply J4. exact Hv.
  - assert (E : forall n, n_incoming (N w' n) = []).
    { intro n. apply finalize_ok in H0. destruct (fz_N _ _ _ H0 n) as [-> |(x & y & z & ->)]; cbn; apply J5; auto. }
    constructor; [constructor|auto]; try (intros; rewrite E in *; auto; contradiction). intro n; rewrite E; constructor.
  - assert (EL : forall l, L w' l = L w l) by (intro; unfold L; rewrite H0; auto).
    assert (EN : forall l, N w' l = N w l) by (intro; unfold N; rewrite H1; auto).
    unfold wkeep in H2.
    assert (En : w_nn w' = w_nn w) by congruence. assert (Ev : w_nv w' = w_nv w) by congruence.
    assert (Ef : w_final w' = w_final w) by congruence.
    constructor; [constructor|intros K n; rewrite EN; apply J5; congruence].
    + intros n Hn. rewrite EN. apply J1. congruence.
    + intro n. rewrite EN. auto.
    + intros n v Hv. rewrite EN in Hv. destruct (J3 n v Hv) as (A & _ & B). split; [congruence|]. split; [auto|].
      specialize (H v). unfold vkeep in H. destruct B as (l & (B1 & B2 & B3) & B4 & B5). exists l. unfold at_end, nextok in *.
      replace (v_state (V w' v)) with (v_state (V w v)) by congruence.
      replace (v_link (V w' v)) with (v_link (V w v)) by congruence.
      replace (v_x (V w' v)) with (v_x (V w v)) by congruence.
      replace (v_next (V w' v)) with (v_next (V w v)) by congruence.
      replace (v_mode (V w' v)) with (v_mode (V w v)) by congruence.
      rewrite EL, EN. auto.
    + intros n v Hv Hs. rewrite EN in Hv. specialize (H v). unfold vkeep in H.
      assert (Hs' : v_mode (V w v) = SingleTrip) by congruence. rewrite (H3 v Hs'). auto.
  - assert (EV : forall v, V w' v = V w v) by (intro; unfold V; rewrite H; auto).
    unfold wkeep in H2.
    assert (En : w_nn w' = w_nn w) by congruence. assert (Ev : w_nv w' = w_nv w) by congruence.
    assert (Ef : w_final w' = w_final w) by congruence.
    assert (EN : forall n, n_incoming (N w' n) = n_incoming (N w n) /\ n_out (N w' n) = n_out (N w n)).
    { intro n. specialize (H1 n). unfold nkeep in H1. split; congruence. }
    assert (EL : forall l, l_len (L w' l) = l_len (L w l) /\ l_end (L w' l) = l_end (L w l)).
    { intro l. specialize (H0 l). unfold lkeep in H0. split; congruence. }
    constructor; [constructor|intros K n; rewrite (proj1 (EN n)); apply J5; congruence].
    + intros n Hn. rewrite (proj1 (EN n)). apply J1. congruence.
    + intro n. rewrite (proj1 (EN n)). auto.
    + intros n v Hv. rewrite (proj1 (EN n)) in Hv. destruct (J3 n v Hv) as (A & _ & B). split; [congruence|]. split; [auto|].
      destruct B as (l & (B1 & B2 & B3) & B4 & B5). exists l. unfold at_end, nextok in *.
      rewrite EV, (proj1 (EL l)), (proj2 (EL l)), (proj2 (EN n)). auto.
    + intros n v Hv. rewrite (proj1 (EN n)) in Hv. rewrite EV. auto.
Qed.

Theorem reach_IncB : forall c w, reach c w -> IncB w.
Proof.
  intros c w H. induction H as [tm|w o w' H IH Hok Hx E|w w' H IH Hf E|w H IH].
  - constructor; [constructor|]; intros; cbn in *; auto; try contradiction. constructor.
  - pose proof (reach_Inv2 _ _ H) as I. apply apply_op_osteps in E; auto. clear - E IH I. induction E; auto.
    apply IHE; [eapply ostep_IncB; eauto|eapply ostep_Inv2; eauto].
  - apply tick_fr in E. destruct E as (w1 & E & ->). constructor.
    + assert (J : IncOK (fun _ => True) w1).
      { eapply body_inc; [eapply reach_Inv2; eauto| |exact E]. destruct IH as [[K _ _ _] _]. exact K. }
      destruct J as [A1 A2 A3 A4]. constructor; auto.
    + intro K. pose proof (fr_w_final (body_fr _ _ E)) as Ef. cbn in K. congruence.
  - destruct IH as [[A1 A2 A3 A4] A5]. constructor; [constructor|]; auto.
Qed.

(** ** During the link, node and transfer phases *)

Record IncA (w : world) (p : pend) : Prop := mkIncA {
  ia_out : forall n, w_nn w <= n -> n_incoming (N w n) = [];
  ia_nodup : forall n, NoDup (n_incoming (N w n));
  ia_uniq : forall n n' v, In v (n_incoming (N w n)) -> In v (n_incoming (N w n')) -> n = n';
  ia_in : forall n v, In v (n_incoming (N w n)) -> v < w_nv w /\
    (stands w v n \/ (exists o, p = Some (v, o)) \/ v_state (V w v) = End_ \/ v_state (V w v) = Abort);
  ia_dest : forall n v, In v (n_incoming (N w n)) -> v_mode (V w v) = SingleTrip -> v_dest (V w v) <> Some n }.

Lemma IncOK_A : forall w, IncOK (fun _ => True) w -> IncA w None.
Proof.
  intros w [J1 J2 J3 J4]. constructor; auto.
  - intros n n' v H H'. destruct (J3 _ _ H) as (_ & _ & l & (_ & A & _) & B & _).
    destruct (J3 _ _ H') as (_ & _ & l' & (_ & A' & _) & B' & _). congruence.
  - intros n v H. destruct (J3 _ _ H) as (A & _ & B). auto.
Qed.

Lemma remove_first_not_in : forall x l, NoDup l -> ~ In x (remove_first x l).
Proof.
  intros x l Nd; induction Nd as [|y l H Nd IH]; cbn; [auto|].
  destruct (Nat.eqb x y) eqn:E; [apply Nat.eqb_eq in E; subst; auto|].
  apply Nat.eqb_neq in E. intros [K|K]; [congruence|auto].
Qed.
Lemma remove_first_sub : forall x l y, In y (remove_first x l) -> In y l.
Proof.
  intros x l; induction l as [|a l IH]; intros y H; cbn in *; [auto|].
  destruct (Nat.eqb x a); [right; auto|]. destruct H as [H|H]; auto.
Qed.
Lemma remove_first_nodup : forall x l, NoDup l -> NoDup (remove_first x l).
Proof.
  intros x l Nd; induction Nd as [|y l H Nd IH]; cbn; [constructor|].
  destruct (Nat.eqb x y); [auto|]. constructor; auto. intro K. apply remove_first_sub in K. auto.
Qed.

(** An event of the first phases: the lists shrink, and the listed vehicles keep standing
    unless they are transferred or end their trip. *)
Lemma IncA_step : forall c e w p w' p', k_first e = true -> Inv2 w p -> IncA w p -> mstep c e w p w' p' -> IncA w' p'.
Proof.
  intros c e w p w' p' Ke I [J1 J2 J3 J4 J5] M.
  pose proof (mstep_dest c e w p w' p' I M) as SD.
  pose proof (mstep_fr M) as F. pose proof (mstep_eff c e w p w' p' I M) as H.
  (* the lists *)
  assert (Sub : forall n v, In v (n_incoming (N w' n)) -> In v (n_incoming (N w n))).
  { intros k v Hv. destruct e; try discriminate Ke; cbn [eff] in H.
    - destruct H as (_ & _ & _ & _ & H & _). rewrite H in Hv. auto.
    - destruct H as (_ & _ & _ & _ & H & _). rewrite H in Hv. auto.
    - destruct H as (-> & _ & q & ca & H1 & H2 & _ & _ & _ & _ & _ & _ & _ & H & _). rewrite H in Hv.
      destruct (Nat.eqb k n) eqn:E; [|auto]. apply Nat.eqb_eq in E; subst; auto.
    - destruct H as (_ & _ & _ & _ & _ & _ & _ & n1 & n2 & A & B & H). rewrite H in Hv.
      destruct (Nat.eqb k n) eqn:E; [|auto]. apply Nat.eqb_eq in E; subst.
      rewrite (flow_capacity_inc _ _ _ B), (signal_control_inc _ _ _ A) in Hv. auto.
    - destruct H as (_ & _ & cd & ca & rest & q & H). do 17 (destruct H as [_ H]). destruct H as [H _].
      rewrite H in Hv. destruct (Nat.eqb k n) eqn:E; [|auto]. apply Nat.eqb_eq in E; subst.
      unfold charge in Hv. destruct (n_fcap _); auto.
    - destruct H as (_ & rest & cd & lg & tl & _ & _ & _ & _ & _ & _ & _ & _ & H & _). rewrite H in Hv. auto.
    - destruct H as (_ & _ & _ & _ & _ & _ & H & _). rewrite H in Hv. destruct (Nat.eqb k n); [|auto].
      cbn in Hv. eapply remove_first_sub; eauto.
    - destruct H as (_ & _ & _ & _ & _ & _ & H). rewrite H in Hv. destruct (Nat.eqb k n); [destruct Hv|auto].
    - destruct H as (_ & _ & _ & _ & H & _). rewrite H in Hv. auto. }
  assert (Nd : forall n, NoDup (n_incoming (N w' n))).
  { intros k. specialize (J2 k). clear Sub. destruct e; try discriminate Ke; cbn [eff] in H.
    - destruct H as (_ & _ & _ & _ & H & _). rewrite H. auto.
    - destruct H as (_ & _ & _ & _ & H & _). rewrite H. auto.
    - destruct H as (-> & _ & q & ca & H1 & H2 & _ & _ & _ & _ & _ & _ & _ & H & _). rewrite H.
      destruct (Nat.eqb k n) eqn:E; [|auto]. apply Nat.eqb_eq in E; subst; auto.
    - destruct H as (_ & _ & _ & _ & _ & _ & _ & n1 & n2 & A & B & H). rewrite H.
      destruct (Nat.eqb k n) eqn:E; [|auto]. apply Nat.eqb_eq in E; subst.
      rewrite (flow_capacity_inc _ _ _ B), (signal_control_inc _ _ _ A). auto.
    - destruct H as (_ & _ & cd & ca & rest & q & H). do 17 (destruct H as [_ H]). destruct H as [H _].
      rewrite H. destruct (Nat.eqb k n) eqn:E; [|auto]. apply Nat.eqb_eq in E; subst.
      unfold charge. destruct (n_fcap _); auto.
    - destruct H as (_ & rest & cd & lg & tl & _ & _ & _ & _ & _ & _ & _ & _ & H & _). rewrite H. auto.
    - destruct H as (_ & _ & _ & _ & _ & _ & H & _). rewrite H. destruct (Nat.eqb k n); [|auto].
      cbn. apply remove_first_nodup. auto.
    - destruct H as (_ & _ & _ & _ & _ & _ & H). rewrite H. destruct (Nat.eqb k n); [constructor|auto].
    - destruct H as (_ & _ & _ & _ & H & _). rewrite H. auto. }
  constructor.
  - intros n Hn. rewrite (fr_w_nn F) in Hn. destruct (n_incoming (N w' n)) as [|v l] eqn:E; auto.
    exfalso. assert (K : In v (n_incoming (N w n))) by (apply Sub; rewrite E; left; auto). rewrite (J1 n Hn) in K. destruct K.
  - exact Nd.
  - intros n n' v Hv Hv'. eapply J3; eauto.
  - intros n v Hv. pose proof (Sub n v Hv) as Hw. destruct (J4 n v Hw) as [A B]. rewrite (fr_w_nv F). split; [auto|].
    assert (Keep : v_state (V w' v) = v_state (V w v) -> v_link (V w' v) = v_link (V w v) ->
      v_x (V w' v) = v_x (V w v) -> v_next (V w' v) = v_next (V w v) -> p' = p ->
      stands w' v n \/ (exists o, p' = Some (v, o)) \/ v_state (V w' v) = End_ \/ v_state (V w' v) = Abort).
    { intros E1 E2 E3 E4 ->. destruct B as [B|[B|B]]; [left|right; left; auto|right; right; rewrite E1; auto].
      eapply stands_keep; eauto. }
    clear Sub Nd J1 J5 SD. destruct e; try discriminate Ke; cbn [eff] in H.
    + destruct H as (-> & -> & _ & H & _). apply Keep; rewrite ?H; auto.
    + destruct H as (-> & -> & H & _). apply Keep; rewrite ?H; auto.
    + destruct H as (-> & -> & q & ca & H1 & H2 & _ & _ & _ & _ & _ & _ & _ & _ & _ & _ & _ & _ & HA & HB).
      destruct (Nat.eq_dec v v0) as [-> | Hne].
      * exfalso. destruct I as [[T I] _]. assert (K : In v0 (n_queue (N w n0))) by (rewrite H2; left; auto).
        apply (s_queue I) in K. destruct K as (_ & K & _).
        destruct B as [(l & (B & _) & _)|[(o & B)|[B|B]]]; congruence.
      * rewrite HB in Keep |- * by auto. destruct (opt_eqb _ _); apply Keep; auto.
    + destruct H as (-> & -> & _ & H & _). apply Keep; rewrite ?H; auto.
    + destruct H as (-> & -> & cd & ca & rest & q & H). do 19 (destruct H as [_ H]). destruct H as (_ & _ & HA & HB).
      destruct (Nat.eq_dec v v0) as [-> | Hne]; [right; left; eauto|].
      assert (K : v_state (V w' v) = v_state (V w v) /\ v_link (V w' v) = v_link (V w v) /\
        v_x (V w' v) = v_x (V w v) /\ v_next (V w' v) = v_next (V w v)).
      { rewrite HB by auto. cbv zeta. destruct (opt_eqb (t_leader _ _ _) _), (opt_eqb (v_follower _) _); auto. }
      destruct K as (K1 & K2 & K3 & K4).
      destruct B as [B|[(o & B)|B]]; [left; eapply stands_keep; eauto|discriminate|right; right; rewrite K1; auto].
    + destruct H as (-> & rest & cd & lg & tl & H1 & _ & H2 & H3 & _ & _ & _ & _ & _ & _ & _ & HA & _ & _ & HB).
      destruct (Nat.eq_dec v v0) as [-> | Hne].
      * right; right. rewrite HB.
        assert (E : forall (b : bool) tl lg a, v_state (let x := sv_linkold None (sv_tlog tl (sv_log lg a)) in
          if b then sv_pref PrefNone x else x) = v_state a) by (intros [] ? ? ?; reflexivity).
        rewrite E, ended_state. destruct (v_aborted (V w v0)); auto.
      * rewrite HA in Keep |- * by auto. destruct (opt_eqb _ _); apply Keep; auto.
    + destruct H as (-> & -> & HV & _ & _ & _ & HN & Hin).
      rewrite !HV in *. destruct B as [B|[(o & B)|B]]; [left; eapply stands_keep; eauto; rewrite ?HV; auto| |right; right; auto].
      exfalso. injection B as <- <-. assert (n = n0) by (eapply J3; eauto). subst n0.
      rewrite HN, Nat.eqb_refl in Hv. cbn in Hv. revert Hv. apply remove_first_not_in. apply J2.
    + destruct H as (-> & -> & H & _). apply Keep; rewrite ?H; auto.
    + destruct H as (-> & -> & H & _). apply Keep; rewrite ?H; auto.
  - intros n v Hv Hs. destruct (SD v) as [S1 S2]. rewrite S1 in Hs. rewrite (S2 Hs). eauto.
Qed.

(** ** Proof scheme with the waiting lists *)
Section Scheme.
Variables (c : cfg) (A F B : world -> pend -> Prop).
Hypothesis HA : forall e w p w' p', k_first e = true -> Inv2 w p -> IncA w p -> A w p -> mstep c e w p w' p' -> A w' p'.
Hypothesis HAF : forall w, Inv2 w None -> A w None -> F w None.
Hypothesis HF : forall e w p w' p', k_follow e = true -> Inv2 w p -> F w p -> mstep c e w p w' p' -> F w' p'.
Hypothesis HFB : forall w, Inv2 w None -> F w None -> B w None.
Hypothesis HB : forall e w p w' p', k_last e = true -> Inv2 w p -> B w p -> mstep c e w p w' p' -> B w' p'.

Lemma body_inc_phase : forall w w', Inv2 w None -> IncB w -> A w None -> body c w = Ok w' -> B w' None.
Proof.
  intros w w' I [J _] Ha H.
  eapply (body_phase c (fun w p => IncA w p /\ A w p) F B); eauto.
  - intros e x p x' p' Ke Ix [K1 K2] M. split; [eapply IncA_step; eauto|eauto].
  - intros x Ix [_ K]. auto.
  - split; [apply IncOK_A; auto|auto].
Qed.

Hypothesis H0 : forall tm, A (empty_world tm) None.
Hypothesis HBA : forall w, w_final w = true -> Inv2 w None -> B w None -> A (sw_T (S (w_T w)) w) None.

Lemma tick_inc_phase : forall w w', w_final w = true -> Inv2 w None -> IncB w -> A w None -> tick c w = Ok w' -> A w' None.
Proof.
  intros w w' Hf I J Ha H. apply tick_fr in H. destruct H as (w1 & E & ->).
  replace (w_T w) with (w_T w1) by exact (fr_w_T (body_fr _ _ E)). apply HBA.
  - rewrite (fr_w_final (body_fr _ _ E)). auto.
  - eapply (run_with c (fun _ _ => True) k_all); eauto. apply body_run in E. exact E.
  - eapply body_inc_phase; eauto.
Qed.

Theorem reach_inc_phase :
  (forall w w', Inv2 w None -> clock0 w -> IncB w -> A w None -> ostep c w w' -> A w' None) ->
  forall w, reach c w -> A w None.
Proof.
  intros Ho w H. induction H as [tm|w o w' H IH Hok Hx E|w w' H IH Hf E|w H IH].
  - apply H0.
  - pose proof (reach_Inv2 _ _ H) as I. pose proof (reach_clock _ _ H) as C. pose proof (reach_IncB _ _ H) as J.
    apply apply_op_osteps in E; auto. clear H Hok. induction E; auto.
    apply IHE; [eapply Ho; eauto|eapply ostep_Inv2; eauto|eapply ostep_clock; eauto|eapply ostep_IncB; eauto].
  - eapply tick_inc_phase; eauto; [eapply reach_Inv2; eauto|eapply reach_IncB; eauto].
  - pose proof (reach_Inv2 _ _ H) as I. pose proof (reach_IncB _ _ H) as J.
    eapply (HA VTime w None); eauto; [apply IncOK_A; destruct J; auto|constructor].
Qed.

Theorem reachP_inc_phase : forall P,
  (forall o w w', reachP c P w -> Inv2 w None -> IncB w -> A w None -> op_ok o w -> P o w ->
     (forall a, o <> OExec a) -> apply_op c o w = Ok w' -> A w' None) ->
  forall w, reachP c P w -> A w None.
Proof.
  intros P Ho w H. apply (reachP_ind' c P (fun w => A w None)); [auto| |exact H].
  intros a b R Ha S. pose proof (reachP_reach _ _ _ R) as R'. pose proof (reach_Inv2 _ _ R') as I.
  pose proof (reach_IncB _ _ R') as J. destruct S as [a o b K1 K2 K3 K4|a b K1 K2|a].
  - eapply Ho; eauto.
  - eapply tick_inc_phase; eauto.
  - eapply (HA VTime a None); eauto; [apply IncOK_A; destruct J; auto|constructor].
Qed.
End Scheme.
