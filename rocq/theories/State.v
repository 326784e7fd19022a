(** * State: consequences of the structural invariant in the vocabulary of Spec. *)
From Verif Require Import Base Types Sim Build Heap FrameBase Tac Frame Lists Inv Eff Eff2 Trace InvStep Reach Steps Spec.

Lemma times_nodup : forall l, NoDup l -> forall x, times x l <= 1 /\ (times x l = 1 <-> In x l).
Proof.
  intros l H x. unfold times. pose proof (proj1 (NoDup_count_occ Nat.eq_dec l) H x) as K.
  pose proof (count_occ_In Nat.eq_dec l x). split; auto. rewrite H0. lia.
Qed.

Lemma Inv1_books : forall w, Inv1 w None -> books_agree w.
Proof.
  intros w [T I].
  assert (ED : forall l, Dq w None l = l_vehs (L w l)) by (intro; apply Dq_none).
  constructor; unfold exists_veh, exists_link, exists_node, on_link, waiting_at; intros.
  - rewrite (proj2 (times_nodup _ (s_living_nd I) v)). apply (s_living I).
  - apply (times_nodup _ (s_living_nd I) v).
  - rewrite (proj2 (times_nodup _ (s_running_nd I) v)). apply (s_running I).
  - apply (times_nodup _ (s_running_nd I) v).
  - pose proof (s_D_nd I l) as Nd. rewrite ED in Nd.
    rewrite (proj2 (times_nodup _ Nd v)), <- ED, (s_D I). intuition congruence.
  - pose proof (s_D_nd I l) as Nd. rewrite ED in Nd. apply (times_nodup _ Nd v).
  - apply (s_link I); auto. discriminate.
  - rewrite (proj2 (times_nodup _ (s_queue_nd I n) v)). apply (s_queue I).
  - apply (times_nodup _ (s_queue_nd I n) v).
  - apply (s_orig I); auto.
Qed.

Theorem books_lemma : forall c w, reach c w -> books_agree w.
Proof. intros c w H. apply Inv1_books. exact (proj1 (reach_Inv2 c w H)). Qed.

(** no vehicle is lost: what exists keeps existing *)
Lemma ostep_counts : forall c w w', ostep c w w' ->
  w_nn w <= w_nn w' /\ w_nl w <= w_nl w' /\ w_nv w <= w_nv w'.
Proof.
  intros c w w' H. destruct H; unfold wkeep in *.
  - cbn; lia.
  - cbn; lia.
  - cbn; lia.
  - apply finalize_ss in H0. destruct H0 as [_ E _ _]. injection E as -> -> -> _ _. auto.
  - replace (w_nn w') with (w_nn w) by congruence. replace (w_nl w') with (w_nl w) by congruence.
    replace (w_nv w') with (w_nv w) by congruence. auto.
  - replace (w_nn w') with (w_nn w) by congruence. replace (w_nl w') with (w_nl w) by congruence.
    replace (w_nv w') with (w_nv w) by congruence. auto.
Qed.

Theorem counts_grow : forall c P w w', reach c w -> later c P w w' ->
  w_nn w <= w_nn w' /\ w_nl w <= w_nl w' /\ w_nv w <= w_nv w'.
Proof.
  intros c P. apply (later_rel c (fun w w' => w_nn w <= w_nn w' /\ w_nl w <= w_nl w' /\ w_nv w <= w_nv w')); auto.
  - intros; lia.
  - intros e w p w' p' _ H. apply mstep_fr in H. rewrite (fr_w_nn H), (fr_w_nl H), (fr_w_nv H). auto.
  - intros w w' _ H. eapply ostep_counts; eauto.
Qed.

(** lanes *)
Theorem lanes_lemma : forall c w l i v, reach c w -> nth_error (l_vehs (L w l)) i = Some v ->
  v_lane (V w v) < l_lanes (L w l) /\
  v_leader (V w v) = ahead w l i (l_lanes (L w l)) /\
  (forall u, v_leader (V w v) = Some u ->
     v_lane (V w u) = v_lane (V w v) /\ v_link (V w u) = Some l /\ v_follower (V w u) = Some v).
Proof.
  intros c w l i v H Hi. destruct (reach_Inv2 c w H) as [[T I] _]. rewrite <- Dq_none in Hi.
  pose proof (s_lane I _ _ Hi) as [La _]. pose proof (s_leader I _ _ Hi) as Le.
  split; [auto|]. split; [rewrite Le, Dq_none; reflexivity|].
  intros u Hu. rewrite Le in Hu. destruct (i <? l_lanes (L w l)) eqn:Ei; [discriminate|].
  apply Nat.ltb_ge in Ei. set (m := l_lanes (L w l)) in *.
  assert (Hl : l < w_nl w) by (eapply In_D_lt; [exact I|eapply nth_error_In; eauto]).
  assert (Hm : 1 <= m) by (apply (t_lanes T); auto).
  split; [|split].
  - (* lanes advance by one per place *)
    assert (K : forall d j a b, nth_error (Dq w None l) j = Some a -> nth_error (Dq w None l) (j + d) = Some b ->
              v_lane (V w b) = (v_lane (V w a) + d) mod m).
    { induction d; intros j a b Ha Hb.
      - rewrite Nat.add_0_r in Hb. assert (a = b) by congruence. subst b.
        rewrite Nat.add_0_r, Nat.mod_small; auto. apply (s_lane I _ _ Ha).
      - destruct (nth_error (Dq w None l) (j + d)) as [x|] eqn:Ex.
        + rewrite Nat.add_succ_r in Hb. destruct (s_lane I _ _ Ex) as [_ Kx]. rewrite (Kx _ Hb).
          rewrite (IHd _ _ _ Ha Ex). fold m. rewrite Nat.add_mod_idemp_l by lia. f_equal; lia.
        + apply nth_error_None in Ex. assert (nth_error (Dq w None l) (j + S d) <> None) as K by congruence.
          apply nth_error_Some in K. lia. }
    assert (Hi' : nth_error (Dq w None l) (i - m + m) = Some v) by (rewrite Nat.sub_add by lia; auto).
    rewrite (K m _ _ _ Hu Hi').
    assert (v_lane (V w u) < m) by apply (s_lane I _ _ Hu).
    rewrite <- Nat.add_mod_idemp_r, Nat.mod_same, Nat.add_0_r, Nat.mod_small by lia; auto.
  - apply nth_error_In in Hu. apply (s_D I) in Hu. tauto.
  - rewrite (s_follower I _ _ Hu). fold m. rewrite Nat.sub_add by lia. auto.
Qed.
