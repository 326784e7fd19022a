(** * Average: Analyzer.average_speed (uxsim.py 1529-1549). *)
From Verif Require Import Base Types Sim Build Heap Lists Inv FrameBase Tac Frame Eff Eff2 Trace InvStep Reach Steps Effects Phases Attr Life Incoming Vev Ride TripLog Route Signal Green Choice Enforce Counts LinkQueries FD NodeCap Origin Bucket Outflow Trials Motion Spacing Spec Distance Totals SpecAvg.
Local Open Scope nat_scope.

(** ** Only record_log changes the average *)
Definition avw (w : world) := (w_avgspd w, w_avgcnt w).
#[local] Transparent attach record_log.

Lemma av_attach : forall v o w w', attach v o w = Ok w' -> avw w' = avw w.
Proof.
  intros v o w w' H. unfold attach in H. cbn zeta in H.
  destruct (_ <=? _) in H; [|injection H as <-; reflexivity].
  destruct (from_end _ _) in H; [|discriminate].
  destruct (Nat.eqb _ _) in H; [|discriminate]. injection H as <-. reflexivity.
Qed.
Lemma av_log_end : forall c v b w, v_state (V w v) = End_ \/ v_state (V w v) = Abort -> avw (record_log c v b w) = avw w.
Proof.
  intros c v b w H. unfold record_log. cbn zeta.
  destruct (opt_eqb (v_link (V w v)) (v_linkold (V w v)));
  destruct (_ && _)%bool; destruct (v_state (V w v)); destruct H as [H|H]; try discriminate H; reflexivity.
Qed.
Lemma av_log : forall c v w,
  match log_rows c w v false with
  | [] => avw (record_log c v false w) = avw w
  | r :: _ => match v_state (V w v) with
              | Run => w_avgcnt (record_log c v false w) = S (w_avgcnt w) /\ g_state r = Run /\ g_v r = Some (v_v (V w v)) /\
                       (w_avgspd (record_log c v false w) == w_avgspd w + (v_v (V w v) - w_avgspd w) / Qof_nat (S (w_avgcnt w)))%Q
              | Wait => w_avgcnt (record_log c v false w) = S (w_avgcnt w) /\ g_state r = Wait /\ w_avgspd (record_log c v false w) = w_avgspd w
              | s => avw (record_log c v false w) = avw w /\ g_state r = s
              end
  end.
Proof.
  intros c v w. unfold record_log, log_rows. cbn zeta.
  destruct (_ && _)%bool; [|destruct (opt_eqb _ _); reflexivity].
  destruct (v_state (V w v)); destruct (opt_eqb (v_link (V w v)) (v_linkold (V w v))); cbn [g_state g_v]; try (split; reflexivity);
  try (split; [reflexivity|]; split; reflexivity); (split; [reflexivity|]; split; [reflexivity|]; split; [reflexivity|]; apply Qred_correct).
Qed.
#[local] Opaque attach record_log.
Lemma av_link : forall c l w w', link_update c l w = Ok w' -> avw w' = avw w.
Proof. intros c l w w' H. unfold link_update in H. binv H. reflexivity. Qed.
Lemma av_node : forall c l w w', node_update c l w = Ok w' -> avw w' = avw w.
Proof. intros c l w w' H. unfold node_update in H. binv H. reflexivity. Qed.
Lemma av_follow : forall c l w w', carfollow c l w = Ok w' -> avw w' = avw w.
Proof. intros c l w w' H. unfold carfollow in H. binv H. reflexivity. Qed.
Lemma av_pref : forall c v q w w', route_pref_update c v q w = Ok w' -> avw w' = avw w.
Proof. intros c v q w w' H. unfold route_pref_update in H. binv H; reflexivity. Qed.
Lemma av_dest : forall c v d o w w', add_dest c v d o w = Ok w' -> avw w' = avw w.
Proof. intros c v d o w w' H. unfold add_dest in H. destruct (v_mode _); [discriminate|].
  destruct (v_dest _); [injection H as <-; reflexivity|]. apply av_pref in H. exact H.
Qed.
Lemma av_event : forall c e w w', run_event c e w = Ok w' -> avw w' = avw w.
Proof.
  intros c e w w' H. destruct e; cbn [run_event] in H; cbn zeta in H.
  - apply bind_ok in H. destruct H as (u & _ & H). apply bind_ok in H. destruct H as (w1 & H1 & H).
    apply av_dest in H1. apply bind_ok in H. destruct H as (x & _ & H). injection H as <-. exact H1.
  - apply bind_ok in H. destruct H as (u & _ & H). apply bind_ok in H. destruct H as (x & _ & H). injection H as <-. reflexivity.
Qed.
Lemma av_choose_pref : forall c ps xs w x w', choose_pref c ps xs w = Ok (x, w') -> avw w' = avw w.
Proof.
  intros c ps xs w x w' H. unfold choose_pref, choice_p, choice_uniform, draw in H. cbn zeta in H. binv H; reflexivity.
Qed.
Lemma av_choice : forall c v w w', route_next_link_choice c v w = Ok w' -> avw w' = avw w.
Proof.
  intros c v w w' H. unfold route_next_link_choice in H. cbn zeta in H.
  apply bind_ok in H. destruct H as (l & _ & H).
  destruct (v_spec (V w v)).
  - destruct (n_out _) in H; [injection H as <-; reflexivity|].
    destruct (nth_error _ _) in H; [|discriminate]. destruct (mem _ _) in H; [|discriminate]. injection H as <-. reflexivity.
  - destruct (opt_eqb _ _) in H; [injection H as <-; reflexivity|].
    destruct (n_out _) eqn:En in H; [injection H as <-; reflexivity|].
    apply bind_ok in H. destruct H as (o2 & _ & H). apply bind_ok in H. destruct H as (ps & _ & H).
    apply bind_ok in H. destruct H as ([x w1] & H1 & H). apply av_choose_pref in H1. injection H as <-. exact H1.
Qed.
Lemma av_enter : forall c n v o w w', gen_enter c n v o w = Ok w' -> avw w' = avw w.
Proof.
  intros c n v o w w' H. cbv beta delta [gen_enter] in H. cbn zeta in H.
  apply bind_ok in H. destruct H as (w1 & H1 & H). apply av_attach in H1.
  apply bind_ok in H. destruct H as (ca & _ & H). injection H as <-. exact H1.
Qed.
Lemma av_shift : forall c n o v w l w', transfer_shift c n o v w = Ok (l, w') -> avw w' = avw w.
Proof.
  intros c n o v w l w' H. cbv beta delta [transfer_shift] in H. cbn zeta in H.
  apply bind_ok in H. destruct H as (il & _ & H).
  apply bind_ok in H. destruct H as (cd & _ & H).
  apply bind_ok in H. destruct H as (ca & _ & H).
  destruct (l_vehs _) in H; [discriminate|].
  apply bind_ok in H. destruct H as (w1 & H1 & H). apply av_attach in H1.
  apply bind_ok in H. destruct H as (q & _ & H). injection H as _ <-.
  etransitivity; [|etransitivity; [exact H1|]]; [reflexivity|].
  destruct (v_follower _); destruct (n_fcap _); reflexivity.
Qed.
Lemma av_fin : forall c v x, v_state (V x v) = End_ ->
  avw (let w := if v_aborted (V x v) then modv v (fun a => sv_tt (-1)%Q (sv_arr (-1)%Z (sv_state Abort a))) x else x in
       let w := record_log c v true w in if c_delpref c then modv v (sv_pref PrefNone) w else w) = avw x.
Proof.
  intros c v x H. cbv zeta. destruct (c_delpref c); [change (avw (modv v (sv_pref PrefNone) ?x)) with (avw x)|];
  (rewrite av_log_end; [destruct (v_aborted _); reflexivity|]);
  (destruct (v_aborted _); [right; rewrite V_at, Nat.eqb_refl; reflexivity|left; exact H]).
Qed.
Lemma st_modv : forall u f x v s, (forall a, v_state (f a) = v_state a) -> v_state (V x v) = s -> v_state (V (modv u f x) v) = s.
Proof. intros u f x v s H K. rewrite V_at. destruct (Nat.eqb v u) eqn:E; [|exact K]. apply Nat.eqb_eq in E. subst. rewrite H. reflexivity. Qed.
Lemma st_set : forall x v s, v_state (V (modv v (sv_state s) x) v) = s.
Proof. intros. rewrite V_at, Nat.eqb_refl. reflexivity. Qed.
Lemma st_living : forall q x v s, v_state (V x v) = s -> v_state (V (sw_living q x) v) = s. Proof. intros. exact H. Qed.
Lemma st_running : forall q x v s, v_state (V x v) = s -> v_state (V (sw_running q x) v) = s. Proof. intros. exact H. Qed.
Lemma st_modl : forall l f x v s, v_state (V x v) = s -> v_state (V (modl l f x) v) = s. Proof. intros. exact H. Qed.
Lemma ok_inj : forall A (a b : A), Ok a = Ok b -> a = b.
Proof. intros A a b H. congruence. Qed.
Lemma av_end : forall c v w w', end_trip c v w = Ok w' -> avw w' = avw w.
Proof.
  intros c v w w' H. cbv beta delta [end_trip] in H. cbn zeta in H.
  apply bind_ok in H. destruct H as (l & _ & H).
  apply bind_ok in H. destruct H as (cd & _ & H).
  destruct (l_vehs _) in H; [discriminate|].
  destruct (negb (mem v _)) in H; [discriminate|].
  destruct (negb (mem v _)) in H; [discriminate|].
  apply ok_inj in H. rewrite <- H. clear H w'.
  etransitivity; [apply av_fin|].
  - apply st_living, st_running, st_modv; [reflexivity|]. apply st_modl.
    match goal with |- v_state (V (match ?x with _ => _ end) v) = _ => destruct x end; [apply st_modv; [reflexivity|]|]; apply st_modl, st_modl, st_set.
  - match goal with |- avw ?x = _ => match x with context [match v_follower ?y with _ => _ end] => destruct (v_follower y) end end; reflexivity.
Qed.

Definition no_log (e : ev) : bool := match e with VLog _ => false | _ => true end.
Lemma av_search : forall c w w', route_search_all c w = Ok w' -> avw w' = avw w.
Proof. intros c w w' H. unfold route_search_all in H. binv H; reflexivity. Qed.
Lemma av_duo : forall c w, avw (homogeneous_DUO_update c w) = avw w.
Proof. intros c w. unfold homogeneous_DUO_update. cbn zeta. try reflexivity. Qed.
Lemma mstep_av : forall c e w p w' p', no_log e = true -> mstep c e w p w' p' -> avw w' = avw w.
Proof.
  intros c e w p w' p' K M. destruct M; try discriminate K; try reflexivity;
  eauto using av_link, av_enter, av_node, av_shift, av_end, av_follow, av_event, av_pref, av_choice, av_search, av_duo.
Qed.

(** ** The logs *)
Lemma run_speeds_app : forall a b, run_speeds (a ++ b) = run_speeds a ++ run_speeds b.
Proof. intros. unfold run_speeds. apply flat_map_app. Qed.
Lemma wait_rows_app : forall a b, wait_rows (a ++ b) = wait_rows a + wait_rows b.
Proof. intros. unfold wait_rows. rewrite filter_app, app_length. reflexivity. Qed.

Lemma mstep_logs : forall c e w p w' p' v, Inv2 w p -> mstep c e w p w' p' -> e <> VLog v ->
  run_speeds (v_log (V w' v)) = run_speeds (v_log (V w v)) /\ wait_rows (v_log (V w' v)) = wait_rows (v_log (V w v)).
Proof.
  intros c e w p w' p' v I M He.
  pose proof (mstep_vev c e w p w' p' I M v) as K.
  cut (v_log (V w' v) = v_log (V w v) \/ exists r, v_log (V w' v) = v_log (V w v) ++ [r] /\ (g_state r = End_ \/ g_state r = Abort)).
  { intros [-> |(r & -> & Hr)]; [auto|]. rewrite run_speeds_app, wait_rows_app. unfold run_speeds at 2, wait_rows at 2. cbn.
    destruct Hr as [-> | ->]; cbn; rewrite app_nil_r; split; auto. }
  remember (V w' v) as b eqn:Eb. clear Eb M.
  destruct K as [E|n out q E2 E3 E4 E5 E6 E7 E8 E9|n out il q ld ln E2 E3 E4 E5 E6 E7 E8 E9 E10 E11 E12|l tl lg E2 E3 E4 E5 E6 E7 E8 E9|l E2 E3 E4|E2 E3 E4|E2 E3 E4 E5 E6|E2 E3 E4 E5|l E2 E3 E4 E5|l E2 E3 E4 E5 E6 E7|l nx E2 E3 E4 E5 E6].
  - left. apply vride_vx in E. unfold vx in E. congruence.
  - left. subst b. pose proof (gen_vx c w out (V w v)) as A. unfold vx in A. remember (gen_veh c w out (V w v)) as g eqn:Eg. clear Eg. congruence.
  - left. subst b. pose proof (moved_vx c w out ld ln q (V w v)) as A. unfold vx in A. remember (moved c w out ld ln q (V w v)) as g eqn:Eg. clear Eg. congruence.
  - assert (Es : v_state (ended c w (V w v)) = End_ \/ v_state (ended c w (V w v)) = Abort).
    { clear. generalize (V w v) as a. intro a. unfold ended. cbn zeta. destruct (v_aborted _); [right|left]; reflexivity. }
    apply ended_fields in E9. destruct E9 as (_ & _ & _ & B & _). rewrite B, E7. destruct (negb _); [|left; apply app_nil_r].
    right. eexists. split; [reflexivity|]. exact Es.
  - left. subst b. pose proof (followed_vx c w l (V w v)) as A. unfold vx in A. remember (followed c w l (V w v)) as g eqn:Eg. clear Eg. congruence.
  - congruence.
  - left. subst b. reflexivity.
  - left. subst b. pose proof (driven_vx c (V w v)) as A. unfold vx in A. remember (driven c (V w v)) as g eqn:Eg. clear Eg. congruence.
  - left. subst b. reflexivity.
  - left. subst b. reflexivity.
  - left. subst b. reflexivity.
Qed.
Lemma mstep_logged : forall c w p w' p' v, Inv2 w p -> mstep c (VLog v) w p w' p' ->
  w' = record_log c v false w /\ v_log (V w' v) = v_log (V w v) ++ log_rows c w v false /\ v < w_nv w.
Proof.
  intros c w p w' p' v I M. inversion M; subst. split; [reflexivity|]. split.
  - rewrite record_log_V, Nat.eqb_refl. reflexivity.
  - destruct I as [[_ I] _]. apply (s_living I) in H0. tauto.
Qed.

(** ** Sums over the vehicles *)
Lemma list_sum_change : forall (f g : nat -> nat) ls v, NoDup ls -> In v ls -> (forall u, u <> v -> g u = f u) ->
  list_sum (map g ls) + f v = list_sum (map f ls) + g v.
Proof.
  intros f g ls v Nd Hi H. induction ls as [|a ls IH]; [destruct Hi|]. inversion Nd; subst. cbn.
  destruct Hi as [-> |Hi].
  - assert (E : map g ls = map f ls) by (apply map_ext_in; intros u Hu; apply H; intros ->; contradiction). rewrite E. unfold list_sum. lia.
  - specialize (IH H3 Hi). rewrite (H a) by (intros ->; contradiction). unfold list_sum in *. lia.
Qed.
Lemma qsum_app : forall a b, (qsum (a ++ b) == qsum a + qsum b)%Q.
Proof. intros a b. induction a as [|x a IH]; cbn; [ring|]. rewrite IH. ring. Qed.
Lemma flat_length : forall (f : nat -> list Q) ls, List.length (flat_map f ls) = list_sum (map (fun v => List.length (f v)) ls).
Proof. intros f ls. induction ls as [|a ls IH]; [reflexivity|]. cbn. rewrite app_length, IH. reflexivity. Qed.
Lemma flat_change : forall (f g : nat -> list Q) ls v x, NoDup ls -> In v ls -> (forall u, u <> v -> g u = f u) -> g v = f v ++ x ->
  (qsum (flat_map g ls) == qsum (flat_map f ls) + qsum x)%Q /\ List.length (flat_map g ls) = List.length (flat_map f ls) + List.length x.
Proof.
  intros f g ls v x Nd Hi H Hv. induction ls as [|a ls IH]; [destruct Hi|]. inversion Nd; subst. cbn [flat_map].
  rewrite !qsum_app, !app_length. destruct Hi as [-> |Hi].
  - assert (E : flat_map g ls = flat_map f ls).
    { clear - H H2. induction ls as [|b ls IH]; [reflexivity|]. cbn. rewrite IH by (intro; apply H2; right; auto). rewrite H; [reflexivity|]. intros ->. apply H2. left; auto. }
    rewrite E, Hv, qsum_app, app_length. split; [ring|lia].
  - destruct (IH H3 Hi) as (I1 & I2). rewrite (H a) by (intros ->; contradiction). rewrite I1, I2. split; [ring|lia].
Qed.
Lemma flat_same : forall (f g : nat -> list Q) ls, (forall u, In u ls -> g u = f u) -> flat_map g ls = flat_map f ls.
Proof. intros f g ls H. induction ls as [|b ls IH]; [reflexivity|]. cbn. rewrite IH by (intros; apply H; right; auto). rewrite H by (left; auto). reflexivity. Qed.

Definition AvgOK (w : world) : Prop :=
  w_avgcnt w = List.length (all_speeds w) + all_waits w /\
  (all_waits w = 0 -> (w_avgspd w * Qof_nat (w_avgcnt w) == qsum (all_speeds w))%Q).

Lemma avg_same : forall w w', avw w' = avw w -> w_nv w' = w_nv w ->
  (forall v, v < w_nv w -> run_speeds (v_log (V w' v)) = run_speeds (v_log (V w v)) /\ wait_rows (v_log (V w' v)) = wait_rows (v_log (V w v))) ->
  AvgOK w -> AvgOK w'.
Proof.
  intros w w' A N H (K1 & K2). unfold avw in A. injection A as A1 A2.
  assert (E1 : all_speeds w' = all_speeds w) by (unfold all_speeds; rewrite N; apply flat_same; intros u Hu; apply in_seq in Hu; apply H; lia).
  assert (E2 : all_waits w' = all_waits w) by (unfold all_waits; rewrite N; f_equal; apply map_ext_in; intros u Hu; apply in_seq in Hu; apply H; lia).
  unfold AvgOK. rewrite E1, E2, A1, A2. auto.
Qed.

Lemma Qof_nat_S : forall n, (Qof_nat (S n) == Qof_nat n + 1)%Q.
Proof. intro n. unfold Qof_nat. rewrite Nat2Z.inj_succ, <- Z.add_1_r, inject_Z_plus. reflexivity. Qed.
Lemma avg_plus : forall a x n s, (a * Qof_nat n == s)%Q -> ((a + (x - a) / Qof_nat (S n)) * Qof_nat (S n) == s + x)%Q.
Proof.
  intros a x n s H. assert (P : (0 < Qof_nat (S n))%Q) by (rewrite Qof_nat_S; unfold Qof_nat; assert (0 <= inject_Z (Z.of_nat n))%Q by (change 0%Q with (inject_Z 0); rewrite <- Zle_Qle; lia); lra).
  assert (N : ~ (Qof_nat (S n) == 0)%Q) by lra.
  transitivity (a * Qof_nat (S n) + (x - a))%Q; [field; exact N|]. rewrite Qof_nat_S. rewrite <- H. ring.
Qed.

Lemma mstep_AvgOK : forall c e w p w' p', Inv2 w p -> mstep c e w p w' p' -> AvgOK w -> AvgOK w'.
Proof.
  intros c e w p w' p' I M A. pose proof (mstep_fr M) as F. pose proof (fr_w_nv F) as Nv.
  assert (Dec : no_log e = true \/ exists v, e = VLog v) by (destruct e; eauto).
  destruct Dec as [He|(v & ->)].
  - apply (avg_same w); auto; [eapply mstep_av; eauto|]. intros v Hv. eapply mstep_logs; eauto. intros ->. discriminate.
  - destruct (mstep_logged c w p w' p' v I M) as (E & El & Hv).
    assert (Oth : forall u, u <> v -> v_log (V w' u) = v_log (V w u)).
    { intros u Hu. rewrite E, record_log_V. apply Nat.eqb_neq in Hu. rewrite Hu. reflexivity. }
    assert (Iv : In v (seq 0 (w_nv w))) by (apply in_seq; lia).
    destruct (flat_change (fun u => run_speeds (v_log (V w u))) (fun u => run_speeds (v_log (V w' u))) (seq 0 (w_nv w)) v (run_speeds (log_rows c w v false)) (seq_NoDup _ _) Iv) as (S1 & S2).
    { intros u Hu. cbn beta. rewrite Oth by exact Hu. reflexivity. }
    { cbn beta. rewrite El. apply run_speeds_app. }
    pose proof (list_sum_change (fun u => wait_rows (v_log (V w u))) (fun u => wait_rows (v_log (V w' u))) (seq 0 (w_nv w)) v (seq_NoDup _ _) Iv) as S3.
    cbv beta in S3. rewrite El, wait_rows_app in S3. specialize (S3 ltac:(intros u Hu; rewrite Oth by exact Hu; reflexivity)).
    assert (X1 : (qsum (all_speeds w') == qsum (all_speeds w) + qsum (run_speeds (log_rows c w v false)))%Q) by (unfold all_speeds; rewrite Nv; exact S1).
    assert (X2 : List.length (all_speeds w') = List.length (all_speeds w) + List.length (run_speeds (log_rows c w v false))) by (unfold all_speeds; rewrite Nv; exact S2).
    assert (X3 : all_waits w' = all_waits w + wait_rows (log_rows c w v false)) by (unfold all_waits; rewrite Nv; lia).
    clear S1 S2 S3. destruct A as (A1 & A2). pose proof (av_log c v w) as G. rewrite <- E in G. clear E M.
    assert (Len : List.length (log_rows c w v false) <= 1).
    { unfold log_rows. cbn zeta. destruct (_ && _)%bool; [|cbn; lia]. destruct (v_state (V w v)); cbn; lia. }
    destruct (log_rows c w v false) as [|r [|]]; [| |cbn in Len; lia].
    + unfold avw in G. injection G as G1 G2. cbn in X1, X2, X3. rewrite Qplus_0_r in X1. unfold AvgOK. rewrite X2, X3, G1, G2, !Nat.add_0_r. split; [exact A1|].
      intro Z. rewrite X1. apply A2, Z.
    + unfold run_speeds, wait_rows in X1, X2, X3. cbn in X1, X2, X3.
      destruct (v_state (V w v)).
      1,4,5: destruct G as (G & Gs); rewrite Gs in X1, X2, X3; cbn in X1, X2, X3; rewrite Qplus_0_r in X1; unfold avw in G; injection G as G1 G2;
        unfold AvgOK; rewrite X2, X3, G1, G2, !Nat.add_0_r; split; [exact A1|]; intro Z; rewrite X1; apply A2, Z.
      * destruct G as (G1 & Gs & G2). rewrite Gs in X1, X2, X3. cbn in X1, X2, X3. unfold AvgOK. rewrite G1, X2, X3. split; [lia|]. intro Z. lia.
      * destruct G as (G1 & Gs & Gv & G2). rewrite Gs, Gv in X1, X2. rewrite Gs in X3. cbn in X1, X2, X3. unfold AvgOK. rewrite G1, X2, X3. split; [lia|].
        intro Z. rewrite X1, G2, Qplus_0_r. apply avg_plus, A2. lia.
Qed.

(** ** Histories *)
Definition AvgInv (w : world) : Prop :=
  AvgOK w /\ (w_final w = false -> forall v, v < w_nv w -> v_log (V w v) = []).

Lemma empty_avg : forall w, w_avgcnt w = 0 -> (forall v, v < w_nv w -> v_log (V w v) = []) -> AvgOK w.
Proof.
  intros w H K.
  assert (E1 : all_speeds w = []).
  { unfold all_speeds. rewrite (flat_same (fun _ => [])); [|intros u Hu; apply in_seq in Hu; rewrite K by lia; reflexivity]. generalize (seq 0 (w_nv w)). intro l. induction l; auto. }
  assert (E2 : all_waits w = 0).
  { unfold all_waits. rewrite (map_ext_in _ (fun _ => 0)); [|intros u Hu; apply in_seq in Hu; rewrite K by lia; reflexivity]. generalize (seq 0 (w_nv w)). intro l. induction l; auto. }
  unfold AvgOK. rewrite H, E1, E2. split; [reflexivity|]. intros _. unfold Qof_nat. cbn. ring.
Qed.

Lemma ostep_avg : forall c w w', ostep c w w' -> AvgInv w -> AvgInv w'.
Proof.
  intros c w w' H (A & B). destruct H as [a nd w H1 H2 H3|a k w H1 H2 H3 H4 H5|a nl nm pv w H1 H2 H3 H4 H5 H6 H7|tm w w' H1 H2|w w' H1 H2 H3 H4 H5|w w' H1 H2 H3 H4].
  - split; [|exact B]. apply (avg_same w); auto.
  - split; [|exact B]. apply (avg_same w); auto.
  - assert (Old : forall u, u < w_nv w -> V (added_veh (new_vehicle c a nl nm) pv w) u = V w u) by (intros u Hu; unfold V; cbn; rewrite upd_other by lia; reflexivity).
    assert (New : v_log (V (added_veh (new_vehicle c a nl nm) pv w) (w_nv w)) = []) by (unfold V; cbn; rewrite upd_same; reflexivity).
    split.
    + remember (added_veh (new_vehicle c a nl nm) pv w) as w' eqn:E.
      assert (E1 : w_nv w' = S (w_nv w)) by (rewrite E; reflexivity). assert (E2 : avw w' = avw w) by (rewrite E; reflexivity). clear E.
      unfold avw in E2. injection E2 as E2 E3.
      assert (X1 : all_speeds w' = all_speeds w).
      { unfold all_speeds. rewrite E1, seq_S, flat_map_app. cbn [flat_map]. rewrite Nat.add_0_l. rewrite New. cbn. rewrite app_nil_r. apply flat_same. intros u Hu. apply in_seq in Hu. rewrite Old by lia. reflexivity. }
      assert (X2 : all_waits w' = all_waits w).
      { unfold all_waits. rewrite E1, seq_S, map_app. cbn [map]. rewrite Nat.add_0_l. rewrite New. unfold list_sum. rewrite fold_right_app. cbn. f_equal. apply map_ext_in. intros u Hu. apply in_seq in Hu. rewrite Old by lia. reflexivity. }
      unfold AvgOK. rewrite X1, X2, E2, E3. exact A.
    + intros F u Hu. change (w_final (added_veh (new_vehicle c a nl nm) pv w)) with (w_final w) in F. cbn in Hu.
      destruct (Nat.eq_dec u (w_nv w)) as [-> |Hn]; [exact New|]. rewrite Old by lia. apply B; [exact F|lia].
  - pose proof (finalize_ok _ _ _ _ H2) as Z.
    assert (Ev : forall v, V w' v = V w v) by (intro v; unfold V; rewrite (fz_V _ _ _ Z); reflexivity).
    assert (En : w_nv w' = w_nv w) by (pose proof (fz_cnt _ _ _ Z) as Zc; injection Zc; auto).
    split; [|intro F; rewrite (fz_final _ _ _ Z) in F; discriminate].
    apply empty_avg.
    + unfold finalize in H2. cbn zeta in H2. apply bind_ok in H2. destruct H2 as (w1 & _ & H2). injection H2 as <-. reflexivity.
    + intros v Hv. rewrite Ev. apply B; [exact H1|lia].
  - unfold wkeep in H4. assert (Kl : forall v, v_log (V w' v) = v_log (V w v)) by (intro v; specialize (H1 v); unfold vkeep in H1; congruence).
    split.
    + apply (avg_same w); auto; [unfold avw; congruence|congruence|]. intros v _. rewrite Kl. auto.
    + intros F v Hv. rewrite Kl. apply B; [congruence|]. replace (w_nv w) with (w_nv w') by congruence. exact Hv.
  - unfold wkeep in H4. assert (Kl : forall v, v_log (V w' v) = v_log (V w v)) by (intro v; unfold V; rewrite H1; reflexivity).
    split.
    + apply (avg_same w); auto; [unfold avw; congruence|congruence|]. intros v _. rewrite Kl. auto.
    + intros F v Hv. rewrite Kl. apply B; [congruence|]. replace (w_nv w) with (w_nv w') by congruence. exact Hv.
Qed.

Theorem reach_avg : forall c w, reach c w -> AvgInv w.
Proof.
  intros c w R. induction R as [tm|w o w' R IH Ho Hx H|w w' R IH Hf H|w R IH].
  - split; [|intros _ v Hv; cbn in Hv; lia]. apply empty_avg; [reflexivity|]. intros v Hv. cbn in Hv. lia.
  - pose proof (apply_op_osteps _ _ _ _ Ho Hx H) as O. clear - O IH. induction O as [w|a b d O1 O IHO]; auto. apply IHO. eapply ostep_avg; eauto.
  - unfold tick in H. apply bind_ok in H. destruct H as (w1 & Hb & H). apply ok_inj in H. rewrite <- H. clear H w'.
    pose proof (body_run _ _ Hb) as Rn. pose proof (body_fr _ _ Hb) as F.
    assert (K : AvgOK w1).
    { destruct Rn as (es & _ & T). pose proof (reach_Inv2 c w R) as I0. destruct IH as (A & _). clear - T I0 A.
      revert T I0. generalize (@None (nat * nat)) at 1 3 as p. generalize (@None (nat * nat)) as q. intros q p T. revert A. induction T as [|e es w p w1 p1 w2 p2 M T IH]; intros A I0; [exact A|].
      apply IH; [eapply mstep_AvgOK; eauto|eapply mstep_Inv2; eauto]. }
    split; [exact K|]. intro Ff. change (w_final (sw_T (S (w_T w1)) w1)) with (w_final w1) in Ff. rewrite (fr_w_final F) in Ff. congruence.
  - exact IH.
Qed.

Theorem average_count : forall c w, reach c w -> w_avgcnt w = List.length (all_speeds w) + all_waits w.
Proof. intros c w R. exact (proj1 (proj1 (reach_avg c w R))). Qed.
Theorem average_lemma : forall c w, reach c w -> all_waits w = 0 -> all_speeds w <> [] ->
  (w_avgspd w == mean_speed w)%Q /\ (w_avgspd w == mean_run_speed w)%Q.
Proof.
  intros c w R Z N. destruct (reach_avg c w R) as ((A1 & A2) & _). specialize (A2 Z). unfold mean_speed, mean_run_speed. rewrite Z in *. rewrite Nat.add_0_r in *.
  assert (K : (w_avgspd w == qsum (all_speeds w) / Qof_nat (List.length (all_speeds w)))%Q); [|split; exact K].
  rewrite <- A2, A1. field. destruct (all_speeds w) as [|x xs]; [congruence|]. cbn [List.length]. rewrite Qof_nat_S. unfold Qof_nat.
  assert (0 <= inject_Z (Z.of_nat (List.length xs)))%Q by (change 0%Q with (inject_Z 0); rewrite <- Zle_Qle; lia). lra.
Qed.
