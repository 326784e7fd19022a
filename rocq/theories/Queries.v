(** * Queries: the queries of links against SpecQueries. *)
From Coq Require Import Sorted.
From Verif Require Import Base Types Sim Build Heap Lists Inv FrameBase Tac Frame Eff Eff2 Trace InvStep Reach Steps Effects Phases Attr Life Incoming Vev Ride TripLog Route Signal Green Choice Enforce Counts LinkQueries FD NodeCap Origin Bucket Outflow Trials Motion Spacing Spec Distance Totals SpecTT TTActual SpecQueries.
Local Open Scope nat_scope.

Lemma clamp_record : forall A c (l : list A) t x, (0 < dt c)%Q -> clamp_get l (slot c t) = Ok x <-> record_at c l t x.
Proof.
  intros A c l t x Hd. split.
  - intro H. unfold clamp_get in H. destruct (Z.leb_spec (Z.of_nat (List.length l)) (slot c t)) as [H1|H1].
    + right; right. split.
      * unfold slot in H1. assert (C : (inject_Z (Z.of_nat (List.length l)) <= t / dt c)%Q).
        { eapply Qle_trans; [|apply Qfloor_le]. rewrite <- Zle_Qle. exact H1. }
        unfold Qof_nat. apply (Qmult_le_r _ _ (dt c) Hd) in C. setoid_replace (t / dt c * dt c)%Q with t in C by (field; lra). exact C.
      * destruct (last_opt l); [|discriminate H]. injection H as <-. reflexivity.
    + destruct (Z.ltb_spec (slot c t) 0) as [H2|H2].
      * right; left. split.
        -- unfold slot in H2. destruct (Qlt_le_dec t 0) as [K|K]; [exact K|]. exfalso.
           assert (A1 : (0 <= t / dt c)%Q) by (apply Qle_shift_div_l; [exact Hd|lra]).
           apply Qfloor_resp_le in A1. change (Qfloor 0) with 0%Z in A1. lia.
        -- destruct (nth_error l 0); [|discriminate H]. injection H as <-. reflexivity.
      * left. exists (Z.to_nat (slot c t)). split; [destruct (nth_error l (Z.to_nat (slot c t))); [injection H as <-; reflexivity|discriminate H]|].
        unfold Qof_nat. rewrite Z2Nat.id by exact H2. unfold slot.
        pose proof (Qfloor_le (t / dt c)) as F1. pose proof (Qlt_floor (t / dt c)) as F2. rewrite inject_Z_plus in F2.
        assert (E : (t / dt c * dt c == t)%Q) by (field; lra). split.
        -- rewrite <- E at 2. apply Qmult_le_compat_r; [exact F1|lra].
        -- rewrite <- E at 1. apply Qmult_lt_compat_r; [exact Hd|exact F2].
  - intros [(k & H1 & H2 & H3)|[(H1 & H2)|(H1 & H2)]].
    + apply clamp_inside with (k := k); auto.
    + apply clamp_before; auto.
    + apply clamp_after; auto.
Qed.

(** C23 *)
Lemma queries_lemma : forall c k t, (0 < dt c)%Q ->
  (forall a, arrival_count c k t = Ok a <-> record_at c (l_ca k) t a) /\
  (forall d, departure_count c k t = Ok d <-> record_at c (l_cd k) t d) /\
  (forall x, instant_travel_time c k t = Ok x <-> record_at c (l_tti k) t x) /\
  (forall x, actual_travel_time c k t = Ok x <-> record_at c (l_tta k) t x).
Proof. intros c k t Hd. repeat split; apply clamp_record; exact Hd. Qed.

Lemma inflow_lemma : forall c k t0 t1 q, (0 < dt c)%Q -> inflow_between c k t0 t1 = Ok q ->
  exists a0 a1, record_at c (l_ca k) t0 a0 /\ record_at c (l_ca k) t1 a1 /\ ~ (t1 == t0)%Q /\ (q * (t1 - t0) == inject_Z (a1 - a0))%Q.
Proof.
  intros c k t0 t1 q Hd H. unfold inflow_between in H. apply bind_ok in H. destruct H as (a1 & H1 & H). apply bind_ok in H. destruct H as (a0 & H0 & H).
  apply qdiv_ok in H. destruct H as [H2 H3]. exists a0, a1. split; [apply (queries_lemma c k t0 Hd); exact H0|].
  split; [apply (queries_lemma c k t1 Hd); exact H1|]. split; [intro K; apply H2; lra|]. rewrite H3. field. exact H2.
Qed.

(** average_density, average_speed, average_flow *)
Lemma averages_lemma : forall c k t d s f, (0 < dt c)%Q -> average_density c k t = Ok d -> average_speed c k t = Ok s -> average_flow c k t = Ok f ->
  exists a e x, record_at c (l_ca k) t a /\ record_at c (l_cd k) t e /\ record_at c (l_tti k) t x /\
    (d * l_len k == inject_Z (a - e))%Q /\ (s * x == l_len k)%Q /\ (f == s * d)%Q.
Proof.
  intros c k t d s f Hd H1 H2 H3. unfold average_flow in H3. rewrite H2 in H3. cbn [bind] in H3. rewrite H1 in H3. cbn [bind] in H3. injection H3 as <-.
  unfold average_density in H1. apply bind_ok in H1. destruct H1 as (n & H1 & H4). unfold num_vehicles_t in H1.
  apply bind_ok in H1. destruct H1 as (a & A1 & H1). apply bind_ok in H1. destruct H1 as (e & A2 & H1). injection H1 as <-.
  unfold average_speed in H2. apply bind_ok in H2. destruct H2 as (x & A3 & H2). apply qdiv_ok in H4. apply qdiv_ok in H2.
  destruct H4 as [B1 B2]. destruct H2 as [B3 B4]. exists a, e, x.
  split; [apply (queries_lemma c k t Hd); exact A1|]. split; [apply (queries_lemma c k t Hd); exact A2|]. split; [apply (queries_lemma c k t Hd); exact A3|].
  split; [rewrite B2; field; exact B1|]. split; [rewrite B4; field; exact B3|]. reflexivity.
Qed.

(** ** vehicles_enter_log *)
Lemma dset_new : forall A k (x : A) d, Forall (fun j => j < k) (map fst d) -> map fst (dset k x d) = map fst d ++ [k].
Proof.
  intros A k x d H. induction d as [|[j y] d IH]; [reflexivity|]. cbn [map fst] in H. inversion H as [|? ? H1 H2]; subst.
  cbn [dset]. destruct (Nat.eqb_spec k j) as [->|_]; [lia|]. cbn [map fst app]. rewrite IH by exact H2. reflexivity.
Qed.
Lemma dset_old : forall A k (x : A) d, In k (map fst d) -> map fst (dset k x d) = map fst d.
Proof.
  intros A k x d H. induction d as [|[j y] d IH]; [elim H|]. cbn [dset]. destruct (Nat.eqb_spec k j) as [->|Hn]; [reflexivity|].
  cbn [map fst] in *. destruct H as [H|H]; [congruence|]. rewrite IH by exact H. reflexivity.
Qed.
Lemma noted_old : forall T a d, In T (map fst d) -> map fst (noted T a d) = map fst d.
Proof.
  intros T a. induction a as [|v a IH]; intros d H; [reflexivity|]. unfold noted in *. cbn [fold_left].
  rewrite IH; rewrite dset_old by exact H; [reflexivity|exact H].
Qed.
Lemma noted_new : forall T a d, Forall (fun j => j < T) (map fst d) -> map fst (noted T a d) = map fst d ++ (match a with [] => [] | _ => [T] end).
Proof.
  intros T [|v a] d H; [rewrite app_nil_r; reflexivity|]. change (noted T (v :: a) d) with (noted T a (dset T v d)).
  rewrite noted_old; rewrite dset_new by exact H; [reflexivity|]. apply in_or_app. right. left. reflexivity.
Qed.

Lemma sorted_snoc : forall (R : nat -> nat -> Prop) l x, StronglySorted R l -> Forall (fun j => R j x) l -> StronglySorted R (l ++ [x]).
Proof.
  intros R l x H. induction H as [|a l H IH F]; intro G; [repeat constructor|]. cbn [app]. inversion G; subst. constructor; [auto|].
  apply Forall_app. split; [exact F|]. constructor; [assumption|constructor].
Qed.
Lemma sorted_repeat : forall l x n, StronglySorted le l -> Forall (fun j => j <= x) l -> StronglySorted le (l ++ repeat x n).
Proof.
  intros l x n. revert l. induction n as [|n IH]; intros l H G; [rewrite app_nil_r; exact H|].
  cbn [repeat]. change (x :: repeat x n) with ([x] ++ repeat x n). rewrite app_assoc. apply IH.
  - apply sorted_snoc; assumption.
  - apply Forall_app. split; [exact G|]. constructor; [lia|constructor].
Qed.

(** all entries of a link: their timesteps and vehicles_enter_log *)
Definition stamp (c : cfg) (k : nat) : Q := (Qof_nat k * dt c)%Q.
Record entries (c : cfg) (w : world) (l : lid) (g : list exit) (ts : list nat) : Prop := mkEntries {
  en_times : map snd (map fst g ++ on_link w l) = map (stamp c) ts;
  en_sorted : StronglySorted le ts;
  en_past : Forall (fun k => k < w_T w) ts;
  en_ksorted : StronglySorted lt (map fst (l_enter (L w l)));
  en_keys : forall k, In k (map fst (l_enter (L w l))) <-> In k ts }.

Lemma later_enters : forall c P w0 w l, reach c w0 -> w_final w0 = true -> l_vehs (L w0 l) = [] -> l_enter (L w0 l) = [] -> later c P w0 w ->
  exists g ts, exits c P l w0 w g /\ l_tta (L w l) = fold_left (put c) g (l_tta (L w0 l)) /\ w_final w = true /\ entries c w l g ts.
Proof.
  intros c P w0 w l R F V0 N0 K. induction K as [|w1 w2 K IH S].
  - exists [], []. split; [constructor|]. split; [reflexivity|]. split; [exact F|]. constructor.
    + unfold on_link. rewrite V0. reflexivity.
    + constructor.
    + constructor.
    + rewrite N0. constructor.
    + intro k. rewrite N0. reflexivity.
  - destruct IH as (g & ts & G1 & G2 & G3 & G4). assert (R1 : reach c w1) by (eapply later_reach; eauto).
    pose proof S as S'. destruct S as [w1 o w2 Hok Hp Hx E|w1 w2 Hf E|w1].
    + pose proof (op_clock _ _ _ _ R1 Hok Hx E) as ET.
      assert (X : w_final w2 = true /\ (forall l, lkeep (L w2 l) = lkeep (L w1 l)) /\ (forall v, v < w_nv w1 -> vkeep (V w2 v) = vkeep (V w1 v))).
      { pose proof (apply_op_osteps _ _ _ _ Hok Hx E) as O. pose proof (fun v Hv => osteps_keep c w1 w2 v O Hv) as Kp.
        assert (Kf : w_final w2 = true /\ forall l, lkeep (L w2 l) = lkeep (L w1 l)).
        { clear - O G3. induction O as [|a b d O1 O IHO]; [auto|].
          assert (A : w_final b = true /\ forall l, lkeep (L b l) = lkeep (L a l)).
          { destruct O1; try congruence; unfold wkeep in *; split; auto; try congruence.  intro l. unfold L. congruence. }
          destruct A as [A1 A2]. destruct (IHO A1) as [B1 B2]. split; [exact B1|]. intro l. rewrite B2. apply A2. }
        destruct Kf. split; auto. split; auto. intros v Hv. apply (Kp v Hv). }
      destruct X as (X1 & X2 & X3). specialize (X2 l). unfold lkeep in X2.
      assert (Xt : l_tta (L w2 l) = l_tta (L w1 l)) by congruence. assert (Xv : l_vehs (L w2 l) = l_vehs (L w1 l)) by congruence.
      assert (Xe : l_enter (L w2 l) = l_enter (L w1 l)) by congruence.
      assert (Xo : on_link w2 l = on_link w1 l).
      { unfold on_link. rewrite Xv. apply map_ext_in.
        intros v Hv. pose proof (reach_Inv2 _ _ R1) as [[_ I] _]. rewrite <- Dq_none in Hv. apply (s_D I) in Hv. destruct Hv as (Hv & _).
        specialize (X3 v Hv). unfold vkeep in X3. congruence. }
      exists g, ts. split; [eapply ex_other; eauto|]. split; [congruence|]. split; [exact X1|].
      destruct G4 as [A1 A2 A3 A4 A5]. constructor; rewrite ?Xo, ?Xe, ?ET; assumption.
    + pose proof E as E0. destruct (tick_enters c w1 w2 l R1 E) as (new & g2 & H1 & H2 & H3).
      assert (H1' : exits_in c l w1 w2 g2) by (exists new; exact H1).
      exists (g ++ g2), (ts ++ repeat (w_T w1) (List.length new)). split; [eapply ex_tick; eauto|].
      split; [rewrite fold_left_app, H2, G2; reflexivity|].
      apply tick_fr in E. destruct E as (w3 & E & E2). split; [rewrite E2; cbn; rewrite (fr_w_final (body_fr _ _ E)); exact Hf|].
      assert (ET : w_T w2 = S (w_T w1)) by (rewrite E2; reflexivity). clear E2 E w3.
      destruct G4 as [A1 A2 A3 A4 A5]. destruct H1 as (B1 & _ & _).
      assert (KF : Forall (fun k => k < w_T w1) (map fst (l_enter (L w1 l)))).
      { apply Forall_forall. intros k Hk. apply A5 in Hk. rewrite Forall_forall in A3. auto. }
      constructor.
      * assert (B : map fst (g ++ g2) ++ on_link w2 l = (map fst g ++ on_link w1 l) ++ map (fun v => (v, now c w1)) new).
        { transitivity ((map fst g ++ map fst g2) ++ on_link w2 l); [f_equal; apply map_app|]. rewrite <- !app_assoc. f_equal. symmetry. exact B1. }
        rewrite B, map_app, A1, map_app. f_equal. rewrite map_map. cbn [snd].
        clear. induction new as [|v new IH]; [reflexivity|]. cbn. rewrite <- IH. reflexivity.
      * apply sorted_repeat; [exact A2|]. eapply Forall_impl; [|exact A3]. intros; cbv beta in *; lia.
      * rewrite ET. apply Forall_app. split; [eapply Forall_impl; [|exact A3]; intros; cbv beta in *; lia|].
        apply Forall_forall. intros k Hk. apply repeat_spec in Hk. lia.
      * rewrite H3, noted_new by exact KF. destruct new as [|v new]; [rewrite app_nil_r; exact A4|]. apply sorted_snoc; assumption.
      * intro k. rewrite H3, noted_new by exact KF. rewrite !in_app_iff, A5. destruct new as [|v new]; [reflexivity|]. cbn [List.length repeat].
        split; intros [H|H]; try (left; exact H); right.
        -- left. destruct H as [H|[]]. exact H.
        -- left. destruct H as [H|H]; [exact H|]. apply repeat_spec in H. congruence.
    + exists g, ts. split; [eapply ex_other; eauto|]. split; [exact G2|]. split; [exact G3|]. destruct G4 as [A1 A2 A3 A4 A5]. constructor; assumption.
Qed.

(** ** average_travel_time_between *)
Definition inside (t0 t1 : Q) (t : Q) : bool := (qle t0 t && qlt t t1)%bool.
Lemma filter_map : forall A B (f : A -> B) p xs, filter p (map f xs) = map f (filter (fun x => p (f x)) xs).
Proof. intros A B f p xs. induction xs as [|x xs IH]; [reflexivity|]. cbn [map filter]. destruct (p (f x)); cbn [map]; rewrite IH; reflexivity. Qed.
Lemma filter_nil : forall A (p : A -> bool) xs, (forall x, In x xs -> p x = false) -> filter p xs = [].
Proof. intros A p xs H. induction xs as [|x xs IH]; [reflexivity|]. cbn [filter]. rewrite (H x) by (left; reflexivity). apply IH. intros y Hy. apply H. right. exact Hy. Qed.

Lemma sorted_filter : forall A (R : A -> A -> Prop) p l, StronglySorted R l -> StronglySorted R (filter p l).
Proof.
  intros A R p l H. induction H as [|a l H IH F]; [constructor|]. cbn [filter]. destruct (p a); [|exact IH]. constructor; [exact IH|].
  apply Forall_forall. intros x Hx. apply filter_In in Hx. rewrite Forall_forall in F. apply F. apply Hx.
Qed.
Lemma sorted_app_l : forall A (R : A -> A -> Prop) l k, StronglySorted R (l ++ k) -> StronglySorted R l.
Proof.
  intros A R l k. induction l as [|a l IH]; intro H; [constructor|]. cbn [app] in H. inversion H as [|? ? H1 H2]; subst. constructor; [auto|].
  apply Forall_app in H2. apply H2.
Qed.
Lemma sorted_strict : forall l, StronglySorted le l -> NoDup l -> StronglySorted lt l.
Proof.
  intros l H. induction H as [|a l H IH F]; intro N; [constructor|]. inversion N as [|? ? N1 N2]; subst. constructor; [auto|].
  apply Forall_forall. intros x Hx. rewrite Forall_forall in F. specialize (F x Hx). assert (x <> a) by congruence. lia.
Qed.
Lemma sorted_unique : forall a b, StronglySorted lt a -> StronglySorted lt b -> (forall k, In k a <-> In k b) -> a = b.
Proof.
  intros a b H. revert b. induction H as [|x a H IH F]; intros b Hb E.
  - destruct b as [|y b]; [reflexivity|]. exfalso. apply (proj2 (E y)). left. reflexivity.
  - destruct Hb as [|y b Hb Fb]; [exfalso; apply (proj1 (E x)); left; reflexivity|].
    rewrite Forall_forall in F, Fb.
    assert (X : x = y).
    { destruct (proj1 (E x) (or_introl eq_refl)) as [X|X]; [congruence|]. destruct (proj2 (E y) (or_introl eq_refl)) as [Y|Y]; [congruence|].
      specialize (F y Y). specialize (Fb x X). lia. }
    subst y. f_equal. apply IH; [exact Hb|]. intro k. split; intro K.
    + destruct (proj1 (E k) (or_intror K)) as [X|X]; [|exact X]. specialize (F k K). lia.
    + destruct (proj2 (E k) (or_intror K)) as [X|X]; [|exact X]. specialize (Fb k K). lia.
Qed.
Lemma sorted_map : forall c l, (0 < dt c)%Q -> StronglySorted le l -> StronglySorted Qle (map (stamp c) l).
Proof.
  intros c l Hd H. induction H as [|a l H IH F]; [constructor|]. cbn [map]. constructor; [exact IH|].
  apply Forall_forall. intros q Hq. apply in_map_iff in Hq. destruct Hq as (k & <- & Hk). rewrite Forall_forall in F. specialize (F k Hk).
  unfold stamp. apply Qmult_le_compat_r; [|lra]. unfold Qof_nat. rewrite <- Zle_Qle. lia.
Qed.
Lemma stamp_eq : forall c j k, (0 < dt c)%Q -> (stamp c j == stamp c k)%Q -> j = k.
Proof.
  intros c j k Hd E. unfold stamp in E. apply Qmult_inj_r in E; [|lra]. unfold Qof_nat in E. rewrite inject_Z_injective in E. lia.
Qed.

(** with entries in order the last exit among the vehicles that entered up to the time of one of them is its own, if nobody else entered at that time *)
Lemma last_own : forall g1 x g2, StronglySorted Qle (map entered (g1 ++ x :: g2)) -> (forall y, In y g2 -> ~ (entered y == entered x)%Q) ->
  last_exit (entered x) (g1 ++ x :: g2) = Some x.
Proof.
  intros g1 x g2 H N. unfold last_exit. rewrite filter_app. cbn [filter].
  assert (X : qle (entered x) (entered x) = true) by (apply qle_iff; lra). rewrite X. rewrite (filter_nil _ _ g2).
  - apply last_opt_app.
  - intros y Hy. apply qle_false. assert (A : (entered x <= entered y)%Q).
    { rewrite map_app in H. clear - H Hy. induction (map entered g1) as [|a l IH]; cbn [app] in H.
      - cbn [map] in H. inversion H as [|? ? H1 H2]; subst. rewrite Forall_forall in H2. apply H2. apply in_map. exact Hy.
      - inversion H; subst. auto. }
    specialize (N y Hy). destruct (Qlt_le_dec (entered x) (entered y)) as [K|K]; [exact K|]. elim N. lra.
Qed.

Lemma mapM_all : forall A B (f : A -> result B) (h : A -> B) xs, (forall x, In x xs -> f x = Ok (h x)) -> mapM f xs = Ok (map h xs).
Proof.
  intros A B f h xs H. induction xs as [|x xs IH]; [reflexivity|]. cbn [mapM]. rewrite (H x) by (left; reflexivity). cbn [bind].
  rewrite IH by (intros y Hy; apply H; right; exact Hy). reflexivity.
Qed.

Lemma nodup_apart : forall (g1 : list exit) x g2, NoDup (map entered (g1 ++ x :: g2)) -> forall y, In y g2 -> entered y <> entered x.
Proof.
  intros g1 x g2 H y Hy E. rewrite map_app in H. cbn [map] in H. apply NoDup_remove_2 in H. apply H. apply in_or_app. right.
  rewrite <- E. apply in_map. exact Hy.
Qed.

(** C45 *)
Lemma average_lemma : forall c P w0 w l n ff, (0 < dt c)%Q -> reach c w0 -> w_final w0 = true -> l_tta (L w0 l) = repeat ff n ->
  l_vehs (L w0 l) = [] -> l_enter (L w0 l) = [] -> later c P w0 w ->
  exists g, exits c P l w0 w g /\ forall t0 t1, (0 <= t0)%Q -> (t1 <= Qof_nat n * dt c)%Q ->
    (forall x, In x (on_link w l) -> ~ ((t0 <= snd x)%Q /\ (snd x < t1)%Q)) ->
    (filter (during t0 t1) g = [] -> average_travel_time_between c (L w l) t0 t1 = qdiv (l_len (L w l)) (l_u (L w l))) /\
    (filter (during t0 t1) g <> [] -> NoDup (map entered (filter (during t0 t1) g)) ->
      average_travel_time_between c (L w l) t0 t1 = Ok (mean (map spent (filter (during t0 t1) g)))).
Proof.
  intros c P w0 w l n ff Hd R F E0 V0 N0 K. destruct (later_enters c P w0 w l R F V0 N0 K) as (g & ts & G1 & G2 & _ & [A1 A2 _ A4 A5]).
  exists g. split; [exact G1|]. intros t0 t1 H0 H1 Hon.
  pose proof (actual_value_of c P w0 w l n ff g Hd R E0 G1 G2) as Val.
  assert (EG : map entered g ++ map snd (on_link w l) = map (stamp c) ts).
  { rewrite <- A1, map_app, map_map. reflexivity. }
  clear A1. assert (ES : map entered (filter (during t0 t1) g) = map (stamp c) (filter (fun k => inside t0 t1 (stamp c k)) ts)).
  { rewrite <- filter_map, <- EG, filter_app, (filter_nil _ _ (map snd (on_link w l))).
    - rewrite app_nil_r, filter_map. reflexivity.
    - intros q Hq. apply in_map_iff in Hq. destruct Hq as (x & <- & Hx). specialize (Hon x Hx). unfold inside.
      destruct (qle t0 (snd x)) eqn:E1; [|reflexivity]. destruct (qlt (snd x) t1) eqn:E2; [|reflexivity]. elim Hon.
      apply qle_iff in E1. apply qlt_iff in E2. split; assumption. }
  assert (ET : enter_times c (L w l) t0 t1 = map (stamp c) (filter (fun k => inside t0 t1 (stamp c k)) (map fst (l_enter (L w l))))).
  { unfold enter_times. rewrite <- filter_map, map_map. reflexivity. }
  assert (EM : forall k, In k (filter (fun k => inside t0 t1 (stamp c k)) (map fst (l_enter (L w l)))) <-> In k (filter (fun k => inside t0 t1 (stamp c k)) ts)).
  { intro k. rewrite !filter_In, A5. reflexivity. }
  unfold average_travel_time_between. rewrite ET. split.
  - intro N. rewrite N in ES. cbn [map] in ES.
    destruct (filter (fun k => inside t0 t1 (stamp c k)) (map fst (l_enter (L w l)))) as [|k ks]; [reflexivity|].
    exfalso. symmetry in ES. apply map_eq_nil in ES. rewrite ES in EM. apply (proj1 (EM k)). left. reflexivity.
  - intros Hn ND.
    assert (EK : filter (fun k => inside t0 t1 (stamp c k)) (map fst (l_enter (L w l))) = filter (fun k => inside t0 t1 (stamp c k)) ts).
    { apply sorted_unique; [apply sorted_filter; exact A4| |exact EM].
      apply sorted_strict; [apply sorted_filter; exact A2|]. rewrite ES in ND. apply NoDup_map_inv in ND. exact ND. }
    rewrite EK, <- ES. clear EK ES ET EM.
    remember (filter (during t0 t1) g) as gs eqn:Egs.
    destruct gs as [|x0 gs0]; [congruence|].
    assert (M : mapM (actual_travel_time c (L w l)) (map entered (x0 :: gs0)) = Ok (map spent (x0 :: gs0))).
    { rewrite Egs in *. clear Egs Hn x0 gs0.
      assert (MM : mapM (fun x => actual_travel_time c (L w l) (entered x)) (filter (during t0 t1) g) = Ok (map spent (filter (during t0 t1) g))).
      { apply mapM_all. intros x Hx. pose proof Hx as Hx'. apply filter_In in Hx'. destruct Hx' as [Hg Hd'].
        unfold during in Hd'. apply andb_prop in Hd'. destruct Hd' as [D1 D2]. apply qle_iff in D1. apply qlt_iff in D2.
        rewrite Val by lra. apply in_split in Hg. destruct Hg as (g1 & g2 & ->).
        rewrite last_own; [reflexivity| |].
        - apply sorted_app_l with (k := map snd (on_link w l)). rewrite EG. apply sorted_map; assumption.
        - intros y Hy E. rewrite filter_app in ND. cbn [filter] in ND.
          assert (Dx : during t0 t1 x = true) by (unfold during; apply andb_true_intro; split; [apply qle_iff|apply qlt_iff]; assumption).
          rewrite Dx in ND. assert (Hy' : In y (filter (during t0 t1) g2)).
          { apply filter_In. split; [exact Hy|]. unfold during. apply andb_true_intro. split; [apply qle_iff; rewrite E; assumption|apply qlt_iff; rewrite E; assumption]. }
          apply (nodup_apart _ _ _ ND y Hy').
          assert (S : forall z, In z (g1 ++ x :: g2) -> exists k, entered z = stamp c k).
          { intros z Hz. assert (Z : In (entered z) (map (stamp c) ts)) by (rewrite <- EG; apply in_or_app; left; apply in_map; exact Hz).
            apply in_map_iff in Z. destruct Z as (k & Z & _). exists k. congruence. }
          destruct (S x) as (j & Ej); [apply in_or_app; right; left; reflexivity|].
          destruct (S y) as (k & Ek); [apply in_or_app; right; right; exact Hy|].
          rewrite Ej, Ek in *. apply stamp_eq in E; [congruence|exact Hd]. }
      rewrite <- MM. generalize (filter (during t0 t1) g). clear. intro l0. induction l0 as [|x l0 IH]; [reflexivity|]. cbn [map mapM]. rewrite IH. reflexivity. }
    cbn [map] in M |- *. rewrite M. reflexivity.
Qed.

(** C45: finalize_scenario meets the requirements on the first world *)
Definition unused (w : world) : Prop := w_final w = false -> forall l, l < w_nl w -> l_vehs (L w l) = [] /\ l_enter (L w l) = [].
Lemma reach_unused : forall c w, reach c w -> unused w.
Proof.
  intros c w H. induction H as [tm|w o w' H IH Hok Hx E|w w' H IH F E|w H IH].
  - intros _ l Hl. cbn in Hl. lia.
  - apply apply_op_osteps in E; auto. clear - E IH. induction E as [|a b d O1 O2 IHo]; [exact IH|]. apply IHo. clear IHo O2.
    intros Fb l Hl.
    assert (Fa : w_final a = false).
    { destruct (w_final a) eqn:Ea; [|reflexivity]. rewrite <- Fb.
      destruct O1; unfold wkeep in *; cbn in *; try congruence. }
    destruct (lt_dec l (w_nl a)) as [K|K].
    + pose proof (ostep_lhist _ _ _ O1 l K) as E. unfold lhist in E. destruct (IH Fa l K) as [I1 I2]. split; congruence.
    + destruct (Counts.ostep_nl _ _ _ O1) as [E|(s & e & k & x & nm & Ew & En)]; [lia|].
      destruct (new_link_empty _ _ _ _ En) as (_ & _ & E3 & _ & _ & E6).
      assert (l = w_nl a) by (rewrite Ew in Hl; cbn in Hl; lia). subst l. rewrite Ew, added_link_L, Nat.eqb_refl. auto.
  - intros K. apply tick_fr in E. destruct E as (w1 & E & ->). cbn in K. rewrite (fr_w_final (body_fr _ _ E)) in K. congruence.
  - exact IH.
Qed.
Lemma finalize_unused : forall c tm w w' l, reach c w -> w_final w = false -> finalize c tm w = Ok w' -> l < w_nl w ->
  l_vehs (L w' l) = [] /\ l_enter (L w' l) = [].
Proof.
  intros c tm w w' l R F E Hl. destruct (reach_unused c w R F l Hl) as [A B]. destruct (finalize_L _ _ _ _ E l) as (tta & ->). split; assumption.
Qed.
