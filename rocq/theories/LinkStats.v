(** * LinkStats: statistics of links, analyzer.py 183-203 and 2020-2035 (link_analysis_coarse, link_to_pandas). *)
From Verif Require Import Base Types Sim Build Heap Lists Inv FrameBase Tac Frame Eff Eff2 Trace InvStep Reach Steps Effects Phases Attr Life Incoming Vev Ride TripLog Route Signal Green Choice Enforce Counts LinkQueries FD NodeCap Origin Bucket Outflow Demand SpecTT TTActual Spec SpecStats SpecLinks.
Local Open Scope nat_scope.

(** ** The model *)

(** A row of link_to_pandas.  The standard deviation is left out.  [r_mean = None] stands for the default -1 (an int);
    [r_ratio = None] for an infinite ratio. *)
Record link_row := mkLrow { r_volume : Z; r_remain : Z; r_free : Q; r_mean : option Q; r_ratio : option Q; r_length : Q }.
Definition r_ave (r : link_row) : Q := match r_mean r with Some q => q | None => (-1)%Q end.
(** 199-203: the mean of the positive entries *)
Definition mean_positive (tt : list Q) : option Q :=
  match filter (fun x => qlt 0 x) tt with [] => None | ps => Some (mean ps) end.
(** One iteration of 193-203 and of the loop in link_to_pandas.  The counts of a link without a timestep are empty lists.
    The ratio divides a Python number by a Python number if the average is the default, else numpy numbers. *)
Definition link_row_of (k : link) : result link_row :=
  vol <- of_opt IndexError (last_opt (l_cd k)) ;;
  arr <- of_opt IndexError (last_opt (l_ca k)) ;;
  free <- qdiv (l_len k) (l_u k) ;;
  let m := if Z.eqb vol 0 then None else mean_positive (l_tta k) in
  ratio <- (match m with
            | None => x <- qdiv (-1) free ;; Ok (Some x)
            | Some q => if qeq free 0 then Ok None else Ok (Some (q / free)%Q)
            end) ;;
  Ok (mkLrow vol (arr - vol) free m ratio (l_len k)).
Definition link_rows (w : world) : result (list link_row) := mapM (fun l => link_row_of (L w l)) (seq 0 (w_nl w)).

(** ** Facts *)
Lemma last_ok : forall l, 0 < List.length l -> last_opt l = Some (last0 l).
Proof.
  intros l H. unfold last0. rewrite last_opt_nth. destruct (nth_error l (List.length l - 1)) eqn:E; [reflexivity|].
  apply nth_error_None in E. lia.
Qed.

Lemma list_nth_eq : forall A (l m : list A), List.length l = List.length m -> (forall j, j < List.length l -> nth_error l j = nth_error m j) -> l = m.
Proof.
  intros A l. induction l as [|x l IH]; intros [|y m] E H; cbn in E; try discriminate E; [reflexivity|].
  pose proof (H 0 ltac:(cbn; lia)) as H0. cbn in H0. injection H0 as ->. f_equal. apply IH; [congruence|].
  intros j Hj. apply (H (S j)). cbn. lia.
Qed.

Lemma tta_values : forall c g n ff, (0 < dt c)%Q -> Forall (took c) g ->
  fold_left (put c) g (repeat ff n) = map (travel_at c ff g) (seq 0 n).
Proof.
  intros c g n ff Hd Hg. apply list_nth_eq.
  - rewrite put_length, repeat_length, map_length, seq_length. reflexivity.
  - intros j Hj. rewrite put_length, repeat_length in Hj.
    rewrite (put_nth c g (repeat ff n) j ff); [|rewrite repeat_length; exact Hj|apply nth_error_repeat; exact Hj].
    rewrite nth_error_map. replace (nth_error (seq 0 n) j) with (Some j).
    2:{ symmetry. rewrite (nth_error_nth' (seq 0 n) 0) by (rewrite seq_length; exact Hj). rewrite seq_nth by exact Hj. reflexivity. }
    cbn [option_map]. f_equal. unfold travel_at, last_exit.
    rewrite (filter_same _ (fun x => slot_of c x <=? j) (fun x => qle (entered x) (Qof_nat j * dt c))); [reflexivity|].
    eapply Forall_impl; [|exact Hg]. intros x (t & t' & X1 & _).
    assert (Hn : (0 <= Qof_nat j)%Q) by (unfold Qof_nat; change 0%Q with (inject_Z 0); rewrite <- Zle_Qle; lia).
    rewrite <- (grid_slot c x (Qof_nat j * dt c)); [|exact Hd|apply Qmult_le_0_compat; [exact Hn|lra]|exists t; exact X1].
    f_equal. unfold slot. assert (E1 : ((Qof_nat j * dt c) / dt c == Qof_nat j)%Q) by (field; lra). rewrite E1.
    unfold Qof_nat. rewrite Qfloor_Z, Nat2Z.id. reflexivity.
Qed.

Lemma took_spent : forall c x, (0 < dt c)%Q -> took c x -> (dt c <= spent x)%Q.
Proof.
  intros c x Hd (t & t' & E1 & E2 & H). unfold spent. rewrite E1, E2.
  assert (K : (Qof_nat t + 1 <= Qof_nat t')%Q).
  { unfold Qof_nat. change 1%Q with (inject_Z 1). rewrite <- inject_Z_plus, <- Zle_Qle. lia. }
  nra.
Qed.

(** no links are added later *)
Lemma later_links : forall c P w0 w l, reach c w0 -> w_final w0 = true -> later c P w0 w -> l < w_nl w -> l < w_nl w0.
Proof.
  intros c P w0 w l R0 F0 K. induction K as [|a b K IH S]; [auto|]. intro Hb. apply IH.
  assert (Ra : reach c a) by (eapply later_reach; eauto).
  assert (Fa : w_final a = true) by (destruct (later_departs c P w0 a l R0 F0 K) as (g & _ & _ & X & _); exact X).
  destruct S as [a o b Ho Hp Hx E|a b Hf E|a].
  - pose proof (apply_op_osteps _ _ _ _ Ho Hx E) as O. clear - O Fa Hb. revert Fa Hb. induction O as [|a b d O1 O IHO]; [auto|]. intros Fa Hb.
    assert (A : w_final b = true /\ w_nl b = w_nl a).
    { destruct O1; try congruence; unfold wkeep in *; split; auto; congruence. }
    destruct A as [A1 A2]. rewrite <- A2. auto.
  - apply tick_fr in E. destruct E as (b' & E & ->). cbn in Hb. rewrite (fr_w_nl (body_fr _ _ E)) in Hb. exact Hb.
  - exact Hb.
Qed.

(** the travel times of a link after a run *)
Lemma link_history : forall c P tm w1 w0 w l, (0 < dt c)%Q -> reach c w1 -> w_final w1 = false -> finalize c tm w1 = Ok w0 -> later c P w0 w -> exists_link w l ->
  exists g n ff, exits c P l w0 w g /\ Forall (fun x => (dt c <= spent x)%Q) g /\ n = w_tsize w0 /\
    exists_link w1 l /\ (0 < n -> ~ (l_u (L w1 l) == 0)%Q /\ ff = (l_len (L w1 l) / l_u (L w1 l))%Q) /\
    l_tta (L w l) = map (travel_at c ff g) (seq 0 n) /\
    last0 (l_cd (L w l)) = (c_deltan c * Z.of_nat (List.length g))%Z.
Proof.
  intros c P tm w1 w0 w l Hd R1 Hf Ef K Hl.
  assert (R0 : reach c w0).
  { eapply rc_op with (o := OFinalize tm); [exact R1|exact Hf|intros a; discriminate|exact Ef]. }
  pose proof (finalize_ok _ _ _ _ Ef) as Z. pose proof (fz_cnt _ _ _ Z) as Zc.
  assert (F0 : w_final w0 = true).
  { unfold finalize in Ef. cbn zeta in Ef. apply bind_ok in Ef. destruct Ef as (x & _ & Ef). injection Ef as <-. reflexivity. }
  destruct (later_departs c P w0 w l R0 F0 K) as (g & G1 & G2 & G3 & G4 & G5).
  assert (Hl0 : l < w_nl w0) by (eapply later_links; eauto).
  assert (Hl1 : l < w_nl w1) by congruence.
  destruct (finalize_tta c tm w1 w0 l Ef Hl1) as (n & ff & T1 & _ & T2 & T3).
  exists g, n, ff. split; [exact G1|]. split; [eapply Forall_impl; [|exact G5]; intros x; apply took_spent; exact Hd|].
  split; [symmetry; exact T2|]. split; [exact Hl1|]. split; [exact T3|]. split; [rewrite G2, T1; apply tta_values; assumption|].
  unfold parted in G4. destruct (reach_TInv c w0 R0) as [_ T]. destruct (T l Hl0) as (_ & T5 & _).
  assert (T0 : w_T w0 = 0) by (rewrite (finalize_T _ _ _ _ Ef); reflexivity).
  rewrite T0 in T5. destruct (l_cd (L w0 l)) as [|z cd]; [|discriminate T5]. rewrite G4. cbn. lia.
Qed.

Lemma link_row_ok : forall c w l, (0 <= c_deltan c)%Z -> reach c w -> exists_link w l -> 0 < w_T w -> (0 < l_len (L w l))%Q -> (0 < l_u (L w l))%Q ->
  exists r, link_row_of (L w l) = Ok r /\ r_volume r = last0 (l_cd (L w l)) /\
    r_remain r = (c_deltan c * Z.of_nat (List.length (l_vehs (L w l))))%Z /\ (r_free r == l_len (L w l) / l_u (L w l))%Q /\
    r_mean r = (if Z.eqb (r_volume r) 0 then None else mean_positive (l_tta (L w l))) /\
    r_length r = l_len (L w l) /\ exists q, r_ratio r = Some q /\ (q == r_ave r / r_free r)%Q.
Proof.
  intros c w l Hn R Hl HT Hlen Hu. destruct (reach_TInv c w R) as [_ T]. destruct (T l Hl) as (T1 & T2 & _).
  destruct (reach_CInv c w Hn R l Hl) as [_ K2 _ _ _]. rewrite Dq_none in K2.
  unfold link_row_of. rewrite (last_ok (l_cd (L w l))) by lia. rewrite (last_ok (l_ca (L w l))) by lia. cbn [of_opt bind].
  assert (F : qdiv (l_len (L w l)) (l_u (L w l)) = Ok (l_len (L w l) / l_u (L w l))%Q).
  { unfold qdiv. destruct (qeq _ 0) eqn:E; [|reflexivity]. apply qeq_iff in E. lra. }
  rewrite F. cbn [bind]. cbv zeta.
  assert (Fp : (0 < l_len (L w l) / l_u (L w l))%Q) by (apply Qlt_shift_div_l; [exact Hu|lra]).
  assert (Fz : qeq (l_len (L w l) / l_u (L w l)) 0 = false).
  { destruct (qeq _ 0) eqn:E; [|reflexivity]. apply qeq_iff in E. lra. }
  destruct (if Z.eqb _ _ then None else _) as [m|] eqn:Em.
  - rewrite Fz. cbn [bind]. eexists. split; [reflexivity|]. cbn [r_volume r_remain r_free r_mean r_length r_ratio].
    split; [reflexivity|]. split; [exact K2|]. split; [reflexivity|]. split; [symmetry; exact Em|]. split; [reflexivity|].
    eexists. split; [reflexivity|]. reflexivity.
  - unfold qdiv at 1. rewrite Fz. cbn [bind]. eexists. split; [reflexivity|]. cbn [r_volume r_remain r_free r_mean r_length r_ratio].
    split; [reflexivity|]. split; [exact K2|]. split; [reflexivity|]. split; [symmetry; exact Em|]. split; [reflexivity|].
    eexists. split; [reflexivity|]. reflexivity.
Qed.

(** C54: volume and average travel time of a link *)
Theorem link_row_lemma : forall c P tm w1 w0 w l, (0 < dt c)%Q -> (0 < c_deltan c)%Z -> reach c w1 -> w_final w1 = false -> finalize c tm w1 = Ok w0 ->
  later c P w0 w -> exists_link w l -> 0 < w_T w -> (0 < l_len (L w l))%Q -> (0 < l_u (L w l))%Q ->
  exists g r ff, link_row_of (L w l) = Ok r /\ exits c P l w0 w g /\ Forall (fun x => (dt c <= spent x)%Q) g /\
    (0 < w_tsize w0 -> ff = (l_len (L w1 l) / l_u (L w1 l))%Q) /\
    r_volume r = (c_deltan c * Z.of_nat (List.length g))%Z /\
    r_remain r = (c_deltan c * Z.of_nat (List.length (l_vehs (L w l))))%Z /\
    (r_free r == l_len (L w l) / l_u (L w l))%Q /\
    (g = [] -> r_ave r = (-1)%Q) /\
    (g <> [] -> r_mean r = mean_positive (map (travel_at c ff g) (seq 0 (w_tsize w0)))).
Proof.
  intros c P tm w1 w0 w l Hd Hn R1 Hf Ef K Hl HT Hlen Hu.
  destruct (link_history c P tm w1 w0 w l Hd R1 Hf Ef K Hl) as (g & n & ff & G1 & G2 & -> & _ & G4 & G5 & G6).
  assert (R : reach c w).
  { eapply later_reach; [|exact K]. eapply rc_op with (o := OFinalize tm); [exact R1|exact Hf|intros a; discriminate|exact Ef]. }
  destruct (link_row_ok c w l ltac:(lia) R Hl HT Hlen Hu) as (r & E & A1 & A2 & A3 & A4 & _).
  exists g, r, ff. split; [exact E|]. split; [exact G1|]. split; [exact G2|]. split; [intro H; apply G4; exact H|].
  split; [congruence|]. split; [exact A2|]. split; [exact A3|]. rewrite A1, G6, G5 in A4. split.
  - intros ->. cbn [List.length] in A4. rewrite Z.mul_0_r in A4. cbn in A4. unfold r_ave. rewrite A4. reflexivity.
  - intro Hg. destruct (Z.eqb_spec (c_deltan c * Z.of_nat (List.length g)) 0) as [X|_]; [|exact A4].
    destruct g; [congruence|cbn [List.length] in X; nia].
Qed.

(** the mean of numbers between two bounds *)
Lemma qsum_bounds : forall lo hi xs, Forall (fun x => (lo <= x)%Q /\ (x <= hi)%Q) xs ->
  (Qof_nat (List.length xs) * lo <= qsum xs)%Q /\ (qsum xs <= Qof_nat (List.length xs) * hi)%Q.
Proof.
  intros lo hi xs H. induction H as [|x xs [A B] H [IH1 IH2]]; [cbn; split; rewrite ?Qmult_0_l; apply Qle_refl|].
  cbn [List.length qsum fold_right map] in *. unfold Qof_nat in *. rewrite Nat2Z.inj_succ. unfold Z.succ. rewrite inject_Z_plus.
  change (inject_Z 1) with 1%Q. fold (qsum xs). split; nra.
Qed.
Lemma mean_bounds : forall lo hi xs, xs <> [] -> Forall (fun x => (lo <= x)%Q /\ (x <= hi)%Q) xs -> (lo <= mean xs)%Q /\ (mean xs <= hi)%Q.
Proof.
  intros lo hi xs Hx H. destruct (qsum_bounds lo hi xs H) as [A B]. unfold mean.
  assert (P : (0 < Qof_nat (List.length xs))%Q).
  { unfold Qof_nat. change 0%Q with (inject_Z 0). rewrite <- Zlt_Qlt. destruct xs; [congruence|cbn [List.length]; lia]. }
  split; [apply Qle_shift_div_l; [exact P|lra]|apply Qle_shift_div_r; [exact P|lra]].
Qed.
Lemma filter_all : forall A (f : A -> bool) l, Forall (fun x => f x = true) l -> filter f l = l.
Proof. intros A f l H. induction H as [|x l E H IH]; [reflexivity|]. cbn. rewrite E, IH. reflexivity. Qed.

Lemma last_opt_in : forall A (l : list A) x, last_opt l = Some x -> In x l.
Proof. intros A l x H. rewrite last_opt_nth in H. eapply nth_error_In; eauto. Qed.
Lemma travel_from : forall c ff g j (B : Q -> Prop), B ff -> Forall (fun x => B (spent x)) g -> B (travel_at c ff g j).
Proof.
  intros c ff g j B H1 H2. unfold travel_at, last_exit. destruct (last_opt _) as [x|] eqn:E; [|exact H1].
  apply last_opt_in in E. apply filter_In in E. destruct E as [E _]. rewrite Forall_forall in H2. auto.
Qed.

(** C54: with a positive free-flow travel time the average is over all timesteps and between the travel times *)
Theorem link_mean_lemma : forall c n ff g, (0 < dt c)%Q -> 0 < n -> (0 < ff)%Q -> Forall (fun x => (dt c <= spent x)%Q) g ->
  mean_positive (map (travel_at c ff g) (seq 0 n)) = Some (mean (map (travel_at c ff g) (seq 0 n))) /\
  forall lo hi, Forall (fun q => (lo <= q)%Q /\ (q <= hi)%Q) (ff :: map spent g) ->
    (lo <= mean (map (travel_at c ff g) (seq 0 n)))%Q /\ (mean (map (travel_at c ff g) (seq 0 n)) <= hi)%Q.
Proof.
  intros c n ff g Hd Hn Hf Hg.
  assert (Ne : map (travel_at c ff g) (seq 0 n) <> []) by (destruct n; [lia|discriminate]).
  assert (Bs : forall (B : Q -> Prop), B ff -> Forall (fun x => B (spent x)) g -> Forall B (map (travel_at c ff g) (seq 0 n))).
  { intros B H1 H2. apply Forall_forall. intros q Hq. apply in_map_iff in Hq. destruct Hq as (j & <- & _). apply travel_from; assumption. }
  split.
  - unfold mean_positive. rewrite filter_all.
    + destruct (map _ _); [congruence|reflexivity].
    + apply (Bs (fun q => qlt 0 q = true)); [apply qlt_iff; exact Hf|]. eapply Forall_impl; [|exact Hg]. intros x Hx. apply qlt_iff. cbv beta in Hx. eapply Qlt_le_trans; [exact Hd|exact Hx].
  - intros lo hi H. inversion H as [|? ? H1 H2]; subst. apply mean_bounds; [exact Ne|].
    apply (Bs (fun q => (lo <= q)%Q /\ (q <= hi)%Q)); [exact H1|]. apply Forall_map in H2. exact H2.
Qed.

(** C54: before the first timestep *)
Theorem link_rows_early : forall c w, reach c w -> w_T w = 0 -> 0 < w_nl w -> link_rows w = Err IndexError.
Proof.
  intros c w R HT Hn. unfold link_rows. destruct (w_nl w) as [|n] eqn:E; [lia|]. cbn [seq mapM].
  destruct (reach_TInv c w R) as [_ T]. destruct (T 0) as (_ & T2 & _); [lia|]. rewrite HT in T2.
  destruct (l_cd (L w 0)) as [|z cd] eqn:Ec; [|discriminate T2]. unfold link_row_of at 1. rewrite Ec. reflexivity.
Qed.

Lemma mapM_ok : forall A B (f : A -> result B) (P : A -> B -> Prop) xs, (forall x, In x xs -> exists y, f x = Ok y /\ P x y) ->
  exists ys, mapM f xs = Ok ys /\ Forall2 P xs ys.
Proof.
  intros A B f P xs. induction xs as [|x xs IH]; intro H; [exists []; split; [reflexivity|constructor]|].
  destruct (H x) as (y & E1 & E2); [left; reflexivity|]. destruct IH as (ys & E3 & E4); [intros z Hz; apply H; right; exact Hz|].
  exists (y :: ys). cbn [mapM]. rewrite E1. cbn [bind]. rewrite E3. cbn [bind]. split; [reflexivity|constructor; assumption].
Qed.
(** C54: afterwards, with positive lengths and speeds, there is a row for every link *)
Theorem link_rows_total : forall c w, (0 <= c_deltan c)%Z -> reach c w -> 0 < w_T w -> (forall l, exists_link w l -> (0 < l_len (L w l))%Q) -> fast_links w ->
  exists rs, link_rows w = Ok rs /\ Forall2 (fun l r => link_row_of (L w l) = Ok r) (seq 0 (w_nl w)) rs.
Proof.
  intros c w Hn R HT Hl Hu. apply mapM_ok. intros l Hin. apply in_seq in Hin. assert (K : exists_link w l) by (unfold exists_link; lia).
  destruct (link_row_ok c w l Hn R K HT (Hl l K) (Hu l K)) as (r & E & _). exists r. split; exact E.
Qed.
