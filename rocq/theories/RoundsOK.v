(** * RoundsOK: the assignment rounds use no taxi and no request twice (C31). *)
From Coq Require Import Permutation.
From Verif Require Import Base Types Sim Build Heap Lists Inv FrameBase Tac Frame Eff Eff2 Trace InvStep Reach Steps Effects Phases Attr Life Incoming Vev Ride TripLog Route Choice Enforce Rounds Clock SpecTaxi Taxi Taxi2.
Local Open Scope nat_scope.

(** ** What an assignment leaves alone *)
Record calm (w w' : world) : Prop := mkCalm {
  cm_v : forall v, v_link (V w' v) = v_link (V w v) /\ v_x (V w' v) = v_x (V w v);
  cm_r : forall r, r_orig (R w' r) = r_orig (R w r) /\ r_depart (R w' r) = r_depart (R w r);
  cm_l : forall l, L w' l = L w l;
  cm_n : forall n, N w' n = N w n;
  cm_t : w_TIME w' = w_TIME w }.
Lemma calm_refl : forall w, calm w w.
Proof. intro. constructor; auto. Qed.
Lemma calm_trans : forall a b d, calm a b -> calm b d -> calm a d.
Proof.
  intros a b d [A1 A2 A3 A4 A5] [B1 B2 B3 B4 B5]. constructor.
  - intro v. destruct (A1 v), (B1 v). split; congruence.
  - intro v. destruct (A2 v), (B2 v). split; congruence.
  - intro. rewrite B3. apply A3.
  - intro. rewrite B4. apply A4.
  - congruence.
Qed.
Lemma assign_calm : forall c v r w w', assign_taxi c v r w = Ok w' -> calm w w'.
Proof.
  intros c v r w w' H. pose proof (assign_ok _ _ _ _ _ H) as A. destruct A as (_ & _ & _ & A1 & A2 & _ & _ & _ & A3 & _ & _ & A4 & A5 & _).
  constructor.
  - intro u. destruct (Nat.eq_dec u v) as [-> | Hne]; [|rewrite A1 by auto; auto].
    unfold assign_taxi in H. destruct (negb _); [discriminate|]. apply bind_ok in H. destruct H as (w1 & E & H). cbn zeta in H. injection H as <-.
    apply add_dest_soft in E. destruct (vhard_eq (so_v E v)) as (_ & K1 & K2 & _).
    match goal with |- context [V ?x v] => change (V x v) with (V (modv v (fun a => sv_events (dset (r_orig (R w1 r)) (GetOn r) (v_events a)) a) w1) v) end.
    rewrite V_modv_same. auto.
  - intro k. rewrite A2. destruct (Nat.eqb k r); auto.
  - intro. unfold L. rewrite A4. reflexivity.
  - intro. unfold N. rewrite A5. reflexivity.
  - exact A3.
Qed.
Lemma calm_dist : forall w w' v r, calm w w' -> dist2 w' v r = dist2 w v r.
Proof.
  intros w w' v r [A1 A2 A3 A4 _]. unfold dist2, xy. destruct (A1 v) as [-> ->]. destruct (A2 r) as [-> _].
  destruct (v_link (V w v)) as [l|]; [|reflexivity]. cbn zeta. rewrite A3, !A4. reflexivity.
Qed.
Lemma calm_due : forall w w' r, calm w w' -> due_b w' r = due_b w r.
Proof. intros w w' r [_ A _ _ E]. unfold due_b. destruct (A r) as [_ ->]. rewrite E. reflexivity. Qed.

(** ** The choice of a taxi *)
Lemma near_loop : forall w r lim vac b0 b, foldM (nearer w r lim) vac b0 = Ok b ->
  (forall d v, b0 = Some (d, v) -> exists d' v', b = Some (d', v') /\ (d' <= d)%Q) /\
  (forall d v, b = Some (d, v) -> b0 = Some (d, v) \/ In v vac /\ dist2 w v r = Ok d /\ lim d = true) /\
  (forall u e, In u vac -> dist2 w u r = Ok e -> lim e = true -> exists d v, b = Some (d, v) /\ (d <= e)%Q) /\
  (forall u, In u vac -> exists e, dist2 w u r = Ok e).
Proof.
  intros w r lim vac; induction vac as [|v vac IH]; intros b0 b H; cbn [foldM] in H.
  - injection H as <-. split; [intros d v ->; exists d, v; split; [reflexivity|apply Qle_refl]|]. split; [auto|]. split; intros u; intros; contradiction.
  - apply bind_ok in H. destruct H as (b1 & E & H). destruct (IH b1 b H) as (A1 & A2 & A3 & A4). clear IH.
    unfold nearer in E. apply bind_ok in E. destruct E as (d0 & Ed & E).
    destruct (lim d0 && match b0 with Some (b2, _) => qle d0 b2 | None => true end) eqn:Ec.
    + injection E as <-. apply andb_true_iff in Ec. destruct Ec as [Ec1 Ec2]. destruct (A1 d0 v eq_refl) as (d' & v' & -> & Hd).
      split; [|split; [|split]].
      * intros d u ->. exists d', v'. split; [reflexivity|]. apply qle_iff in Ec2. eapply Qle_trans; eauto.
      * intros d u K. destruct (A2 d u K) as [K1|(K1 & K2 & K3)]; [|right; cbn; auto]. injection K1 as <- <-. right. cbn. auto.
      * intros u e [<- | Hu] He Hl; [|eapply A3; eauto]. assert (e = d0) by congruence. subst. eauto.
      * intros u [<- | Hu]; eauto.
    + injection E as <-. split; [exact A1|]. split; [|split].
      * intros d u K. destruct (A2 d u K) as [K1|(K1 & K2 & K3)]; [left; exact K1|right; cbn; auto].
      * intros u e [<- | Hu] He Hl; [|eapply A3; eauto]. assert (e = d0) by congruence. subst e. rewrite Hl in Ec. cbn [andb] in Ec.
        destruct b0 as [[b2 v2]|]; [|discriminate]. destruct (A1 b2 v2 eq_refl) as (d' & v' & K1 & K2). exists d', v'. split; [exact K1|].
        apply qle_false in Ec. apply Qle_trans with b2; [exact K2|]. apply Qlt_le_weak. exact Ec.
      * intros u [<- | Hu]; eauto.
Qed.
Definition limit (h : handler) : Q -> bool := match h with HRadius q => fun d => qle 0 q && qle d (q * q) | _ => fun _ => true end.

Lemma pick_ok : forall h w r vac t, pick h w r vac = Ok t ->
  (forall v, t = Some v -> In v vac) /\
  (h <> HRandom -> forall v, t = Some v -> exists d, dist2 w v r = Ok d /\ limit h d = true /\
     forall u e, In u vac -> dist2 w u r = Ok e -> limit h e = true -> (d <= e)%Q) /\
  (t = None -> vac <> [] -> exists q, h = HRadius q).
Proof.
  assert (N : forall w r lim vac t, pick_near w r lim vac = Ok t ->
    (forall v, t = Some v -> In v vac) /\
    (forall v, t = Some v -> exists d, dist2 w v r = Ok d /\ lim d = true /\
       forall u e, In u vac -> dist2 w u r = Ok e -> lim e = true -> (d <= e)%Q) /\
    (t = None -> (forall d, lim d = true) -> vac = [])).
  { intros w r lim vac t H. unfold pick_near in H. apply bind_ok in H. destruct H as (b & E & H). injection H as <-.
    destruct (near_loop w r lim vac None b E) as (_ & A2 & A3 & A4). split; [|split].
    - intros v K. destruct b as [[d u]|]; [|discriminate]. injection K as <-. destruct (A2 d u eq_refl) as [X|(X & _)]; [discriminate|exact X].
    - intros v K. destruct b as [[d u]|]; [|discriminate]. injection K as <-. destruct (A2 d u eq_refl) as [X|(X & Y & Z)]; [discriminate|].
      exists d. split; [exact Y|]. split; [exact Z|]. intros z e Hz He Hl. destruct (A3 z e Hz He Hl) as (d' & v' & K1 & K2). congruence.
    - intros K Hl. destruct b as [[d u]|]; [discriminate|]. destruct vac as [|u vac]; [reflexivity|exfalso].
      destruct (A4 u (or_introl eq_refl)) as (e & He). destruct (A3 u e (or_introl eq_refl) He (Hl e)) as (d' & v' & K1 & _). discriminate. }
  intros [| |q] w r vac t H; cbn [pick] in H.
  - injection H as <-. split; [|split].
    + intros v K. rewrite last_opt_nth in K. eapply nth_error_In; eauto.
    + congruence.
    + intros K Hv. apply last_opt_nil in K. contradiction.
  - apply N in H. destruct H as (A & B & C). split; [exact A|]. split; [intros _; exact B|]. intros K Hv. elim Hv. apply C; auto.
  - apply N in H. destruct H as (A & B & C). split; [exact A|]. split; [intros _; exact B|]. eauto.
Qed.

Lemma drop_ok : forall h w r vac v, NoDup vac -> pick h w r vac = Ok (Some v) ->
  NoDup (drop h v vac) /\ S (List.length (drop h v vac)) = List.length vac /\ forall u, In u (drop h v vac) <-> In u vac /\ u <> v.
Proof.
  intros h w r vac v Nd H.
  assert (Rf : In v vac -> NoDup (remove_first v vac) /\ S (List.length (remove_first v vac)) = List.length vac /\
    forall u, In u (remove_first v vac) <-> In u vac /\ u <> v).
  { intro Hi. split; [apply remove_first_nodup; exact Nd|]. split.
    - clear H Nd. induction vac as [|a vac IH]; [destruct Hi|]. cbn. destruct (Nat.eqb v a) eqn:E; [reflexivity|].
      destruct Hi as [-> | Hi]; [rewrite Nat.eqb_refl in E; discriminate|]. cbn. rewrite IH by auto. reflexivity.
    - intro u. split; intro K.
      + split; [eapply remove_first_sub; eauto|]. intros ->. eapply remove_first_not_in; eauto.
      + destruct K as [K1 K2]. clear - K1 K2. induction vac as [|a vac IH]; [destruct K1|]. cbn. destruct (Nat.eqb_spec v a) as [-> |E].
        * destruct K1 as [-> |K1]; [congruence|exact K1].
        * destruct K1 as [-> |K1]; [left; reflexivity|right; auto]. }
  pose proof (pick_ok h w r vac _ H) as (Hi & _). specialize (Hi v eq_refl).
  destruct h; cbn [drop pick] in *; auto.
  injection H as H. destruct vac as [|a vac] using rev_ind; [destruct Hi|]. rewrite last_opt_app in H. injection H as ->.
  rewrite removelast_last.
  assert (Nv : NoDup vac /\ ~ In v vac).
  { apply NoDup_remove in Nd. rewrite app_nil_r in Nd. exact Nd. }
  destruct Nv as [N1 N2]. split; [exact N1|]. split; [rewrite app_length; cbn; lia|].
  intro u. rewrite in_app_iff. cbn. split; [intro K; split; [auto|congruence]|]. intros [[K|[K|[]]] K2]; [exact K|congruence].
Qed.

(** ** The loop *)
Record matched (h : handler) (w : world) (rs : list rid) (vac : list vid) (ps : list (rid * vid)) : Prop := mkMatched {
  mt_fst : NoDup (map fst ps);
  mt_snd : NoDup (map snd ps);
  mt_in : forall r v, In (r, v) ps -> In r rs /\ due w r /\ In v vac;
  mt_len : (forall q, h <> HRadius q) -> List.length ps = min (List.length (filter (due_b w) rs)) (List.length vac);
  mt_near : h <> HRandom -> nearest w (limit h) vac ps;
  mt_left : h <> HRandom -> forall r u e, In r rs -> due w r -> ~ In r (map fst ps) -> In u vac -> ~ In u (map snd ps) ->
    dist2 w u r = Ok e -> limit h e = false }.
Lemma matched_nil : forall h w rs vac, (forall r, In r rs -> due_b w r = false) \/ vac = [] -> matched h w rs vac [].
Proof.
  intros h w rs vac H. constructor; cbn.
  - constructor.
  - constructor.
  - intros; contradiction.
  - intros _. destruct H as [H| ->]; [|rewrite Nat.min_0_r; reflexivity].
    replace (filter (due_b w) rs) with (@nil rid); [reflexivity|]. clear vac. induction rs as [|a rs IH]; [reflexivity|]. cbn. rewrite (H a) by (left; reflexivity). apply IH. intros. apply H. right. auto.
  - intros _ [|? ?] r v ps2 E; discriminate.
  - intros _ r u e Hr Hd _ Hu. destruct H as [H| ->]; [|destruct Hu]. apply H in Hr. unfold due_b in Hr. apply qle_false in Hr. unfold due in Hd. lra.
Qed.

Lemma due_iff : forall w r, due_b w r = true <-> due w r.
Proof. intros. apply qle_iff. Qed.

Lemma round_loop_ok : forall c h rs vac w w', NoDup rs -> NoDup vac -> round_loop c h rs vac w = Ok w' ->
  exists ps, pairs c w ps w' /\ matched h w rs vac ps.
Proof.
  intros c h rs; induction rs as [|r rs IH]; intros vac w w' Nr Nv H; cbn [round_loop] in H.
  - injection H as <-. exists []. split; [reflexivity|]. apply matched_nil. left. intros r [].
  - destruct vac as [|v0 vac0] eqn:Ev; [injection H as <-; exists []; split; [reflexivity|apply matched_nil; auto]|]. rewrite <- Ev in *.
    assert (Hne : vac <> []) by (rewrite Ev; discriminate). clear Ev v0 vac0.
    inversion Nr as [|? ? Nr1 Nr2]; subst.
    destruct (qle (r_depart (R w r)) (w_TIME w)) eqn:Ed.
    + apply bind_ok in H. destruct H as (t & Ep & H). pose proof (pick_ok h w r vac t Ep) as (P1 & P2 & P3). destruct t as [v|].
      * apply bind_ok in H. destruct H as (w1 & Ea & H). destruct (drop_ok h w r vac v Nv Ep) as (D1 & D2 & D3).
        destruct (IH (drop h v vac) w1 w' Nr2 D1 H) as (ps & Hp & [M1 M2 M3 M4 M5 M6]). pose proof (assign_calm _ _ _ _ _ Ea) as Cm.
        assert (Hdue : forall k, due_b w1 k = due_b w k) by (intro; apply calm_due; exact Cm).
        exists ((r, v) :: ps). split; [unfold pairs; cbn [foldM fst snd]; rewrite Ea; exact Hp|]. constructor.
        -- cbn. constructor; [|exact M1]. intro K. apply in_map_iff in K. destruct K as ([a b] & <- & K). apply M3 in K. tauto.
        -- cbn. constructor; [|exact M2]. intro K. apply in_map_iff in K. destruct K as ([a b] & E & K). cbn in E. subst b. apply M3 in K. destruct K as (_ & _ & K). apply D3 in K. tauto.
        -- intros a b [K|K].
           ++ injection K as <- <-. split; [left; reflexivity|]. split; [apply qle_iff; exact Ed|apply P1; reflexivity].
           ++ apply M3 in K. destruct K as (K1 & K2 & K3). split; [right; exact K1|]. split; [|apply D3 in K3; tauto].
              rewrite <- due_iff in *. rewrite <- Hdue. exact K2.
        -- intro Hh. cbn [List.length filter]. specialize (M4 Hh). rewrite M4. unfold due_b at 2. rewrite Ed. cbn [List.length].
           rewrite <- D2. cbn. f_equal. f_equal. f_equal. apply filter_ext. exact Hdue.
        -- intro Hh. specialize (M5 Hh). intros ps1 a b ps2 E. destruct ps1 as [|[a1 b1] ps1]; cbn in E.
           ++ injection E as <- <- <-. destruct (P2 Hh v eq_refl) as (d & K1 & K2 & K3). exists d. split; [exact K1|]. split; [exact K2|]. intros u e Hu _. apply K3. exact Hu.
           ++ injection E as <- <- E. destruct (M5 _ _ _ _ E) as (d & K1 & K2 & K3). rewrite (calm_dist _ _ _ _ Cm) in K1. exists d. split; [exact K1|]. split; [exact K2|].
              intros u e Hu Hn He. cbn in Hn. apply K3 with (u := u); [apply D3; split; [exact Hu|intros ->; apply Hn; left; reflexivity]|tauto|rewrite (calm_dist _ _ _ _ Cm); exact He].
        -- intros Hh a u e Ha Hdu Hna Hu Hnu He. cbn in Hna, Hnu. destruct Ha as [-> |Ha]; [tauto|].
           apply (M6 Hh a u e Ha); [rewrite <- due_iff in *; rewrite Hdue; exact Hdu|tauto| |tauto|rewrite (calm_dist _ _ _ _ Cm); exact He].
           apply D3. split; [exact Hu|]. intros ->. tauto.
      * destruct (P3 eq_refl Hne) as (q & ->). destruct (IH vac w w' Nr2 Nv H) as (ps & Hp & [M1 M2 M3 M4 M5 M6]). exists ps. split; [exact Hp|].
        constructor; auto.
        -- intros a b K. apply M3 in K. cbn. tauto.
        -- intro Hh. destruct (Hh q eq_refl).
        -- intros Hh a u e [<- |Ha] Hdu Hna Hu Hnu He; [|eapply M6; eauto].
           cbn [pick] in Ep. unfold pick_near in Ep. apply bind_ok in Ep. destruct Ep as (b & Eb & Ep). destruct b as [[d x]|]; [discriminate|].
           destruct (near_loop _ _ _ _ _ _ Eb) as (_ & _ & K & _). cbn [limit]. destruct (qle 0 q && qle e (q * q)) eqn:El; [|reflexivity].
           destruct (K u e Hu He El) as (d & x & X & _). discriminate.
    + destruct (IH vac w w' Nr2 Nv H) as (ps & Hp & [M1 M2 M3 M4 M5 M6]). exists ps. split; [exact Hp|]. constructor; auto.
      * intros a b K. apply M3 in K. cbn. tauto.
      * intro Hh. cbn [filter]. unfold due_b at 1. rewrite Ed. apply M4. exact Hh.
      * intros Hh a u e [<- |Ha] Hdu Hna Hu Hnu He; [|eapply M6; eauto]. unfold due in Hdu. apply qle_false in Ed. lra.
Qed.

(** ** What the assignments do to the requests *)
Lemma filter_filter' : forall A (f g h : A -> bool) l, (forall x, h x = f x && g x) -> filter f (filter g l) = filter h l.
Proof.
  intros A f g h l E. induction l as [|a l IH]; [reflexivity|]. cbn. rewrite E. destruct (g a); cbn; [rewrite andb_true_r; destruct (f a); rewrite IH; reflexivity|rewrite andb_false_r; exact IH].
Qed.
Lemma remove_first_filter : forall r l, NoDup l -> remove_first r l = filter (fun x => negb (Nat.eqb x r)) l.
Proof.
  intros r l Nd; induction Nd as [|a l Ha Nd IH]; [reflexivity|]. cbn. rewrite (Nat.eqb_sym a r). destruct (Nat.eqb_spec r a) as [-> |E]; cbn.
  - clear IH. induction l as [|b l IHl]; [reflexivity|]. cbn. destruct (Nat.eqb_spec b a) as [-> |K]; [elim Ha; left; reflexivity|]. cbn. f_equal.
    apply IHl; [intro; apply Ha; right; auto|]. inversion Nd; auto.
  - f_equal. exact IH.
Qed.
Lemma pairs_split : forall c ps w w', NoDup (w_pending w) -> NoDup (map fst ps) -> pairs c w ps w' -> split_up w ps w'.
Proof.
  intros c ps; induction ps as [|[r v] ps IH]; intros w w' Np Nd H; unfold pairs in H; cbn [foldM fst snd] in H.
  - injection H as <-. split; [|split; [reflexivity|split; [intros ? ? []|reflexivity]]]. cbn. induction (w_pending w) as [|a l IHl]; [reflexivity|]. cbn. f_equal. apply IHl. inversion Np; auto.
  - apply bind_ok in H. destruct H as (w1 & E & H). inversion Nd as [|? ? Nd1 Nd2]; subst.
    pose proof (assign_ok _ _ _ _ _ E) as A. destruct A as (_ & _ & _ & _ & A2 & _ & A3 & A4 & _).
    assert (Np1 : NoDup (w_pending w1)) by (rewrite A4; apply remove_first_nodup; exact Np).
    destruct (IH w1 w' Np1 Nd2 H) as (B1 & B2 & B3 & B4). split; [|split; [congruence|split]].
    + rewrite B1, A4, remove_first_filter by exact Np. apply filter_filter'. intro x. unfold mem. cbn [map fst existsb]. rewrite negb_orb, andb_comm. reflexivity.
    + intros a b [K|K]; [|apply B3; exact K]. injection K as <- <-. unfold assigned. rewrite B4 by exact Nd1. rewrite A2, Nat.eqb_refl. reflexivity.
    + intros a Ha. cbn in Ha. rewrite B4 by tauto. rewrite A2. destruct (Nat.eqb_spec a r) as [-> |]; [tauto|reflexivity].
Qed.

(** the assignments of a round are operations of the history *)
Lemma pairs_later : forall c (P : op -> world -> Prop), (forall v r w, P (OAssignTaxi v r) w) -> forall ps w w',
  (forall r v, In (r, v) ps -> v < w_nv w) -> pairs c w ps w' -> later c P w w'.
Proof.
  intros c P HP ps; induction ps as [|[r v] ps IH]; intros w w' Hv H; unfold pairs in H; cbn [foldM fst snd] in H.
  - injection H as <-. constructor.
  - apply bind_ok in H. destruct H as (w1 & E & H).
    pose proof (assign_ok _ _ _ _ _ E) as A. destruct A as (A0 & A1 & _ & _ & A2 & A6 & A3 & A4 & _).
    apply later_trans with w1.
    + eapply lt_step; [apply lt_refl|]. apply st_op with (OAssignTaxi v r); [|apply HP|intros; discriminate|exact E].
      specialize (Hv r v (or_introl eq_refl)). exact Hv.
    + apply IH; [intros a b K; rewrite A6; eapply Hv; right; eauto|exact H].
Qed.

Lemma vacant_iff : forall w v, In v (vacant w) <-> is_vacant w v.
Proof.
  intros w v. unfold vacant. rewrite filter_In, in_seq. unfold is_vacant, is_vacant_b.
  split.
  - intros [H E]. destruct (v_mode (V w v)), (v_state (V w v)), (v_dest (V w v)); try discriminate. repeat split; auto. lia.
  - intros (H & -> & -> & ->). split; [lia|reflexivity].
Qed.

Theorem round_lemma : forall c h w w' vac, (0 <= dt c)%Q -> reach c w -> Permutation vac (vacant w) -> round c h vac w = Ok w' ->
  exists ps, pairs c w ps w' /\ proper w ps /\ split_up w ps w' /\ chosen h w vac ps /\ reach c w'.
Proof.
  intros c h w w' vac Hdt Rc Pm H. destruct (pending_lemma c w Hdt Rc) as (Np & Hlt & _).
  assert (Nv : NoDup vac). { apply Permutation_NoDup with (vacant w); [apply Permutation_sym; exact Pm|]. apply NoDup_filter, seq_NoDup. }
  destruct (round_loop_ok c h (w_pending w) vac w w' Np Nv H) as (ps & Hp & [M1 M2 M3 M4 M5 M6]). exists ps.
  assert (Pr : proper w ps).
  { split; [exact M1|]. split; [exact M2|]. intros r v K. apply M3 in K. destruct K as (K1 & K2 & K3). split; [exact K1|]. split; [exact K2|].
    apply vacant_iff. eapply Permutation_in; eauto. }
  split; [exact Hp|]. split; [exact Pr|]. split; [eapply pairs_split; eauto|]. split.
  - destruct h as [| |q]; cbn [chosen].
    + apply M4. discriminate.
    + split; [apply M4; discriminate|apply (M5 ltac:(discriminate))].
    + split; [apply (M5 ltac:(discriminate))|]. intros r u e K1 K2 K3 K4 K5 K6. exact (M6 ltac:(discriminate) r u e K1 K2 K3 K4 K5 K6).
  - apply (later_reach c any_op w w' Rc). apply pairs_later with ps; [intros; exact Logic.I| |exact Hp].
    intros r v K. apply Pr in K. destruct K as (_ & _ & K). apply K.
Qed.
