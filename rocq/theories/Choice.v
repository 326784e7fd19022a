(** * Choice: choice of the next link (C17). *)
From Verif Require Import Base Types Sim Build Heap Lists Inv FrameBase Tac Frame Eff Eff2 Trace InvStep Reach Steps Effects Phases Life Incoming Vev Ride TripLog Route Green Spec.
Local Open Scope nat_scope.

Lemma is_nil_inter : forall a b, is_nil (inter a b) = true <-> forall x, In x a -> ~ In x b.
Proof.
  intros a b. unfold inter. split.
  - intros H x Hx Hb. assert (K : In x (filter (fun l => mem l b) a)) by (apply filter_In; split; auto; apply mem_iff; auto).
    destruct (filter _ a); [destruct K|discriminate].
  - intro H. destruct (filter (fun l => mem l b) a) as [|x t] eqn:E; [reflexivity|]. exfalso.
    assert (K : In x (filter (fun l => mem l b) a)) by (rewrite E; left; auto). apply filter_In in K. destruct K as [K1 K2].
    apply mem_iff in K2. eapply H; eauto.
Qed.
Lemma inter_In : forall a b x, In x (inter a b) <-> In x a /\ In x b.
Proof. intros a b x. unfold inter. rewrite filter_In, mem_iff. reflexivity. Qed.
Lemma diff_In : forall a b x, In x (diff a b) <-> In x a /\ ~ In x b.
Proof.
  intros a b x. unfold diff. rewrite filter_In, negb_true_iff. rewrite <- (mem_iff x b). destruct (mem x b); intuition congruence.
Qed.

(** links_prefer and links_avoid select exactly the admissible links *)
Lemma filter_links_iff : forall w a outs l, In l (filter_links w a outs) <-> admissible a outs l.
Proof.
  intros w a outs l. unfold filter_links, admissible. cbv zeta.
  assert (P : forall x, In x (if is_nil (inter outs (v_prefer a)) then outs else by_name w (inter outs (v_prefer a))) <->
              In x outs /\ ((exists k, In k outs /\ In k (v_prefer a)) -> In x (v_prefer a))).
  { intro x. destruct (is_nil (inter outs (v_prefer a))) eqn:E.
    - rewrite is_nil_inter in E. split; [|tauto]. intro Hx. split; [auto|]. intros (k & K1 & K2). elim (E k K1 K2).
    - rewrite by_name_In, inter_In. split; [tauto|]. intros [H1 H2]. split; [auto|]. apply H2.
      destruct (inter outs (v_prefer a)) as [|k t] eqn:Ei; [discriminate|]. exists k. apply inter_In. rewrite Ei. left; auto. }
  set (o1 := if is_nil _ then _ else _) in *. clearbody o1.
  destruct (is_nil (inter o1 (v_avoid a))) eqn:E.
  - rewrite is_nil_inter in E. rewrite P. split; [|tauto]. intros [H1 H2]. split; [auto|]. split; [auto|]. apply E. apply P. auto.
  - rewrite by_name_In, diff_In, P. tauto.
Qed.

Lemma traveled_nodes_visited : forall w a t0 r tn, v_tlog a = (t0, PHome) :: r -> traveled_nodes w a = Ok tn ->
  forall n, In n tn <-> visited w a n.
Proof.
  intros w a t0 r tn E H n. unfold traveled_nodes in H. unfold visited. rewrite E in *. cbn [tl] in H.
  change (links_of ((t0, PHome) :: r)) with (links_of r). clear E. revert tn H. induction r as [|[t p] r IH]; intros tn H; cbn [mapM] in H.
  - injection H as <-. cbn. split; [tauto|]. intros (l & [] & _).
  - cbn [snd] in H. destruct p as [|l|]; try discriminate. cbn [bind] in H. apply bind_ok in H. destruct H as (tn' & H & H').
    injection H' as <-. specialize (IH _ H). cbn [links_of flat_map snd app In]. rewrite IH. split.
    + intros [K|(k & K1 & K2)]; [exists l; auto|exists k; auto].
    + intros (k & [K|K] & K2); [left; congruence|right; exists k; auto].
Qed.
Lemma traveled_nodes_defined : forall w a t0 r, v_tlog a = (t0, PHome) :: r -> Forall (fun e => exists l, snd e = PLink l) r ->
  exists tn, traveled_nodes w a = Ok tn.
Proof.
  intros w a t0 r E F. unfold traveled_nodes. rewrite E. cbn [tl]. clear E. induction F as [|[t p] r (l & Hl) F IH]; [eexists; reflexivity|].
  cbn [snd] in Hl. subst p. destruct IH as (tn & IH). cbn [mapM snd bind]. rewrite IH. eexists; reflexivity.
Qed.

(** ** The function *)
Theorem choose_lemma : forall c v w w' l t0 r, route_next_link_choice c v w = Ok w' -> v_link (V w v) = Some l -> v_spec (V w v) = None ->
  v_tlog (V w v) = (t0, PHome) :: r ->
  (v_dest (V w v) = Some (l_end (L w l)) /\ V w' v = V w v) \/
  v_dest (V w v) <> Some (l_end (L w l)) /\
  (n_out (N w (l_end (L w l))) = [] /\ V w' v = sv_next (Some None) (V w v) \/
   exists out, V w' v = sv_next (Some (Some out)) (V w v) /\ choice_ok c w (V w v) (n_out (N w (l_end (L w l)))) out).
Proof.
  intros c v w w' l t0 r H Hl Hs Ht. unfold route_next_link_choice in H. cbn zeta in H. rewrite Hl, Hs in H. cbn [of_opt bind] in H.
  destruct (opt_eqb (v_dest (V w v)) (Some (l_end (L w l)))) eqn:Ed.
  { apply opt_eqb_eq in Ed. injection H as <-. auto. }
  right. split; [intro K; apply opt_eqb_eq in K; congruence|].
  destruct (n_out (N w (l_end (L w l)))) as [|o os] eqn:Eo.
  { injection H as <-. rewrite V_modv_same. auto. }
  rewrite <- Eo in *. clear o os Eo. right.
  apply bind_ok in H. destruct H as (o2 & E2 & H). apply bind_ok in H. destruct H as (ps & _ & H).
  apply bind_ok in H. destruct H as ([x w1] & E & H). apply choose_pref_w in E. destruct E as [Ew Hx]. injection H as <-.
  assert (EV : forall u, V w1 u = V w u) by (destruct Ew as [-> | ->]; reflexivity).
  exists x. rewrite V_modv_same, EV. split; [reflexivity|]. set (outs := n_out (N w (l_end (L w l)))) in *.
  unfold choice_ok. destruct (c_nocyclic c && match v_mode (V w v) with Taxi => false | SingleTrip => true end) eqn:Ec.
  - apply bind_ok in E2. destruct E2 as (tn & Etn & E2). injection E2 as <-.
    pose proof (traveled_nodes_visited _ _ _ _ _ Ht Etn) as TV.
    destruct (is_nil (filter (fun l' => negb (mem (l_end (L w l')) tn)) (filter_links w (V w v) outs))) eqn:En.
    + split; [apply filter_links_iff in Hx; exact Hx|]. intros _ _ (k & K1 & K2). exfalso.
      assert (Hin : In k (filter (fun l' => negb (mem (l_end (L w l')) tn)) (filter_links w (V w v) outs))).
      { apply filter_In. split; [apply filter_links_iff; exact K1|]. apply negb_true_iff. destruct (mem _ tn) eqn:Em; [|reflexivity].
        apply mem_iff in Em. apply TV in Em. contradiction. }
      destruct (filter _ _); [destruct Hin|discriminate].
    + apply filter_In in Hx. destruct Hx as [H1 H2]. split; [apply filter_links_iff in H1; exact H1|]. intros _ _ _ K.
      apply TV in K. apply mem_iff in K. rewrite K in H2. discriminate.
  - injection E2 as <-. split; [apply filter_links_iff in Hx; exact Hx|]. intros C1 C2. rewrite C1 in Ec. destruct (v_mode (V w v)); [discriminate|congruence].
Qed.

(** nothing admissible: ValueError *)
Lemma choose_nil : forall c w r, choose_pref c [] [] w = r -> r = Err ValueError.
Proof.
  intros c w r <-. unfold choose_pref, choice_max, choice_uniform, draw. destruct (c_det c); [reflexivity|].
  assert (E : forall k, nth_error (@nil nat) k = None) by (intros []; reflexivity). cbn [qsum fold_right]. rewrite E. reflexivity.
Qed.
Lemma filter_links_nil : forall w a outs, (forall l, ~ admissible a outs l) -> filter_links w a outs = [].
Proof.
  intros w a outs H. destruct (filter_links w a outs) as [|x t] eqn:E; [reflexivity|]. exfalso. apply (H x).
  apply (filter_links_iff w). rewrite E. left; auto.
Qed.
Theorem choose_error_lemma : forall c v w l t0 r, v_link (V w v) = Some l -> v_spec (V w v) = None ->
  v_tlog (V w v) = (t0, PHome) :: r -> Forall (fun e => exists l, snd e = PLink l) r ->
  v_dest (V w v) <> Some (l_end (L w l)) -> n_out (N w (l_end (L w l))) <> [] ->
  (forall k, ~ admissible (V w v) (n_out (N w (l_end (L w l)))) k) ->
  route_next_link_choice c v w = Err ValueError.
Proof.
  intros c v w l t0 r Hl Hs Ht Fr Hd Ho Ha. unfold route_next_link_choice. cbn zeta. rewrite Hl, Hs. cbn [of_opt bind].
  destruct (opt_eqb (v_dest (V w v)) (Some (l_end (L w l)))) eqn:Ed; [apply opt_eqb_eq in Ed; congruence|].
  rewrite (filter_links_nil w _ _ Ha). destruct (n_out (N w (l_end (L w l)))) as [|o os]; [congruence|].
  destruct (traveled_nodes_defined w (V w v) _ _ Ht Fr) as (tn & Etn). rewrite Etn. cbn [bind filter is_nil].
  destruct (c_nocyclic c && _); cbn [bind mapM]; rewrite (choose_nil c w _ eq_refl); reflexivity.
Qed.

(** ** One timestep *)
Definition vchoice (a : vehicle) := (v_state a, v_link a, v_next a, v_x a, v_mode a, v_prefer a, v_avoid a, v_spec a, v_tlog a).
Lemma vride_choice : forall a b, vride a = vride b -> vchoice a = vchoice b.
Proof. intros a b H. unfold vride in H. unfold vchoice. congruence. Qed.

Lemma choice_ok_same : forall c w w' a a' outs l, samenet w w' -> vchoice (sv_next None a') = vchoice (sv_next None a) ->
  choice_ok c w a outs l -> choice_ok c w' a' outs l.
Proof.
  intros c w w' a a' outs l (F1 & F2 & F3 & F4) E [A B]. unfold vchoice in E. rs.
  injection E as E1 E2 E4 E5 E6 E7 E8 E9.
  assert (Ad : forall x, admissible a' outs x <-> admissible a outs x) by (intro; unfold admissible; rewrite E6, E7; reflexivity).
  assert (Vi : forall n, visited w' a' n <-> visited w a n).
  { intro n. unfold visited. rewrite E9. split; intros (k & K1 & K2); exists k; rewrite F2 in *; auto. }
  unfold choice_ok. rewrite Ad, E5. split; [exact A|]. intros C1 C2 (k & K1 & K2). rewrite F3, Vi. apply B; auto.
  exists k. rewrite <- Ad. split; [auto|]. rewrite <- (F3 k), <- Vi. exact K2.
Qed.

Definition vch (a : vehicle) := (v_state a, v_link a, v_next a, v_mode a).
Lemma vride_ch : forall a b, vride a = vride b -> vch a = vch b /\ v_x a = v_x b.
Proof. intros a b H. apply vride_eq in H. unfold vch. split; intuition congruence. Qed.
Lemma logged_ch : forall c w v, vch (logged c w v false) = vch (V w v) /\ v_xnext (logged c w v false) = v_xnext (V w v).
Proof. intros. unfold logged. split; reflexivity. Qed.
Lemma driven_ch : forall c a, vch (driven c a) = vch a /\ v_x (driven c a) = v_xnext a. Proof. split; reflexivity. Qed.
Lemma flag_ch : forall a, vch (sv_flag true a) = vch a /\ v_x (sv_flag true a) = v_x a. Proof. split; reflexivity. Qed.
Lemma next_ch : forall n a, sv_next None (sv_next n a) = sv_next None a. Proof. reflexivity. Qed.
Lemma vride_nonext : forall a b, vride a = vride b -> vchoice (sv_next None a) = vchoice (sv_next None b).
Proof. intros a b H. unfold vride in H. unfold vchoice. rs. congruence. Qed.

(** a vehicle still running after the timestep: either it made no choice, or a correct one *)
Lemma updated_choice : forall c v wa b l t0 r, updated c v wa b -> v_state b = Run -> v_link b = Some l -> v_spec b = None ->
  v_tlog b = (t0, PHome) :: r ->
  (v_next b = v_next (V wa v) /\
    (~ (v_x b == l_len (L wa l))%Q \/ v_mode b = SingleTrip /\ v_dest (V wa v) = Some (l_end (L wa l)) \/ v_mode b = Taxi)) \/
  n_out (N wa (l_end (L wa l))) = [] /\ v_next b = Some None \/
  exists out, v_next b = Some (Some out) /\ choice_ok c wa b (n_out (N wa (l_end (L wa l)))) out.
Proof.
  intros c v wa b l t0 r U Hr Hl Hs Ht. destruct (logged_ch c wa v) as [L1 L2].
  destruct U as [U1 U2 U3|U1 U2 U3|U1 U2|k U1 U2 U3 U4|k m d U1 U2 U3 Fm Sm -> U4];
    remember (logged c wa v false) as lg eqn:Elg.
  - exfalso. apply vride_ch in U3. destruct U3. unfold vch in *. congruence.
  - exfalso. apply vride_state in U3. rewrite U3 in Hr. discriminate Hr.
  - exfalso. apply vride_ch in U2. destruct U2. unfold vch in *. congruence.
  - left. destruct (driven_ch c lg) as [D1 D2]. apply vride_ch in U4. destruct U4 as [U4 U5]. unfold vch in *.
    assert (k = l) by congruence. subst k. split; [congruence|]. left. rewrite U5, D2, L2. exact U3.
  - destruct (driven_ch c lg) as [D1 D2]. remember (driven c lg) as d eqn:Ed. clear Ed Elg.
    destruct U4 as [x x' G1 G2 G3 G4 G5 G6 G7 G8|d' b' G1 -> G3].
    + assert (Hb : vchoice b = vchoice (V x' v)) by (apply vride_choice; exact G8).
      pose proof (vride_nonext _ _ G8) as Hn. pose proof (vride_ch _ _ G4) as [H4 H5].
      pose proof (choose_next _ _ _ _ G7) as (_ & j & Hj & Cn).
      assert (Ej : v_link (V x' v) = v_link (V x v) /\ v_spec (V x' v) = v_spec (V x v) /\ v_tlog (V x' v) = v_tlog (V x v) /\ v_mode (V x' v) = v_mode (V x v)).
      { destruct Cn as [(-> & _)|[(-> & _)|(out & _ & ->)]]; repeat split; reflexivity. }
      destruct Ej as (Ej1 & Ej2 & Ej3 & Ej4). unfold vchoice in Hb.
      assert (j = l) by congruence. subst j.
      assert (k = l) by (unfold vch in *; congruence). subst k.
      destruct (choose_lemma c v x x' l t0 r G7 Hj) as [(C1 & C2)|(C1 & [(C2 & C3)|(out & C2 & C3)])]; try congruence.
      * left. split; [unfold vch in *; congruence|]. right.
        destruct (v_mode b) eqn:Em; [left|right; reflexivity]. split; [reflexivity|].
        assert (M1 : v_mode (V x v) = SingleTrip) by congruence.
        assert (M2 : v_mode (V m v) = SingleTrip) by (destruct (G2 v); congruence).
        rewrite (fr_l_end G1), (fr_l_end Fm) in C1.
        apply (dest_back wa m v _ Sm M2). apply (dest_back m x v _ G2 M1). exact C1.
      * right; left. rewrite (fr_l_end G1), (fr_l_end Fm), (fr_n_out G1), (fr_n_out Fm) in C2. split; [exact C2|].
        rewrite C3 in Hb. change (v_next (sv_next (Some None) (V x v))) with (Some (@None nat)) in Hb. congruence.
      * right; right. exists out. split; [rewrite C2 in Hb; change (v_next (sv_next (Some (Some out)) (V x v))) with (Some (Some out)) in Hb; congruence|].
        rewrite (fr_l_end G1), (fr_l_end Fm), (fr_n_out G1), (fr_n_out Fm) in C3.
        eapply choice_ok_same; [|  |exact C3].
        -- assert (Fx : fr wa x) by (eapply fr_trans; eauto). apply fr_samenet in Fx. destruct Fx as (F1 & F2 & F3 & F4). repeat split; auto.
        -- rewrite Hn, C2, next_ch. reflexivity.
    + destruct G3 as [G3|G3].
      * destruct G1 as [(-> & G1 & G2)|(-> & G1 & G2)].
        -- left. apply vride_ch in G3. destruct G3 as [G3 _]. destruct (flag_ch d) as [F1 _].
           assert (k = l) by (unfold vch in *; congruence). subst k. split; [unfold vch in *; congruence|]. right; left.
           split; [unfold vch in *; congruence|]. rewrite (fr_l_end Fm) in G2. apply (dest_back wa m v _ Sm); [|exact G2].
           destruct (Sm v). unfold vch in *. congruence.
        -- right; left. assert (k = l).
           { apply vride_ch in G3. destruct G3 as [G3 _]. destruct (flag_ch (aborting d)) as [F1 _]. unfold vch in *.
             assert (v_link (aborting d) = v_link d) by reflexivity. congruence. }
           subst k. rewrite (fr_l_end Fm), (fr_n_out Fm) in G1. split; [exact G1|].
           apply vride_ch in G3. destruct G3 as [G3 _]. destruct (flag_ch (aborting d)) as [F1 _]. unfold vch in *.
           assert (v_next (aborting d) = Some None) by reflexivity. congruence.
      * exfalso. apply vride_state in G3. destruct (finished_state c m (sv_flag true d')); congruence.
Qed.

(** ** The first phases of a timestep *)
Definition vrt (a : vehicle) := (v_linkold a, v_tlog a, v_next a, v_spec a, v_mode a, v_orig a).
Lemma vride_rt : forall a b, vride a = vride b -> vrt a = vrt b /\ v_state a = v_state b /\ v_link a = v_link b.
Proof. intros a b H. apply vride_eq in H. unfold vrt. repeat split; intuition congruence. Qed.

Lemma insert_ext : forall (f g : nat -> nat -> bool) x l, (forall a b, f a b = g a b) -> insert f x l = insert g x l.
Proof. intros f g x l H; induction l as [|y l IH]; cbn; [reflexivity|]. rewrite H, IH. reflexivity. Qed.
Lemma sort_ext : forall (f g : nat -> nat -> bool) l, (forall a b, f a b = g a b) -> sort f l = sort g l.
Proof. intros f g l H; induction l as [|y l IH]; cbn; [reflexivity|]. rewrite IH. apply insert_ext. exact H. Qed.
Lemma gen_outlinks_fr : forall w m a a' outs, fr w m -> v_spec a' = v_spec a -> v_prefer a' = v_prefer a -> v_avoid a' = v_avoid a ->
  gen_outlinks m a' outs = gen_outlinks w a outs.
Proof.
  intros w m a a' outs F E1 E2 E3. unfold gen_outlinks, filter_links. rewrite E1, E2, E3.
  assert (B : forall ls, by_name m ls = by_name w ls).
  { intro ls. unfold by_name. apply sort_ext. intros x y. rewrite !(fr_l_name F). reflexivity. }
  destruct (v_spec a); [reflexivity|]. f_equal. rewrite !B. reflexivity.
Qed.

Inductive first_case (w w3 : world) (v : vid) : Prop :=
| fc_stay : vride (V w3 v) = vride (V w v) -> first_case w w3 v
| fc_enter : forall out outs, v_state (V w v) = Wait -> gen_outlinks w (V w v) (n_out (N w (v_orig (V w v)))) = Ok outs -> In out outs ->
    v_state (V w3 v) = Run -> v_link (V w3 v) = Some out -> vrt (V w3 v) = vrt (V w v) -> first_case w w3 v
| fc_shift : forall il out, v_state (V w v) = Run -> v_link (V w v) = Some il -> v_next (V w v) = Some (Some out) ->
    v_flag (V w v) = false -> (v_x (V w v) == l_len (L w il))%Q ->
    v_state (V w3 v) = Run -> v_link (V w3 v) = Some out -> vrt (V w3 v) = vrt (V w v) -> first_case w w3 v
| fc_end : v_state (V w v) = Run -> v_state (V w3 v) = End_ \/ v_state (V w3 v) = Abort ->
    links_of (v_tlog (V w3 v)) = links_of (v_tlog (V w v)) -> first_case w w3 v.

Lemma first_cases : forall c v w w3, v < w_nv w -> first_view c v w w3 -> first_case w w3 v.
Proof.
  intros c v w w3 Hv FV. destruct FV as [E|e m p m' p' es1 es2 Ht _ _ Tr M _ I1 J1 E1 F1 F2 _ Va Vb]; [apply fc_stay; exact E|].
  pose proof (mstep_vev c e m p m' p' I1 M v) as K.
  destruct K as [E|n out q E2 E3 E4 E5 E6 E7 E8 E9|n out il q ld ln E2 E3 E4 E5 E6 E7 E8 E9 E10 E11 E12|l tl lg E2 E3 E4 E5 E6 E7 E8 E9|l E2 E3 E4|E2 E3 E4|E2 E3 E4 E5 E6|E2 E3 E4 E5|l E2 E3 E4 E5|l E2 E3 E4 E5 E6 E7|l nx E2 E3 E4 E5 E6];
    try (subst e; discriminate Ht).
  - apply fc_stay. congruence.
  - destruct E8 as (outs & G1 & G2).
    assert (B4 : v_orig (V m v) = n).
    { destruct I1 as [[T1 S1] _]. assert (Hq : In v (n_queue (N m n))) by (rewrite E4; left; auto). apply (s_queue S1) in Hq. tauto. }
    assert (Vc : vchoice (V m v) = vchoice (V w v)) by (apply vride_choice; exact Va).
    apply vride_rt in Va. destruct Va as (R1 & R2 & R3). apply vride_rt in Vb. destruct Vb as (R4 & R5 & R6).
    rewrite E9 in R4, R5, R6.
    rewrite (gen_outlinks_fr w m (V w v) (V m v)) in G1; [|exact F1|unfold vchoice in Vc; congruence|unfold vchoice in Vc; congruence|unfold vchoice in Vc; congruence].
    rewrite (fr_n_out F1) in G1. unfold vrt in R1.
    apply (fc_enter w w3 v out outs); [congruence| |exact G2|exact R5|exact R6|].
    + replace (v_orig (V w v)) with n by congruence. exact G1.
    + rewrite R4. exact R1.
  - assert (Hv' : v < w_nv m) by (rewrite (fr_w_nv F1); exact Hv). subst e.
    destruct (shift_flag c n out v il m p m' p' I1 J1 (E1 v Hv') M) as (Fl & _ & Hn).
    assert (St : (v_x (V m v) == l_len (L m il))%Q).
    { destruct (ia_in _ _ J1 _ _ E4) as (_ & [(k & (_ & K1 & K2) & _)|[(o & K)|[K|K]]]); try congruence.
      - assert (k = il) by congruence. subst k. apply Qeq_bool_iff. exact K2.
      - apply (mstep_eff c _ _ _ _ _ I1) in M. cbn [eff] in M. destruct M as (M & _). congruence. }
    rewrite (fr_l_len F1) in St.
    assert (Vx : v_x (V m v) = v_x (V w v) /\ v_flag (V m v) = v_flag (V w v)) by (apply vride_eq in Va; intuition congruence).
    destruct Vx as [Vx Vf].
    apply vride_rt in Va. destruct Va as (R1 & R2 & R3). apply vride_rt in Vb. destruct Vb as (R4 & R5 & R6).
    rewrite E12 in R4, R5, R6. unfold vrt in R1.
    apply (fc_shift w w3 v il out); [congruence|congruence|congruence|congruence|rewrite <- Vx; exact St|rewrite R5; exact E9|exact R6|rewrite R4; exact R1].
  - apply vride_links in Va. unfold vlinks in Va. rewrite E9 in Vb. apply ended_fields in Vb.
    destruct Vb as (_ & _ & Q1 & _ & _ & _ & _ & _ & _ & _ & _ & _ & _ & Q2 & _).
    apply fc_end; [congruence|rewrite Q2; destruct (v_aborted (V m v)); auto|].
    rewrite Q1, E8, links_of_app, links_of_last, app_nil_r. congruence.
Qed.

(** from the transfers to the end of the timestep *)
Lemma later_view : forall c v w w' w3 w4, body_view c v w w' w3 w4 -> alive (v_state (V w3 v)) ->
  exists wa b, fr w wa /\ same_dest w wa /\ Inv2 wa None /\ updated c v wa b /\ vride (V w' v) = vride b /\
    vrt (V wa v) = vrt (V w3 v) /\ v_state (V wa v) = v_state (V w3 v) /\ v_link (V wa v) = v_link (V w3 v).
Proof.
  intros c v w w' w3 w4 BV Ha. destruct (bv_update _ _ _ _ _ _ BV Ha) as (wa & b & B1 & B2 & B3 & B4 & B5 & B6).
  exists wa, b. repeat (split; [assumption|]). apply vride_rt in B4. destruct B4 as (R1 & R2 & R3). rewrite R1, R2, R3.
  destruct (vstate_dec (v_state (V w3 v)) Run) as [Hr|Hr].
  - destruct (bv_follow _ _ _ _ _ _ BV Hr) as (k & _ & ->). unfold followed. destruct (qlt _ _); repeat split.
  - rewrite (bv_still _ _ _ _ _ _ BV Hr). auto.
Qed.
Lemma first_next : forall w w3 v, first_case w w3 v -> v_state (V w3 v) = Run -> v_next (V w3 v) = v_next (V w v).
Proof.
  intros w w3 v [E|out outs _ _ _ _ _ E|il out _ _ _ _ _ _ _ E|_ K _] Hr.
  - apply vride_rt in E. destruct E as (E & _). unfold vrt in E. congruence.
  - unfold vrt in E. congruence.
  - unfold vrt in E. congruence.
  - intuition congruence.
Qed.

Lemma alive_run : forall s, s = Run -> alive s. Proof. intros s ->. unfold alive. auto. Qed.
Lemma alive_dec : forall s, alive s \/ ~ alive s. Proof. intros []; unfold alive; intuition congruence. Qed.

(** C17: the choice made in a timestep *)
Lemma tick_choice : forall c w w' v l, reach c w -> w_final w = true -> tick c w = Ok w' -> exists_veh w v ->
  on_link w' v l -> v_spec (V w' v) = None ->
  (v_next (V w' v) = v_next (V w v) /\
    (~ (v_x (V w' v) == l_len (L w' l))%Q \/ v_mode (V w' v) = SingleTrip /\ v_dest (V w' v) = Some (l_end (L w' l)) \/ v_mode (V w' v) = Taxi)) \/
  n_out (N w' (l_end (L w' l))) = [] /\ v_next (V w' v) = Some None \/
  exists out, v_next (V w' v) = Some (Some out) /\ choice_ok c w' (V w' v) (n_out (N w' (l_end (L w' l)))) out.
Proof.
  intros c w w' v l R Hf H Hv [Hr Hl] Hs.
  assert (R' : reach c w') by (eapply rc_tick; eauto).
  pose proof (tick_fr _ _ _ H) as (w1 & Hb & E). 
  assert (F : fr w w1) by exact (body_fr _ _ Hb).
  assert (Hv' : v < w_nv w') by (rewrite E; cbn; rewrite (fr_w_nv F); exact Hv).
  destruct (reach_trip c w' R' v Hv') as (es & A). unfold Trip in A. destruct (tp_log _ _ _ _ _ _ _ A) as (t0 & Ht).
  assert (E1 : forall u, V w' u = V w1 u) by (intro; rewrite E; reflexivity).
  assert (E2 : forall k, L w' k = L w1 k) by (intro; rewrite E; reflexivity).
  assert (E3 : forall k, N w' k = N w1 k) by (intro; rewrite E; reflexivity).
  assert (S1 : samenet w1 w') by (rewrite E; repeat split).
  rewrite E1 in Hr, Hl, Hs, Ht. rewrite !E1, !E2, !E3.
  destruct (body_viewed c v w w1 Hv (reach_Inv2 _ _ R) (reach_IncB _ _ R) (reach_Ends _ _ R) Hb) as (w3 & w4 & BV).
  pose proof (first_cases c v w w3 Hv (bv_first _ _ _ _ _ _ BV)) as FC.
  assert (Hr3 : v_state (V w3 v) = Run \/ v_state (V w3 v) <> Run) by (destruct (v_state (V w3 v)); auto; right; discriminate).
  assert (Ha : alive (v_state (V w3 v))).
  { destruct (alive_dec (v_state (V w3 v))) as [Ha|Ha]; [exact Ha|]. exfalso.
    pose proof (bv_gone _ _ _ _ _ _ BV Ha) as B. apply vride_state in B. rewrite Hr in B. apply Ha. apply alive_run. auto. }
  destruct (later_view c v w w1 w3 w4 BV Ha) as (wa & b & B1 & B2 & B3 & B4 & B5 & B6 & B7 & B8).
  pose proof (vride_rt _ _ B5) as (Q1 & Q2 & Q3). pose proof (vride_ch _ _ B5) as (Q4 & Q5).
  assert (Fb : fr w w1) by exact F.
  assert (Hst : v_state (V wa v) = Run).
  { destruct B4 as [U1 U2 U3|U1 U2 U3|U1 U2|k U1|k m d U1]; auto; exfalso.
    - apply vride_state in U3. destruct (logged_ch c wa v) as [L1 _]. unfold vch in L1. congruence.
    - apply vride_state in U3. change (v_state (sv_state Wait (logged c wa v false))) with Wait in U3. congruence.
    - apply vride_state in U2. destruct (logged_ch c wa v) as [L1 _]. unfold vch in L1. congruence. }
  pose proof (first_next _ _ _ FC ltac:(congruence)) as Nx.
  assert (Enx : v_next (V wa v) = v_next (V w v)) by (unfold vrt in B6; congruence).
  unfold vrt in Q1.
  destruct (updated_choice c v wa b l t0 (rows c es ++ end_row c (V w' v)) B4) as [(C1 & C2)|[(C1 & C2)|(out & C1 & C2)]]; try congruence.
  - left. split; [congruence|]. rewrite (fr_l_len F), (fr_l_end F). rewrite (fr_l_len B1), (fr_l_end B1) in C2.
    destruct C2 as [C2|[(C2 & C3)|C2]].
    + left. rewrite Q5. exact C2.
    + right; left. assert (M : v_mode (V w1 v) = SingleTrip) by congruence. split; [exact M|].
      destruct (run_dest _ _ _ _ (reach_Inv2 _ _ R) (body_run _ _ Hb) v) as [D1 D2]. rewrite D2 by congruence.
      apply (dest_back w wa v _ B2); [|exact C3]. destruct (B2 v). congruence.
    + right; right. congruence.
  - right; left. rewrite (fr_l_end F), (fr_n_out F). rewrite (fr_l_end B1), (fr_n_out B1) in C1. split; [exact C1|congruence].
  - right; right. exists out. split; [congruence|]. rewrite (fr_l_end F), (fr_n_out F). rewrite (fr_l_end B1), (fr_n_out B1) in C2.
    eapply choice_ok_same; [| |exact C2].
    + apply fr_samenet in F. apply fr_samenet in B1. destruct F as (A1 & A2 & A3 & A4), B1 as (D1 & D2 & D3 & D4), S1 as (S1 & S2 & S3 & S4).
      repeat split; intros; rewrite ?S1, ?S2, ?S3, ?S4; congruence.
    + apply vride_nonext. exact B5.
Qed.

(** C17: a single-trip vehicle standing at the end of its link has chosen *)
Theorem choice_made_lemma : forall c w w' v l, reach c w -> w_final w = true -> tick c w = Ok w' -> exists_veh w v ->
  on_link w' v l -> v_spec (V w' v) = None -> v_mode (V w' v) <> Taxi -> (v_x (V w' v) == l_len (L w' l))%Q ->
  v_dest (V w' v) <> Some (l_end (L w' l)) -> n_out (N w' (l_end (L w' l))) <> [] ->
  exists out, v_next (V w' v) = Some (Some out) /\ choice_ok c w' (V w' v) (n_out (N w' (l_end (L w' l)))) out.
Proof.
  intros c w w' v l R Hf H Hv Hl Hs Hm Hx Hd Ho.
  destruct (tick_choice c w w' v l R Hf H Hv Hl Hs) as [(_ & [K|[(_ & K)|K]])|[(K & _)|K]]; try contradiction. exact K.
Qed.
(** C17: any vehicle whose next link changes *)
Theorem choice_changed_lemma : forall c w w' v l out, reach c w -> w_final w = true -> tick c w = Ok w' -> exists_veh w v ->
  on_link w' v l -> v_spec (V w' v) = None -> v_next (V w' v) = Some (Some out) -> v_next (V w v) <> Some (Some out) ->
  choice_ok c w' (V w' v) (n_out (N w' (l_end (L w' l)))) out.
Proof.
  intros c w w' v l out R Hf H Hv Hl Hs Hn Hx.
  destruct (tick_choice c w w' v l R Hf H Hv Hl Hs) as [(K & _)|[(_ & K)|(o & K1 & K2)]]; try congruence.
Qed.

(** the links recorded after the first phases *)
Lemma rest_view : forall c v w w' w3 w4 k, body_view c v w w' w3 w4 -> v_state (V w3 v) = Run -> v_link (V w3 v) = Some k ->
  links_of (v_tlog (V w' v)) = links_of (v_tlog (V w3 v)) ++ (if opt_eqb (Some k) (v_linkold (V w3 v)) then [] else [k]) /\
  (v_state (V w' v) = Run -> v_link (V w' v) = Some k).
Proof.
  intros c v w w' w3 w4 k BV Hr Hk.
  destruct (later_view c v w w' w3 w4 BV (alive_run _ Hr)) as (wa & b & B1 & B2 & B3 & B4 & B5 & B6 & B7 & B8).
  unfold vrt in B6. injection B6 as V1 V2 V3 V4 V5 V6.
  pose proof (updated_links c v wa b k B4 ltac:(congruence) ltac:(congruence)) as U. rewrite V1, V2 in U.
  pose proof (vride_rt _ _ B5) as (Q1 & Q2 & Q3). unfold vrt in Q1. split; [rewrite <- U; congruence|].
  intro Hr'. pose proof (updated_place c v wa b B4 ltac:(congruence)) as P. unfold vplace in P. congruence.
Qed.
Lemma run_recorded : forall c w v l, reach c w -> exists_veh w v -> on_link w v l ->
  v_linkold (V w v) = Some l /\ exists ls, links_of (v_tlog (V w v)) = ls ++ [l].
Proof.
  intros c w v l R Hv [Hr Hl]. destruct (reach_trip c w R v Hv) as (es & A). unfold Trip in A.
  destruct (tp_run _ _ _ _ _ _ _ A Hr) as (k & K1 & _ & [(es' & t & K2 & K3)|[(K & _)|(K & _)]]); try discriminate.
  assert (k = l) by congruence. subst k. split; [exact K2|]. destruct (tp_log _ _ _ _ _ _ _ A) as (t0 & E).
  exists (map snd es'). rewrite E. change ((t0, PHome) :: rows c es ++ end_row c (V w v)) with ([(t0, PHome)] ++ rows c es ++ end_row c (V w v)).
  rewrite !links_of_app, links_of_rows, links_of_end, app_nil_r, K3, map_app. reflexivity.
Qed.

(** C17: the link entered at the end of a link is the one chosen *)
Theorem enter_chosen_lemma : forall c w w' v l, reach c w -> w_final w = true -> tick c w = Ok w' -> exists_veh w v -> on_link w v l ->
  (links_of (v_tlog (V w' v)) = links_of (v_tlog (V w v)) /\ (v_state (V w' v) = Run -> v_link (V w' v) = Some l)) \/
  exists out, v_next (V w v) = Some (Some out) /\ out <> l /\
    links_of (v_tlog (V w' v)) = links_of (v_tlog (V w v)) ++ [out] /\ (v_state (V w' v) = Run -> v_link (V w' v) = Some out).
Proof.
  intros c w w' v l R Hf H Hv Hl. destruct (run_recorded c w v l R Hv Hl) as (Lo & _). destruct Hl as [Hr Hl].
  apply tick_fr in H. destruct H as (w1 & Hb & ->). change (V (sw_T (S (w_T w)) w1)) with (V w1).
  destruct (body_viewed c v w w1 Hv (reach_Inv2 _ _ R) (reach_IncB _ _ R) (reach_Ends _ _ R) Hb) as (w3 & w4 & BV).
  destruct (first_cases c v w w3 Hv (bv_first _ _ _ _ _ _ BV)) as [E|out outs K|il out K1 K2 K3 K4 K5 K6 K7 K8|K1 K2 K3]; [|congruence| |].
  - left. apply vride_rt in E. destruct E as (E & E1 & E2). unfold vrt in E. injection E as V1 V2 V3 V4 V5 V6.
    destruct (rest_view c v w w1 w3 w4 l BV ltac:(congruence) ltac:(congruence)) as [A B]. split; [|exact B].
    rewrite A, V1, V2, Lo. cbn [opt_eqb]. rewrite Nat.eqb_refl. apply app_nil_r.
  - unfold vrt in K8. injection K8 as V1 V2 V3 V4 V5 V6. assert (il = l) by congruence. subst il.
    destruct (rest_view c v w w1 w3 w4 out BV K6 K7) as [A B]. rewrite V1, V2, Lo in A. cbn [opt_eqb] in A.
    destruct (Nat.eqb_spec out l) as [->|Hne]; [left|right].
    + rewrite app_nil_r in A. auto.
    + exists out. auto.
  - left. assert (Ha : ~ alive (v_state (V w3 v))) by (unfold alive; intuition congruence).
    pose proof (bv_gone _ _ _ _ _ _ BV Ha) as B6. pose proof (vride_state _ _ B6). apply vride_links in B6. unfold vlinks in B6.
    split; [congruence|]. intro. exfalso. intuition congruence.
Qed.

(** C17: the link entered from the queue *)
Theorem enter_first_lemma : forall c w w' v, reach c w -> w_final w = true -> tick c w = Ok w' -> exists_veh w v -> v_state (V w v) = Wait ->
  v_state (V w' v) = Wait /\ links_of (v_tlog (V w' v)) = [] \/
  exists out outs, gen_outlinks w (V w v) (n_out (N w (v_orig (V w v)))) = Ok outs /\ In out outs /\
    links_of (v_tlog (V w' v)) = [out] /\ (v_state (V w' v) = Run -> v_link (V w' v) = Some out).
Proof.
  intros c w w' v R Hf H Hv Hw. pose proof (reach_trip c w R v Hv) as (es & A). unfold Trip in A.
  destruct (tp_home _ _ _ _ _ _ _ A (or_intror Hw)) as (E0 & Lo & Lk). destruct (tp_log _ _ _ _ _ _ _ A) as (t0 & Et). subst es.
  unfold end_row in Et. rewrite Hw in Et. cbn [rows map app] in Et. clear A.
  apply tick_fr in H. destruct H as (w1 & Hb & ->). change (V (sw_T (S (w_T w)) w1)) with (V w1).
  destruct (body_viewed c v w w1 Hv (reach_Inv2 _ _ R) (reach_IncB _ _ R) (reach_Ends _ _ R) Hb) as (w3 & w4 & BV).
  destruct (first_cases c v w w3 Hv (bv_first _ _ _ _ _ _ BV)) as [E|out outs K1 K2 K3 K4 K5 K6|il out K1|K1 K2 K3]; [| |congruence|congruence].
  - left. apply vride_rt in E. destruct E as (E & E1 & E2). unfold vrt in E. injection E as V1 V2 V3 V4 V5 V6.
    destruct (later_view c v w w1 w3 w4 BV) as (wa & b & B1 & B2 & B3 & B4 & B5 & B6 & B7 & B8); [rewrite E1, Hw; unfold alive; auto|].
    unfold vrt in B6. injection B6 as Z1 Z2 Z3 Z4 Z5 Z6.
    destruct B4 as [U1 U2 U3|U1 U2 U3|U1 U2|k U1|k m d U1]; try congruence.
    pose proof (eq_trans B5 U2) as B. apply vride_links in B. unfold vlinks in B. injection B as B9 B10. rewrite B9, B10.
    destruct (logged_ch c wa v) as [L1 _]. unfold vch in L1. split; [congruence|].
    unfold logged, tlog_rows. rs. rewrite B8, Z1, E2, V1, Lo, Lk. cbn [opt_eqb]. rewrite app_nil_r, Z2, V2, Et. reflexivity.
  - right. exists out, outs. unfold vrt in K6. injection K6 as V1 V2 V3 V4 V5 V6.
    destruct (rest_view c v w w1 w3 w4 out BV K4 K5) as [A B]. rewrite V1, V2, Lo in A. cbn [opt_eqb] in A. rewrite Et in A. auto.
Qed.
Theorem enter_admissible_lemma : forall c w w' v, reach c w -> w_final w = true -> tick c w = Ok w' -> exists_veh w v -> v_state (V w v) = Wait ->
  v_spec (V w v) = None -> v_state (V w' v) <> Wait ->
  exists out, links_of (v_tlog (V w' v)) = [out] /\ (v_state (V w' v) = Run -> v_link (V w' v) = Some out) /\
    admissible (V w v) (n_out (N w (v_orig (V w v)))) out.
Proof.
  intros c w w' v R Hf H Hv Hw Hs Hn. destruct (enter_first_lemma c w w' v R Hf H Hv Hw) as [(K & _)|(out & outs & K1 & K2 & K3 & K4)]; [congruence|].
  exists out. split; [exact K3|]. split; [exact K4|]. unfold gen_outlinks in K1. rewrite Hs in K1. injection K1 as <-.
  apply filter_links_iff in K2. exact K2.
Qed.

(** nothing admissible for the first vehicle of a queue: Node.generate raises ValueError *)
Theorem generate_error_lemma : forall c n w v q, n_queue (N w n) = v :: q -> v_spec (V w v) = None ->
  0 < nsum (map (fun l => l_lanes (L w l)) (n_out (N w n))) -> (forall k, ~ admissible (V w v) (n_out (N w n)) k) ->
  generate c n w = Err ValueError.
Proof.
  intros c n w v q Hq Hs Hl Ha. unfold generate. destruct (nsum _) as [|k]; [lia|]. cbn [gen_loop]. rewrite Hq.
  unfold gen_outlinks. rewrite Hs. cbn [bind]. rewrite (filter_links_nil w _ _ Ha). cbn [mapM bind]. rewrite (choose_nil c w _ eq_refl). reflexivity.
Qed.
