(** * NodeFlow: conservation of the flow at the nodes. *)
From Verif Require Import Base Types Sim Build Heap Lists Inv FrameBase Tac Frame Eff Eff2 Trace InvStep Reach Steps Effects Phases Attr Life Incoming Vev Ride Counts LinkQueries Trials Spec SpecFlow.
Local Open Scope nat_scope.

Lemma upto_plus : forall f g k, upto (fun i => f i + g i)%Z k = (upto f k + upto g k)%Z.
Proof. intros f g k. induction k; cbn; [reflexivity|]. rewrite IHk. lia. Qed.
Lemma upto_scale : forall d f k, upto (fun i => d * f i)%Z k = (d * upto f k)%Z.
Proof. intros d f k. induction k; cbn [upto]; [lia|]. rewrite IHk. lia. Qed.
Lemma upto_ext : forall f g k, (forall i, i < k -> f i = g i) -> upto f k = upto g k.
Proof. intros f g k H. induction k; cbn; [reflexivity|]. rewrite IHk, H by auto. reflexivity. Qed.
Lemma upto_zero : forall k, upto (fun _ => 0%Z) k = 0%Z.
Proof. induction k; cbn; [reflexivity|]. lia. Qed.
Lemma upto_point : forall a d k, a < k -> upto (fun i => ind (Nat.eqb i a) * d)%Z k = d.
Proof.
  intros a d k. induction k; intro H; [lia|]. cbn [upto]. destruct (Nat.eq_dec a k) as [->|Hne].
  - rewrite Nat.eqb_refl. rewrite (upto_ext _ (fun _ => 0%Z)).
    + rewrite upto_zero. cbn [ind]. lia.
    + intros i Hi. assert (E : Nat.eqb i k = false) by (apply Nat.eqb_neq; lia). rewrite E. reflexivity.
  - rewrite IHk by lia. assert (E : Nat.eqb k a = false) by (apply Nat.eqb_neq; lia). rewrite E. cbn [ind]. lia.
Qed.
(** one summand changes by [d] *)
Lemma upto_change : forall f g a d k, a < k -> (forall i, i < k -> g i = (f i + ind (Nat.eqb i a) * d)%Z) -> upto g k = (upto f k + d)%Z.
Proof. intros f g a d k Ha H. rewrite (upto_ext _ _ _ H), upto_plus, upto_point by exact Ha. reflexivity. Qed.

(** ** The curves *)
Definition leaves (e : ev) (l : lid) : bool := match e with VShift _ _ _ il => Nat.eqb l il | VEnd _ k => Nat.eqb l k | _ => false end.
Definition enters (e : ev) (l : lid) : bool := match e with VShift _ out _ _ => Nat.eqb l out | VEnter _ _ out => Nat.eqb l out | _ => false end.

Lemma last_add : forall l d l', add_last l d = Some l' -> last0 l' = (last0 l + d)%Z.
Proof.
  intros l d l' H. apply add_last_spec in H. destruct H as (p & z & -> & ->). unfold last0. rewrite !last_opt_app. reflexivity.
Qed.

Lemma last_end : forall l x, last0 (l ++ [x]) = x.
Proof. intros l x. unfold last0. rewrite last_opt_app. reflexivity. Qed.

(** an event changes the last entries of the curves by the vehicles that leave and enter *)
Lemma curve_event : forall c e w p w' p' k, Inv2 w p -> mstep c e w p w' p' ->
  last0 (l_cd (L w' k)) = (last0 (l_cd (L w k)) + ind (leaves e k) * c_deltan c)%Z /\
  last0 (l_ca (L w' k)) = (last0 (l_ca (L w k)) + ind (enters e k) * c_deltan c)%Z.
Proof.
  intros c e w p w' p' k I H.
  assert (Same : (forall l, e <> VLink l) -> leaves e k = false -> enters e k = false -> L w' k = L w k ->
    last0 (l_cd (L w' k)) = (last0 (l_cd (L w k)) + ind (leaves e k) * c_deltan c)%Z /\
    last0 (l_ca (L w' k)) = (last0 (l_ca (L w k)) + ind (enters e k) * c_deltan c)%Z).
  { intros _ -> -> ->. cbn [ind]. split; lia. }
  apply (mstep_eff _ _ _ _ _ _ I) in H. destruct e; cbn [eff] in H.
  - destruct H as (-> & -> & _ & _ & _ & _ & _ & d & _ & H). specialize (H k). cbn [leaves enters ind].
    destruct (Nat.eqb k l) eqn:Ek; rewrite H; [|split; lia]. apply Nat.eqb_eq in Ek. subst l.
    unfold linked. rs. destruct (iofc_tti c (L w k)) as (_ & E2 & E3). rewrite !last_end. split; lia.
  - destruct H as (-> & -> & _ & H & _). apply Same; auto; discriminate.
  - destruct H as (-> & -> & q & ca & _ & _ & _ & _ & _ & _ & _ & Hc & H & _). specialize (H k). cbn [leaves enters].
    rewrite H. destruct (Nat.eqb k out) eqn:E; cbn [ind]; [|split; lia]. apply Nat.eqb_eq in E; subst out.
    unfold gen_link. rs. rewrite (last_add _ _ _ Hc). split; lia.
  - destruct H as (-> & -> & _ & _ & H & _). apply Same; auto; discriminate.
  - destruct H as (-> & -> & cd & ca & rest & q & _ & _ & _ & _ & _ & _ & _ & _ & _ & _ & _ & _ & Hcd & Hca & Hr & _ & _ & _ & _ & H & _).
    specialize (H k). cbn [leaves enters]. cbv zeta in H. rewrite H.
    destruct (Nat.eqb k il) eqn:E1; [apply Nat.eqb_eq in E1; subst k|];
    (destruct (Nat.eqb _ out) eqn:E2; [apply Nat.eqb_eq in E2; subst out|]); cbn [ind]; unfold out_link, in_link; rs;
    rewrite ?(last_add _ _ _ Hcd), ?(last_add _ _ _ Hca); split; lia.
  - destruct H as (-> & rest & cd & lg & tl & Hr & _ & _ & _ & _ & Hcd & _ & _ & _ & _ & H & _).
    specialize (H k). cbn [leaves enters]. rewrite H. destruct (Nat.eqb k l) eqn:E; cbn [ind]; [|split; lia].
    apply Nat.eqb_eq in E; subst l. unfold end_link. rs. rewrite (last_add _ _ _ Hcd). split; lia.
  - destruct H as (-> & -> & _ & _ & _ & H & _). specialize (H k). cbn [leaves enters ind]. rewrite H.
    destruct (Nat.eqb k out); rs; split; lia.
  - destruct H as (-> & -> & _ & H & _). apply Same; auto; discriminate.
  - destruct H as (-> & -> & H & _). apply Same; auto; discriminate.
  - destruct H as (-> & -> & _ & H & _). apply Same; auto; discriminate.
  - destruct H as (-> & -> & _ & _ & _ & H & _). apply Same; auto; discriminate.
  - destruct H as (-> & -> & _ & _ & H & _). apply Same; auto; discriminate.
  - destruct H as (-> & -> & H & _). apply Same; auto; [discriminate|apply (so_l H)].
  - destruct H as (-> & -> & H & _). apply Same; auto; [discriminate|apply (so_l H)].
  - destruct H as (-> & -> & _ & _ & H & _). apply Same; auto; discriminate.
  - destruct H as (-> & -> & _ & _ & H & _). apply Same; auto; discriminate.
  - destruct H as (-> & -> & _ & _ & H & _). apply Same; auto; discriminate.
  - destruct H as (-> & -> & H & _). apply Same; auto; [discriminate|apply (so_l H)].
  - destruct H as (-> & -> & _ & _ & H & _). apply Same; auto; discriminate.
  - destruct H as (-> & -> & _ & H & _). apply Same; auto; discriminate.
  - destruct H as (-> & -> & _ & H & _). apply Same; auto; discriminate.
  - destruct H as (-> & -> & _ & H & _). apply Same; auto; discriminate.
Qed.

Definition out_link_of (e : ev) : option lid := match e with VShift _ out _ _ => Some out | VEnter _ _ out => Some out | _ => None end.
Definition in_link_of (e : ev) : option lid := match e with VShift _ _ _ il => Some il | VEnd _ l => Some l | _ => None end.

Lemma flow_in_event : forall c e w p w' p' n, Inv2 w p -> mstep c e w p w' p' ->
  flow_in w' n = (flow_in w n + match in_link_of e with Some l => ind (Nat.eqb (l_end (L w l)) n) * c_deltan c | None => 0 end)%Z.
Proof.
  intros c e w p w' p' n I M. pose proof (mstep_fr M) as F. unfold flow_in. rewrite (fr_w_nl F).
  assert (E : forall l, (ind (Nat.eqb (l_end (L w' l)) n) * latest (l_cd (L w' l)) =
    ind (Nat.eqb (l_end (L w l)) n) * latest (l_cd (L w l)) + ind (leaves e l) * (ind (Nat.eqb (l_end (L w l)) n) * c_deltan c))%Z).
  { intro l. rewrite <- !last0_latest, (proj1 (curve_event _ _ _ _ _ _ l I M)), (fr_l_end F). lia. }
  assert (B : match in_link_of e with Some l => l < w_nl w | None => True end).
  { pose proof (mstep_eff _ _ _ _ _ _ I M) as H. destruct e; cbn [in_link_of]; auto; cbn [eff] in H.
    - destruct H as (_ & _ & cd & ca & rest & q & _ & _ & _ & _ & H & _). exact H.
    - destruct H as (_ & rest & cd & lg & tl & _ & _ & _ & _ & H & _). exact H. }
  rewrite (upto_ext _ _ _ (fun l _ => E l)). clear E. destruct (in_link_of e) as [a|] eqn:Ea.
  - rewrite upto_plus. f_equal. rewrite <- (upto_point a (ind (Nat.eqb (l_end (L w a)) n) * c_deltan c)%Z (w_nl w) B).
    apply upto_ext. intros i _. assert (Ei : leaves e i = Nat.eqb i a) by (destruct e; cbn in Ea |- *; congruence). rewrite Ei.
    destruct (Nat.eqb i a) eqn:Eq; cbn [ind]; [apply Nat.eqb_eq in Eq; subst; reflexivity|lia].
  - rewrite Z.add_0_r. apply upto_ext. intros i _. assert (Ei : leaves e i = false) by (destruct e; cbn in Ea |- *; congruence).
    rewrite Ei. cbn [ind]. lia.
Qed.
Lemma flow_out_event : forall c e w p w' p' n, Inv2 w p -> mstep c e w p w' p' ->
  flow_out w' n = (flow_out w n + match out_link_of e with Some l => ind (Nat.eqb (l_start (L w l)) n) * c_deltan c | None => 0 end)%Z.
Proof.
  intros c e w p w' p' n I M. pose proof (mstep_fr M) as F. unfold flow_out. rewrite (fr_w_nl F).
  assert (E : forall l, (ind (Nat.eqb (l_start (L w' l)) n) * latest (l_ca (L w' l)) =
    ind (Nat.eqb (l_start (L w l)) n) * latest (l_ca (L w l)) + ind (enters e l) * (ind (Nat.eqb (l_start (L w l)) n) * c_deltan c))%Z).
  { intro l. rewrite <- !last0_latest, (proj2 (curve_event _ _ _ _ _ _ l I M)), (fr_l_start F). lia. }
  assert (B : match out_link_of e with Some l => l < w_nl w | None => True end).
  { pose proof (mstep_eff _ _ _ _ _ _ I M) as H. destruct e; cbn [out_link_of]; auto; cbn [eff] in H.
    - destruct H as (_ & _ & q & ca & _ & _ & _ & H & _). exact H.
    - destruct H as (_ & _ & cd & ca & rest & q & _ & _ & _ & H & _). exact H. }
  rewrite (upto_ext _ _ _ (fun l _ => E l)). clear E. destruct (out_link_of e) as [a|] eqn:Ea.
  - rewrite upto_plus. f_equal. rewrite <- (upto_point a (ind (Nat.eqb (l_start (L w a)) n) * c_deltan c)%Z (w_nl w) B).
    apply upto_ext. intros i _. assert (Ei : enters e i = Nat.eqb i a) by (destruct e; cbn in Ea |- *; congruence). rewrite Ei.
    destruct (Nat.eqb i a) eqn:Eq; cbn [ind]; [apply Nat.eqb_eq in Eq; subst; reflexivity|lia].
  - rewrite Z.add_0_r. apply upto_ext. intros i _. assert (Ei : enters e i = false) by (destruct e; cbn in Ea |- *; congruence).
    rewrite Ei. cbn [ind]. lia.
Qed.

(** ** The vehicles *)
(** what an event does to a vehicle *)
Inductive fate (w : world) (e : ev) (v : vid) (b : vehicle) : Prop :=
| ft_keep : v_state b = v_state (V w v) \/ v_state (V w v) = Home /\ v_state b = Wait ->
    (forall n out, e <> VEnter n v out) -> (forall l, e <> VEnd v l) -> fate w e v b
| ft_enter : forall n out, e = VEnter n v out -> v_state (V w v) = Wait -> v_state b = Run -> v_orig (V w v) = n ->
    l_start (L w out) = n -> fate w e v b
| ft_end : forall l, e = VEnd v l -> v_state (V w v) = Run -> v_link (V w v) = Some l -> v_flag (V w v) = true -> l < w_nl w ->
    v_state b = (if v_aborted (V w v) then Abort else End_) -> fate w e v b.

Lemma mstep_fate : forall c e w p w' p' v, Inv2 w p -> mstep c e w p w' p' -> fate w e v (V w' v) /\ v_orig (V w' v) = v_orig (V w v).
Proof.
  intros c e w p w' p' v I M. pose proof (mstep_vev c e w p w' p' I M v) as K. pose proof (mstep_fr M) as F.
  split; [|exact (fr_v_orig F v)].
  assert (Hq : forall n out, e = VEnter n v out -> v_state (V w v) = Wait /\ v_orig (V w v) = n /\ l_start (L w out) = n /\
    v_state (V w' v) = Run).
  { intros n out ->. pose proof (mstep_eff _ _ _ _ _ _ I M) as H. cbn [eff] in H.
    destruct H as (-> & _ & q & ca & H1 & H2 & H3 & H4 & H5 & _ & _ & _ & _ & _ & _ & _ & _ & _ & A & B).
    destruct I as [[T I] _]. assert (K' : In v (n_queue (N w n))) by (rewrite H2; left; auto). apply (s_queue I) in K'.
    apply (t_out T) in H3. rewrite A. unfold gen_veh. rs. tauto. }
  assert (He : forall l, e = VEnd v l -> v_state (V w v) = Run /\ v_link (V w v) = Some l /\ v_flag (V w v) = true /\ l < w_nl w /\
    v_state (V w' v) = (if v_aborted (V w v) then Abort else End_)).
  { intros l ->. pose proof (mstep_eff _ _ _ _ _ _ I M) as H. cbn [eff] in H.
    destruct H as (-> & rest & cd & lg & tl & H1 & Hf & H2 & H3 & H4 & _ & _ & _ & _ & _ & _ & A & Elg & Etl & B).
    apply (f_equal vride) in B. cbv zeta in B. rewrite vride_pref in B. apply ended_fields in B.
    destruct B as (_ & _ & _ & _ & _ & _ & _ & _ & _ & _ & _ & _ & _ & Es & _). auto. }
  destruct K as [E|n out q E1 E2 E3 E4 E5 E6 E7 E8|n out il q ld ln E1 E2 E3 E4 E5 E6 E7 E8 E9 E10 E11|
    l tl lg E1 E2 E3 E4 E5 E6 E7 E8|l E1 E2 E3|E1 E2 E3|E1 E2 E3 E4 E5|E1 E2 E3 E4|l E1 E2 E3 E4|l E1 E2 E3 E4 E5 E6|
    l nx E1 E2 E3 E4 E5].
  - apply vride_eq in E. assert (Es : v_state (V w' v) = v_state (V w v)) by tauto. apply ft_keep; [left; exact Es| |].
    + intros n out K. destruct (Hq _ _ K) as (B1 & _ & _ & B2). congruence.
    + intros l K. destruct (He _ K) as (B1 & _ & _ & _ & B2). destruct (v_aborted (V w v)); congruence.
  - destruct (Hq _ _ E1) as (B1 & B2 & B3 & B4). eapply ft_enter; eauto.
  - apply ft_keep; [left; rewrite E11; reflexivity| |]; intros; congruence.
  - destruct (He _ E1) as (B1 & B2 & B3 & B4 & B5). eapply ft_end; eauto.
  - apply ft_keep; [left; rewrite E3; apply (proj1 (vride_followed c w l (V w v)))| |]; intros; congruence.
  - apply ft_keep; [left; rewrite E3; reflexivity| |]; intros; congruence.
  - apply ft_keep; [right; rewrite E5; split; [exact E3|reflexivity]| |]; intros; congruence.
  - apply ft_keep; [left; rewrite E4; reflexivity| |]; intros; congruence.
  - apply ft_keep; [left; rewrite E4; reflexivity| |]; intros; congruence.
  - apply ft_keep; [left; rewrite E6; reflexivity| |]; intros; congruence.
  - apply ft_keep; [left; rewrite E5; reflexivity| |]; intros; congruence.
Qed.

(** the vehicle of an event that starts or ends a trip *)
Definition rider (e : ev) : option vid := match e with VEnter _ v _ => Some v | VEnd v _ => Some v | _ => None end.
Lemma rider_lt : forall c e w p w' p' v, Inv2 w p -> mstep c e w p w' p' -> rider e = Some v -> v < w_nv w.
Proof.
  intros c e w p w' p' v I M Hr. pose proof (mstep_eff _ _ _ _ _ _ I M) as H. destruct e; try discriminate Hr; injection Hr as ->; cbn [eff] in H.
  - destruct H as (-> & _ & q & ca & _ & H & _). destruct I as [[T I] _].
    assert (K' : In v (n_queue (N w n))) by (rewrite H; left; auto). apply (s_queue I) in K'. tauto.
  - destruct H as (-> & rest & cd & lg & tl & H & _). destruct I as [[T I] _].
    assert (K' : In v (Dq w p l)) by (unfold Dq; rewrite H; left; auto). apply (s_D I) in K'. tauto.
Qed.

(** one count changes by at most one vehicle *)
Lemma count_event : forall (f g : vid -> Z) (e : ev) (d : Z) k, (forall v, rider e = Some v -> v < k) ->
  (forall v, v < k -> g v = (f v + match rider e with Some u => ind (Nat.eqb v u) * d | None => 0 end)%Z) ->
  upto g k = (upto f k + match rider e with Some _ => d | None => 0 end)%Z.
Proof.
  intros f g e d k Hr H. destruct (rider e) as [u|].
  - apply (upto_change f g u d k); auto.
  - rewrite Z.add_0_r. apply upto_ext. intros i Hi. rewrite (H i Hi). lia.
Qed.

Lemma ind_other : forall v u d, v <> u -> (ind (Nat.eqb v u) * d = 0)%Z.
Proof. intros v u d H. apply Nat.eqb_neq in H. rewrite H. reflexivity. Qed.
Lemma ind_self : forall v d, (ind (Nat.eqb v v) * d = d)%Z.
Proof. intros. rewrite Nat.eqb_refl. cbn [ind]. lia. Qed.

Lemma started_event : forall c e w p w' p' n, Inv2 w p -> mstep c e w p w' p' ->
  started w' n = (started w n + match e with VEnter m _ _ => ind (Nat.eqb m n) | _ => 0 end)%Z.
Proof.
  intros c e w p w' p' n I M. pose proof (mstep_fr M) as F. unfold started. rewrite (fr_w_nv F).
  rewrite (count_event (fun v => ind (Nat.eqb (v_orig (V w v)) n && started_b (V w v))) _ e
    (match e with VEnter m _ _ => ind (Nat.eqb m n) | _ => 0 end)%Z).
  - f_equal. destruct e; reflexivity.
  - intros v Hr. eapply rider_lt; eauto.
  - intros v Hv. destruct (mstep_fate c e w p w' p' v I M) as [K Eo]. rewrite Eo.
    destruct K as [K1 K2 K3|m out K1 K2 K3 K4 K5|l K1 K2 K3 K4 K5 K6].
    + assert (Es : started_b (V w' v) = started_b (V w v)) by (unfold started_b; destruct K1 as [->|[-> ->]]; reflexivity).
      rewrite Es. destruct e; cbn [rider]; try lia.
      rewrite ind_other by (intro; subst; eapply K2; reflexivity). lia.
    + subst e. cbn [rider]. rewrite ind_self. unfold started_b. rewrite K2, K3, K4. rewrite andb_false_r, andb_true_r. reflexivity.
    + subst e. cbn [rider]. rewrite Z.mul_0_r. unfold started_b. rewrite K6, K2. destruct (v_aborted (V w v)); lia.
Qed.

Lemma ends_here : forall w p v l, Ends w p -> v < w_nv w -> v_state (V w v) = Run -> v_link (V w v) = Some l -> v_flag (V w v) = true ->
  if v_aborted (V w v) then n_out (N w (l_end (L w l))) = [] else v_dest (V w v) = Some (l_end (L w l)).
Proof.
  intros w p v l E Hv Hs Hl Hf. destruct (E v Hv) as [_ A2 A3]. destruct (v_aborted (V w v)) eqn:Ea.
  - destruct (A2 Hs eq_refl) as (k & K1 & K2 & _). assert (k = l) by congruence. subst k. exact K2.
  - destruct (A3 Hs Hf) as [K|(_ & k & K1 & K2)]; [discriminate|]. assert (k = l) by congruence. subst k. exact K2.
Qed.

Lemma arrived_event : forall c e w p w' p' n, Inv2 w p -> Ends w p -> single_trips w -> mstep c e w p w' p' ->
  arrived w' n = (arrived w n + match e with VEnd v l => if v_aborted (V w v) then 0 else ind (Nat.eqb (l_end (L w l)) n) | _ => 0 end)%Z.
Proof.
  intros c e w p w' p' n I En Si M. pose proof (mstep_fr M) as F. unfold arrived. rewrite (fr_w_nv F).
  rewrite (count_event (fun v => ind (match v_state (V w v), v_dest (V w v) with End_, Some m => Nat.eqb m n | _, _ => false end)) _ e
    (match e with VEnd v l => if v_aborted (V w v) then 0 else ind (Nat.eqb (l_end (L w l)) n) | _ => 0 end)%Z).
  - f_equal. destruct e; reflexivity.
  - intros v Hr. eapply rider_lt; eauto.
  - intros v Hv. destruct (mstep_fate c e w p w' p' v I M) as [K Eo].
    pose proof (proj2 (mstep_dest c e w p w' p' I M v) (Si v Hv)) as Ed. rewrite Ed.
    destruct K as [K1 K2 K3|m out K1 K2 K3 K4 K5|l K1 K2 K3 K4 K5 K6].
    + assert (Es : match v_state (V w' v), v_dest (V w v) with End_, Some m => Nat.eqb m n | _, _ => false end =
        match v_state (V w v), v_dest (V w v) with End_, Some m => Nat.eqb m n | _, _ => false end) by (destruct K1 as [->|[-> ->]]; reflexivity).
      rewrite Es. destruct e; cbn [rider]; try lia.
      rewrite ind_other by (intro; subst; eapply K3; reflexivity). lia.
    + subst e. cbn [rider]. rewrite K2, K3. cbn [ind]. lia.
    + pose proof (ends_here w p v l En Hv K2 K3 K4) as Kd. subst e. cbn [rider]. rewrite ind_self, K2, K6.
      destruct (v_aborted (V w v)); [reflexivity|]. rewrite Kd. reflexivity.
Qed.

(** where aborted vehicles have given up, after an event *)
Definition place (e : ev) (w : world) (pl : vid -> nid) : vid -> nid :=
  match e with
  | VEnd u l => if v_aborted (V w u) then fun x => if Nat.eqb x u then l_end (L w l) else pl x else pl
  | _ => pl
  end.
Lemma gave_up_event : forall c e w p w' p' pl n, Inv2 w p -> mstep c e w p w' p' ->
  gave_up (place e w pl) w' n =
  (gave_up pl w n + match e with VEnd v l => if v_aborted (V w v) then ind (Nat.eqb (l_end (L w l)) n) else 0 | _ => 0 end)%Z.
Proof.
  intros c e w p w' p' pl n I M. pose proof (mstep_fr M) as F. unfold gave_up. rewrite (fr_w_nv F).
  rewrite (count_event (fun v => ind (match v_state (V w v) with Abort => Nat.eqb (pl v) n | _ => false end)) _ e
    (match e with VEnd v l => if v_aborted (V w v) then ind (Nat.eqb (l_end (L w l)) n) else 0 | _ => 0 end)%Z).
  - f_equal. destruct e; reflexivity.
  - intros v Hr. eapply rider_lt; eauto.
  - intros v Hv. destruct (mstep_fate c e w p w' p' v I M) as [K Eo].
    destruct K as [K1 K2 K3|m out K1 K2 K3 K4 K5|l K1 K2 K3 K4 K5 K6].
    + assert (Ep : place e w pl v = pl v).
      { destruct e; cbn [place]; try reflexivity. destruct (v_aborted _); [|reflexivity]. destruct (Nat.eqb v v0) eqn:Ev; [|reflexivity].
        apply Nat.eqb_eq in Ev. subst v0. exfalso. eapply K3; reflexivity. }
      rewrite Ep.
      assert (Es : match v_state (V w' v) with Abort => Nat.eqb (pl v) n | _ => false end =
        match v_state (V w v) with Abort => Nat.eqb (pl v) n | _ => false end) by (destruct K1 as [->|[-> ->]]; reflexivity).
      rewrite Es. destruct e; cbn [rider]; try lia.
      rewrite ind_other by (intro; subst; eapply K3; reflexivity). lia.
    + subst e. cbn [rider place]. rewrite K2, K3. cbn [ind]. lia.
    + subst e. cbn [rider place]. rewrite ind_self, K2, K6. destruct (v_aborted (V w v)); [|reflexivity].
      rewrite Nat.eqb_refl. cbn [ind]. lia.
Qed.

(** ** The balance *)
Definition balance (c : cfg) (w : world) (_ : pend) : Prop :=
  single_trips w -> exists pl, at_dead_ends pl w /\ forall n, conserved c pl w n.

Lemma shift_end : forall c n out v il w p w' p', Inv2 w p -> IncA w p -> mstep c (VShift n out v il) w p w' p' -> l_end (L w il) = n.
Proof.
  intros c n out v il w p w' p' I J M. apply (mstep_eff c _ _ _ _ _ I) in M. cbn [eff] in M.
  destruct M as (-> & _ & cd & ca & rest & q & _ & Hin & Hnx & Ho & _ & _ & _ & _ & _ & _ & Hl & Hr & _).
  destruct (ia_in _ _ J n v Hin) as (Hv & [(l & (_ & K1 & _) & K2 & _)|[(o & Z)|[Z|Z]]]); [|discriminate|congruence|congruence].
  congruence.
Qed.

Lemma event_balance : forall c e w p w' p', (forall n o v l, e = VShift n o v l -> IncA w p) -> Inv2 w p -> Ends w p ->
  balance c w p -> mstep c e w p w' p' -> balance c w' p'.
Proof.
  intros c e w p w' p' J I En B M Si'. pose proof (mstep_fr M) as F.
  assert (Si : single_trips w). { intros v Hv. rewrite <- (fr_v_mode F). apply Si'. rewrite (fr_w_nv F). exact Hv. }
  destruct (B Si) as (pl & D & C). exists (place e w pl). split.
  - intros v Hv Hs. rewrite (fr_w_nv F) in Hv. rewrite (fr_w_nn F), (fr_n_out F).
    destruct (mstep_fate c e w p w' p' v I M) as [K _]. destruct K as [K1 K2 K3|m out K1 K2 K3 K4 K5|l K1 K2 K3 K4 K5 K6].
    + assert (Ep : place e w pl v = pl v).
      { destruct e; cbn [place]; try reflexivity. destruct (v_aborted _); [|reflexivity]. destruct (Nat.eqb v v0) eqn:Ev; [|reflexivity].
        apply Nat.eqb_eq in Ev. subst v0. exfalso. eapply K3; reflexivity. }
      rewrite Ep. apply D; [exact Hv|]. destruct K1 as [K1|[_ K1]]; congruence.
    + congruence.
    + pose proof (ends_here w p v l En Hv K2 K3 K4) as Kd. subst e. cbn [place]. destruct (v_aborted (V w v)); [|congruence].
      rewrite Nat.eqb_refl. split; [|exact Kd]. apply (t_ends (proj1 (proj1 I))). exact K5.
  - intro n. specialize (C n). unfold conserved in *.
    rewrite (flow_in_event c e w p w' p' n I M), (flow_out_event c e w p w' p' n I M), (started_event c e w p w' p' n I M),
      (arrived_event c e w p w' p' n I En Si M), (gave_up_event c e w p w' p' pl n I M).
    destruct e; cbn [in_link_of out_link_of]; try lia.
    + destruct (mstep_fate c _ w p w' p' v I M) as [K _]. destruct K as [K1 K2 K3|m o K1 K2 K3 K4 K5|l K1 K2 K3 K4 K5 K6].
      * exfalso. eapply K2; reflexivity.
      * injection K1 as <- <-. rewrite K5. lia.
      * discriminate.
    + rewrite (shift_end _ _ _ _ _ _ _ _ _ I (J _ _ _ _ eq_refl) M).
      rewrite (shift_start _ _ _ _ _ _ _ _ _ I (J _ _ _ _ eq_refl) Si M). lia.
    + destruct (v_aborted (V w v)); lia.
Qed.

Lemma gave_up_ext : forall pl w w' n, w_nv w' = w_nv w -> (forall v, v < w_nv w -> v_state (V w' v) = v_state (V w v)) ->
  gave_up pl w' n = gave_up pl w n.
Proof. intros pl w w' n E H. unfold gave_up. rewrite E. apply upto_ext. intros v Hv. rewrite (H v Hv). reflexivity. Qed.

Lemma counts_keep : forall c pl w w' n, w_nl w' = w_nl w -> w_nv w' = w_nv w ->
  (forall l, l < w_nl w -> l_start (L w' l) = l_start (L w l) /\ l_end (L w' l) = l_end (L w l) /\ l_ca (L w' l) = l_ca (L w l) /\ l_cd (L w' l) = l_cd (L w l)) ->
  (forall v, v < w_nv w -> v_state (V w' v) = v_state (V w v) /\ v_orig (V w' v) = v_orig (V w v) /\ v_dest (V w' v) = v_dest (V w v)) ->
  conserved c pl w n -> conserved c pl w' n.
Proof.
  intros c pl w w' n E1 E2 HL HV C. unfold conserved in *.
  assert (A1 : flow_in w' n = flow_in w n).
  { unfold flow_in. rewrite E1. apply upto_ext. intros l Hl. destruct (HL l Hl) as (_ & -> & _ & ->). reflexivity. }
  assert (A2 : flow_out w' n = flow_out w n).
  { unfold flow_out. rewrite E1. apply upto_ext. intros l Hl. destruct (HL l Hl) as (-> & _ & -> & _). reflexivity. }
  assert (A3 : started w' n = started w n).
  { unfold started. rewrite E2. apply upto_ext. intros v Hv. unfold started_b. destruct (HV v Hv) as (-> & -> & _). reflexivity. }
  assert (A4 : arrived w' n = arrived w n).
  { unfold arrived. rewrite E2. apply upto_ext. intros v Hv. destruct (HV v Hv) as (-> & _ & ->). reflexivity. }
  rewrite A1, A2, A3, A4, (gave_up_ext pl w w' n E2); [exact C|]. intros v Hv. apply HV. exact Hv.
Qed.

Lemma ostep_balance : forall c w w', AllHome w -> ostep c w w' -> balance c w None -> balance c w' None.
Proof.
  intros c w w' AH H B Si'.
  assert (Hm : forall pl n, w_final w = false -> gave_up pl w n = 0%Z).
  { intros pl n Hf. unfold gave_up. rewrite (upto_ext _ (fun _ => 0%Z)); [apply upto_zero|]. intros v Hv. rewrite (AH Hf v Hv). reflexivity. }
  destruct H; unfold wkeep in *.
  - (* a node *) destruct (B Si') as (pl & D & C). exists pl. split.
    + intros v Hv Hs. rewrite (AH H v Hv : v_state (V (added_node nd w) v) = Home) in Hs. discriminate.
    + intro n. exact (C n).
  - (* a link *) destruct (B Si') as (pl & D & C). exists pl. split.
    + intros v Hv Hs. rewrite (AH H v Hv : v_state (V (added_link (la_start a) (la_end a) k w) v) = Home) in Hs. discriminate.
    + intro n. specialize (C n). unfold conserved in *.
      assert (Kc : l_ca k = [] /\ l_cd k = []) by (apply new_link_empty in H2; tauto). destruct Kc as [Ka Kd].
      assert (Ln : L (added_link (la_start a) (la_end a) k w) (w_nl w) = k) by (unfold L; cbn; apply upd_same).
      assert (Lo : forall l, l < w_nl w -> L (added_link (la_start a) (la_end a) k w) l = L w l).
      { intros l Hl. unfold L; cbn. apply upd_other. lia. }
      assert (A1 : flow_in (added_link (la_start a) (la_end a) k w) n = flow_in w n).
      { unfold flow_in. change (w_nl (added_link (la_start a) (la_end a) k w)) with (S (w_nl w)). cbn [upto].
        rewrite Ln, Kd. unfold latest at 2. cbn [List.last]. rewrite Z.mul_0_r, Z.add_0_r. apply upto_ext. intros l Hl. rewrite (Lo l Hl). reflexivity. }
      assert (A2 : flow_out (added_link (la_start a) (la_end a) k w) n = flow_out w n).
      { unfold flow_out. change (w_nl (added_link (la_start a) (la_end a) k w)) with (S (w_nl w)). cbn [upto].
        rewrite Ln, Ka. unfold latest at 2. cbn [List.last]. rewrite Z.mul_0_r, Z.add_0_r. apply upto_ext. intros l Hl. rewrite (Lo l Hl). reflexivity. }
      rewrite A1, A2. exact C.
  - (* a vehicle *) 
    assert (Vn : V (added_veh (new_vehicle c a nl nm) pv w) (w_nv w) = new_vehicle c a nl nm) by (unfold V; cbn; apply upd_same).
    assert (Vo : forall v, v < w_nv w -> V (added_veh (new_vehicle c a nl nm) pv w) v = V w v).
    { intros v Hv. unfold V; cbn. apply upd_other. lia. }
    assert (Si : single_trips w). { intros v Hv. rewrite <- (Vo v Hv). apply Si'. cbn. lia. }
    destruct (B Si) as (pl & D & C). exists pl. split.
    + intros v Hv Hs. change (w_nv (added_veh (new_vehicle c a nl nm) pv w)) with (S (w_nv w)) in Hv.
      destruct (Nat.eq_dec v (w_nv w)) as [->|Hne]; [rewrite Vn in Hs; discriminate|]. rewrite Vo in Hs by lia. apply D; [lia|exact Hs].
    + intro n. specialize (C n). unfold conserved in *.
      assert (A3 : started (added_veh (new_vehicle c a nl nm) pv w) n = started w n).
      { unfold started. change (w_nv (added_veh (new_vehicle c a nl nm) pv w)) with (S (w_nv w)). cbn [upto]. rewrite Vn.
        change (started_b (new_vehicle c a nl nm)) with false. rewrite andb_false_r. cbn [ind]. rewrite Z.add_0_r.
        apply upto_ext. intros v Hv. rewrite (Vo v Hv). reflexivity. }
      assert (A4 : arrived (added_veh (new_vehicle c a nl nm) pv w) n = arrived w n).
      { unfold arrived. change (w_nv (added_veh (new_vehicle c a nl nm) pv w)) with (S (w_nv w)). cbn [upto]. rewrite Vn.
        change (v_state (new_vehicle c a nl nm)) with Home. cbn [ind]. rewrite Z.add_0_r.
        apply upto_ext. intros v Hv. rewrite (Vo v Hv). reflexivity. }
      assert (A5 : gave_up pl (added_veh (new_vehicle c a nl nm) pv w) n = gave_up pl w n).
      { unfold gave_up. change (w_nv (added_veh (new_vehicle c a nl nm) pv w)) with (S (w_nv w)). cbn [upto]. rewrite Vn.
        change (v_state (new_vehicle c a nl nm)) with Home. cbn [ind]. rewrite Z.add_0_r.
        apply upto_ext. intros v Hv. rewrite (Vo v Hv). reflexivity. }
      rewrite A3, A4, A5. exact C.
  - (* finalize *) pose proof (finalize_ok _ _ _ _ H0) as Z. pose proof (fz_cnt _ _ _ Z) as Zc.
    assert (Ev : forall v, V w' v = V w v) by (intro; unfold V; rewrite (fz_V _ _ _ Z); reflexivity).
    assert (E1 : w_nv w' = w_nv w) by congruence. assert (E2 : w_nl w' = w_nl w) by congruence.
    assert (Si : single_trips w). { intros v Hv. rewrite <- Ev. apply Si'. rewrite E1. exact Hv. }
    destruct (B Si) as (pl & D & C). exists pl. split.
    + intros v Hv Hs. rewrite Ev in Hs. rewrite E1 in Hv. rewrite (AH H v Hv) in Hs. discriminate.
    + intro n. apply (counts_keep c pl w w' n); auto.
      * intros l Hl. destruct (fz_L _ _ _ Z l) as (q & ->). auto.
      * intros v Hv. rewrite Ev. auto.
  - assert (E1 : w_nv w' = w_nv w) by congruence. assert (E2 : w_nl w' = w_nl w) by congruence.
    assert (HV : forall v, v_state (V w' v) = v_state (V w v) /\ v_orig (V w' v) = v_orig (V w v) /\ v_mode (V w' v) = v_mode (V w v)).
    { intro v. specialize (H v). unfold vkeep in H. repeat split; congruence. }
    assert (EN : forall n, N w' n = N w n) by (intro; unfold N; rewrite H1; auto).
    assert (EL : forall n, L w' n = L w n) by (intro; unfold L; rewrite H0; auto).
    assert (Si : single_trips w). { intros v Hv. rewrite <- (proj2 (proj2 (HV v))). apply Si'. rewrite E1. exact Hv. }
    destruct (B Si) as (pl & D & C). exists pl. split.
    + intros v Hv Hs. rewrite (proj1 (HV v)) in Hs. rewrite E1 in Hv. rewrite EN. replace (w_nn w') with (w_nn w) by congruence. apply D; auto.
    + intro n. apply (counts_keep c pl w w' n); auto.
      * intros l _. rewrite EL. auto.
      * intros v Hv. destruct (HV v) as (K1 & K2 & _). repeat split; auto.
  - assert (E1 : w_nv w' = w_nv w) by congruence. assert (E2 : w_nl w' = w_nl w) by congruence.
    assert (Ev : forall v, V w' v = V w v) by (intro; unfold V; rewrite H; reflexivity).
    assert (EL : forall l, l_start (L w' l) = l_start (L w l) /\ l_end (L w' l) = l_end (L w l) /\ l_ca (L w' l) = l_ca (L w l) /\ l_cd (L w' l) = l_cd (L w l)).
    { intro l. specialize (H0 l). unfold lkeep in H0. repeat split; congruence. }
    assert (EN : forall n, n_out (N w' n) = n_out (N w n)) by (intro n; specialize (H1 n); unfold nkeep in H1; congruence).
    assert (Si : single_trips w). { intros v Hv. rewrite <- Ev. apply Si'. rewrite E1. exact Hv. }
    destruct (B Si) as (pl & D & C). exists pl. split.
    + intros v Hv Hs. rewrite Ev in Hs. rewrite E1 in Hv. rewrite EN. replace (w_nn w') with (w_nn w) by congruence. apply D; auto.
    + intro n. apply (counts_keep c pl w w' n); auto. intros v _. rewrite Ev. auto.
Qed.

Theorem balance_reach : forall c w, reach c w -> balance c w None.
Proof.
  intros c w R. enough ((AllHome w /\ Ends w None) /\ balance c w None) by tauto.
  revert w R. apply (reach_inc_phase c (fun w p => (AllHome w /\ Ends w p) /\ balance c w p) (fun w p => Ends w p /\ balance c w p) (fun w p => Ends w p /\ balance c w p)).
  - intros e w p w' p' Ke I J [[A1 A2] A3] M. split; [split; [eapply first_home; eauto|eapply Ends_step; eauto]|eapply event_balance; eauto].
  - tauto.
  - intros e w p w' p' Ke I [A1 A2] M. split; [eapply Ends_step; eauto|eapply event_balance; eauto]; intros; subst e; discriminate.
  - auto.
  - intros e w p w' p' Ke I [A1 A2] M. split; [eapply Ends_step; eauto|eapply event_balance; eauto]; intros; subst e; discriminate.
  - intro tm. split; [split; [intros ? v Hv|intros v Hv]; cbn in Hv; lia|]. intros _. exists (fun _ => 0). split; [intros v Hv; cbn in Hv; lia|].
    intro n. unfold conserved, flow_in, flow_out, started, arrived, gave_up. cbn [empty_world w_nl w_nv upto]. lia.
  - intros w Hf I [E Bl]. split; [split; [intro K; cbn in K; congruence|]|].
    + intros v Hv. destruct (E v Hv) as [A1 A2 A3]. constructor; auto.
    + exact Bl.
  - intros w w' I C J [[A1 A2] A3] O. split; [split; [eapply ostep_home; eauto|eapply ostep_Ends; eauto]|eapply ostep_balance; eauto].
Qed.

Theorem conserved_lemma : forall c w, reach c w -> single_trips w -> exists pl, at_dead_ends pl w /\ forall n, conserved c pl w n.
Proof. intros c w R Si. exact (balance_reach c w R Si). Qed.

Theorem through_lemma : forall c w n, reach c w -> single_trips w -> n_out (N w n) <> [] ->
  (flow_in w n + c_deltan c * started w n = flow_out w n + c_deltan c * arrived w n)%Z.
Proof.
  intros c w n R Si Hn. destruct (balance_reach c w R Si) as (pl & D & C). specialize (C n). unfold conserved in C.
  assert (E : gave_up pl w n = 0%Z).
  { unfold gave_up. rewrite (upto_ext _ (fun _ => 0%Z)); [apply upto_zero|]. intros v Hv.
    destruct (v_state (V w v)) eqn:Es; try reflexivity. destruct (Nat.eqb (pl v) n) eqn:Ep; [|reflexivity].
    apply Nat.eqb_eq in Ep. destruct (D v Hv Es) as [_ K]. rewrite Ep in K. contradiction. }
  lia.
Qed.

Theorem transit_lemma : forall c w n, reach c w -> single_trips w -> n_out (N w n) <> [] ->
  (forall v, v < w_nv w -> v_orig (V w v) <> n /\ v_dest (V w v) <> Some n) -> flow_in w n = flow_out w n.
Proof.
  intros c w n R Si Hn H. pose proof (through_lemma c w n R Si Hn) as K.
  assert (E1 : started w n = 0%Z).
  { unfold started. rewrite (upto_ext _ (fun _ => 0%Z)); [apply upto_zero|]. intros v Hv. destruct (H v Hv) as [A _].
    apply Nat.eqb_neq in A. rewrite A. reflexivity. }
  assert (E2 : arrived w n = 0%Z).
  { unfold arrived. rewrite (upto_ext _ (fun _ => 0%Z)); [apply upto_zero|]. intros v Hv. destruct (H v Hv) as [_ A].
    destruct (v_state (V w v)); try reflexivity. destruct (v_dest (V w v)) as [m|]; [|reflexivity].
    destruct (Nat.eqb m n) eqn:E; [|reflexivity]. apply Nat.eqb_eq in E. subst. congruence. }
  lia.
Qed.
