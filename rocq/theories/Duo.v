(** * Duo: the preferences of the DUO route choice (RouteChoice.homogeneous_DUO_update). *)
From Verif Require Import Base Types Sim Build Heap Lists Inv FrameBase Tac Frame Eff Eff2 Trace InvStep Reach Steps Effects Phases Attr Life Incoming Vev Ride TripLog Route Green Choice Enforce Counts LinkQueries FD NodeCap Origin Bucket Outflow Trials Motion Spacing Spec Distance Totals.
Local Open Scope nat_scope.

(** ** What the vehicle part of a timestep keeps of the RouteChoice object *)
Definition rcw (w : world) := (w_rcpref w, w_rcnext w, w_rcdist w, w_rcrec w).
#[local] Transparent attach record_log.

Lemma rc_log : forall c v b w, rcw (record_log c v b w) = rcw w.
Proof.
  intros c v b w. unfold record_log. cbn zeta.
  destruct (opt_eqb (v_link (V w v)) (v_linkold (V w v)));
  destruct (_ && _)%bool; destruct (v_state (V w v)); reflexivity.
Qed.
Lemma rc_attach : forall v o w w', attach v o w = Ok w' -> rcw w' = rcw w.
Proof.
  intros v o w w' H. unfold attach in H. cbn zeta in H.
  destruct (_ <=? _) in H; [|injection H as <-; reflexivity].
  destruct (from_end _ _) in H; [|discriminate].
  destruct (Nat.eqb _ _) in H; [|discriminate]. injection H as <-. reflexivity.
Qed.
#[local] Opaque attach record_log.
Lemma rc_link : forall c l w w', link_update c l w = Ok w' -> rcw w' = rcw w.
Proof. intros c l w w' H. unfold link_update in H. binv H. reflexivity. Qed.
Lemma rc_node : forall c l w w', node_update c l w = Ok w' -> rcw w' = rcw w.
Proof. intros c l w w' H. unfold node_update in H. binv H. reflexivity. Qed.
Lemma rc_follow : forall c l w w', carfollow c l w = Ok w' -> rcw w' = rcw w.
Proof. intros c l w w' H. unfold carfollow in H. binv H. reflexivity. Qed.
Lemma rc_pref : forall c v q w w', route_pref_update c v q w = Ok w' -> rcw w' = rcw w.
Proof. intros c v q w w' H. unfold route_pref_update in H. binv H; reflexivity. Qed.
Lemma rc_dest : forall c v d o w w', add_dest c v d o w = Ok w' -> rcw w' = rcw w.
Proof. intros c v d o w w' H. unfold add_dest in H. destruct (v_mode _); [discriminate|].
  destruct (v_dest _); [injection H as <-; reflexivity|]. apply rc_pref in H. exact H.
Qed.
Lemma rc_event : forall c e w w', run_event c e w = Ok w' -> rcw w' = rcw w.
Proof.
  intros c e w w' H. destruct e; cbn [run_event] in H; cbn zeta in H.
  - apply bind_ok in H. destruct H as (u & _ & H). apply bind_ok in H. destruct H as (w1 & H1 & H).
    apply rc_dest in H1. apply bind_ok in H. destruct H as (x & _ & H). injection H as <-. exact H1.
  - apply bind_ok in H. destruct H as (u & _ & H). apply bind_ok in H. destruct H as (x & _ & H). injection H as <-. reflexivity.
Qed.
Lemma rc_choose_pref : forall c ps xs w x w', choose_pref c ps xs w = Ok (x, w') -> rcw w' = rcw w.
Proof.
  intros c ps xs w x w' H. unfold choose_pref, choice_p, choice_uniform, draw in H. cbn zeta in H. binv H; reflexivity.
Qed.
Lemma rc_choice : forall c v w w', route_next_link_choice c v w = Ok w' -> rcw w' = rcw w.
Proof.
  intros c v w w' H. unfold route_next_link_choice in H. cbn zeta in H.
  apply bind_ok in H. destruct H as (l & _ & H).
  destruct (v_spec (V w v)).
  - destruct (n_out _) in H; [injection H as <-; reflexivity|].
    destruct (nth_error _ _) in H; [|discriminate]. destruct (mem _ _) in H; [|discriminate]. injection H as <-. reflexivity.
  - destruct (opt_eqb _ _) in H; [injection H as <-; reflexivity|].
    destruct (n_out _) eqn:En in H; [injection H as <-; reflexivity|].
    apply bind_ok in H. destruct H as (o2 & _ & H). apply bind_ok in H. destruct H as (ps & _ & H).
    apply bind_ok in H. destruct H as ([x w1] & H1 & H). apply rc_choose_pref in H1. injection H as <-. exact H1.
Qed.
Lemma rc_enter : forall c n v o w w', gen_enter c n v o w = Ok w' -> rcw w' = rcw w.
Proof.
  intros c n v o w w' H. cbv beta delta [gen_enter] in H. cbn zeta in H.
  apply bind_ok in H. destruct H as (w1 & H1 & H). apply rc_attach in H1.
  apply bind_ok in H. destruct H as (ca & _ & H). injection H as <-. exact H1.
Qed.
Lemma rc_shift : forall c n o v w l w', transfer_shift c n o v w = Ok (l, w') -> rcw w' = rcw w.
Proof.
  intros c n o v w l w' H. cbv beta delta [transfer_shift] in H. cbn zeta in H.
  apply bind_ok in H. destruct H as (il & _ & H).
  apply bind_ok in H. destruct H as (cd & _ & H).
  apply bind_ok in H. destruct H as (ca & _ & H).
  destruct (l_vehs _) in H; [discriminate|].
  apply bind_ok in H. destruct H as (w1 & H1 & H). apply rc_attach in H1.
  apply bind_ok in H. destruct H as (q & _ & H). injection H as _ <-.
  etransitivity; [|etransitivity; [exact H1|]]; [reflexivity|].
  destruct (v_follower _); destruct (n_fcap _); reflexivity.
Qed.
Lemma rc_end : forall c v w w', end_trip c v w = Ok w' -> rcw w' = rcw w.
Proof.
  intros c v w w' H. cbv beta delta [end_trip] in H. cbn zeta in H.
  apply bind_ok in H. destruct H as (l & _ & H).
  apply bind_ok in H. destruct H as (cd & _ & H).
  destruct (l_vehs _) in H; [discriminate|].
  destruct (negb (mem v _)) in H; [discriminate|].
  destruct (negb (mem v _)) in H; [discriminate|]. injection H as <-.
  destruct (c_delpref c); [change (rcw (modv ?a ?b ?x)) with (rcw x)|];
  rewrite rc_log; destruct (v_aborted _); destruct (v_follower _); reflexivity.
Qed.

Definition no_rc (e : ev) : bool := match e with VSearch | VDuo => false | _ => true end.
Lemma mstep_rc : forall c e w p w' p', no_rc e = true -> mstep c e w p w' p' -> rcw w' = rcw w.
Proof.
  intros c e w p w' p' K M. destruct M; try discriminate K; try reflexivity;
  eauto using rc_link, rc_enter, rc_node, rc_shift, rc_end, rc_follow, rc_log, rc_event, rc_pref, rc_choice.
Qed.
Lemma run_rc : forall c K w w', (forall e, K e = true -> no_rc e = true) -> run c K w w' -> rcw w' = rcw w.
Proof.
  intros c K w w' HK (es & F & T). remember (@None (nat * nat)) as p eqn:Ep. clear Ep.
  revert F. induction T as [|e es w p w1 p1 w2 p2 M T IH]; intro F; [reflexivity|].
  inversion F; subst. rewrite IH by auto. apply (mstep_rc _ _ _ _ _ _ (HK _ H1) M).
Qed.
