(** * Clock: only the last step of a timestep changes [W.TIME]. *)
From Verif Require Import Base Types Sim Build Heap Lists Inv FrameBase Tac Frame Eff Eff2 Trace InvStep Reach Steps Effects.
Local Open Scope nat_scope.
#[local] Transparent attach record_log.

Lemma tm_log : forall c v b w, w_TIME (record_log c v b w) = w_TIME w.
Proof.
  intros c v b w. unfold record_log. cbn zeta.
  destruct (opt_eqb (v_link (V w v)) (v_linkold (V w v)));
  destruct (_ && _)%bool; destruct (v_state (V w v)); reflexivity.
Qed.
Lemma tm_attach : forall v o w w', attach v o w = Ok w' -> w_TIME w' = w_TIME w.
Proof.
  intros v o w w' H. unfold attach in H. cbn zeta in H.
  destruct (_ <=? _) in H; [|injection H as <-; reflexivity].
  destruct (from_end _ _) in H; [|discriminate].
  destruct (Nat.eqb _ _) in H; [|discriminate]. injection H as <-. reflexivity.
Qed.
#[local] Opaque attach record_log.
Lemma tm_link : forall c l w w', link_update c l w = Ok w' -> w_TIME w' = w_TIME w.
Proof. intros c l w w' H. unfold link_update in H. binv H. reflexivity. Qed.
Lemma tm_node : forall c l w w', node_update c l w = Ok w' -> w_TIME w' = w_TIME w.
Proof. intros c l w w' H. unfold node_update in H. binv H. reflexivity. Qed.
Lemma tm_follow : forall c l w w', carfollow c l w = Ok w' -> w_TIME w' = w_TIME w.
Proof. intros c l w w' H. unfold carfollow in H. binv H. reflexivity. Qed.
Lemma tm_pref : forall c v q w w', route_pref_update c v q w = Ok w' -> w_TIME w' = w_TIME w.
Proof. intros c v q w w' H. unfold route_pref_update in H. binv H; reflexivity. Qed.
Lemma tm_dest : forall c v d o w w', add_dest c v d o w = Ok w' -> w_TIME w' = w_TIME w.
Proof. intros c v d o w w' H. unfold add_dest in H. destruct (v_mode _); [discriminate|].
  destruct (v_dest _); [injection H as <-; reflexivity|]. apply tm_pref in H. exact H.
Qed.
Lemma tm_event : forall c e w w', run_event c e w = Ok w' -> w_TIME w' = w_TIME w.
Proof.
  intros c e w w' H. destruct e; cbn [run_event] in H; cbn zeta in H.
  - apply bind_ok in H. destruct H as (u & _ & H). apply bind_ok in H. destruct H as (w1 & H1 & H).
    apply tm_dest in H1. apply bind_ok in H. destruct H as (x & _ & H). injection H as <-. exact H1.
  - apply bind_ok in H. destruct H as (u & _ & H). apply bind_ok in H. destruct H as (x & _ & H). injection H as <-. reflexivity.
Qed.
Lemma tm_choose_pref : forall c ps xs w x w', choose_pref c ps xs w = Ok (x, w') -> w_TIME w' = w_TIME w.
Proof.
  intros c ps xs w x w' H. unfold choose_pref, choice_p, choice_uniform, draw in H. cbn zeta in H. binv H; reflexivity.
Qed.
Lemma tm_choice : forall c v w w', route_next_link_choice c v w = Ok w' -> w_TIME w' = w_TIME w.
Proof.
  intros c v w w' H. unfold route_next_link_choice in H. cbn zeta in H.
  apply bind_ok in H. destruct H as (l & _ & H).
  destruct (v_spec (V w v)).
  - destruct (n_out _) in H; [injection H as <-; reflexivity|].
    destruct (nth_error _ _) in H; [|discriminate]. destruct (mem _ _) in H; [|discriminate]. injection H as <-. reflexivity.
  - destruct (opt_eqb _ _) in H; [injection H as <-; reflexivity|].
    destruct (n_out _) eqn:En in H; [injection H as <-; reflexivity|].
    apply bind_ok in H. destruct H as (o2 & _ & H). apply bind_ok in H. destruct H as (ps & _ & H).
    apply bind_ok in H. destruct H as ([x w1] & H1 & H). apply tm_choose_pref in H1. injection H as <-. exact H1.
Qed.
Lemma tm_enter : forall c n v o w w', gen_enter c n v o w = Ok w' -> w_TIME w' = w_TIME w.
Proof.
  intros c n v o w w' H. cbv beta delta [gen_enter] in H. cbn zeta in H.
  apply bind_ok in H. destruct H as (w1 & H1 & H). apply tm_attach in H1.
  apply bind_ok in H. destruct H as (ca & _ & H). injection H as <-. exact H1.
Qed.
Lemma tm_shift : forall c n o v w l w', transfer_shift c n o v w = Ok (l, w') -> w_TIME w' = w_TIME w.
Proof.
  intros c n o v w l w' H. cbv beta delta [transfer_shift] in H. cbn zeta in H.
  apply bind_ok in H. destruct H as (il & _ & H).
  apply bind_ok in H. destruct H as (cd & _ & H).
  apply bind_ok in H. destruct H as (ca & _ & H).
  destruct (l_vehs _) in H; [discriminate|].
  apply bind_ok in H. destruct H as (w1 & H1 & H). apply tm_attach in H1.
  apply bind_ok in H. destruct H as (q & _ & H). injection H as _ <-.
  etransitivity; [|etransitivity; [exact H1|]]; [reflexivity|].
  destruct (v_follower _); destruct (n_fcap _); reflexivity.
Qed.
Lemma tm_end : forall c v w w', end_trip c v w = Ok w' -> w_TIME w' = w_TIME w.
Proof.
  intros c v w w' H. cbv beta delta [end_trip] in H. cbn zeta in H.
  apply bind_ok in H. destruct H as (l & _ & H).
  apply bind_ok in H. destruct H as (cd & _ & H).
  destruct (l_vehs _) in H; [discriminate|].
  destruct (negb (mem v _)) in H; [discriminate|].
  destruct (negb (mem v _)) in H; [discriminate|]. injection H as <-.
  destruct (c_delpref c); [change (w_TIME (modv ?a ?b ?x)) with (w_TIME x)|];
  rewrite tm_log; destruct (v_aborted _); destruct (v_follower _); reflexivity.
Qed.
Lemma tm_search : forall c w w', route_search_all c w = Ok w' -> w_TIME w' = w_TIME w.
Proof. intros c w w' H. unfold route_search_all in H. binv H; reflexivity. Qed.
Lemma mstep_time : forall c e w p w' p', e <> VTime -> mstep c e w p w' p' -> w_TIME w' = w_TIME w.
Proof.
  intros c e w p w' p' K M. destruct M; try reflexivity;
  eauto using tm_link, tm_enter, tm_node, tm_shift, tm_end, tm_follow, tm_log, tm_event, tm_pref, tm_choice, tm_search.
  elim K; reflexivity.
Qed.
