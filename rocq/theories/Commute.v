(** * Commute: what a timestep does not depend on.

    [X] changes W.TIME and the trip requests of a state, [C] replaces the random generator.
    Every method of the engine except the taxi events commutes with [X] and, when
    hard_deterministic_mode is on (or the generator is not replaced), with [C]. *)
From Verif Require Import Base Types Sim Build Spec.

Definition rmap {A B} (f : A -> B) (r : result A) : result B :=
  match r with Ok a => Ok (f a) | Err e => Err e end.
Definition on2 {A B C} (f : B -> C) (p : A * B) : A * C := (fst p, f (snd p)).

Section Commute.
Variables (c : cfg) (o : nat -> nat) (q : nat -> Q).
Hypothesis seed : c_det c = true \/ (o = c_orc c /\ q = c_orcq c).
Variables (t : Q) (rq : rid -> request).
Let X := retime t rq.
Let C := reseed o q c.

Lemma bindX : forall A B (g : A -> B) (a1 : result world) a2 (f1 : world -> result A) f2,
  a2 = rmap X a1 -> (forall y, f2 (X y) = rmap g (f1 y)) -> bind a2 f2 = rmap g (bind a1 f1).
Proof. intros A B g a1 a2 f1 f2 -> H. destruct a1; cbn; auto. Qed.
Lemma bindE : forall A B D (g : A -> B) (a : result D) (f1 : D -> result A) f2,
  (forall y, f2 y = rmap g (f1 y)) -> bind a f2 = rmap g (bind a f1).
Proof. intros A B D g a f1 f2 H. destruct a; cbn; auto. Qed.
Lemma bindP : forall A B D (g : A -> B) (a1 : result (D * world)) a2 (f1 : D * world -> result A) f2,
  a2 = rmap (on2 X) a1 -> (forall d y, f2 (d, X y) = rmap g (f1 (d, y))) -> bind a2 f2 = rmap g (bind a1 f1).
Proof. intros A B D g a1 a2 f1 f2 -> H. destruct a1 as [[d y]|]; cbn [rmap bind on2 fst snd]; [apply H|reflexivity]. Qed.
Lemma foldM_X : forall A (f1 f2 : A -> world -> result world) l w,
  (forall a y, f2 a (X y) = rmap X (f1 a y)) -> foldM f2 l (X w) = rmap X (foldM f1 l w).
Proof.
  intros A f1 f2 l; induction l as [|a l IH]; intros w H; cbn; auto.
  apply bindX; auto.
Qed.

Set Warnings "-variable-collision".
Lemma letX : forall A B (g : A -> B) (a1 : world) a2 (f1 : world -> result A) f2,
  a2 = X a1 -> (forall y, f2 (X y) = rmap g (f1 y)) -> (let w := a2 in f2 w) = rmap g (let w := a1 in f1 w).
Proof. intros A B g a1 a2 f1 f2 -> H. apply H. Qed.
Lemma letE : forall A B D (g : A -> B) (a1 : D) a2 (f1 : D -> result A) f2,
  a2 = a1 -> (forall y, f2 y = rmap g (f1 y)) -> (let w := a2 in f2 w) = rmap g (let w := a1 in f1 w).
Proof. intros A B D g a1 a2 f1 f2 -> H. apply H. Qed.
Ltac dsc := match goal with
  | |- match ?a with _ => _ end = ?F (match ?b with _ => _ end) => change a with b; destruct b end.
Ltac lx := match goal with
  | |- (let w := ?a2 in @?f2 w) = rmap ?g (let w := ?a1 in @?f1 w) =>
      let y := fresh "y" in
      first [ apply (letX _ _ g a1 a2 f1 f2); [first [reflexivity | dsc; reflexivity] |]; cbv beta; intros y
            | apply (letE _ _ _ g a1 a2 f1 f2); [reflexivity|]; cbv beta; intros y ]
  end.

Lemma choice_uniform_X : forall xs w, c_det c = false ->
  choice_uniform C xs (X w) = rmap (on2 X) (choice_uniform c xs w).
Proof.
  intros xs w D. unfold choice_uniform, draw. destruct seed as [K|[K1 K2]]; [congruence|].
  unfold C. cbn [c_orc reseed]. rewrite K1. change (w_draw (X w)) with (w_draw w).
  destruct (nth_error _ _); reflexivity.
Qed.
Lemma choice_p_X : forall ps xs w, c_det c = false ->
  choice_p C ps xs (X w) = rmap (on2 X) (choice_p c ps xs w).
Proof.
  intros ps xs w D. unfold choice_p. destruct (qeq _ _); [reflexivity|].
  destruct (existsb _ _); [reflexivity|]. apply choice_uniform_X; auto.
Qed.
Lemma choose_pref_X : forall ps xs w, choose_pref C ps xs (X w) = rmap (on2 X) (choose_pref c ps xs w).
Proof.
  intros ps xs w. unfold choose_pref. change (c_det C) with (c_det c). case_eq (c_det c); intro D.
  - apply bindE. reflexivity.
  - destruct (qlt _ _); [apply choice_p_X|apply choice_uniform_X]; auto.
Qed.

Lemma link_update_X : forall l w, link_update C l (X w) = rmap X (link_update c l w).
Proof.
  intros l w. unfold link_update. cbv zeta. apply bindE. reflexivity.
Qed.

Lemma record_log_X : forall v b w, record_log C v b (X w) = X (record_log c v b w).
Proof.
  intros v b w. unfold record_log. change (c_logint C) with (c_logint c). change (w_T (X w)) with (w_T w).
  change (V (X w) v) with (V w v). cbv zeta.
  assert (E : forall w1 w2, w2 = X w1 ->
    (if opt_eqb (v_link (V w v)) (v_linkold (V w v)) then w2 else
     modv v (fun b0 => sv_linkold (v_link (V w v)) match v_state (V w v), v_link (V w v) with
       | Run, Some l => sv_tlog (v_tlog b0 ++ [(now C (X w), PLink l)]) b0
       | End_, _ => sv_tlog (v_tlog b0 ++ [(now C (X w), PEnd)]) b0
       | _, _ => b0 end) w2) =
    X (if opt_eqb (v_link (V w v)) (v_linkold (V w v)) then w1 else
     modv v (fun b0 => sv_linkold (v_link (V w v)) match v_state (V w v), v_link (V w v) with
       | Run, Some l => sv_tlog (v_tlog b0 ++ [(now c w, PLink l)]) b0
       | End_, _ => sv_tlog (v_tlog b0 ++ [(now c w, PEnd)]) b0
       | _, _ => b0 end) w1)).
  { intros w1 w2 ->. destruct (opt_eqb _ _); reflexivity. }
  apply E. destruct (negb _ && _); [|reflexivity]. destruct (v_state (V w v)); reflexivity.
Qed.

Lemma end_trip_X : forall v w, end_trip C v (X w) = rmap X (end_trip c v w).
Proof.
  intros v w. cbv beta delta [end_trip]. lx. apply bindE. intros l. apply bindE. intros cd.
  do 4 lx. dsc; [reflexivity|]. do 3 lx. dsc; [reflexivity|]. lx. dsc; [reflexivity|].
  do 2 lx.
  match goal with |- (let w := ?a2 in @?f2 w) = rmap ?g (let w := ?a1 in @?f1 w) =>
    apply (letX _ _ g a1 a2 f1 f2); [apply record_log_X|]; cbv beta; intros z end.
  change (c_delpref C) with (c_delpref c). destruct (c_delpref c); reflexivity.
Qed.

Lemma carfollow_X : forall v w, carfollow C v (X w) = rmap X (carfollow c v w).
Proof. intros v w. unfold carfollow. cbv zeta. apply bindE. reflexivity. Qed.

Lemma route_pref_update_X : forall v wt w, route_pref_update C v wt (X w) = rmap X (route_pref_update c v wt w).
Proof.
  intros v wt w. unfold route_pref_update. cbv zeta. change (V (X w) v) with (V w v). change (w_final (X w)) with (w_final w).
  destruct (v_princ (V w v)); destruct (v_dest (V w v)); try reflexivity; destruct (w_final w); try reflexivity.
  cbn [negb]. destruct (v_pref (V w v)); try reflexivity. change (w_nl (X w)) with (w_nl w).
  destruct (forallb _ _); reflexivity.
Qed.

Lemma route_next_link_choice_X : forall v w, route_next_link_choice C v (X w) = rmap X (route_next_link_choice c v w).
Proof.
  intros v w. unfold route_next_link_choice. cbv zeta. change (V (X w) v) with (V w v). apply bindE. intros l.
  change (L (X w) l) with (L w l). change (N (X w) (l_end (L w l))) with (N w (l_end (L w l))).
  destruct (v_spec (V w v)) as [sp|].
  - destruct (n_out (N w (l_end (L w l)))); [reflexivity|]. destruct (nth_error sp _); [|reflexivity].
    destruct (mem _ _); reflexivity.
  - destruct (opt_eqb _ _); [reflexivity|]. destruct (n_out (N w (l_end (L w l)))); [reflexivity|].
    apply bindE. intros o2. apply bindE. intros ps. apply bindP; [apply choose_pref_X|]. reflexivity.
Qed.

Lemma node_update_X : forall n w, node_update C n (X w) = rmap X (node_update c n w).
Proof. intros n w. unfold node_update. apply bindE; intros nd1. apply bindE. reflexivity. Qed.

Lemma attach_X : forall v out w, attach v out (X w) = rmap X (attach v out w).
Proof.
  intros v out w. unfold attach. cbv zeta. change (L (X w) out) with (L w out).
  destruct (l_lanes (L w out) <=? _); [|reflexivity]. destruct (from_end _ _); [|reflexivity].
  match goal with |- (if ?a then _ else _) = rmap X (if ?b then _ else _) => change a with b; destruct b; reflexivity end.
Qed.

Lemma gen_enter_X : forall n v out w, gen_enter C n v out (X w) = rmap X (gen_enter c n v out w).
Proof.
  intros n v out w. unfold gen_enter. cbv zeta. apply bindX.
  - match goal with |- attach v out ?a = rmap X (attach v out ?b) => change a with (X b) end. apply attach_X.
  - intros y. apply bindE. reflexivity.
Qed.

Lemma gen_loop_X : forall n k w, gen_loop C n k (X w) = rmap X (gen_loop c n k w).
Proof.
  intros n k; induction k as [|k IH]; intros w; cbn [gen_loop]; [reflexivity|].
  change (N (X w) n) with (N w n). destruct (n_queue (N w n)) as [|v q']; [reflexivity|].
  change (V (X w) v) with (V w v).
  change (gen_outlinks (X w) (V w v) (n_out (N w n))) with (gen_outlinks w (V w v) (n_out (N w n))).
  apply bindE; intros outs. apply bindE; intros ps. apply bindP; [apply choose_pref_X|]. intros out y.
  change (has_space C (X y) (L (X y) out)) with (has_space c y (L y out)).
  change (qle (dN C) (l_cinr (L (X y) out))) with (qle (dN c) (l_cinr (L y out))).
  destruct (_ && _); [|reflexivity]. apply bindX; [apply gen_enter_X|]. exact IH.
Qed.
Lemma generate_X : forall n w, generate C n (X w) = rmap X (generate c n w).
Proof. intros n w. apply gen_loop_X. Qed.

Lemma merge_choice_X : forall w vs, merge_choice C (X w) vs = rmap (on2 X) (merge_choice c w vs).
Proof.
  intros w vs. unfold merge_choice. apply bindE; intros ps. cbv zeta. change (c_det C) with (c_det c).
  case_eq (c_det c); intro D; [apply bindE; reflexivity|]. apply choice_p_X; auto.
Qed.

Lemma end_front_X : forall l w, end_front C l (X w) = rmap (on2 X) (end_front c l w).
Proof.
  intros l w. unfold end_front. change (L (X w) l) with (L w l). destruct (l_vehs (L w l)) as [|u ?]; [reflexivity|].
  change (V (X w) u) with (V w u). destruct (v_flag (V w u)); [|reflexivity].
  apply bindX; [apply end_trip_X|]. reflexivity.
Qed.

Lemma transfer_shift_X : forall n out v w, transfer_shift C n out v (X w) = rmap (on2 X) (transfer_shift c n out v w).
Proof.
  intros n out v w. cbv beta delta [transfer_shift]. apply bindE; intros il. apply bindE; intros cd. lx. apply bindE; intros ca.
  repeat lx. dsc; [reflexivity|]. do 4 lx. apply bindX; [apply attach_X|]. intros a. apply bindE. intros x. lx. reflexivity.
Qed.

Lemma transfer_move_X : forall n out v w, transfer_move C n out v (X w) = rmap X (transfer_move c n out v w).
Proof.
  intros n out v w. unfold transfer_move. apply bindP; [apply transfer_shift_X|]. intros f y.
  apply bindP; [apply end_front_X|]. reflexivity.
Qed.

Lemma candidate_X : forall n out w v, candidate C n out (X w) v = candidate c n out w v.
Proof. reflexivity. Qed.

Lemma transfer_trial_X : forall n out w, transfer_trial C n out (X w) = rmap X (transfer_trial c n out w).
Proof.
  intros n out w. unfold transfer_trial.
  change (has_space C (X w) (L (X w) out) && qle (dN C) (l_cinr (L (X w) out)) && qle (dN C) (n_fcapr (N (X w) n)))
    with (has_space c w (L w out) && qle (dN c) (l_cinr (L w out)) && qle (dN c) (n_fcapr (N w n))).
  destruct (_ && _); [|reflexivity].
  change (filterM (candidate C n out (X w)) (n_incoming (N (X w) n))) with (filterM (candidate c n out w) (n_incoming (N w n))).
  apply bindE. intros [|u vs]; [reflexivity|]. apply bindP; [apply merge_choice_X|]. intros v y. apply transfer_move_X.
Qed.

Lemma end_fronts_X : forall l k w, end_fronts C l k (X w) = rmap X (end_fronts c l k w).
Proof.
  intros l k; induction k as [|k IH]; intros w; [reflexivity|]. cbn [end_fronts].
  apply bindP; [apply end_front_X|]. intros [] y; [apply IH|reflexivity].
Qed.

Lemma transfer_X : forall n w, transfer C n (X w) = rmap X (transfer c n w).
Proof.
  intros n w. unfold transfer.
  change (out_candidates (X w) (n_incoming (N (X w) n))) with (out_candidates w (n_incoming (N w n))).
  apply bindE; intros cands. cbv zeta.
  change (flat_map (fun l => repeat l (l_lanes (L (X w) l))) cands) with (flat_map (fun l => repeat l (l_lanes (L w l))) cands).
  set (outs := flat_map _ _). change (c_det C) with (c_det c).
  assert (E : (if c_det c then (outs, X w) else (shuffle_n (c_orc C) (w_draw (X w)) (List.length outs) outs, sw_draw (w_draw (X w) + List.length outs) (X w)))
    = on2 X (if c_det c then (outs, w) else (shuffle_n (c_orc c) (w_draw w) (List.length outs) outs, sw_draw (w_draw w + List.length outs) w))).
  { case_eq (c_det c); intro D; [reflexivity|]. destruct seed as [K|[K1 K2]]; [congruence|]. unfold C. cbn [c_orc reseed]. rewrite K1. reflexivity. }
  rewrite E. clear E.
  match goal with |- context [on2 X ?p] => generalize p end. intros [os w1]. cbn [on2 fst snd].
  apply bindX; [apply foldM_X; intros; apply transfer_trial_X|]. intros y.
  apply bindX; [apply foldM_X; intros; apply end_fronts_X|]. reflexivity.
Qed.

Lemma request_transfer_X : forall v en w, request_transfer C v en (X w) = rmap X (request_transfer c v en w).
Proof. intros v en w. unfold request_transfer. apply bindX; [apply route_next_link_choice_X|]. reflexivity. Qed.
Lemma prepare_end_X : forall v l w, prepare_end C v l (X w) = rmap X (prepare_end c v l w).
Proof.
  intros v l w. unfold prepare_end. cbv zeta. change (modv v (sv_flag true) (X w)) with (X (modv v (sv_flag true) w)).
  generalize (modv v (sv_flag true) w). intros a. change (L (X a) l) with (L a l). destruct (l_vehs (L a l)); [reflexivity|].
  destruct (_ =? _); [apply end_trip_X|reflexivity].
Qed.
Lemma maybe_pref_update_X : forall v w, maybe_pref_update C v (X w) = rmap X (maybe_pref_update c v w).
Proof. intros v w. unfold maybe_pref_update. change (c_gradual C) with (c_gradual c). destruct (c_gradual c); [apply route_pref_update_X|reflexivity]. Qed.
Lemma add_dest_X : forall v d ord w, add_dest C v d ord (X w) = rmap X (add_dest c v d ord w).
Proof.
  intros v d ord w. unfold add_dest. change (V (X w) v) with (V w v). destruct (v_mode (V w v)); [reflexivity|].
  destruct (v_dest (V w v)); [reflexivity|].
  change (modv v (sv_dest (Some d)) (X w)) with (X (modv v (sv_dest (Some d)) w)). apply route_pref_update_X.
Qed.
(** the part of [at_link_end] after the taxi event *)
Definition arrive_rest (c : cfg) (v : vid) (l : lid) (en : nid) (w : world) : result world :=
  w <- maybe_pref_update c v w ;;
  if opt_eqb (Some en) (v_dest (V w v)) then
    match v_mode (V w v) with
    | SingleTrip => prepare_end c v l w
    | Taxi =>
        let w := modv v (fun a => match v_dests a with
                                  | d :: tl => sv_dests tl (sv_dest (Some d) a)
                                  | [] => sv_dests [] (sv_dest None a)
                                  end) w in
        w <- route_pref_update c v 1%Q w ;;
        request_transfer c v en w
    end
  else if is_nil (n_out (N w en)) && v_abortopt (V w v) then
    prepare_end c v l (modv v (fun a => sv_next (Some None) (sv_aborted true a)) w)
  else request_transfer c v en w.
Lemma arrive_rest_X : forall v l en w, arrive_rest C v l en (X w) = rmap X (arrive_rest c v l en w).
Proof.
  intros v l en w. unfold arrive_rest. cbv zeta. apply bindX; [apply maybe_pref_update_X|]. intros y.
  change (V (X y) v) with (V y v). destruct (opt_eqb _ _).
  - destruct (v_mode (V y v)); [apply prepare_end_X|].
    match goal with |- context [modv v ?f (X y)] => change (modv v f (X y)) with (X (modv v f y)) end.
    apply bindX; [apply route_pref_update_X|]. intros z. apply request_transfer_X.
  - change (N (X y) en) with (N y en). destruct (_ && _); [|apply request_transfer_X].
    match goal with |- context [modv v ?f (X y)] => change (modv v f (X y)) with (X (modv v f y)) end. apply prepare_end_X.
Qed.

Lemma route_search_all_X : forall w, route_search_all C (X w) = rmap X (route_search_all c w).
Proof.
  intros w. unfold route_search_all.
  assert (E : forall l acc, foldM (fun l acc => adj_step C (X w) (now C (X w)) acc l) l acc =
                            foldM (fun l acc => adj_step c w (now c w) acc l) l acc).
  { intros l; induction l as [|a l IH]; intros acc; cbn [foldM]; [reflexivity|].
    assert (Es : adj_step C (X w) (now C (X w)) acc a = adj_step c w (now c w) acc a).
    { destruct acc as [[m cnt] dr]. unfold adj_step. cbv zeta. change (L (X w) a) with (L w a).
      change (now C (X w)) with (now c w). destruct (of_opt IndexError (last_opt (l_tti (L w a)))); [|reflexivity]. cbn [bind].
      change (c_det C) with (c_det c). case_eq (c_det c); intro D; [reflexivity|].
      destruct seed as [K|[K1 K2]]; [congruence|]. unfold C. cbn [c_orcq c_duo_noise reseed]. rewrite K2. reflexivity. }
    rewrite Es. destruct (adj_step c w (now c w) acc a); cbn [bind]; auto. }
  change (w_nl (X w)) with (w_nl w). change (w_draw (X w)) with (w_draw w). rewrite E. apply bindE. intros [[m cnt] dr].
  change (c_dijkstra C) with (c_dijkstra c). change (w_nn (X w)) with (w_nn w). destruct (c_dijkstra c (w_nn w) m). reflexivity.
Qed.

Lemma route_phase_X : forall w, route_phase C (X w) = rmap X (route_phase c w).
Proof.
  intros w. unfold route_phase. cbv zeta. change (c_gradual C) with (c_gradual c).
  change ((w_T (X w) mod route_steps C) =? 0) with ((w_T w mod route_steps c) =? 0).
  change (c_duo_time C) with (c_duo_time c). destruct (c_gradual c).
  - apply bindX. { destruct (_ =? _); [apply route_search_all_X|reflexivity]. }
    intros y. destruct (qeq _ _); reflexivity.
  - destruct (_ =? _); [|reflexivity]. apply bindX; [apply route_search_all_X|]. intros y.
    change (homogeneous_DUO_update C (X y)) with (X (homogeneous_DUO_update c y)).
    apply foldM_X. intros; apply route_pref_update_X.
Qed.

Lemma phase_links_X : forall w, phase_links C (X w) = rmap X (phase_links c w).
Proof. intros w. apply foldM_X. intros; apply link_update_X. Qed.
Lemma phase_nodes_X : forall w, phase_nodes C (X w) = rmap X (phase_nodes c w).
Proof. intros w. apply foldM_X. intros n y. apply bindX; [apply generate_X|]. intros; apply node_update_X. Qed.
Lemma phase_transfer_X : forall w, phase_transfer C (X w) = rmap X (phase_transfer c w).
Proof. intros w. apply foldM_X. intros; apply transfer_X. Qed.
Lemma phase_follow_X : forall w, phase_follow C (X w) = rmap X (phase_follow c w).
Proof. intros w. unfold phase_follow. change (w_running (X w)) with (w_running w). apply foldM_X. intros; apply carfollow_X. Qed.
End Commute.
