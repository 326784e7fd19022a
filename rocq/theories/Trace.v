(** * Trace: a timestep as a sequence of elementary events.

    Every [body c w = Ok w'] is a sequence of events, each with the conditions the code
    tested before it.  Invariants and safety properties are then proved event by event.
    The ghost state is the vehicle that [transfer_shift] has moved to a link and that is
    not yet in the deque of that link. *)
From Verif Require Import Base Types Sim Heap FrameBase Tac Frame Lists Eff Eff2.
Set Implicit Arguments.

Notation pend := (option (nat * nat)).

Inductive ev : Type :=
| VLink (l : lid)                      (* Link.update *)
| VDraw                                (* only the random generator advances *)
| VEnter (n : nid) (v : vid) (out : lid)   (* Node.generate accepts the first of the queue *)
| VNode (n : nid)                      (* Node.update *)
| VShift (n : nid) (out : lid) (v : vid) (il : lid)  (* Node.transfer: v changes link *)
| VEnd (v : vid) (l : lid)             (* Vehicle.end_trip *)
| VAppend (n : nid) (out : lid) (v : vid)  (* deque and waiting list updated *)
| VClear (n : nid)                     (* incoming_vehicles = [] *)
| VFollow (v : vid)                    (* Vehicle.carfollow *)
| VLog (v : vid)                       (* Vehicle.record_log *)
| VDepart (v : vid)                    (* home -> wait *)
| VMove (v : vid)                      (* x = x_next *)
| VEvent (v : vid) (e : tevent)        (* node_event callback *)
| VPref (v : vid) (q : Q)              (* Vehicle.route_pref_update *)
| VFlag (v : vid) (l : lid)            (* flag_waiting_for_trip_end *)
| VNextDest (v : vid)                  (* a taxi reaches its destination *)
| VAbort (v : vid)                     (* dead end *)
| VChoose (v : vid)                    (* route_next_link_choice *)
| VRequest (v : vid) (n : nid)         (* incoming_vehicles.append *)
| VSearch                              (* RouteChoice.route_search_all *)
| VDuo                                 (* RouteChoice.homogeneous_DUO_update *)
| VTime.                               (* W.TIME *)

Definition driven (c : cfg) (a : vehicle) : vehicle :=
  sv_dist (v_dist a + (v_xnext a - v_x a))%Q
    (sv_x (v_xnext a) (sv_xold (v_x a) (sv_v ((v_xnext a - v_x a) / dt c)%Q a))).

Definition next_dest (a : vehicle) : vehicle :=
  match v_dests a with
  | d :: tl => sv_dests tl (sv_dest (Some d) a)
  | [] => sv_dests [] (sv_dest None a)
  end.

(** [v] stands at the end of link [l] *)
Definition at_end (w : world) (v : vid) (l : lid) : Prop :=
  v_state (V w v) = Run /\ v_link (V w v) = Some l /\ qeq (v_x (V w v)) (l_len (L w l)) = true.

Inductive mstep (c : cfg) : ev -> world -> pend -> world -> pend -> Prop :=
| m_link : forall l w w', l < w_nl w -> link_update c l w = Ok w' ->
    mstep c (VLink l) w None w' None
| m_draw : forall d w, mstep c VDraw w None (sw_draw d w) None
| m_enter : forall n v out q outs w w', n < w_nn w -> n_queue (N w n) = v :: q ->
    gen_outlinks w (V w v) (n_out (N w n)) = Ok outs -> In out outs ->
    has_space c w (L w out) = true -> qle (dN c) (l_cinr (L w out)) = true ->
    gen_enter c n v out w = Ok w' ->
    mstep c (VEnter n v out) w None w' None
| m_node : forall n w w', n < w_nn w -> node_update c n w = Ok w' ->
    mstep c (VNode n) w None w' None
| m_shift : forall n out v il w w', n < w_nn w -> In v (n_incoming (N w n)) ->
    candidate c n out w v = Ok true ->
    has_space c w (L w out) = true -> qle (dN c) (l_cinr (L w out)) = true ->
    qle (dN c) (n_fcapr (N w n)) = true ->
    transfer_shift c n out v w = Ok (il, w') ->
    mstep c (VShift n out v il) w None w' (Some (v, out))
| m_end : forall v l rest p w w', l_vehs (L w l) = v :: rest -> v_flag (V w v) = true ->
    end_trip c v w = Ok w' ->
    mstep c (VEnd v l) w p w' p
| m_append : forall n out v w, In v (n_incoming (N w n)) ->
    mstep c (VAppend n out v) w (Some (v, out))
      (modn n (fun nd => sn_incoming (remove_first v (n_incoming nd)) nd)
        (modl out (fun k => sl_vehs (l_vehs k ++ [v]) k) w)) None
| m_clear : forall n w, mstep c (VClear n) w None (modn n (sn_incoming []) w) None
| m_follow : forall v w w', carfollow c v w = Ok w' -> mstep c (VFollow v) w None w' None
| m_log : forall v w, In v (w_living w) -> mstep c (VLog v) w None (record_log c v false w) None
| m_depart : forall v w, In v (w_living w) -> v_state (V w v) = Home ->
    Z.leb (v_dep (V w v)) (Z.of_nat (w_T w)) = true ->
    mstep c (VDepart v) w None
      (modn (v_orig (V w v)) (fun nd => sn_queue (n_queue nd ++ [v]) nd)
         (modv v (sv_state Wait) w)) None
| m_move : forall v w, In v (w_living w) -> v_state (V w v) = Run ->
    mstep c (VMove v) w None (modv v (driven c) w) None
| m_event : forall v l e w w', at_end w v l -> dget (l_end (L w l)) (v_events (V w v)) = Some e ->
    run_event c e w = Ok w' -> mstep c (VEvent v e) w None w' None
| m_pref : forall v q w w', route_pref_update c v q w = Ok w' -> (q = 1%Q \/ q = c_duo_weight c) ->
    mstep c (VPref v q) w None w' None
| m_flag : forall v l w, at_end w v l ->
    (v_dest (V w v) = Some (l_end (L w l)) /\ v_mode (V w v) = SingleTrip \/
     n_out (N w (l_end (L w l))) = [] /\ v_aborted (V w v) = true) ->
    mstep c (VFlag v l) w None (modv v (sv_flag true) w) None
| m_nextdest : forall v l w, at_end w v l -> v_dest (V w v) = Some (l_end (L w l)) ->
    v_mode (V w v) = Taxi -> mstep c (VNextDest v) w None (modv v next_dest w) None
| m_abort : forall v l w, at_end w v l -> v_dest (V w v) <> Some (l_end (L w l)) ->
    n_out (N w (l_end (L w l))) = [] -> v_abortopt (V w v) = true ->
    mstep c (VAbort v) w None (modv v (fun a => sv_next (Some None) (sv_aborted true a)) w) None
| m_choose : forall v l w w', at_end w v l ->
    (v_mode (V w v) = SingleTrip -> v_dest (V w v) <> Some (l_end (L w l))) ->
    route_next_link_choice c v w = Ok w' -> mstep c (VChoose v) w None w' None
| m_request : forall v l w, at_end w v l ->
    mstep c (VRequest v (l_end (L w l))) w None
      (modn (l_end (L w l)) (fun nd => sn_incoming (n_incoming nd ++ [v]) nd) w) None
| m_search : forall w w', route_search_all c w = Ok w' -> mstep c VSearch w None w' None
| m_duo : forall w, mstep c VDuo w None (homogeneous_DUO_update c w) None
| m_time : forall w, mstep c VTime w None (sw_TIME (now c w) w) None.

Inductive trace (c : cfg) : list ev -> world -> pend -> world -> pend -> Prop :=
| tr_nil : forall w p, trace c [] w p w p
| tr_cons : forall e es w p w1 p1 w2 p2, mstep c e w p w1 p1 -> trace c es w1 p1 w2 p2 ->
    trace c (e :: es) w p w2 p2.

Lemma trace_app : forall c e1 w p w1 p1, trace c e1 w p w1 p1 ->
  forall e2 w2 p2, trace c e2 w1 p1 w2 p2 -> trace c (e1 ++ e2) w p w2 p2.
Proof. intros c e1 w p w1 p1 H; induction H; intros; cbn; auto. econstructor; eauto. Qed.

Lemma trace_one : forall c e w p w' p', mstep c e w p w' p' -> trace c [e] w p w' p'.
Proof. intros; econstructor; [eauto|constructor]. Qed.

(** a trace using only events that satisfy [K], with the ghost empty at both ends *)
Definition run (c : cfg) (K : ev -> bool) (w w' : world) : Prop :=
  exists es, Forall (fun e => K e = true) es /\ trace c es w None w' None.

Lemma run_refl : forall c K w, run c K w w.
Proof. intros; exists []; split; constructor. Qed.
Lemma run_trans : forall c K a b d, run c K a b -> run c K b d -> run c K a d.
Proof.
  intros c K a b d (e1 & F1 & T1) (e2 & F2 & T2). exists (e1 ++ e2). split.
  - apply Forall_app; auto.
  - eapply trace_app; eauto.
Qed.
Lemma run_one : forall c K e w w', K e = true -> mstep c e w None w' None -> run c K w w'.
Proof. intros c K e w w' H S. exists [e]. split; [constructor; auto|apply trace_one; auto]. Qed.
Lemma run_weaken : forall c (K K' : ev -> bool) w w', (forall e, K e = true -> K' e = true) ->
  run c K w w' -> run c K' w w'.
Proof.
  intros c K K' w w' H (es & F & T). exists es. split; auto.
  eapply Forall_impl; [|exact F]. auto.
Qed.

(** invariants through a run *)
Lemma trace_inv : forall c (I : world -> pend -> Prop) (K : ev -> bool),
  (forall e w p w' p', K e = true -> I w p -> mstep c e w p w' p' -> I w' p') ->
  forall es w p w' p', trace c es w p w' p' -> Forall (fun e => K e = true) es -> I w p -> I w' p'.
Proof.
  intros c I K Hs es w p w' p' T; induction T; intros F H0; auto.
  inversion F; subst. eauto.
Qed.
Lemma run_inv : forall c (I : world -> pend -> Prop) (K : ev -> bool),
  (forall e w p w' p', K e = true -> I w p -> mstep c e w p w' p' -> I w' p') ->
  forall w w', run c K w w' -> I w None -> I w' None.
Proof. intros c I K H w w' (es & F & T) H0. eapply trace_inv; eauto. Qed.

(** which events occur in which phase *)
Definition k_links (e : ev) : bool := match e with VLink _ => true | _ => false end.
Definition k_nodes (e : ev) : bool :=
  match e with VDraw | VEnter _ _ _ | VNode _ => true | _ => false end.
Definition k_transfer (e : ev) : bool :=
  match e with VDraw | VShift _ _ _ _ | VEnd _ _ | VAppend _ _ _ | VClear _ => true | _ => false end.
(** events of [Node.transfer] of node [n] *)
Definition k_tr (n : nid) (e : ev) : bool :=
  match e with
  | VDraw | VEnd _ _ => true
  | VShift m _ _ _ | VAppend m _ _ | VClear m => Nat.eqb m n
  | _ => false
  end.
Lemma k_tr_transfer : forall n e, k_tr n e = true -> k_transfer e = true.
Proof. intros n [] H; try discriminate H; reflexivity. Qed.
Definition k_follow (e : ev) : bool := match e with VFollow _ => true | _ => false end.
Definition k_vehicles (e : ev) : bool :=
  match e with
  | VLog _ | VDepart _ | VMove _ | VEvent _ _ | VPref _ _ | VFlag _ _ | VNextDest _ | VAbort _
  | VChoose _ | VRequest _ _ | VEnd _ _ => true
  | _ => false
  end.
(** events of [Vehicle.update] of vehicle [u] *)
Definition k_veh (u : vid) (e : ev) : bool :=
  match e with
  | VLog v | VDepart v | VMove v | VEvent v _ | VPref v _ | VFlag v _ | VNextDest v | VAbort v
  | VChoose v | VRequest v _ | VEnd v _ => Nat.eqb v u
  | _ => false
  end.
Lemma k_veh_vehicles : forall u e, k_veh u e = true -> k_vehicles e = true.
Proof. intros u [] H; try discriminate H; reflexivity. Qed.
Definition k_route (e : ev) : bool :=
  match e with VSearch | VDuo | VPref _ _ => true | _ => false end.

Lemma foldM_run : forall A c K (f : A -> world -> result world) (P : A -> world -> Prop) xs,
  (forall x w w', In x xs -> P x w -> f x w = Ok w' -> run c K w w') ->
  (forall x y w w', In x xs -> In y xs -> P x w -> P y w -> f x w = Ok w' -> P y w') ->
  forall w w', (forall x, In x xs -> P x w) -> foldM f xs w = Ok w' -> run c K w w'.
Proof.
  intros A c K f P xs; induction xs as [|x xs IH]; intros Hf Hp w w' H0 H; cbn in H.
  - injection H as <-. apply run_refl.
  - apply bind_ok in H. destruct H as (a & E & H).
    eapply run_trans; [eapply Hf; eauto; [left; auto|apply H0; left; auto]|].
    eapply IH; [| | |exact H].
    + intros; eapply Hf; eauto. right; auto.
    + intros y z; intros; eapply (Hp y z); eauto; right; auto.
    + intros y Hy. eapply (Hp x y); eauto; [left; auto|right; auto|apply H0; left; auto|apply H0; right; auto].
Qed.

(** ** Links and nodes *)
Lemma phase_links_run : forall c w w', phase_links c w = Ok w' -> run c k_links w w'.
Proof.
  intros c w w' H. unfold phase_links in H.
  eapply foldM_run with (P := fun l w => l < w_nl w); [| | |exact H].
  - intros l a a' _ P E. eapply run_one with (e := VLink l); [reflexivity|]. constructor; auto.
  - intros x y a a' _ _ _ Py E. apply link_update_frs in E. rewrite (fr_w_nl (frs_fr E)); auto.
  - intros l Hl. apply in_seq in Hl. lia.
Qed.

Lemma draw_run : forall c K d w w', (w' = w \/ w' = sw_draw d w) -> K VDraw = true -> run c K w w'.
Proof.
  intros c K d w w' [-> | ->] H; [apply run_refl|].
  eapply run_one with (e := VDraw); auto. constructor.
Qed.

Lemma gen_loop_run : forall c n k w w', n < w_nn w -> gen_loop c n k w = Ok w' -> run c k_nodes w w'.
Proof.
  intros c n k; induction k; intros w w' Hn H; cbn [gen_loop] in H.
  - injection H as <-. apply run_refl.
  - destruct (n_queue (N w n)) as [|v q] eqn:Eq; [injection H as <-; apply run_refl|].
    apply bind_ok in H. destruct H as (outs & E1 & H).
    apply bind_ok in H. destruct H as (ps & E2 & H).
    apply bind_ok in H. destruct H as ([out w1] & E3 & H).
    apply choose_pref_w in E3. destruct E3 as [Ew Hout].
    destruct (has_space c w1 (L w1 out) && qle (dN c) (l_cinr (L w1 out))) eqn:Eg.
    + apply andb_true_iff in Eg. destruct Eg as [Eg1 Eg2].
      apply bind_ok in H. destruct H as (w2 & E4 & H).
      eapply run_trans; [eapply draw_run; eauto|].
      assert (w_nn w1 = w_nn w) by (destruct Ew as [-> | ->]; reflexivity).
      eapply run_trans.
      * eapply run_one with (e := VEnter n v out); [reflexivity|].
        eapply m_enter with (q := q) (outs := outs); eauto; try lia.
        -- destruct Ew as [-> | ->]; exact Eq.
        -- destruct Ew as [-> | ->]; exact E1.
      * eapply IHk; eauto. apply gen_enter_frs in E4. rewrite (fr_w_nn (frs_fr E4)). lia.
    + injection H as <-. eapply draw_run; eauto.
Qed.

Lemma phase_nodes_run : forall c w w', phase_nodes c w = Ok w' -> run c k_nodes w w'.
Proof.
  intros c w w' H. unfold phase_nodes in H.
  eapply foldM_run with (P := fun n w => n < w_nn w); [| | |exact H].
  - intros n a a' _ P E. apply bind_ok in E. destruct E as (b & E1 & E2).
    eapply run_trans; [eapply gen_loop_run; eauto|].
    eapply run_one with (e := VNode n); [reflexivity|]. constructor; auto.
    apply generate_frs in E1. rewrite (fr_w_nn (frs_fr E1)). auto.
  - intros x y a a' _ _ _ Py E. apply bind_ok in E. destruct E as (b & E1 & E2).
    apply generate_frs in E1. apply node_update_fr in E2.
    rewrite (fr_w_nn E2), (fr_w_nn (frs_fr E1)); auto.
  - intros l Hl. apply in_seq in Hl. lia.
Qed.

(** ** Transfer *)

Lemma end_front_trace : forall c n l w b w' p, end_front c l w = Ok (b, w') ->
  exists es, Forall (fun e => k_tr n e = true) es /\ trace c es w p w' p.
Proof.
  intros c n l w b w' p H. unfold end_front in H.
  destruct (l_vehs (L w l)) as [|u rest] eqn:E.
  - injection H as _ <-. exists []. split; constructor.
  - destruct (v_flag (V w u)) eqn:Ef.
    + apply bind_ok in H. destruct H as (w1 & E1 & H). injection H as _ <-.
      exists [VEnd u l]. split; [constructor; auto|]. apply trace_one. econstructor; eauto.
    + injection H as _ <-. exists []. split; constructor.
Qed.

Lemma end_front_N : forall c l w b w', end_front c l w = Ok (b, w') -> forall k, N w' k = N w k.
Proof.
  intros c l w b w' H k. unfold end_front in H. destruct (l_vehs (L w l)) as [|u rest]; [injection H as _ <-; auto|].
  destruct (v_flag (V w u)); [|injection H as _ <-; auto].
  apply bind_ok in H. destruct H as (w1 & E1 & H). injection H as _ <-. eapply end_trip_N; eauto.
Qed.

Lemma filterM_In : forall A (f : A -> result bool) xs ys x,
  filterM f xs = Ok ys -> In x ys -> In x xs /\ f x = Ok true.
Proof.
  intros A f xs; induction xs as [|a xs IH]; intros ys x H Hx; cbn in H.
  - injection H as <-. destruct Hx.
  - apply bind_ok in H. destruct H as (b & E1 & H).
    apply bind_ok in H. destruct H as (zs & E2 & H). injection H as <-.
    destruct b.
    + destruct Hx as [->|Hx]; [split; auto; left; auto|].
      destruct (IH _ _ E2 Hx). split; auto. right; auto.
    + destruct (IH _ _ E2 Hx). split; auto. right; auto.
Qed.

Lemma transfer_trial_run : forall c n out w w', n < w_nn w ->
  transfer_trial c n out w = Ok w' -> run c (k_tr n) w w'.
Proof.
  intros c n out w w' Hn H. unfold transfer_trial in H.
  destruct (has_space c w (L w out) && qle (dN c) (l_cinr (L w out)) && qle (dN c) (n_fcapr (N w n))) eqn:Eg;
    [|injection H as <-; apply run_refl].
  apply andb_true_iff in Eg. destruct Eg as [Eg Eg3]. apply andb_true_iff in Eg. destruct Eg as [Eg1 Eg2].
  apply bind_ok in H. destruct H as (vs & E1 & H).
  destruct vs as [|v0 vs]; [injection H as <-; apply run_refl|].
  apply bind_ok in H. destruct H as ([v w1] & E2 & H).
  apply merge_choice_w in E2. destruct E2 as [Ew Hv].
  destruct (filterM_In _ _ _ E1 Hv) as [Hi Hc].
  eapply run_trans; [eapply draw_run; eauto|].
  unfold transfer_move in H.
  apply bind_ok in H. destruct H as ([from w2] & E3 & H).
  apply bind_ok in H. destruct H as ([b w3] & E4 & H). injection H as <-.
  destruct (@end_front_trace c n from w2 b w3 (Some (v, out)) E4) as (es & F & T).
  exists (VShift n out v from :: es ++ [VAppend n out v]). split.
  - constructor; [apply Nat.eqb_refl|]. apply Forall_app. split; [auto|]. constructor; [apply Nat.eqb_refl|constructor].
  - econstructor.
    + eapply m_shift; [| | | | | |exact E3].
      all: destruct Ew as [-> | ->]; assumption.
    + eapply trace_app; [exact T|]. apply trace_one. constructor.
      rewrite (end_front_N _ _ _ E4), (transfer_shift_incoming _ _ _ _ _ E3).
      destruct Ew as [-> | ->]; exact Hi.
Qed.

Lemma end_fronts_run : forall c n l k w w', end_fronts c l k w = Ok w' -> run c (k_tr n) w w'.
Proof.
  intros c n l k; induction k; intros w w' H; cbn in H.
  - injection H as <-. apply run_refl.
  - apply bind_ok in H. destruct H as ([b w1] & E & H).
    eapply run_trans; [exact (@end_front_trace c n l w b w1 None E)|].
    destruct b; [eauto|]. injection H as <-. apply run_refl.
Qed.

Lemma transfer_run : forall c n w w', n < w_nn w -> transfer c n w = Ok w' -> run c (k_tr n) w w'.
Proof.
  intros c n w w' Hn H. unfold transfer in H.
  apply bind_ok in H. destruct H as (cands & _ & H). cbn zeta in H.
  destruct (if c_det c then _ else _) as [outs w1] eqn:Ew.
  apply bind_ok in H. destruct H as (w2 & E2 & H).
  apply bind_ok in H. destruct H as (w3 & E3 & H). injection H as <-.
  assert (R1 : run c (k_tr n) w w1).
  { destruct (c_det c); injection Ew as <- <-; [apply run_refl|].
    eapply draw_run; [right; reflexivity|reflexivity]. }
  assert (H1 : n < w_nn w1) by (destruct (c_det c); injection Ew as <- <-; exact Hn).
  eapply run_trans; [exact R1|].
  eapply run_trans.
  { eapply foldM_run with (P := fun _ w => n < w_nn w); [| | |exact E2].
    - intros; eapply transfer_trial_run; eauto.
    - intros x y a a' _ _ _ Py E. apply transfer_trial_frs in E. rewrite (fr_w_nn (frs_fr E)); auto.
    - auto. }
  eapply run_trans.
  { eapply foldM_run with (P := fun _ w => True); [| intros; exact I | intros; exact I |exact E3].
    intros l0 a a0 _ _ F. exact (end_fronts_run _ _ _ _ _ F). }
  eapply run_one with (e := VClear n); [apply Nat.eqb_refl|]. constructor.
Qed.

Lemma phase_transfer_run : forall c w w', phase_transfer c w = Ok w' -> run c k_transfer w w'.
Proof.
  intros c w w' H. unfold phase_transfer in H.
  eapply foldM_run with (P := fun n w => n < w_nn w); [| | |exact H].
  - intros; eapply run_weaken; [apply k_tr_transfer|eapply transfer_run; eauto].
  - intros x y a a' _ _ _ Py E. apply transfer_frs in E. rewrite (fr_w_nn (frs_fr E)); auto.
  - intros l Hl. apply in_seq in Hl. lia.
Qed.

(** ** Car following *)
Lemma phase_follow_run : forall c w w', phase_follow c w = Ok w' -> run c k_follow w w'.
Proof.
  intros c w w' H. unfold phase_follow in H.
  eapply foldM_run with (P := fun _ w => True); [| intros; exact I | intros; exact I |exact H].
  intros x a a' _ _ E. eapply run_one with (e := VFollow x); [reflexivity|]. constructor; auto.
Qed.

(** ** Vehicles *)

(** [soft w w']: only routing data of vehicles, requests and the generator may differ *)
Definition vhard (a : vehicle) :=
  (v_name a, v_orig a, v_dep a, v_depsec a, v_arr a, v_larr a, v_tt a, v_state a, v_link a,
   (v_x a, v_xnext a, v_xold a, v_v a, v_lane a, v_leader a, v_follower a, v_flag a, v_remain a),
   (v_princ a, v_mode a, v_prefer a, v_avoid a, v_spec a, v_abortopt a, v_aborted a, v_log a,
    v_tlog a, v_linkold a, v_dist a)).
Record soft (w w' : world) : Prop := mkSoft {
  so_frs : frs w w';
  so_v : forall v, vhard (V w' v) = vhard (V w v);
  so_l : forall l, L w' l = L w l;
  so_n : forall n, N w' n = N w n;
  so_living : w_living w' = w_living w;
  so_running : w_running w' = w_running w;
  so_TIME : w_TIME w' = w_TIME w }.

Lemma soft_refl : forall w, soft w w.
Proof. intros; constructor; auto using frs_refl. Qed.
Lemma soft_trans : forall a b c, soft a b -> soft b c -> soft a c.
Proof.
  intros a b c [] []; constructor; intros; try (etransitivity; eauto).
  eapply frs_trans; eauto.
Qed.
Lemma soft_modv : forall w v f, vstat (f (V w v)) = vstat (V w v) ->
  vhard (f (V w v)) = vhard (V w v) -> soft w (modv v f w).
Proof.
  intros w v f H1 H. constructor; intros; try reflexivity.
  - apply frs_modv; auto.
  - rewrite V_modv. destruct (Nat.eqb v0 v) eqn:E; auto. apply Nat.eqb_eq in E; subst; auto.
Qed.
Lemma soft_modr : forall w r f, rstat (f (R w r)) = rstat (R w r) -> soft w (modr r f w).
Proof. intros w r f H. constructor; intros; try reflexivity. apply frs_modr; auto. Qed.
Lemma soft_draw : forall w d, soft w (sw_draw d w).
Proof. intros w r. constructor; intros; try reflexivity. apply frs_sw_draw; auto. Qed.

Ltac soft_tac := repeat match goal with
  | |- soft ?w ?w => apply soft_refl
  | H : soft ?w ?w' |- soft ?w ?w' => exact H
  | |- soft _ (modv _ _ _) => eapply soft_trans; [|apply soft_modv; solve [reflexivity | auto]]
  | |- soft _ (modr _ _ _) => eapply soft_trans; [|apply soft_modr; solve [reflexivity | auto]]
  | |- soft _ (sw_draw _ _) => eapply soft_trans; [|apply soft_draw]
  end.

Lemma route_pref_update_soft : forall c v q w w', route_pref_update c v q w = Ok w' -> soft w w'.
Proof.
  intros c v q w w' H. unfold route_pref_update in H. cbn zeta in H. binv H; soft_tac.
Qed.
Lemma maybe_pref_update_soft : forall c v w w', maybe_pref_update c v w = Ok w' -> soft w w'.
Proof.
  intros c v w w' H. unfold maybe_pref_update in H. binv H; [|apply soft_refl].
  eapply route_pref_update_soft; eauto.
Qed.
Lemma add_dest_soft : forall c v d o w w', add_dest c v d o w = Ok w' -> soft w w'.
Proof.
  intros c v d o w w' H. unfold add_dest in H. binv H; soft_tac.
  apply route_pref_update_soft in H. eapply soft_trans; [|exact H]. soft_tac.
Qed.
Lemma run_event_soft : forall c e w w', run_event c e w = Ok w' -> soft w w'.
Proof.
  intros c [r|r] w w' H; unfold run_event in H; cbn zeta in H; binv H; soft_tac.
  apply add_dest_soft in E0. exact E0.
Qed.
Lemma choose_soft : forall c v w w', route_next_link_choice c v w = Ok w' -> soft w w'.
Proof.
  intros c v w w' H. unfold route_next_link_choice in H. cbn zeta in H.
  apply bind_ok in H. destruct H as (l & _ & H).
  destruct (v_spec (V w v)).
  - binv H; soft_tac.
  - destruct (opt_eqb _ _); [binv H; soft_tac|].
    destruct (n_out _); [binv H; soft_tac|].
    apply bind_ok in H. destruct H as (o2 & _ & H).
    apply bind_ok in H. destruct H as (ps & _ & H).
    apply bind_ok in H. destruct H as ([x w1] & E & H).
    apply choose_pref_w in E. binv H. destruct E as [[-> | ->] _]; soft_tac.
Qed.

Lemma vhard_eq : forall a b, vhard a = vhard b ->
  v_state a = v_state b /\ v_link a = v_link b /\ v_x a = v_x b /\ v_mode a = v_mode b /\
  v_aborted a = v_aborted b /\ v_abortopt a = v_abortopt b /\ v_flag a = v_flag b.
Proof. unfold vhard; intros a b H. repeat split; congruence. Qed.

Lemma at_end_soft : forall w w' v l, soft w w' -> at_end w v l -> at_end w' v l.
Proof.
  intros w w' v l S (A & B & C). destruct (vhard_eq (so_v S v)) as (E1 & E2 & E3 & _).
  unfold at_end. rewrite E1, E2, E3, (so_l S). auto.
Qed.

Lemma maybe_pref_run : forall c v w w', maybe_pref_update c v w = Ok w' -> run c (k_veh v) w w'.
Proof.
  intros c v w w' H. unfold maybe_pref_update in H. destruct (c_gradual c).
  - eapply run_one with (e := VPref v 1%Q); [apply Nat.eqb_refl|]. constructor; auto.
  - injection H as <-. apply run_refl.
Qed.

Lemma prepare_end_run : forall c v l w w', at_end w v l ->
  (v_dest (V w v) = Some (l_end (L w l)) /\ v_mode (V w v) = SingleTrip \/
     n_out (N w (l_end (L w l))) = [] /\ v_aborted (V w v) = true) ->
  prepare_end c v l w = Ok w' -> run c (k_veh v) w w'.
Proof.
  intros c v l w w' A D H. unfold prepare_end in H. cbn zeta in H.
  eapply run_trans; [eapply run_one with (e := VFlag v l); [apply Nat.eqb_refl|constructor; auto]|].
  set (w1 := modv v (sv_flag true) w) in *.
  destruct (l_vehs (L w1 l)) as [|u rest] eqn:E; [discriminate|].
  destruct (Nat.eqb u v) eqn:Eu.
  - apply Nat.eqb_eq in Eu; subst u.
    eapply run_one with (e := VEnd v l); [apply Nat.eqb_refl|]. econstructor; eauto.
    unfold w1. rewrite V_modv_same. reflexivity.
  - injection H as <-. apply run_refl.
Qed.

Lemma request_transfer_run : forall c v l w w', at_end w v l ->
  (v_mode (V w v) = SingleTrip -> v_dest (V w v) <> Some (l_end (L w l))) ->
  request_transfer c v (l_end (L w l)) w = Ok w' -> run c (k_veh v) w w'.
Proof.
  intros c v l w w' A D H. unfold request_transfer in H.
  apply bind_ok in H. destruct H as (w1 & E & H). injection H as <-.
  eapply run_trans; [eapply run_one with (e := VChoose v); [apply Nat.eqb_refl|econstructor; eauto]|].
  assert (A1 : at_end w1 v l) by (eapply at_end_soft; eauto; eapply choose_soft; eauto).
  rewrite <- (so_l (choose_soft _ _ _ E) l).
  eapply run_one with (e := VRequest v (l_end (L w1 l))); [apply Nat.eqb_refl|constructor; auto].
Qed.

Lemma at_link_end_run : forall c v l w w', at_end w v l ->
  at_link_end c v l w = Ok w' -> run c (k_veh v) w w'.
Proof.
  intros c v l w w' A H. unfold at_link_end in H. cbn zeta in H.
  apply bind_ok in H. destruct H as (w1 & E1 & H).
  apply bind_ok in H. destruct H as (w2 & E2 & H).
  assert (R1 : run c (k_veh v) w w1 /\ soft w w1).
  { destruct (dget (l_end (L w l)) (v_events (V w v))) as [e|] eqn:Ee.
    - split; [|eapply run_event_soft; eauto].
      eapply run_one with (e := VEvent v e); [apply Nat.eqb_refl|]. econstructor; eauto.
    - injection E1 as <-. split; [apply run_refl|apply soft_refl]. }
  destruct R1 as [R1 S1].
  pose proof (maybe_pref_run _ _ _ E2) as R2. pose proof (maybe_pref_update_soft _ _ _ E2) as S2.
  eapply run_trans; [exact R1|]. eapply run_trans; [exact R2|].
  assert (S : soft w w2) by (eapply soft_trans; eauto).
  assert (A2 : at_end w2 v l) by (eapply at_end_soft; eauto).
  rewrite <- (so_l S l) in H. clear A E1 E2 R1 R2 S1 S2 S w w1.
  destruct (opt_eqb (Some (l_end (L w2 l))) (v_dest (V w2 v))) eqn:Ed.
  - apply opt_eqb_eq in Ed. symmetry in Ed.
    destruct (v_mode (V w2 v)) eqn:Em.
    + eapply prepare_end_run; eauto.
    + apply bind_ok in H. destruct H as (w3 & E3 & H).
      assert (A3 : at_end w3 v l /\ soft (modv v next_dest w2) w3 /\ soft w2 w3 /\ v_mode (V w3 v) = Taxi).
      { apply route_pref_update_soft in E3.
        assert (S3 : soft w2 w3).
        { eapply soft_trans; [|exact E3]. apply soft_modv; destruct (v_dests _); reflexivity. }
        split; [eapply at_end_soft; eauto|]. split; [exact E3|]. split; [exact S3|].
        destruct (vhard_eq (so_v S3 v)) as (_ & _ & _ & K & _). congruence. }
      destruct A3 as (A3 & _ & S3 & M3).
      eapply run_trans; [eapply run_one with (e := VNextDest v); [apply Nat.eqb_refl|econstructor; eauto]|].
      eapply run_trans; [eapply run_one with (e := VPref v 1%Q); [apply Nat.eqb_refl|constructor; [exact E3|left; reflexivity]]|].
      eapply request_transfer_run; eauto; [congruence|]. rewrite (so_l S3). exact H.
  - assert (Ed0 : Some (l_end (L w2 l)) <> v_dest (V w2 v)) by (intro K; apply opt_eqb_eq in K; congruence). clear Ed.
      assert (Ed' : v_dest (V w2 v) <> Some (l_end (L w2 l))) by (intro K; apply Ed0; symmetry; exact K).
    destruct (is_nil (n_out (N w2 (l_end (L w2 l)))) && v_abortopt (V w2 v)) eqn:Eb.
    + apply andb_true_iff in Eb. destruct Eb as [Eb1 Eb2].
      assert (Eo : n_out (N w2 (l_end (L w2 l))) = []) by (destruct (n_out _); [auto|discriminate]).
      eapply run_trans; [eapply run_one with (e := VAbort v); [apply Nat.eqb_refl|econstructor; eauto]|].
      eapply prepare_end_run; [| |exact H].
      * destruct A2 as (X & Y & Z). unfold at_end. rewrite V_modv_same. auto.
      * right. rewrite V_modv_same. split; auto.
    + eapply request_transfer_run; eauto.
Qed.

Lemma drive_run : forall c v w w', In v (w_living w) -> v_state (V w v) = Run ->
  drive c v w = Ok w' -> run c (k_veh v) w w'.
Proof.
  intros c v w w' Hl Hs H. unfold drive in H. cbn zeta in H.
  eapply run_trans; [eapply run_one with (e := VMove v); [apply Nat.eqb_refl|constructor; auto]|].
  change (modv v (driven c) w) with
    (modv v (fun a : vehicle => sv_dist (v_dist a + (v_xnext a - v_x a)) (sv_x (v_xnext a)
      (sv_xold (v_x a) (sv_v ((v_xnext a - v_x a) / dt c) a)))) w).
  set (w1 := modv v _ w) in *.
  apply bind_ok in H. destruct H as (l & E & H). apply of_opt_ok in E.
  destruct (qeq (v_x (V w1 v)) (l_len (L w1 l))) eqn:Eq.
  - eapply at_link_end_run; eauto. repeat split; auto. unfold w1. rewrite V_modv_same. exact Hs.
  - injection H as <-. apply run_refl.
Qed.

Lemma veh_update_run : forall c v w w', In v (w_living w) ->
  veh_update c v w = Ok w' -> run c (k_veh v) w w'.
Proof.
  intros c v w w' Hl H. unfold veh_update in H. cbn zeta in H.
  eapply run_trans; [eapply run_one with (e := VLog v); [apply Nat.eqb_refl|constructor; auto]|].
  pose proof (record_log_living c v false w) as P3.
  set (w0 := record_log c v false w) in *. clearbody w0.
  assert (Hl0 : In v (w_living w0)) by (rewrite P3; auto).
  match type of H with match v_state (V ?W v) with _ => _ end = _ => set (w1 := W) in * end.
  assert (run c (k_veh v) w0 w1 /\ w_living w1 = w_living w0) as [R1 L1].
  { unfold w1. destruct (v_state (V w0 v)) eqn:Es; try (split; [apply run_refl|reflexivity]).
    destruct (Z.leb (v_dep (V w0 v)) (Z.of_nat (w_T w0))) eqn:Ed; [|split; [apply run_refl|reflexivity]].
    split; [|reflexivity].
    eapply run_one with (e := VDepart v); [apply Nat.eqb_refl|]. constructor; auto. }
  eapply run_trans; [exact R1|]. clearbody w1.
  destruct (v_state (V w1 v)) eqn:Es; try (injection H as <-; apply run_refl).
  - eapply maybe_pref_run; eauto.
  - eapply drive_run; eauto. rewrite L1; auto.
Qed.

Lemma phase_vehicles_run : forall c w w', phase_vehicles c w = Ok w' -> run c k_vehicles w w'.
Proof.
  intros c w w' H. unfold phase_vehicles in H.
  eapply foldM_run with (P := fun _ w => True); [| intros; exact I | intros; exact I |exact H].
  intros v a a' _ _ E. unfold update_living in E. destruct (mem v (w_living a)) eqn:Em; [|discriminate].
  eapply run_weaken; [apply k_veh_vehicles|]. eapply veh_update_run; eauto. apply mem_iff; auto.
Qed.

(** ** Route choice *)
Lemma route_phase_run : forall c w w', route_phase c w = Ok w' -> run c k_route w w'.
Proof.
  intros c w w' H. unfold route_phase in H. cbn zeta in H. destruct (c_gradual c).
  - apply bind_ok in H. destruct H as (w1 & E & H).
    destruct (qeq _ _); [discriminate|]. injection H as <-.
    eapply run_trans; [|eapply run_one with (e := VDuo); [reflexivity|constructor]].
    destruct (Nat.eqb _ _); [|injection E as <-; apply run_refl].
    eapply run_one with (e := VSearch); [reflexivity|constructor; auto].
  - destruct (Nat.eqb _ _); [|injection H as <-; apply run_refl].
    apply bind_ok in H. destruct H as (w1 & E & H).
    eapply run_trans; [eapply run_one with (e := VSearch); [reflexivity|constructor; eauto]|].
    eapply run_trans; [eapply run_one with (e := VDuo); [reflexivity|constructor; eauto]|].
    eapply foldM_run with (P := fun _ w => True); [| intros; exact I | intros; exact I |exact H].
    intros v a a' _ _ F. eapply run_one with (e := VPref v (c_duo_weight c)); [reflexivity|]. constructor; auto.
Qed.

(** ** The timestep *)
Lemma body_runs : forall c w w', body c w = Ok w' ->
  exists w1 w2 w3 w4 w5 w6,
    phase_links c w = Ok w1 /\ phase_nodes c w1 = Ok w2 /\ phase_transfer c w2 = Ok w3 /\
    phase_follow c w3 = Ok w4 /\ phase_vehicles c w4 = Ok w5 /\ route_phase c w5 = Ok w6 /\
    w' = sw_TIME (now c w6) w6.
Proof.
  intros c w w' H. unfold body in H.
  apply bind_ok in H. destruct H as (w1 & E1 & H).
  apply bind_ok in H. destruct H as (w2 & E2 & H).
  apply bind_ok in H. destruct H as (w3 & E3 & H).
  apply bind_ok in H. destruct H as (w4 & E4 & H).
  apply bind_ok in H. destruct H as (w5 & E5 & H).
  apply bind_ok in H. destruct H as (w6 & E6 & H). injection H as <-.
  exists w1, w2, w3, w4, w5, w6. repeat split; auto.
Qed.

Definition k_all (e : ev) : bool := true.

Lemma body_run : forall c w w', body c w = Ok w' -> run c k_all w w'.
Proof.
  intros c w w' H. apply body_runs in H.
  destruct H as (w1 & w2 & w3 & w4 & w5 & w6 & E1 & E2 & E3 & E4 & E5 & E6 & ->).
  eapply run_trans; [eapply run_weaken; [|eapply phase_links_run; eauto]; auto|].
  eapply run_trans; [eapply run_weaken; [|eapply phase_nodes_run; eauto]; auto|].
  eapply run_trans; [eapply run_weaken; [|eapply phase_transfer_run; eauto]; auto|].
  eapply run_trans; [eapply run_weaken; [|eapply phase_follow_run; eauto]; auto|].
  eapply run_trans; [eapply run_weaken; [|eapply phase_vehicles_run; eauto]; auto|].
  eapply run_trans; [eapply run_weaken; [|eapply route_phase_run; eauto]; auto|].
  eapply run_one with (e := VTime); [reflexivity|constructor].
Qed.
