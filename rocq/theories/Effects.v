(** * Effects: what each event of a timestep changes, exactly. *)
From Verif Require Import Base Types Sim Build Heap FrameBase Tac Frame Lists Inv Eff Eff2 Trace InvStep Reach.

Definition sameV (w w' : world) : Prop := forall v, V w' v = V w v.
Definition sameL (w w' : world) : Prop := forall l, L w' l = L w l.
Definition sameN (w w' : world) : Prop := forall n, N w' n = N w n.
Definition sameR (w w' : world) : Prop := forall r, R w' r = R w r.
Definition sameB (w w' : world) : Prop := w_living w' = w_living w /\ w_running w' = w_running w.

(** [Link.update] on the link record; [d] is the appended instantaneous travel time *)
Definition linked (c : cfg) (d : Q) (k : link) : link :=
  sl_cd (l_cd k ++ [last0 (l_cd k)]) (sl_ca (l_ca k ++ [last0 (l_ca k)])
    (sl_tti (l_tti k ++ [d]) (in_out_flow_constraint c k))).

(** [Vehicle.carfollow]: the position before truncation at the end of the link *)
Definition follow_x (c : cfg) (w : world) (l : lid) (a : vehicle) : Q :=
  let k := L w l in
  let xn0 := (v_x a + l_u k * dt c)%Q in
  match v_leader a with
  | Some u =>
      let xc0 := (v_x (V w u) - l_dpl k * dN c)%Q in
      let xc := if qlt xc0 (v_x a) then v_x a else xc0 in
      if qlt xc xn0 then xc else xn0
  | None => xn0
  end.
Definition followed (c : cfg) (w : world) (l : lid) (a : vehicle) : vehicle :=
  if qlt (l_len (L w l)) (follow_x c w l a)
  then sv_xnext (l_len (L w l)) (sv_remain (follow_x c w l a - l_len (L w l))%Q a)
  else sv_xnext (follow_x c w l a) a.

Definition aborting (a : vehicle) : vehicle := sv_next (Some None) (sv_aborted true a).

Definition eff (c : cfg) (e : ev) (w : world) (p : pend) (w' : world) (p' : pend) : Prop :=
  match e with
  | VLink l => p = None /\ p' = None /\ l < w_nl w /\ sameV w w' /\ sameN w w' /\ sameR w w' /\ sameB w w' /\
      exists d, set_traveltime_instant c w (in_out_flow_constraint c (L w l)) =
                  Ok (sl_tti (l_tti (L w l) ++ [d]) (in_out_flow_constraint c (L w l))) /\
      (forall k, L w' k = if Nat.eqb k l then linked c d (L w l) else L w k)
  | VDraw | VSearch | VDuo | VTime =>
      p = None /\ p' = None /\ sameV w w' /\ sameL w w' /\ sameN w w' /\ sameR w w' /\ sameB w w'
  | VEnter n v out => p = None /\ p' = None /\
      exists q ca, n < w_nn w /\ n_queue (N w n) = v :: q /\ In out (n_out (N w n)) /\ out < w_nl w /\
        (exists outs, gen_outlinks w (V w v) (n_out (N w n)) = Ok outs /\ In out outs) /\
        has_space c w (L w out) = true /\ (dN c <= l_cinr (L w out))%Q /\
        add_last (l_ca (L w out)) (c_deltan c) = Some ca /\
        (forall k, L w' k = if Nat.eqb k out then gen_link c w v ca (L w out) else L w k) /\
        (forall k, N w' k = if Nat.eqb k n then sn_queue q (N w n) else N w k) /\
        sameR w w' /\ w_living w' = w_living w /\ w_running w' = w_running w ++ [v] /\
        att_leader w out <> Some v /\ V w' v = gen_veh c w out (V w v) /\
        (forall z, z <> v -> V w' z = if opt_eqb (att_leader w out) (Some z)
                                      then sv_follower (Some v) (V w z) else V w z)
  | VNode n => p = None /\ p' = None /\ n < w_nn w /\ sameV w w' /\ sameL w w' /\ sameR w w' /\ sameB w w' /\
      exists n1 n2, signal_control c (N w n) = Ok n1 /\ flow_capacity_update c n1 = Ok n2 /\
        (forall k, N w' k = if Nat.eqb k n then n2 else N w k)
  | VShift n out v il => p = None /\ p' = Some (v, out) /\
      exists cd ca rest q, n < w_nn w /\ In v (n_incoming (N w n)) /\ v_next (V w v) = Some (Some out) /\
        out < w_nl w /\ il < w_nl w /\
        (In (n_phase (N w n)) (l_group (L w il)) \/ List.length (n_signal (N w n)) <= 1) /\
        (dN c <= l_coutr (L w il))%Q /\
        has_space c w (L w out) = true /\ (dN c <= l_cinr (L w out))%Q /\ (dN c <= n_fcapr (N w n))%Q /\
        v_link (V w v) = Some il /\ v_state (V w v) = Run /\
        add_last (l_cd (L w il)) (c_deltan c) = Some cd /\
        add_last (l_ca (L w out)) (c_deltan c) = Some ca /\ l_vehs (L w il) = v :: rest /\
        qdiv (v_remain (V w v) * l_u (L w out)) (l_u (L w il)) = Ok q /\
        sameB w w' /\
        (forall k, N w' k = if Nat.eqb k n then charge c (N w n) else N w k) /\ sameR w w' /\
        (forall k, L w' k =
           let k1 := if Nat.eqb k il then in_link c w (v_larr (V w v)) cd rest (L w k) else L w k in
           if Nat.eqb k out then out_link c w v ca k1 else k1) /\
        t_leader w out (out_vehs w il out rest) <> Some v /\
        V w' v = moved c w out (t_leader w out (out_vehs w il out rest))
                   (t_lane w out (out_vehs w il out rest)) q (V w v) /\
        (forall z, z <> v -> V w' z =
           let a := if opt_eqb (v_follower (V w v)) (Some z) then sv_leader None (V w z) else V w z in
           if opt_eqb (t_leader w out (out_vehs w il out rest)) (Some z) then sv_follower (Some v) a else a)
  | VEnd v l => p' = p /\
      exists rest cd lg tl, l_vehs (L w l) = v :: rest /\ v_flag (V w v) = true /\
        v_link (V w v) = Some l /\ v_state (V w v) = Run /\ l < w_nl w /\
        add_last (l_cd (L w l)) (c_deltan c) = Some cd /\
        w_running w' = remove_first v (w_running w) /\ w_living w' = remove_first v (w_living w) /\
        sameN w w' /\ sameR w w' /\
        (forall k, L w' k = if Nat.eqb k l then end_link c w (v_larr (V w v)) cd rest (L w l) else L w k) /\
        (forall z, z <> v -> V w' z = if opt_eqb (v_follower (V w v)) (Some z)
                                      then sv_leader None (V w z) else V w z) /\
        lg = v_log (V w v) ++ (if negb (Z.eqb (c_logint c) (-1))
               then [mkLog (now c w) (v_state (ended c w (V w v))) None None None None None] else []) /\
        tl = v_tlog (V w v) ++ (if opt_eqb None (v_linkold (V w v)) then []
               else if v_aborted (V w v) then [] else [(now c w, PEnd)]) /\
        V w' v = (let a := sv_linkold None (sv_tlog tl (sv_log lg (ended c w (V w v)))) in
                  if c_delpref c then sv_pref PrefNone a else a)
  | VAppend n out v => p = Some (v, out) /\ p' = None /\ sameV w w' /\ sameR w w' /\ sameB w w' /\
      (forall k, L w' k = if Nat.eqb k out then sl_vehs (l_vehs (L w k) ++ [v]) (L w k) else L w k) /\
      (forall k, N w' k = if Nat.eqb k n then sn_incoming (remove_first v (n_incoming (N w k))) (N w k) else N w k) /\
      In v (n_incoming (N w n))
  | VClear n => p = None /\ p' = None /\ sameV w w' /\ sameL w w' /\ sameR w w' /\ sameB w w' /\
      (forall k, N w' k = if Nat.eqb k n then sn_incoming [] (N w k) else N w k)
  | VFollow v => p = None /\ p' = None /\ sameL w w' /\ sameN w w' /\ sameR w w' /\ sameB w w' /\
      exists l, v_link (V w v) = Some l /\
      (forall u, V w' u = if Nat.eqb u v then followed c w l (V w v) else V w u)
  | VLog v => p = None /\ p' = None /\ In v (w_living w) /\ sameL w w' /\ sameN w w' /\ sameR w w' /\ sameB w w' /\
      (forall u, V w' u = if Nat.eqb u v then logged c w v false else V w u)
  | VDepart v => p = None /\ p' = None /\ In v (w_living w) /\ v_state (V w v) = Home /\
      (v_dep (V w v) <= Z.of_nat (w_T w))%Z /\ sameL w w' /\ sameR w w' /\ sameB w w' /\
      (forall u, V w' u = if Nat.eqb u v then sv_state Wait (V w u) else V w u) /\
      (forall n, N w' n = if Nat.eqb n (v_orig (V w v)) then sn_queue (n_queue (N w n) ++ [v]) (N w n) else N w n)
  | VMove v => p = None /\ p' = None /\ In v (w_living w) /\ v_state (V w v) = Run /\
      sameL w w' /\ sameN w w' /\ sameR w w' /\ sameB w w' /\
      (forall u, V w' u = if Nat.eqb u v then driven c (V w u) else V w u)
  | VEvent v te => p = None /\ p' = None /\ soft w w' /\ (forall u, v_next (V w' u) = v_next (V w u)) /\
      (exists l, at_end w v l /\ dget (l_end (L w l)) (v_events (V w v)) = Some te) /\ run_event c te w = Ok w'
  | VPref v q => p = None /\ p' = None /\ soft w w' /\ route_pref_update c v q w = Ok w' /\ sameR w w' /\
      (forall u, u <> v -> V w' u = V w u) /\ (exists pf, V w' v = sv_pref pf (V w v))
  | VFlag v l => p = None /\ p' = None /\ at_end w v l /\
      (v_dest (V w v) = Some (l_end (L w l)) /\ v_mode (V w v) = SingleTrip \/
       n_out (N w (l_end (L w l))) = [] /\ v_aborted (V w v) = true) /\
      sameL w w' /\ sameN w w' /\ sameR w w' /\ sameB w w' /\
      (forall u, V w' u = if Nat.eqb u v then sv_flag true (V w u) else V w u)
  | VNextDest v => p = None /\ p' = None /\ v_mode (V w v) = Taxi /\
      (exists l, at_end w v l /\ v_dest (V w v) = Some (l_end (L w l))) /\
      sameL w w' /\ sameN w w' /\ sameR w w' /\ sameB w w' /\
      (forall u, V w' u = if Nat.eqb u v then next_dest (V w u) else V w u)
  | VAbort v => p = None /\ p' = None /\ v_abortopt (V w v) = true /\
      (exists l, at_end w v l /\ v_dest (V w v) <> Some (l_end (L w l)) /\ n_out (N w (l_end (L w l))) = []) /\
      sameL w w' /\ sameN w w' /\ sameR w w' /\ sameB w w' /\
      (forall u, V w' u = if Nat.eqb u v then aborting (V w u) else V w u)
  | VChoose v => p = None /\ p' = None /\ soft w w' /\ sameR w w' /\ route_next_link_choice c v w = Ok w' /\
      (forall u, u <> v -> V w' u = V w u) /\
      exists l, at_end w v l /\ (v_mode (V w v) = SingleTrip -> v_dest (V w v) <> Some (l_end (L w l))) /\
        (V w' v = V w v /\ v_spec (V w v) = None /\ v_dest (V w v) = Some (l_end (L w l)) \/
         V w' v = sv_next (Some None) (V w v) /\ n_out (N w (l_end (L w l))) = [] \/
         exists out, In out (n_out (N w (l_end (L w l)))) /\ V w' v = sv_next (Some (Some out)) (V w v))
  | VRequest v n => p = None /\ p' = None /\ (exists l, at_end w v l /\ n = l_end (L w l)) /\
      sameV w w' /\ sameL w w' /\ sameR w w' /\ sameB w w' /\
      (forall k, N w' k = if Nat.eqb k n then sn_incoming (n_incoming (N w k) ++ [v]) (N w k) else N w k)
  end.

Lemma iofc_tti : forall c k, l_tti (in_out_flow_constraint c k) = l_tti k /\
  l_ca (in_out_flow_constraint c k) = l_ca k /\ l_cd (in_out_flow_constraint c k) = l_cd k.
Proof.
  intros c k. unfold in_out_flow_constraint. destruct (l_cin k); [|auto].
  destruct (qlt _ _); destruct (qlt _ _); auto.
Qed.

Lemma set_tti_ok : forall c w k k', set_traveltime_instant c w k = Ok k' ->
  exists d, k' = sl_tti (l_tti k ++ [d]) k.
Proof.
  intros c w k k' H. unfold set_traveltime_instant in H. binv H; eexists; reflexivity.
Qed.

Lemma pref_update_V : forall c v q w w', route_pref_update c v q w = Ok w' ->
  (forall u, u <> v -> V w' u = V w u) /\ (exists pf, V w' v = sv_pref pf (V w v)) /\ sameR w w'.
Proof.
  intros c v q w w' H. unfold route_pref_update in H. cbn zeta in H.
  binv H; (split; [intros u Hu; rewrite V_at; apply Nat.eqb_neq in Hu; rewrite Hu; reflexivity|]);
  (split; [eexists; rewrite V_at, Nat.eqb_refl; reflexivity|intro; reflexivity]).
Qed.

Ltac sameW := repeat split; try (intro; reflexivity); auto.

Ltac sm := repeat (split; [solve [auto | intro; reflexivity | split; reflexivity]|]).

Lemma mstep_eff : forall c e w p w' p', Inv2 w p -> mstep c e w p w' p' -> eff c e w p w' p'.
Proof.
  intros c e w p w' p' [I NI] H.
  destruct H as [l w w' Hl E|d w|n v out q outs w w' Hn Hq Hg Ho Hs Hc E|n w w' Hn E
    |n out v il w w' Hn Hi Hca Hs Hc Hf E|v l rest p w w' Hl Hf E|n out v w Hap|n w|v w w' E|v w Hl
    |v w Hl Hst Hd|v w Hl Hst|v l te w w' Ha Hd E|v q w w' E|v l w Ha Hd|v l w Ha Hd Hm|v l w Ha Hd Ho Hb
    |v l w w' Ha Hd E|v l w Ha|w w' E|w|w]; cbn [eff].
  - unfold link_update in E. apply bind_ok in E. destruct E as (k2 & E & H). injection H as <-.
    destruct (set_tti_ok _ _ _ _ E) as (d & ->). destruct (iofc_tti c (L w l)) as (E1 & E2 & E3).
    split; [auto|]. split; [auto|]. split; [auto|]. split; [intro; reflexivity|]. split; [intro; reflexivity|].
    split; [intro; reflexivity|]. split; [split; reflexivity|]. exists d. rewrite <- E1. split; [exact E|].
    intro k. rewrite L_modl. destruct (Nat.eqb k l); auto. unfold linked. rs. rewrite ?E1, ?E2, ?E3. reflexivity.
  - sameW.
  - assert (Hout : In out (n_out (N w n))) by (eapply gen_outlinks_sub; eauto).
    destruct (enter_eff c n v q out w w' I Hn Hq Hout E) as (ca & A1 & A2 & A3 & A4 & A5 & A6 & A7 & A8 & A9 & A10).
    split; [auto|]. split; [auto|]. exists q, ca. destruct I as [T I].
    assert (out < w_nl w) by (apply (t_out T) in Hout; tauto). apply qle_iff in Hc.
    do 4 (split; auto). split; [eauto|]. do 9 (split; auto).
  - unfold node_update in E. apply bind_ok in E. destruct E as (n1 & E1 & E).
    apply bind_ok in E. destruct E as (n2 & E2 & E). injection E as <-.
    split; [auto|]. split; [auto|]. split; [auto|]. split; [intro; reflexivity|]. split; [intro; reflexivity|].
    split; [intro; reflexivity|]. split; [split; reflexivity|]. exists n1, n2. split; [auto|]. split; [auto|].
    intro k. rewrite N_modn. reflexivity.
  - destruct (candidate_true _ _ _ _ _ Hca) as (l & rest & K1 & K2 & K3 & K4 & K5).
    destruct (shift_eff c n out v il w w' I (NI _ _ K3) Hca E) as
      (cd & ca & r & q & A1 & A2 & A3 & A4 & A5 & A6 & A7 & A8 & A9 & A10 & A11 & A12 & A13 & A14).
    assert (l = il) by congruence. subst l. apply qle_iff in Hc, Hf.
    destruct I as [T I].
    assert (Hv : In v (Dq w None il)) by (rewrite Dq_none, A4; left; auto).
    assert (il < w_nl w) by (eapply In_D_lt; eauto). apply (s_D I) in Hv.
    split; [auto|]. split; [auto|]. exists cd, ca, r, q. do 2 (split; auto). split; [auto|]. split; [eauto|].
    do 6 (split; auto). split; [auto|]. split; [tauto|]. do 4 (split; auto). split; [split; auto|].
    do 5 (split; auto).
  - destruct (end_eff c v l rest p w w' I Hl E) as
      (cd & lg & tl & A1 & A2 & A3 & A4 & A5 & A6 & A7 & A8 & A9 & A10 & A11 & A12 & A13 & A14).
    split; [auto|]. exists rest, cd, lg, tl. do 14 (split; auto).
  - sm. split; [intro k|split; [intro k|]].
    + rewrite ?L_modn, L_at. reflexivity.
    + rewrite N_at. rewrite ?N_modl. reflexivity.
    + exact Hap.
  - sm. intro k. rewrite N_at. reflexivity.
  - unfold carfollow in E. cbn zeta in E. apply bind_ok in E. destruct E as (l & El & E). apply of_opt_ok in El.
    injection E as <-. sm.
    exists l. split; [auto|]. intro u. rewrite V_at. destruct (Nat.eqb u v) eqn:Eu; auto. apply Nat.eqb_eq in Eu. subst u.
    reflexivity.
  - do 3 (split; auto). split; [intro; apply record_log_L|]. split; [intro; apply record_log_N|].
    split; [intro; apply record_log_R|]. split; [split; [apply record_log_living|apply record_log_running]|].
    intro u. apply record_log_V.
  - do 4 (split; auto). split; [apply Z.leb_le; auto|]. sm. split; intro u.
    + rewrite V_modn, V_at. reflexivity.
    + rewrite N_at. rewrite ?N_modv. reflexivity.
  - sm. intro u. rewrite V_at. reflexivity.
  - do 2 (split; auto). split; [eapply run_event_soft; eauto|]. split; [eapply run_event_next; eauto|]. split; eauto.
  - destruct (pref_update_V _ _ _ _ _ E) as (A1 & A2 & A3).
    do 2 (split; auto). split; [eapply route_pref_update_soft; eauto|]. auto.
  - sm. intro u. rewrite V_at. reflexivity.
  - do 3 (split; auto). split; [eauto|]. sm. intro u. rewrite V_at. reflexivity.
  - do 3 (split; auto). split; [eauto|]. sm. intro u. rewrite V_at. reflexivity.
  - destruct (choose_next _ _ _ _ E) as [B0 (l' & B1 & B2)].
    assert (l' = l) by (destruct Ha as (_ & K & _); congruence). subst l'.
    do 2 (split; auto). split; [eapply choose_soft; eauto|].
    split; [|split; [auto|split; [auto|exists l; auto]]].
    intro r. clear - E. unfold route_next_link_choice in E. cbn zeta in E.
    apply bind_ok in E. destruct E as (l & _ & E).
    destruct (v_spec (V w v)).
    + binv E; reflexivity.
    + destruct (opt_eqb _ _); [binv E; reflexivity|].
      destruct (n_out _); [binv E; reflexivity|].
      apply bind_ok in E. destruct E as (o2 & _ & E).
      apply bind_ok in E. destruct E as (ps & _ & E).
      apply bind_ok in E. destruct E as ([x w1] & E1 & E).
      apply choose_pref_w in E1. binv E. destruct E1 as [[-> | ->] _]; reflexivity.
  - do 2 (split; auto). split; [eauto|]. sm. intro u. rewrite N_at. reflexivity.
  - unfold route_search_all in E. apply bind_ok in E. destruct E as ([[m cnt] dr] & _ & E).
    destruct (c_dijkstra _ _ _). injection E as <-. sameW.
  - sameW.
  - sameW.
Qed.
