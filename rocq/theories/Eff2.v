(** * Eff2: the exact effect of entering the network and of changing links. *)
From Verif Require Import Base Types Sim Heap FrameBase Tac Frame Lists Eff.
Set Implicit Arguments.

Lemma att_lane_ext : forall w w' out,
  l_vehs (L w' out) = l_vehs (L w out) -> l_lanes (L w' out) = l_lanes (L w out) ->
  (forall u, v_lane (V w' u) = v_lane (V w u)) -> att_lane w' out = att_lane w out.
Proof.
  intros w w' out E1 E2 E3. unfold att_lane. rewrite E1, E2.
  destruct (last_opt _); rewrite ?E3; reflexivity.
Qed.
Lemma att_leader_ext : forall w w' out,
  l_vehs (L w' out) = l_vehs (L w out) -> l_lanes (L w' out) = l_lanes (L w out) ->
  att_leader w' out = att_leader w out.
Proof. intros w w' out E1 E2. unfold att_leader. rewrite E1, E2. reflexivity. Qed.

(** setters of different fields commute *)
Lemma ca_tta : forall a b k, sl_ca a (sl_tta b k) = sl_tta b (sl_ca a k).
Proof. intros a b []; reflexivity. Qed.
Lemma ca_coutr : forall a b k, sl_ca a (sl_coutr b k) = sl_coutr b (sl_ca a k).
Proof. intros a b []; reflexivity. Qed.
Lemma ca_vehs : forall a b k, sl_ca a (sl_vehs b k) = sl_vehs b (sl_ca a k).
Proof. intros a b []; reflexivity. Qed.
Lemma cinr_vehs : forall a b k, sl_cinr a (sl_vehs b k) = sl_vehs b (sl_cinr a k).
Proof. intros a b []; reflexivity. Qed.
Lemma follower_none : forall a, v_follower a = None -> sv_follower None a = a.
Proof. intros [] H; cbn in H; subst; reflexivity. Qed.

Lemma L_at : forall w l f k, L (modl l f w) k = if Nat.eqb k l then f (L w k) else L w k.
Proof.
  intros w l f k. rewrite L_modl. destruct (Nat.eqb k l) eqn:E; auto.
  apply Nat.eqb_eq in E; subst; auto.
Qed.
Lemma V_at : forall w l f k, V (modv l f w) k = if Nat.eqb k l then f (V w k) else V w k.
Proof.
  intros w l f k. rewrite V_modv. destruct (Nat.eqb k l) eqn:E; auto.
  apply Nat.eqb_eq in E; subst; auto.
Qed.
Lemma N_at : forall w l f k, N (modn l f w) k = if Nat.eqb k l then f (N w k) else N w k.
Proof.
  intros w l f k. rewrite N_modn. destruct (Nat.eqb k l) eqn:E; auto.
  apply Nat.eqb_eq in E; subst; auto.
Qed.
Lemma R_at : forall w l f k, R (modr l f w) k = if Nat.eqb k l then f (R w k) else R w k.
Proof.
  intros w l f k. rewrite R_modr. destruct (Nat.eqb k l) eqn:E; auto.
  apply Nat.eqb_eq in E; subst; auto.
Qed.

(** one write, seen through the accessors *)
Record lstep (w : world) (l : lid) (f : link -> link) (x : world) : Prop := mkLstep {
  ls_L : forall k, L x k = if Nat.eqb k l then f (L w k) else L w k;
  ls_V : forall k, V x k = V w k; ls_N : forall k, N x k = N w k; ls_R : forall k, R x k = R w k;
  ls_T : w_T x = w_T w; ls_run : w_running x = w_running w; ls_liv : w_living x = w_living w }.
Record vstep (w : world) (l : vid) (f : vehicle -> vehicle) (x : world) : Prop := mkVstep {
  vs_V : forall k, V x k = if Nat.eqb k l then f (V w k) else V w k;
  vs_L : forall k, L x k = L w k; vs_N : forall k, N x k = N w k; vs_R : forall k, R x k = R w k;
  vs_T : w_T x = w_T w; vs_run : w_running x = w_running w; vs_liv : w_living x = w_living w }.
Record nstep (w : world) (l : nid) (f : node -> node) (x : world) : Prop := mkNstep {
  ns_N : forall k, N x k = if Nat.eqb k l then f (N w k) else N w k;
  ns_L : forall k, L x k = L w k; ns_V : forall k, V x k = V w k; ns_R : forall k, R x k = R w k;
  ns_T : w_T x = w_T w; ns_run : w_running x = w_running w; ns_liv : w_living x = w_living w }.
Lemma lstep_modl : forall w l f, lstep w l f (modl l f w).
Proof. intros; constructor; intros; try reflexivity. apply L_at. Qed.
Lemma vstep_modv : forall w l f, vstep w l f (modv l f w).
Proof. intros; constructor; intros; try reflexivity. apply V_at. Qed.
Lemma nstep_modn : forall w l f, nstep w l f (modn l f w).
Proof. intros; constructor; intros; try reflexivity. apply N_at. Qed.

(** name the first [let] *)
Ltac letw H x :=
  cbv beta in H;
  lazymatch type of H with
  | (let y := ?t in @?b y) = ?r =>
      pose (x := t); change (b x = r) in H; cbv beta in H
  end.

Lemma gen_any : forall A (Q : world -> Prop) (t : world) (b : world -> A) r (P : Prop),
  b t = r -> Q t -> (forall x, Q x -> b x = r -> P) -> P.
Proof. intros; eauto. Qed.

(** [if s.flow_capacity != None: s.flow_capacity_remain -= ...] *)
Definition charge (c : cfg) (nd : node) : node :=
  match n_fcap nd with
  | Some _ => sn_fcapr (n_fcapr nd - dN c)%Q nd
  | None => nd
  end.
Lemma nstep_charge : forall c w n,
  nstep w n (charge c)
    match n_fcap (N w n) with
    | Some _ => modn n (fun nd => sn_fcapr (n_fcapr nd - dN c)%Q nd) w
    | None => w
    end.
Proof.
  intros c w n. destruct (n_fcap (N w n)) eqn:E; constructor; intros; try reflexivity;
  rewrite ?N_at; destruct (Nat.eqb k n) eqn:Ek; auto; apply Nat.eqb_eq in Ek; subst k;
  unfold charge; rewrite E; reflexivity.
Qed.

(** [if veh.follower != None: veh.follower.leader = None; veh.follower = None] *)
Definition unfollowed (w : world) (v : vid) (x : world) : Prop :=
  V x v = sv_follower None (V w v) /\
  (forall z, z <> v -> V x z = if opt_eqb (v_follower (V w v)) (Some z)
                               then sv_leader None (V w z) else V w z) /\
  (forall k, L x k = L w k) /\ (forall k, N x k = N w k) /\ (forall k, R x k = R w k) /\
  w_T x = w_T w /\ w_running x = w_running w /\ w_living x = w_living w.
Lemma unfollow_V : forall w v, v_follower (V w v) <> Some v ->
  unfollowed w v match v_follower (V w v) with
           | Some f => modv v (sv_follower None) (modv f (sv_leader None) w)
           | None => w
           end.
Proof.
  intros w v H. unfold unfollowed. destruct (v_follower (V w v)) as [f|] eqn:E.
  - repeat split; try reflexivity.
    + rewrite V_modv_same, V_modv_other by congruence. reflexivity.
    + intros z Hz. cbn [opt_eqb]. rewrite V_modv_other by auto. rewrite V_at, (Nat.eqb_sym f z). reflexivity.
  - repeat split; try reflexivity. rewrite follower_none; auto.
Qed.

(** name the next write and hide it behind its [step] record *)
Ltac letm H x S :=
  cbv beta in H;
  lazymatch type of H with
  | (let y := ?t in @?b y) = ?r =>
    lazymatch t with
    | modl ?l ?f ?w => refine (@gen_any _ (lstep w l f) t b r _ H (lstep_modl w l f) _)
    | modv ?l ?f ?w => refine (@gen_any _ (vstep w l f) t b r _ H (vstep_modv w l f) _)
    | modn ?l ?f ?w => refine (@gen_any _ (nstep w l f) t b r _ H (nstep_modn w l f) _)
    | match n_fcap (N ?w ?n) with
      | Some _ => modn _ (fun nd => sn_fcapr (n_fcapr nd - dN ?c)%Q nd) _
      | None => _ end => refine (@gen_any _ (nstep w n (charge c)) t b r _ H (nstep_charge c w n) _)
    end; clear H; intros x S H; cbv beta in H
  end.

(** invert a [bind] without touching the [let]s of its continuation *)
Lemma bind_inv : forall A B (r : result A) (f : A -> result B) b (P : Prop),
  bind r f = Ok b -> (forall a, r = Ok a -> f a = Ok b -> P) -> P.
Proof. intros A B [a|e] f b P H K; cbn in H; [eauto|discriminate]. Qed.
Ltac bindo H x E :=
  cbv beta in H;
  refine (@bind_inv _ _ _ _ _ _ H _); clear H; intros x E H; cbv beta in H.

(** ** gen_enter *)

Definition gen_veh (c : cfg) (w : world) (out : lid) (a : vehicle) : vehicle :=
  sv_larr (now c w) (sv_leader (att_leader w out) (sv_lane (att_lane w out)
    (sv_v (l_u (L w out)) (sv_x 0%Q (sv_link (Some out) (sv_state Run a)))))).
Definition gen_link (c : cfg) (w : world) (v : vid) (ca : list Z) (k : link) : link :=
  sl_cinr (l_cinr k - dN c)%Q (sl_ca ca (sl_enter (dset (w_T w) v (l_enter k))
    (sl_vehs (l_vehs k ++ [v]) k))).

Lemma gen_enter_eff : forall c n v out w w', gen_enter c n v out w = Ok w' ->
  ~ In v (l_vehs (L w out)) -> 1 <= l_lanes (L w out) ->
  exists ca, add_last (l_ca (L w out)) (c_deltan c) = Some ca /\
  (forall k, L w' k = if Nat.eqb k out then gen_link c w v ca (L w out) else L w k) /\
  (forall k, N w' k = if Nat.eqb k n then sn_queue (tl (n_queue (N w n))) (N w n) else N w k) /\
  (forall k, R w' k = R w k) /\
  w_living w' = w_living w /\ w_running w' = w_running w ++ [v] /\ w_T w' = w_T w /\
  att_leader w out <> Some v /\
  V w' v = gen_veh c w out (V w v) /\
  (forall z, z <> v -> V w' z = if opt_eqb (att_leader w out) (Some z)
                                then sv_follower (Some v) (V w z) else V w z).
Proof.
  intros c n v out w w' H Hv Hl. unfold gen_enter in H. cbn zeta in H.
  apply bind_ok in H. destruct H as (w2 & E1 & H).
  match type of E1 with attach v out ?x = _ => set (w1 := x) in * end.
  apply attach_eff in E1; [|exact Hv|exact Hl].
  rewrite (@att_lane_ext w w1 out), (@att_leader_ext w w1 out) in E1; try reflexivity.
  2:{ intro u. unfold w1. hs. rewrite V_modv. destruct (Nat.eqb u v) eqn:E; auto.
      apply Nat.eqb_eq in E; subst. reflexivity. }
  destruct E1 as (L2 & N2 & R2 & Li2 & Ru2 & T2 & Hld & Vv2 & Vz2).
  apply bind_ok in H. destruct H as (ca & E2 & H). apply of_opt_ok in E2. hsin E2.
  rewrite L2 in E2. change (L w1 out) with (L w out) in E2.
  injection H as <-. hs.
  assert (TT : w_T w2 = w_T w) by (rewrite T2; reflexivity).
  exists ca. repeat match goal with |- _ /\ _ => split end; auto.
  - intro k. rewrite !L_modl. hs. rewrite !L_modl, Nat.eqb_refl. rewrite !L2.
    change (L w1) with (L w). unfold gen_link. hs. rewrite TT.
    destruct (Nat.eqb k out); reflexivity.
  - hs. rewrite Vv2. unfold w1, gen_veh. hs. unfold now. hs. rewrite TT. reflexivity.
  - intros z Hz. hs. rewrite V_modv_other by auto. hs. rewrite Vz2 by auto.
    unfold w1. hs. rewrite V_modv_other by auto. reflexivity.
Qed.

(** ** transfer_shift *)

Definition out_vehs (w : world) (il out : lid) (rest : list vid) : list vid :=
  if Nat.eqb out il then rest else l_vehs (L w out).
Definition t_lane (w : world) (out : lid) (vs : list vid) : nat :=
  match last_opt vs with
  | Some u => Nat.modulo (v_lane (V w u) + 1) (l_lanes (L w out))
  | None => 0
  end.
Definition t_leader (w : world) (out : lid) (vs : list vid) : option vid :=
  if l_lanes (L w out) <=? List.length vs then from_end vs (l_lanes (L w out)) else None.
Definition t_x (c : cfg) (w : world) (out : lid) (lead : option vid) (q : Q) : Q :=
  let x1 := match lead with
            | Some u =>
                let xc0 := (v_xold (V w u) - l_dpl (L w out) * dN c)%Q in
                let xc := if qlt xc0 0 then 0%Q else xc0 in
                if qlt xc q then xc else q
            | None => q
            end in
  if qle (l_len (L w out)) x1 then l_len (L w out) else x1.
Definition in_link (c : cfg) (w : world) (la : Q) (cd : list Z) (rest : list vid) (k : link) : link :=
  sl_vehs rest (sl_coutr (l_coutr k - dN c)%Q
    (sl_tta (set_from (l_tta k) (Z.to_nat (qtrunc (la / dt c))) (now c w - la)%Q) (sl_cd cd k))).
Definition out_link (c : cfg) (w : world) (v : vid) (ca : list Z) (k : link) : link :=
  sl_enter (dset (w_T w) v (l_enter k)) (sl_cinr (l_cinr k - dN c)%Q (sl_ca ca k)).
Definition moved (c : cfg) (w : world) (out : lid) (lead : option vid) (lane : nat) (q : Q)
    (a : vehicle) : vehicle :=
  let xn := t_x c w out lead q in
  sv_remain 0%Q (sv_v (v_v a + xn / dt c)%Q (sv_x xn
    (sv_leader lead (sv_lane lane (sv_follower None
      (sv_x 0%Q (sv_link (Some out) (sv_larr (now c w) a)))))))).

Lemma transfer_shift_eff : forall c n out v w il w', transfer_shift c n out v w = Ok (il, w') ->
  v_follower (V w v) <> Some v -> 1 <= l_lanes (L w out) ->
  (forall u rest, l_vehs (L w il) = u :: rest -> ~ In v (out_vehs w il out rest)) ->
  exists cd ca u rest q,
    v_link (V w v) = Some il /\ add_last (l_cd (L w il)) (c_deltan c) = Some cd /\
    add_last (l_ca (L w out)) (c_deltan c) = Some ca /\
    l_vehs (L w il) = u :: rest /\
    qdiv (v_remain (V w v) * l_u (L w out)) (l_u (L w il)) = Ok q /\
    w_running w' = w_running w /\ w_living w' = w_living w /\ w_T w' = w_T w /\
    (forall k, N w' k = if Nat.eqb k n then
        match n_fcap (N w n) with
        | Some _ => sn_fcapr (n_fcapr (N w n) - dN c)%Q (N w n)
        | None => N w n
        end else N w k) /\
    (forall k, R w' k = R w k) /\
    (forall k, L w' k =
       let k1 := if Nat.eqb k il then in_link c w (v_larr (V w v)) cd rest (L w k) else L w k in
       if Nat.eqb k out then out_link c w v ca k1 else k1) /\
    t_leader w out (out_vehs w il out rest) <> Some v /\
    V w' v = moved c w out (t_leader w out (out_vehs w il out rest))
                 (t_lane w out (out_vehs w il out rest)) q (V w v) /\
    (forall z, z <> v -> V w' z =
       let a := if opt_eqb (v_follower (V w v)) (Some z) then sv_leader None (V w z) else V w z in
       if opt_eqb (t_leader w out (out_vehs w il out rest)) (Some z) then sv_follower (Some v) a else a).
Proof.
  intros c n out v w il w' H Hf Hl Hn. cbv beta delta [transfer_shift] in H.
  bindo H il0 E0. apply of_opt_ok in E0.
  bindo H cd E1. apply of_opt_ok in E1.
  letm H w1 S1. bindo H ca E2. apply of_opt_ok in E2.
  letm H w2 S2. letw H la. letm H w3 S3. letm H w4 S4. letm H w5 S5. letm H w6 S6. letm H wa Sa.
  assert (il0 = il).
  { clear - H. destruct (l_vehs (L wa il0)); [discriminate H|].
    letm H wb1 S1. letm H wb2 S2. letm H wb3 S3. letw H wb. bindo H w8 E8. bindo H q8 Q8. letw H xn.
    injection H as <- _. reflexivity. }
  subst il0.
  assert (E2' : add_last (l_ca (L w out)) (c_deltan c) = Some ca).
  { rewrite <- E2. rewrite (ls_L S1). destruct (Nat.eqb out il); reflexivity. }
  clear E2. rename E2' into E2.
  assert (Ela : la = v_larr (V w v)) by (unfold la; rewrite (ls_V S2), (ls_V S1); reflexivity).
  clearbody la. subst la.
  assert (Enow2 : now c w2 = now c w) by (unfold now; rewrite (ls_T S2), (ls_T S1); reflexivity).
  assert (Enow3 : now c w3 = now c w) by (unfold now; rewrite (ls_T S3), (ls_T S2), (ls_T S1); reflexivity).
  rewrite Enow2 in S3. rewrite Enow3 in S4.
  assert (L6 : forall k, L w6 k =
     let k1 := if Nat.eqb k il then sl_coutr (l_coutr (L w k) - dN c)%Q
        (sl_tta (set_from (l_tta (L w k)) (Z.to_nat (qtrunc (v_larr (V w v) / dt c))) (now c w - v_larr (V w v))%Q) (sl_cd cd (L w k)))
        else L w k in
     if Nat.eqb k out then sl_cinr (l_cinr k1 - dN c)%Q (sl_ca ca k1) else k1).
  { intro k. rewrite (ls_L S6), (ls_L S5), (vs_L S4), (ls_L S3), (ls_L S2), (ls_L S1).
    destruct (Nat.eqb k out), (Nat.eqb k il); auto. }
  assert (N6 : forall k, N w6 k = N w k)
    by (intro k; rewrite (ls_N S6), (ls_N S5), (vs_N S4), (ls_N S3), (ls_N S2), (ls_N S1); reflexivity).
  assert (R6 : forall k, R w6 k = R w k)
    by (intro k; rewrite (ls_R S6), (ls_R S5), (vs_R S4), (ls_R S3), (ls_R S2), (ls_R S1); reflexivity).
  assert (V6 : forall z, V w6 z = if Nat.eqb z v then sv_larr (now c w) (V w z) else V w z).
  { intro k. rewrite (ls_V S6), (ls_V S5), (vs_V S4), (ls_V S3), (ls_V S2), (ls_V S1). reflexivity. }
  assert (T6 : w_T w6 = w_T w)
    by (rewrite (ls_T S6), (ls_T S5), (vs_T S4), (ls_T S3), (ls_T S2), (ls_T S1); reflexivity).
  assert (Ru6 : w_running w6 = w_running w)
    by (rewrite (ls_run S6), (ls_run S5), (vs_run S4), (ls_run S3), (ls_run S2), (ls_run S1); reflexivity).
  assert (Li6 : w_living w6 = w_living w)
    by (rewrite (ls_liv S6), (ls_liv S5), (vs_liv S4), (ls_liv S3), (ls_liv S2), (ls_liv S1); reflexivity).
  clear S1 S2 S3 S4 S5 S6 Enow2 Enow3. clear w5 w4 w3 w2 w1.
  pose proof (ns_L Sa) as La. pose proof (ns_V Sa) as Va.
  assert (Na : forall k, N wa k = if Nat.eqb k n then
        match n_fcap (N w n) with
        | Some _ => sn_fcapr (n_fcapr (N w n) - dN c)%Q (N w n)
        | None => N w n
        end else N w k).
  { intro k. rewrite (ns_N Sa), N6. destruct (Nat.eqb k n) eqn:E; auto. apply Nat.eqb_eq in E; subst; auto. }
  assert (Ra : forall k, R wa k = R w k) by (intro k; rewrite (ns_R Sa); auto).
  assert (Ta : w_T wa = w_T w) by (rewrite (ns_T Sa); auto).
  assert (Rua : w_running wa = w_running w) by (rewrite (ns_run Sa); auto).
  assert (Lia : w_living wa = w_living w) by (rewrite (ns_liv Sa); auto).
  clear Sa.
  destruct (l_vehs (L wa il)) as [|u rest] eqn:Er; [discriminate|].
  assert (Er' : l_vehs (L w il) = u :: rest).
  { rewrite La, L6 in Er. cbv zeta in Er. rewrite Nat.eqb_refl in Er. destruct (Nat.eqb il out); exact Er. }
  specialize (Hn _ _ Er').
  letm H wb1 S1. letm H wb2 S2. letm H wb3 S3.
  assert (Lb3 : forall k, L wb3 k =
     let k1 := if Nat.eqb k il then in_link c w (v_larr (V w v)) cd rest (L w k) else L w k in
       if Nat.eqb k out then out_link c w v ca k1 else k1).
  { intro k. rewrite (vs_L S3), (ls_L S2), (ls_L S1), La, L6, (ls_T S1), Ta. cbv zeta. unfold in_link, out_link.
    destruct (Nat.eqb k out), (Nat.eqb k il); auto. }
  assert (V3 : forall z, V wb3 z = if Nat.eqb z v then sv_x 0%Q (sv_link (Some out) (V wa z)) else V wa z)
    by (intro z; rewrite (vs_V S3), (ls_V S2), (ls_V S1); reflexivity).
  assert (N3 : forall k, N wb3 k = N wa k) by (intro k; rewrite (vs_N S3), (ls_N S2), (ls_N S1); reflexivity).
  assert (R3 : forall k, R wb3 k = R wa k) by (intro k; rewrite (vs_R S3), (ls_R S2), (ls_R S1); reflexivity).
  assert (T3 : w_T wb3 = w_T wa) by (rewrite (vs_T S3), (ls_T S2), (ls_T S1); reflexivity).
  assert (Ru3 : w_running wb3 = w_running wa) by (rewrite (vs_run S3), (ls_run S2), (ls_run S1); reflexivity).
  assert (Li3 : w_living wb3 = w_living wa) by (rewrite (vs_liv S3), (ls_liv S2), (ls_liv S1); reflexivity).
  clear S1 S2 S3. clear wb1 wb2.
  assert (V3f : v_follower (V wb3 v) = v_follower (V w v)).
  { rewrite V3, Nat.eqb_refl. rs. rewrite Va, V6, Nat.eqb_refl. reflexivity. }
  lazymatch type of H with
  | (let y := ?t in @?b y) = ?r =>
      refine (@gen_any _ (unfollowed wb3 v) t b r _ H (@unfollow_V wb3 v _) _);
      [rewrite V3f; exact Hf|]; clear H; intros wb Sb H; cbv beta in H
  end.
  destruct Sb as (Vbv & Vb & Lb & Nb & Rb & Tb & Rub & Lib).
  rewrite V3, Va, V6, Nat.eqb_refl in Vbv. rewrite V3f in Vb.
  assert (Vb' : forall z, z <> v -> V wb z =
            if opt_eqb (v_follower (V w v)) (Some z) then sv_leader None (V w z) else V w z).
  { intros z Hz. rewrite (Vb z Hz). apply Nat.eqb_neq in Hz. rewrite V3, Va, V6, Hz. reflexivity. }
  clear Vb. rename Vb' into Vb.
  assert (Lb' : forall k, L wb k =
     let k1 := if Nat.eqb k il then in_link c w (v_larr (V w v)) cd rest (L w k) else L w k in
       if Nat.eqb k out then out_link c w v ca k1 else k1) by (intro k; rewrite Lb; apply Lb3).
  clear Lb Lb3. rename Lb' into Lb.
  bindo H w2 E3.
  assert (Hvb : l_vehs (L wb out) = out_vehs w il out rest).
  { rewrite Lb. cbv zeta. rewrite Nat.eqb_refl. unfold out_vehs, out_link, in_link. rs.
    destruct (Nat.eqb out il); reflexivity. }
  assert (Hlb : l_lanes (L wb out) = l_lanes (L w out)).
  { rewrite Lb. cbv zeta. rewrite Nat.eqb_refl. unfold out_link, in_link. rs.
    destruct (Nat.eqb out il); reflexivity. }
  assert (Elane : att_lane wb out = t_lane w out (out_vehs w il out rest)).
  { unfold att_lane, t_lane. rewrite Hvb, Hlb. destruct (last_opt _) as [z|] eqn:Ez; auto.
    f_equal. f_equal. destruct (Nat.eq_dec z v) as [->|Hz]; [rewrite Vbv; reflexivity|].
    rewrite Vb by auto. destruct (opt_eqb _ _); reflexivity. }
  assert (Elead : att_leader wb out = t_leader w out (out_vehs w il out rest)).
  { unfold att_leader, t_leader. rewrite Hvb, Hlb. reflexivity. }
  apply attach_eff in E3; [|rewrite Hvb; exact Hn|rewrite Hlb; exact Hl].
  rewrite Elane, Elead in E3.
  destruct E3 as (L2 & N2 & R2 & Li2 & Ru2 & T2 & Hld & Vv2 & Vz2).
  bindo H q Eqq. rename Eqq into Eq0. letw H xn. injection H as <-.
  rewrite Vv2, Vbv in Eq0. rs in Eq0. rewrite !L2, !Lb in Eq0. cbv zeta in Eq0.
  rewrite !Nat.eqb_refl in Eq0.
  assert (Uk : forall k, l_u (L w2 k) = l_u (L w k)).
  { intro k. rewrite L2, Lb. cbv zeta. unfold out_link, in_link. destruct (Nat.eqb k out), (Nat.eqb k il); reflexivity. }
  assert (Eq' : qdiv (v_remain (V w v) * l_u (L w out)) (l_u (L w il)) = Ok q).
  { rewrite <- Eq0. unfold out_link, in_link. destruct (Nat.eqb out il), (Nat.eqb il out); reflexivity. }
  assert (Ex : leftover_x c w2 v out q = t_x c w out (t_leader w out (out_vehs w il out rest)) q).
  { unfold leftover_x, t_x. rewrite Vv2, Vbv. rs.
    assert (D1 : l_dpl (L w2 out) = l_dpl (L w out)).
    { rewrite L2, Lb. cbv zeta. unfold out_link, in_link. destruct (Nat.eqb out out), (Nat.eqb out il); reflexivity. }
    assert (D2 : l_len (L w2 out) = l_len (L w out)).
    { rewrite L2, Lb. cbv zeta. unfold out_link, in_link. destruct (Nat.eqb out out), (Nat.eqb out il); reflexivity. }
    rewrite D1, D2.
    destruct (t_leader w out (out_vehs w il out rest)) as [z|] eqn:Ez; auto.
    assert (v_xold (V w2 z) = v_xold (V w z)).
    { rewrite Vz2 by congruence. rewrite Vb by congruence.
      destruct (opt_eqb (Some z) (Some z)), (opt_eqb (v_follower (V w v)) (Some z)); reflexivity. }
    rewrite H. reflexivity. }
  exists cd, ca, u, rest, q. repeat match goal with |- _ /\ _ => split end; auto.
  - hs. rewrite Ru2, Rub, Ru3, Rua. reflexivity.
  - hs. rewrite Li2, Lib, Li3, Lia. reflexivity.
  - hs. rewrite T2, Tb, T3, Ta. reflexivity.
  - intro k. hs. rewrite N2, Nb, N3, Na. reflexivity.
  - intro k. hs. rewrite R2, Rb, R3, Ra. reflexivity.
  - intro k. hs. rewrite L2, Lb. reflexivity.
  - unfold xn. hs. rewrite Vv2, Vbv, Ex. unfold moved. reflexivity.
  - intros z Hz. rewrite V_modv_other by auto. rewrite Vz2, Vb by auto. reflexivity.
Qed.

(** ** Waiting lists *)
Lemma attach_N : forall v out w w', attach v out w = Ok w' -> forall k, N w' k = N w k.
Proof.
  intros v out w w' H k. with_strategy transparent [attach] unfold attach in H. cbn zeta in H. binv H; reflexivity.
Qed.
Lemma end_trip_N : forall c v w w', end_trip c v w = Ok w' -> forall k, N w' k = N w k.
Proof.
  intros c v w w' H k. unfold end_trip in H. cbn zeta in H.
  apply bind_ok in H. destruct H as (l & _ & H). apply bind_ok in H. destruct H as (cd & _ & H).
  match type of H with match ?x with _ => _ end = _ => destruct x; [discriminate|] end.
  match type of H with (if ?x then _ else _) = _ => destruct x; [discriminate|] end.
  match type of H with (if ?x then _ else _) = _ => destruct x; [discriminate|] end.
  injection H as <-.
  destruct (c_delpref c); [rewrite N_modv|]; rewrite record_log_N;
  match goal with |- N (if ?x then _ else _) _ = _ => destruct x end; rewrite ?N_modv; cbn;
  match goal with |- context [match ?x with Some _ => _ | None => _ end] => destruct x end; reflexivity.
Qed.
Lemma transfer_shift_incoming : forall c n out v w il w', transfer_shift c n out v w = Ok (il, w') ->
  forall k, n_incoming (N w' k) = n_incoming (N w k).
Proof.
  intros c n out v w il w' H k. cbv beta delta [transfer_shift] in H.
  bindo H il0 E0. 
  bindo H cd E1. 
  letm H w1 S1. bindo H ca E2. 
  letm H w2 S2. letw H la. letm H w3 S3. letm H w4 S4. letm H w5 S5. letm H w6 S6. letm H wa Sa.
  destruct (l_vehs (L wa il0)); [discriminate H|].
  letm H wb1 Sb1. letm H wb2 Sb2. letm H wb3 Sb3. 
  assert (K : n_incoming (N wb3 k) = n_incoming (N w k)).
  { rewrite (vs_N Sb3), (ls_N Sb2), (ls_N Sb1), (ns_N Sa).
    rewrite (ls_N S6), (ls_N S5), (vs_N S4), (ls_N S3), (ls_N S2), (ls_N S1).
    unfold charge. destruct (Nat.eqb k n); [|reflexivity]. destruct (n_fcap (N w k)); reflexivity. }
  clear - H K. rewrite <- K. clear K.
  lazymatch type of H with
  | (let y := ?t in @?b y) = ?r =>
     refine (@gen_any _ (fun x => forall k, N x k = N wb3 k) t b r _ H _ _);
     [intro; destruct (v_follower _); reflexivity|]; clear H; intros wb Sb H; cbv beta in H end.
  bindo H w8 E8. bindo H q8 Q8. letw H xn. injection H as _ <-.
  rewrite N_modv. rewrite (@attach_N _ _ _ _ E8), Sb. reflexivity.
Qed.
