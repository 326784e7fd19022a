(** * Eff: the exact effect of every method that moves a vehicle. *)
From Verif Require Import Base Types Sim Heap FrameBase Tac Frame Lists.
Set Implicit Arguments.

Lemma opt_eqb_refl : forall a, opt_eqb a a = true.
Proof. intro a. apply opt_eqb_eq. reflexivity. Qed.

Lemma opt_eqb_false : forall a b, opt_eqb a b = false <-> a <> b.
Proof.
  intros a b. rewrite <- opt_eqb_eq. destruct (opt_eqb a b); split; intros; congruence.
Qed.

Lemma eqb_dec_elim : forall (P : Type) (i j : nat) (a b c : P),
  (i = j -> a = b) -> (i <> j -> a = c) -> a = if Nat.eqb i j then b else c.
Proof.
  intros P i j a b c H K. destruct (Nat.eqb i j) eqn:E.
  - apply Nat.eqb_eq in E. auto.
  - apply Nat.eqb_neq in E. auto.
Qed.

(** ** record_log *)

(** the row appended to the per-timestep log *)
Definition log_rows (c : cfg) (w : world) (v : vid) (enforce : bool) : list logrow :=
  let a := V w v in
  if negb (Z.eqb (c_logint c) (-1)) &&
     (Z.eqb (c_logint c) 1 || Z.eqb (Z.modulo (Z.of_nat (w_T w)) (c_logint c)) 0 || enforce)
  then
    match v_state a with
    | Run =>
        let s := match v_leader a with
                 | Some u => if opt_eqb (v_link a) (v_link (V w u))
                             then Some (v_x (V w u) - v_x a)%Q else None
                 | None => None
                 end in
        [mkLog (now c w) Run (v_link a) (Some (v_x a)) (Some (v_v a)) (Some (v_lane a)) s]
    | st => [mkLog (now c w) st None None None None None]
    end
  else [].

(** the entry appended to log_t_link *)
Definition tlog_rows (c : cfg) (w : world) (a : vehicle) : list (Q * place) :=
  if opt_eqb (v_link a) (v_linkold a) then []
  else match v_state a, v_link a with
       | Run, Some l => [(now c w, PLink l)]
       | End_, _ => [(now c w, PEnd)]
       | _, _ => []
       end.

Definition logged (c : cfg) (w : world) (v : vid) (enforce : bool) : vehicle :=
  let a := V w v in
  sv_linkold (v_link a) (sv_tlog (v_tlog a ++ tlog_rows c w a)
    (sv_log (v_log a ++ log_rows c w v enforce) a)).

Ltac deb := match goal with |- context [Nat.eqb ?a ?b] => destruct (Nat.eqb a b) eqn:? end.

Lemma record_log_V : forall c v b w u,
  V (record_log c v b w) u = if Nat.eqb u v then logged c w v b else V w u.
Proof.
  intros c v b w u. apply eqb_dec_elim; intros E.
  - subst. unfold record_log, logged, log_rows, tlog_rows.
    set (cond := negb _ && _). destruct cond.
    + destruct (v_state (V w v)) eqn:Es;
      destruct (opt_eqb (v_link (V w v)) (v_linkold (V w v))) eqn:El;
      try (apply opt_eqb_eq in El; rewrite El);
      hs; try (destruct (V w v); cbn in *; subst; rewrite ?app_nil_r; reflexivity);
      destruct (v_link (V w v)) eqn:Ek; hs;
      destruct (V w v); cbn in *; subst; rewrite ?app_nil_r; reflexivity.
    + rewrite !app_nil_r.
      destruct (opt_eqb (v_link (V w v)) (v_linkold (V w v))) eqn:El.
      * apply opt_eqb_eq in El. rewrite El. destruct (V w v); cbn in *; subst; rewrite ?app_nil_r; reflexivity.
      * hs. destruct (v_state (V w v)) eqn:Es; destruct (v_link (V w v)) eqn:Ek;
        destruct (V w v); cbn in *; subst; rewrite ?app_nil_r; reflexivity.
  - unfold record_log. set (cond := negb _ && _).
    destruct (opt_eqb (v_link (V w v)) (v_linkold (V w v)));
    destruct cond; try destruct (v_state (V w v)); rewrite ?V_modv_other by auto; hs;
    rewrite ?V_modv_other by auto; hs; reflexivity.
Qed.

Lemma record_log_L : forall c v b w k, L (record_log c v b w) k = L w k.
Proof.
  intros c v b w k. unfold record_log. set (cond := negb _ && _).
  destruct (opt_eqb _ _); destruct cond; try destruct (v_state (V w v)); reflexivity.
Qed.
Lemma record_log_N : forall c v b w k, N (record_log c v b w) k = N w k.
Proof.
  intros c v b w k. unfold record_log. set (cond := negb _ && _).
  destruct (opt_eqb _ _); destruct cond; try destruct (v_state (V w v)); reflexivity.
Qed.
Lemma record_log_R : forall c v b w k, R (record_log c v b w) k = R w k.
Proof.
  intros c v b w k. unfold record_log. set (cond := negb _ && _).
  destruct (opt_eqb _ _); destruct cond; try destruct (v_state (V w v)); reflexivity.
Qed.
Lemma record_log_living : forall c v b w, w_living (record_log c v b w) = w_living w.
Proof.
  intros c v b w. unfold record_log. set (cond := negb _ && _).
  destruct (opt_eqb _ _); destruct cond; try destruct (v_state (V w v)); reflexivity.
Qed.
Lemma record_log_running : forall c v b w, w_running (record_log c v b w) = w_running w.
Proof.
  intros c v b w. unfold record_log. set (cond := negb _ && _).
  destruct (opt_eqb _ _); destruct cond; try destruct (v_state (V w v)); reflexivity.
Qed.
Lemma record_log_T : forall c v b w, w_T (record_log c v b w) = w_T w.
Proof.
  intros c v b w. unfold record_log. set (cond := negb _ && _).
  destruct (opt_eqb _ _); destruct cond; try destruct (v_state (V w v)); reflexivity.
Qed.
Global Opaque record_log.

(** ** end_trip *)

(** the fields of the vehicle before the final [record_log] *)
Definition ended (c : cfg) (w : world) (a : vehicle) : vehicle :=
  let a := sv_state End_ a in
  let a := sv_tt (inject_Z (Z.of_nat (w_T w) - v_dep a) * dt c)%Q
             (sv_arr (Z.of_nat (w_T w)) (sv_x 0%Q (sv_link None a))) in
  if v_aborted a then sv_tt (-1)%Q (sv_arr (-1)%Z (sv_state Abort a)) else a.

(** the link after a trip end *)
Definition end_link (c : cfg) (w : world) (la : Q) (cd : list Z) (rest : list vid) (k : link) : link :=
  sl_vehs rest (sl_tta (set_from (l_tta k) (Z.to_nat (qtrunc (la / dt c)))
                          (Qof_nat (S (w_T w)) * dt c - la)%Q) (sl_cd cd k)).

Lemma end_trip_eff : forall c v w w', end_trip c v w = Ok w' ->
  v_follower (V w v) <> Some v ->
  exists l cd u rest lg tl,
    v_link (V w v) = Some l /\ add_last (l_cd (L w l)) (c_deltan c) = Some cd /\
    l_vehs (L w l) = u :: rest /\ In v (w_running w) /\ In v (w_living w) /\
    w_running w' = remove_first v (w_running w) /\
    w_living w' = remove_first v (w_living w) /\
    w_T w' = w_T w /\
    (forall k, N w' k = N w k) /\ (forall k, R w' k = R w k) /\
    (forall k, L w' k = if Nat.eqb k l then end_link c w (v_larr (V w v)) cd rest (L w l) else L w k) /\
    (forall z, z <> v -> V w' z = if opt_eqb (v_follower (V w v)) (Some z)
                                  then sv_leader None (V w z) else V w z) /\
    lg = v_log (V w v) ++ (if negb (Z.eqb (c_logint c) (-1))
                then [mkLog (now c w) (v_state (ended c w (V w v))) None None None None None] else []) /\
    tl = v_tlog (V w v) ++ (if opt_eqb None (v_linkold (V w v)) then []
                            else if v_aborted (V w v) then [] else [(now c w, PEnd)]) /\
    V w' v = (let a := sv_linkold None (sv_tlog tl (sv_log lg (ended c w (V w v)))) in
              if c_delpref c then sv_pref PrefNone a else a).
Proof.
  intros c v w w' H Hf. unfold end_trip in H. cbn zeta in H.
  apply bind_ok in H. destruct H as (l & E1 & H). apply of_opt_ok in E1. hsin E1.
  apply bind_ok in H. destruct H as (cd & E2 & H). apply of_opt_ok in E2. hsin E2.
  match type of H with context [match v_follower ?x with Some f => modv f (sv_leader None) ?y | None => ?y end] =>
    set (w1 := match v_follower x with Some f => modv f (sv_leader None) y | None => y end) in * end.
  assert (F1 : v_follower (V w v) = v_follower (V w v)) by reflexivity.
  assert (L1 : forall k, L w1 k = if Nat.eqb k l then
     sl_tta (set_from (l_tta (L w l)) (Z.to_nat (qtrunc (v_larr (V w v) / dt c)))
                          (Qof_nat (S (w_T w)) * dt c - v_larr (V w v))%Q) (sl_cd cd (L w l)) else L w k).
  { intro k. unfold w1. hs. destruct (v_follower (V w v)); hs;
    rewrite !L_modl; rewrite Nat.eqb_refl; hs; destruct (Nat.eqb k l); reflexivity. }
  assert (N1 : forall k, N w1 k = N w k).
  { intro k. unfold w1. hs. destruct (v_follower (V w v)); reflexivity. }
  assert (R1 : forall k, R w1 k = R w k).
  { intro k. unfold w1. hs. destruct (v_follower (V w v)); reflexivity. }
  assert (V1v : V w1 v = sv_state End_ (V w v)).
  { unfold w1. hs. destruct (v_follower (V w v)) as [f|] eqn:Ef; hs; auto.
    rewrite V_modv_other by congruence. hs. reflexivity. }
  assert (V1 : forall z, z <> v -> V w1 z = if opt_eqb (v_follower (V w v)) (Some z)
                                  then sv_leader None (V w z) else V w z).
  { intros z Hz. unfold w1. hs. destruct (v_follower (V w v)) as [f|] eqn:Ef; hs.
    - cbn [opt_eqb]. rewrite V_modv. hs. rewrite (Nat.eqb_sym z f).
      destruct (Nat.eqb f z) eqn:Efz.
      + apply Nat.eqb_eq in Efz. subst z. rewrite V_modv_other by auto. reflexivity.
      + rewrite V_modv_other by auto. reflexivity.
    - cbn [opt_eqb]. rewrite V_modv_other by auto. reflexivity. }
  assert (T1 : w_T w1 = w_T w) by (unfold w1; hs; destruct (v_follower (V w v)); reflexivity).
  assert (Ru1 : w_running w1 = w_running w) by (unfold w1; hs; destruct (v_follower (V w v)); reflexivity).
  assert (Li1 : w_living w1 = w_living w) by (unfold w1; hs; destruct (v_follower (V w v)); reflexivity).
  clearbody w1.
  destruct (l_vehs (L w1 l)) as [|u rest] eqn:El; [discriminate|].
  rewrite L1, Nat.eqb_refl in El. rs in El.
  hsin H. hsin H. rewrite ?Ru1, ?Li1, ?T1 in H.
  destruct (negb (mem v (w_running w))) eqn:Er; [discriminate|].
  destruct (negb (mem v (w_living w))) eqn:Ev; [discriminate|].
  apply negb_false_iff, mem_iff in Er. apply negb_false_iff, mem_iff in Ev.
  injection H as H.
  match type of H with context [record_log c v true ?x] => set (w2 := x) in * end.
  assert (V2v : V w2 v = ended c w (V w v)).
  { unfold w2, ended. rewrite V1v. rs. destruct (v_aborted (V w v)); hs; rewrite ?V1v; reflexivity. }
  assert (V2 : forall z, z <> v -> V w2 z = V w1 z).
  { intros z Hz. unfold w2. destruct (v_aborted (V w1 v)); rewrite ?V_modv_other by auto; hs;
    rewrite ?V_modv_other by auto; hs; reflexivity. }
  assert (L2 : forall k, L w2 k = if Nat.eqb k l then sl_vehs rest (L w1 k) else L w1 k).
  { intros k. unfold w2. destruct (v_aborted (V w1 v)); hs; rewrite L_modl;
    destruct (Nat.eqb k l) eqn:E; auto; apply Nat.eqb_eq in E; subst; auto. }
  assert (N2 : forall k, N w2 k = N w k).
  { intros k. rewrite <- N1. unfold w2. destruct (v_aborted (V w1 v)); reflexivity. }
  assert (R2 : forall k, R w2 k = R w k).
  { intros k. rewrite <- R1. unfold w2. destruct (v_aborted (V w1 v)); reflexivity. }
  assert (T2 : w_T w2 = w_T w) by (rewrite <- T1; unfold w2; destruct (v_aborted (V w1 v)); reflexivity).
  assert (Ru2 : w_running w2 = remove_first v (w_running w))
    by (unfold w2; destruct (v_aborted (V w1 v)); reflexivity).
  assert (Li2 : w_living w2 = remove_first v (w_living w))
    by (unfold w2; destruct (v_aborted (V w1 v)); reflexivity).
  clearbody w2.
  assert (K : forall A (P : world -> A), (forall x, P (modv v (sv_pref PrefNone) x) = P x) ->
              P w' = P (record_log c v true w2)).
  { intros A P HP. rewrite <- H. destruct (c_delpref c); auto. }
  exists l, cd, u, rest,
    (v_log (V w v) ++ (if negb (Z.eqb (c_logint c) (-1))
                then [mkLog (now c w) (v_state (ended c w (V w v))) None None None None None] else [])),
    (v_tlog (V w v) ++ (if opt_eqb None (v_linkold (V w v)) then []
                            else if v_aborted (V w v) then [] else [(now c w, PEnd)])).
  repeat match goal with |- _ /\ _ => split end; auto.
  - rewrite (K _ w_running) by reflexivity. rewrite record_log_running. auto.
  - rewrite (K _ w_living) by reflexivity. rewrite record_log_living. auto.
  - rewrite (K _ w_T) by reflexivity. rewrite record_log_T. auto.
  - intro k. rewrite (K _ (fun x => N x k)) by reflexivity. rewrite record_log_N. auto.
  - intro k. rewrite (K _ (fun x => R x k)) by reflexivity. rewrite record_log_R. auto.
  - intro k. rewrite (K _ (fun x => L x k)) by reflexivity. rewrite record_log_L, L2, L1.
    unfold end_link. destruct (Nat.eqb k l); auto.
  - intros z Hz. rewrite (K _ (fun x => V x z)) by (intros; rewrite V_modv_other by auto; reflexivity).
    rewrite record_log_V. apply Nat.eqb_neq in Hz as Hz'. rewrite Hz'. rewrite V2 by auto. auto.
  - assert (E : V (record_log c v true w2) v =
       sv_linkold None (sv_tlog (v_tlog (V w v) ++ (if opt_eqb None (v_linkold (V w v)) then []
                            else if v_aborted (V w v) then [] else [(now c w, PEnd)]))
        (sv_log (v_log (V w v) ++ (if negb (Z.eqb (c_logint c) (-1))
                then [mkLog (now c w) (v_state (ended c w (V w v))) None None None None None] else []))
           (ended c w (V w v))))).
    { rewrite record_log_V, Nat.eqb_refl. unfold logged, tlog_rows, log_rows. rewrite V2v.
      unfold now. rewrite T2. rewrite orb_true_r, andb_true_r.
      unfold ended. rs. destruct (v_aborted (V w v)); rs; destruct (negb _); reflexivity. }
    rewrite <- H. destruct (c_delpref c); hs; rewrite E; reflexivity.
Qed.

(** ** attach *)

Definition att_lane (w : world) (out : lid) : nat :=
  match last_opt (l_vehs (L w out)) with
  | Some u => Nat.modulo (v_lane (V w u) + 1) (l_lanes (L w out))
  | None => 0
  end.
Definition att_leader (w : world) (out : lid) : option vid :=
  if l_lanes (L w out) <=? List.length (l_vehs (L w out))
  then from_end (l_vehs (L w out)) (l_lanes (L w out)) else None.

Lemma attach_eff : forall v out w w', attach v out w = Ok w' ->
  ~ In v (l_vehs (L w out)) -> 1 <= l_lanes (L w out) ->
  (forall k, L w' k = L w k) /\ (forall k, N w' k = N w k) /\ (forall k, R w' k = R w k) /\
  w_living w' = w_living w /\ w_running w' = w_running w /\ w_T w' = w_T w /\
  att_leader w out <> Some v /\
  V w' v = sv_leader (att_leader w out) (sv_lane (att_lane w out) (V w v)) /\
  (forall z, z <> v -> V w' z = if opt_eqb (att_leader w out) (Some z)
                                then sv_follower (Some v) (V w z) else V w z).
Proof.
  intros v out w w' H Hn Hl. unfold attach in H. cbn zeta in H. unfold att_leader.
  fold (att_lane w out) in H.
  destruct (l_lanes (L w out) <=? List.length (l_vehs (L w out))) eqn:El.
  - apply Nat.leb_le in El.
    destruct (from_end (l_vehs (L w out)) (l_lanes (L w out))) as [u|] eqn:Eu; [|discriminate].
    rewrite from_end_nth in Eu by lia.
    assert (u <> v) by (intro; subst; apply Hn; eapply nth_error_In; eauto).
    destruct (Nat.eqb _ _); [|discriminate]. injection H as <-.
    repeat match goal with |- _ /\ _ => split end; try (intros; reflexivity).
    + congruence.
    + rewrite V_modv_other by auto. hs. destruct (V w v); reflexivity.
    + intros z Hz. cbn [opt_eqb]. rewrite V_modv. rewrite (Nat.eqb_sym u z).
      destruct (Nat.eqb z u) eqn:E; [apply Nat.eqb_eq in E; subst|];
      rewrite !V_modv_other by auto; reflexivity.
  - injection H as <-. repeat match goal with |- _ /\ _ => split end; try (intros; reflexivity).
    + congruence.
    + hs. reflexivity.
    + intros z Hz. rewrite V_modv_other by auto. reflexivity.
Qed.
Global Opaque attach.
