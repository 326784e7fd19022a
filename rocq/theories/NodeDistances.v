(** * NodeDistances: shortest distances and travel times between all nodes (Utilities.py 226-330; C51). *)
From Verif Require Import Base Types Sim Build Heap Lists Inv FrameBase Tac Frame Eff Eff2 Trace InvStep Reach Steps Effects Phases Attr Life Incoming Vev Ride TripLog Route Spec Paths SpecDuo Duo Search DuoInv PathsOK SpecRoutes EnumRoutes.
Local Open Scope nat_scope.

(** ** Model *)

(** 243-249: the length of the shortest of the links between two nodes; None is inf *)
Definition length_matrix (w : world) : nid -> nid -> option Q :=
  fun i j => fold_left (fun best l => omin best (Some (l_len (L w l)))) (links_between w i j) None.
(** get_shortest_path_distance_between_all_nodes, 226-263.  The shortest path routine of scipy is [c_dijkstra]: csr_matrix drops
    the entries 0.  Simplification: the result is the matrix (the dictionary has the same entries for the nodes and their names). *)
Definition all_distances (c : cfg) (w : world) : nid -> nid -> option Q := fst (c_dijkstra c (w_nn w) (length_matrix w)).
(** get_shortest_path_instantaneous_travel_time_between_all_nodes, 265-290 *)
Definition all_times (w : world) : nid -> nid -> option Q := w_rcdist w.
(** get_shortest_path_instantaneous_travel_time_between_all_nodes_on_t, 292-340, with return_time *)
Definition clip_time (c : cfg) (tm t : Q) : Q := if qle tm t then (tm - dt c)%Q else t.
Definition all_times_on (c : cfg) (w : world) (t : Q) : result ((nid -> nid -> option Q) * Q) :=
  tm <- of_opt TypeError (w_tmax w) ;;
  let t := clip_time c tm t in
  x <- qdiv t (c_duo_time c) ;;
  let n := Qfloor x in
  let step := qtrunc (inject_Z n * c_duo_time c / dt c) in
  r <- of_opt KeyError (find (fun r => Z.eqb (Z.of_nat (fst r)) step) (w_rcrec w)) ;;
  Ok (snd r, inject_Z n).

(** ** Distances *)
Definition len (w : world) (l : lid) : Q := l_len (L w l).
Lemma length_some : forall w i j q, length_matrix w i j = Some q -> exists l, In l (links_between w i j) /\ q = len w l.
Proof.
  intros w i j q H. unfold length_matrix in H. pose proof (fold_omin (fun l => Some (l_len (L w l))) (links_between w i j) None) as F. cbn zeta in F.
  destruct F as (A & _). rewrite H in A. destruct A as [A|(l & Hl & A)]; [discriminate A|]. exists l. split; [exact Hl|]. unfold len. congruence.
Qed.
Lemma length_le : forall w i j l, In l (links_between w i j) -> exists q, length_matrix w i j = Some q /\ (q <= len w l)%Q.
Proof.
  intros w i j l Hl. pose proof (fold_omin (fun l => Some (l_len (L w l))) (links_between w i j) None) as F. cbn zeta in F. destruct F as (_ & _ & B).
  destruct (B l (l_len (L w l)) Hl eq_refl) as (q & E & Q1). exists q. split; [exact E|exact Q1].
Qed.
Lemma path_leads : forall w i k y, path (w_nn w) (length_matrix w) i k y -> exists r, leads w i k r /\ (cost (len w) r == y)%Q.
Proof.
  intros w i k y P. induction P as [i Hi|i j k q r Hi E Nz P IH].
  - exists []. split; [reflexivity|]. unfold cost. cbn. reflexivity.
  - destruct IH as (ls & A & B). destruct (length_some w i j q E) as (l & Hl & ->). apply between_in in Hl. destruct Hl as (X & X1 & X2). exists (l :: ls). split; [cbn [leads]; rewrite X2; auto|]. unfold cost in *. cbn [map qsum]. rewrite B. reflexivity.
Qed.
Lemma leads_path : forall w, topo w -> (forall l, exists_link w l -> (0 < len w l)%Q) -> forall r i k, i < w_nn w -> leads w i k r ->
  exists y, path (w_nn w) (length_matrix w) i k y /\ (y <= cost (len w) r)%Q.
Proof.
  intros w T P. induction r as [|l r IH]; intros i k Hi H.
  - cbn in H. subst k. exists 0%Q. split; [constructor; exact Hi|]. unfold cost. cbn. lra.
  - cbn [leads] in H. destruct H as (X & Es & H). destruct (IH (l_end (L w l)) k (proj2 (t_ends T X)) H) as (y & A & B).
    assert (J : In l (links_between w i (l_end (L w l)))) by (apply between_in; auto). destruct (length_le w _ _ l J) as (q & E & Q1). destruct (length_some w _ _ q E) as (l' & Hl' & E'). apply between_in in Hl'.
    pose proof (P l' (proj1 Hl')) as Pq. exists (q + y)%Q. split; [apply (p_edge (w_nn w) (length_matrix w) i (l_end (L w l)) k q y Hi E); [rewrite E'; lra|exact A]|]. unfold cost in *. cbn [map qsum]. lra.
Qed.
Theorem distances_lemma : forall c w i k, correct_routine c -> reach c w -> (forall l, exists_link w l -> (0 < len w l)%Q) -> exists_node w i -> exists_node w k ->
  (forall x, all_distances c w i k = Some x -> (exists r, leads w i k r /\ (cost (len w) r == x)%Q) /\ (forall r, leads w i k r -> (x <= cost (len w) r)%Q)) /\
  (all_distances c w i k = None -> forall r, ~ leads w i k r).
Proof.
  intros c w i k C R P Hi Hk. apply reach_topo in R. unfold all_distances. destruct (c_dijkstra c (w_nn w) (length_matrix w)) as [d nx] eqn:E. cbn [fst].
  assert (Nn : no_negative (w_nn w) (length_matrix w)). { intros a b q _ _ Q1. destruct (length_some w a b q Q1) as (l & Hl & ->). apply between_in in Hl. pose proof (P l (proj1 Hl)). lra. }
  destruct (C _ _ _ _ E Nn) as [L1 L2 _ _]. split.
  - intros x Ex. destruct (L1 i k x Hi Hk Ex) as ((y & Py & Ey) & Lb). split.
    + destruct (path_leads w i k y Py) as (r & A & B). exists r. split; [exact A|]. rewrite B. exact Ey.
    + intros r Hr. destruct (leads_path w R P r i k Hi Hr) as (z & A & B). specialize (Lb z A). lra.
  - intros Ex r Hr. destruct (leads_path w R P r i k Hi Hr) as (z & A & _). exact (L2 i k z Hi Hk Ex A).
Qed.

(** ** The record of the searches *)
Definition search_steps (c : cfg) (n : nat) : list nat := filter (fun T => Nat.eqb (Nat.modulo T (route_steps c)) 0) (seq 0 n).
Record RecOK (c : cfg) (w : world) : Prop := mkRecOK {
  ro_steps : map fst (w_rcrec w) = search_steps c (w_T w);
  ro_last : w_rcrec w <> [] -> option_map snd (last_opt (w_rcrec w)) = Some (w_rcdist w);
  ro_new : w_final w = false -> w_rcrec w = [] }.
Lemma search_steps_S : forall c n, search_steps c (S n) = search_steps c n ++ (if Nat.eqb (Nat.modulo n (route_steps c)) 0 then [n] else []).
Proof. intros. unfold search_steps. rewrite seq_S, filter_app. reflexivity. Qed.
Theorem record_inv : forall c w, reach c w -> RecOK c w.
Proof.
  intros c w H. induction H as [tm|w o w' R IH Ho Hx H|w w' R IH Hf H|w R IH].
  - constructor; cbn; auto. intro K. exfalso. apply K. reflexivity.
  - destruct IH as [D0 D1 D2]. pose proof (reach_clock _ _ R) as Cl. destruct (op_rc _ _ _ _ Ho Hx H Cl) as (ET & [(E & Ef & _) | (Ef0 & Ef & Er & Ep)]).
    + unfold rcw in E. assert (Er : w_rcrec w' = w_rcrec w) by congruence. assert (Ed : w_rcdist w' = w_rcdist w) by congruence. constructor; rewrite Er, ?ET, ?Ed, ?Ef; assumption.
    + constructor; [|rewrite Er; intro K; exfalso; apply K; reflexivity|congruence]. rewrite Er, ET, (Cl Ef0). reflexivity.
  - pose proof (reach_Inv2 _ _ R) as Iv. apply tick_fr in H. destruct H as (w1 & Hb & ->). pose proof (body_duo _ _ _ Iv Hb) as DV. destruct IH as [D0 D1 D2].
    assert (K : (Nat.modulo (w_T w) (route_steps c) <> 0 /\ w_rcrec w1 = w_rcrec w /\ w_rcdist w1 = w_rcdist w) \/ (Nat.modulo (w_T w) (route_steps c) = 0 /\ w_rcrec w1 = w_rcrec w ++ [(w_T w, w_rcdist w1)])).
    { destruct DV as [E Eg Em|wa wb F F' Ea Et Ia Hb' E].
      - left. unfold rcw in E. split; [exact Em|]. split; congruence.
      - unfold rcw in E, Ea. cbn in E. destruct Hb' as [(-> & _ & Em) | (Hs & Em)].
        + left. split; [exact Em|]. split; congruence.
        + right. split; [exact Em|]. destruct (search_lemma _ _ _ Hs) as (m & _ & _ & Hr & _). rewrite <- (fr_w_T F). replace (w_rcrec w1) with (w_rcrec wb) by congruence. replace (w_rcdist w1) with (w_rcdist wb) by congruence. rewrite Hr. f_equal. congruence. }
    constructor; cbn [w_rcrec w_T w_rcdist w_final sw_T].
    + rewrite search_steps_S. destruct K as [(Em & Er & _)|(Em & Er)]; rewrite Er; [|rewrite map_app]; rewrite D0; [apply Nat.eqb_neq in Em|apply Nat.eqb_eq in Em]; rewrite Em; [rewrite app_nil_r; reflexivity|reflexivity].
    + destruct K as [(_ & Er & Ed)|(_ & Er)]; [rewrite Er, Ed; exact D1|]. intros _. rewrite Er, last_opt_app. reflexivity.
    + intro K'. rewrite (fr_w_final (body_fr _ _ Hb)) in K'. congruence.
  - destruct IH as [D0 D1 D2]. constructor; assumption.
Qed.
(** the travel times are those of the last search *)
Theorem times_last : forall c w, reach c w -> w_rcrec w <> [] -> exists T, last_opt (w_rcrec w) = Some (T, all_times w) /\ last_opt (search_steps c (w_T w)) = Some T.
Proof.
  intros c w R H. destruct (record_inv c w R) as [A B _]. specialize (B H). rewrite <- A. rewrite !last_opt_nth in *. rewrite map_length. destruct (nth_error (w_rcrec w) (List.length (w_rcrec w) - 1)) as [[T d]|] eqn:E; [|discriminate B].
  cbn in B. inversion B. exists T. split; [reflexivity|]. rewrite (map_nth_error fst _ _ E). reflexivity.
Qed.

Lemma qtrunc_Z : forall q z, (q == inject_Z z)%Q -> qtrunc q = z.
Proof.
  intros [a b] z H. unfold Qeq in H. cbn in H. unfold qtrunc. cbn [Qnum Qden]. assert (E : a = (z * Zpos b)%Z) by lia. rewrite E. apply Z.quot_mul. discriminate.
Qed.
Lemma route_steps_multiple : forall c m, ~ (dt c == 0)%Q -> (c_duo_time c == Qof_nat (S m) * dt c)%Q -> route_steps c = S m.
Proof.
  intros c m D H. unfold route_steps. rewrite (qtrunc_Z _ (Z.of_nat (S m))); [rewrite Nat2Z.id; reflexivity|]. rewrite H. unfold Qof_nat. field. exact D.
Qed.
(** if DUO_UPDATE_TIME is a multiple of the timestep, the travel times at [t] are those of the last search before [t] *)
Theorem times_on_lemma : forall c w t tm m, reach c w -> (0 < dt c)%Q -> (c_duo_time c == Qof_nat (S m) * dt c)%Q -> w_tmax w = Some tm ->
  (0 <= clip_time c tm t)%Q -> (clip_time c tm t < Qof_nat (w_T w) * dt c)%Q ->
  exists T d n, all_times_on c w t = Ok (d, n) /\ In (T, d) (w_rcrec w) /\ (forall d', In (T, d') (w_rcrec w) -> d' = d) /\
    (Qof_nat T * dt c <= clip_time c tm t)%Q /\ (clip_time c tm t < (Qof_nat T + Qof_nat (S m)) * dt c)%Q.
Proof.
  intros c w t tm m R D M Tm Ge Lt. destruct (record_inv c w R) as [Rs _ _]. assert (Dn : ~ (dt c == 0)%Q) by lra. pose proof (route_steps_multiple c m Dn M) as Es.
  assert (Mp : (0 < Qof_nat (S m))%Q) by (unfold Qof_nat; change 0%Q with (inject_Z 0); rewrite <- Zlt_Qlt; lia).
  assert (Up : (0 < c_duo_time c)%Q) by (rewrite M; apply Qmult_lt_0_compat; assumption).
  unfold all_times_on. rewrite Tm. cbn [of_opt bind]. set (t' := clip_time c tm t) in *. clearbody t'.
  unfold qdiv. destruct (qeq (c_duo_time c) 0) eqn:Z0; [exfalso; apply qeq_iff in Z0; lra|]. cbn [bind]. set (n := Qfloor (t' / c_duo_time c)) in *.
  assert (F1 : (inject_Z n <= t' / c_duo_time c)%Q) by apply Qfloor_le. assert (F2 : (t' / c_duo_time c < inject_Z (n + 1))%Q) by apply Qlt_floor. clearbody n. rewrite inject_Z_plus in F2.
  assert (G1 : (inject_Z n * c_duo_time c <= t')%Q). { apply (Qmult_le_compat_r _ _ (c_duo_time c)) in F1; [|lra]. setoid_replace (t' / c_duo_time c * c_duo_time c)%Q with t' in F1 by (field; lra). exact F1. }
  assert (G2 : (t' < (inject_Z n + 1) * c_duo_time c)%Q). { apply (Qmult_lt_compat_r _ _ (c_duo_time c)) in F2; [|lra]. setoid_replace (t' / c_duo_time c * c_duo_time c)%Q with t' in F2 by (field; lra). exact F2. }
  assert (N0 : (0 <= n)%Z). { destruct (Z_lt_le_dec n 0) as [K|K]; [exfalso|exact K]. assert (K1 : (inject_Z n + 1 <= 0)%Q) by (change 0%Q with (inject_Z 0); change 1%Q with (inject_Z 1); rewrite <- inject_Z_plus, <- Zle_Qle; lia). nra. }
  rewrite (qtrunc_Z _ (n * Z.of_nat (S m))) by (rewrite M, inject_Z_mult; unfold Qof_nat; field; exact Dn).
  set (T := Z.to_nat n * S m). assert (ET : Z.of_nat T = (n * Z.of_nat (S m))%Z) by (unfold T; rewrite Nat2Z.inj_mul, Z2Nat.id by exact N0; reflexivity). rewrite <- ET.
  assert (Q1 : (Qof_nat T == inject_Z n * Qof_nat (S m))%Q) by (unfold Qof_nat; rewrite ET, inject_Z_mult; reflexivity).
  assert (Tl : T < w_T w). { assert (K : (Qof_nat T < Qof_nat (w_T w))%Q). { apply (Qmult_lt_r _ _ (dt c) D). apply (Qle_lt_trans _ t'); [|exact Lt]. rewrite Q1. rewrite M in G1. lra. } unfold Qof_nat in K. rewrite <- Zlt_Qlt in K. lia. }
  assert (Ti : In T (map fst (w_rcrec w))). { rewrite Rs. unfold search_steps. apply filter_In. split; [apply in_seq; lia|]. rewrite Es. apply Nat.eqb_eq. unfold T. apply Nat.mod_mul. discriminate. }
  assert (Nd : NoDup (map fst (w_rcrec w))) by (rewrite Rs; apply NoDup_filter, seq_NoDup).
  assert (Fd : exists d, find (fun r => Z.eqb (Z.of_nat (fst r)) (Z.of_nat T)) (w_rcrec w) = Some (T, d)).
  { destruct (find (fun r => Z.eqb (Z.of_nat (fst r)) (Z.of_nat T)) (w_rcrec w)) as [[T1 d1]|] eqn:E.
    - apply find_some in E. destruct E as [_ E]. apply Z.eqb_eq in E. cbn in E. apply Nat2Z.inj in E. subst T1. exists d1. reflexivity.
    - exfalso. apply in_map_iff in Ti. destruct Ti as (r & Er & Hr). pose proof (find_none _ _ E r Hr) as K. cbn in K. rewrite Er, Z.eqb_refl in K. discriminate K. }
  destruct Fd as (d & Fd). rewrite Fd. cbn [of_opt bind snd]. exists T, d, (inject_Z n). split; [reflexivity|]. pose proof (proj1 (find_some _ _ Fd)) as Hi. split; [exact Hi|]. split.
  - intros d' Hd. clear - Hd Hi Nd. induction (w_rcrec w) as [|[a b] l IH]; [destruct Hi|]. cbn in Nd. inversion Nd as [|? ? N1 N2]; subst. destruct Hi as [Hi|Hi]; destruct Hd as [Hd|Hd].
    + congruence.
    + inversion Hi; subst. exfalso. apply N1, in_map_iff. exists (T, d'). split; [reflexivity|exact Hd].
    + inversion Hd; subst. exfalso. apply N1, in_map_iff. exists (T, d). split; [reflexivity|exact Hi].
    + exact (IH N2 Hi Hd).
  - rewrite Q1. rewrite M in G1, G2. split; lra.
Qed.
(** a time at or after the end of the simulation is taken as that of the last timestep *)
Theorem times_on_late : forall c w t tm, (0 < dt c)%Q -> w_tmax w = Some tm -> (tm <= t)%Q -> all_times_on c w t = all_times_on c w (tm - dt c).
Proof.
  intros c w t tm D Tm Le. assert (E : clip_time c tm t = clip_time c tm (tm - dt c)).
  { unfold clip_time. rewrite (proj2 (qle_iff tm t) Le). destruct (qle tm (tm - dt c)) eqn:Q; [exfalso; apply qle_iff in Q; lra|reflexivity]. }
  unfold all_times_on. rewrite Tm. cbn [of_opt bind]. rewrite E. reflexivity.
Qed.
