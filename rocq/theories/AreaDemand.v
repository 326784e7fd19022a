(** * AreaDemand: demand between groups of nodes (adddemand_point2point, _area2area, _nodes2nodes, _area2area2, _nodes2nodes2, uxsim.py 2058-2309).

    Simplifications: the attribute is left out; the random choices of [W.rng.choice] are arbitrary indices, given by
    functions of the number of the vehicle; if no node is nearer than 10^5 ([get_nearest_node] gives None) the
    area functions raise at once (the code would create vehicles without origin). *)
From Verif Require Import Base Types Sim Build Heap Lists Inv FrameBase Tac Reach Steps FD Registry Spatial Spec Demand SpecArea.
Local Open Scope nat_scope.

Definition has_out (w : world) (n : nid) : bool := negb (is_nil (n_out (N w n))).
Definition has_in (w : world) (n : nid) : bool := negb (is_nil (n_in (N w n))).

(** the loops over [origs] and [dests], 2178-2185, 2291-2298; [len(None.outlinks)] raises *)
Fixpoint usable (w : world) (p : nid -> bool) (ks : list key) : result (list nid) :=
  match ks with
  | [] => Ok []
  | k :: tl => r <- get_node w k ;; n <- of_opt AttributeError r ;; ns <- usable w p tl ;; Ok (if p n then n :: ns else ns)
  end.
(** the nodes of an area, 2122-2138, 2234-2249 *)
Definition area_nodes (w : world) (p : nid -> bool) (x y r : Q) : result (list nid) :=
  match filter p (get_nodes_in_area w x y r) with
  | [] => n <- of_opt AttributeError (get_nearest_node w x y) ;; Ok [n]
  | ns => Ok ns
  end.

(** [if flow != -1: flow = flow/(len(origs)*len(dests))] *)
Definition shared (x : Q) (n : nat) : result Q := if qeq x (-1) then Ok x else qdiv x (Qof_nat n).
(** 2140-2146, 2189-2195 *)
Definition spread (c : cfg) (os ds : list nid) (t0 t1 flow volume : Q) (w : world) : result world :=
  fl <- shared flow (List.length os * List.length ds) ;;
  vo <- shared volume (List.length os * List.length ds) ;;
  foldM (fun p w => adddemand c (fst p) (snd p) t0 t1 fl vo w) (list_prod os ds) w.

(** [adddemand_point2point], 2058-2085 *)
Definition adddemand_point2point (c : cfg) (xo yo xd yd t0 t1 flow volume : Q) (w : world) : result world :=
  o <- of_opt AttributeError (get_nearest_node w xo yo) ;; d <- of_opt AttributeError (get_nearest_node w xd yd) ;;
  adddemand c o d t0 t1 flow volume w.
(** [adddemand_nodes2nodes], 2149-2195 *)
Definition adddemand_nodes2nodes (c : cfg) (ko kd : list key) (t0 t1 flow volume : Q) (w : world) : result world :=
  os <- usable w (has_out w) ko ;; ds <- usable w (has_in w) kd ;; spread c os ds t0 t1 flow volume w.
(** [adddemand_area2area], 2088-2146 *)
Definition adddemand_area2area (c : cfg) (xo yo ro xd yd rd t0 t1 flow volume : Q) (w : world) : result world :=
  os <- area_nodes w (has_out w) xo yo ro ;; ds <- area_nodes w (has_in w) xd yd rd ;; spread c os ds t0 t1 flow volume w.

(** [np.linspace(t0, t1, size)[i]] *)
Definition linspace (t0 t1 : Q) (size i : nat) : Q := if size <=? 1 then t0 else (t0 + Qof_nat i * ((t1 - t0) / Qof_nat (size - 1)))%Q.
(** [rng.choice(l)] with the random number [i] *)
Definition chosen (l : list nid) (i : nat) : result nid := of_opt ValueError (nth_error l (Nat.modulo i (List.length l))).
Definition others (d : nid) (ds : list nid) : list nid := filter (fun x => negb (Nat.eqb x d)) ds.
Record draws : Type := mkDraws { dr_o : nat -> nat; dr_d : nat -> nat; dr_alt : nat -> nat }.
Definition random_vehicle (c : cfg) (r : draws) (os ds : list nid) (t0 t1 : Q) (size i : nat) (w : world) : result world :=
  o <- chosen os (dr_o r i) ;; d <- chosen ds (dr_d r i) ;;
  d2 <- (if Nat.eqb o d then chosen (others d ds) (dr_alt r i) else Ok d) ;;
  add_vehicle c (mkVehArgs None o (Some d2) (DepSec (linspace t0 t1 size i)) None SingleTrip None [] [] true) w.
(** 2229-2232, 2286-2289: the volume *)
Definition volume_of (t0 t1 flow volume : Q) : Q := if (qle 0 flow && qeq volume (-1))%bool then (flow * (t1 - t0))%Q else volume.
Definition scatter (c : cfg) (r : draws) (os ds : list nid) (t0 t1 flow volume : Q) (w : world) : result world :=
  q <- qdiv (volume_of t0 t1 flow volume) (dN c) ;;
  if (qtrunc q <? 0)%Z then Err ValueError else
  foldM (random_vehicle c r os ds t0 t1 (Z.to_nat (qtrunc q))) (seq 0 (Z.to_nat (qtrunc q))) w.
(** [adddemand_nodes2nodes2], 2263-2309 *)
Definition adddemand_nodes2nodes2 (c : cfg) (r : draws) (ko kd : list key) (t0 t1 flow volume : Q) (w : world) : result world :=
  os <- usable w (has_out w) ko ;; ds <- usable w (has_in w) kd ;; scatter c r os ds t0 t1 flow volume w.
(** [adddemand_area2area2], 2197-2260 *)
Definition adddemand_area2area2 (c : cfg) (r : draws) (xo yo ro xd yd rd t0 t1 flow volume : Q) (w : world) : result world :=
  os <- area_nodes w (has_out w) xo yo ro ;; ds <- area_nodes w (has_in w) xd yd rd ;; scatter c r os ds t0 t1 flow volume w.

(** ** The groups of nodes *)
Lemma of_opt_ok : forall A e (o : option A) x, of_opt e o = Ok x -> o = Some x.
Proof. intros A e [y|] x H; [injection H as ->; reflexivity|discriminate]. Qed.
Lemma get_node_exists : forall w k n, get_node w k = Ok (Some n) -> exists_node w n.
Proof.
  intros w k n H. apply get_node_sound_lemma in H. destruct k; try discriminate; try contradiction.
  - destruct H as [H H1]. injection H as ->. exact H1.
  - destruct H as (m & H & H1 & _). injection H as ->. exact H1.
  - destruct H as (m & H & H1 & _). injection H as ->. exact H1.
Qed.
Lemma usable_lemma : forall w p ks ns, usable w p ks = Ok ns ->
  forall n, In n ns <-> (p n = true /\ exists_node w n /\ exists k, In k ks /\ get_node w k = Ok (Some n)).
Proof.
  intros w p ks. induction ks as [|k ks IH]; intros ns H n; cbn [usable] in H.
  - injection H as <-. split; [intros []|]. intros (_ & _ & k & [] & _).
  - apply bind_ok in H. destruct H as (r & E & H). apply bind_ok in H. destruct H as (m & E1 & H). apply of_opt_ok in E1. subst r.
    apply bind_ok in H. destruct H as (ms & E2 & H). injection H as <-. specialize (IH ms E2 n). pose proof (get_node_exists _ _ _ E) as Hm. split.
    + intro Hn. destruct (p m) eqn:Pm; [destruct Hn as [->|Hn]|].
      * split; [exact Pm|]. split; [exact Hm|]. exists k. split; [left; reflexivity|exact E].
      * apply IH in Hn. destruct Hn as (A & B & j & C & D). split; [exact A|]. split; [exact B|]. exists j. split; [right; exact C|exact D].
      * apply IH in Hn. destruct Hn as (A & B & j & C & D). split; [exact A|]. split; [exact B|]. exists j. split; [right; exact C|exact D].
    + intros (A & B & j & [<-|C] & D).
      * rewrite E in D. injection D as ->. rewrite A. left. reflexivity.
      * assert (Hn : In n ms) by (apply IH; split; [exact A|]; split; [exact B|]; exists j; auto). destruct (p m); [right|]; exact Hn.
Qed.
Lemma area_nodes_lemma : forall w p x y r ns, area_nodes w p x y r = Ok ns ->
  ns <> [] /\ (forall n, In n ns -> exists_node w n) /\
  ((exists n, exists_node w n /\ p n = true /\ (dist2 w n x y < r * r)%Q) -> forall n, In n ns <-> (exists_node w n /\ p n = true /\ (dist2 w n x y < r * r)%Q)) /\
  (~ (exists n, exists_node w n /\ p n = true /\ (dist2 w n x y < r * r)%Q) -> exists n, ns = [n] /\ get_nearest_node w x y = Some n).
Proof.
  intros w p x y r ns H. unfold area_nodes in H.
  assert (A : forall n, In n (filter p (get_nodes_in_area w x y r)) <-> (exists_node w n /\ p n = true /\ (dist2 w n x y < r * r)%Q)).
  { intro n. rewrite filter_In. destruct (area_lemma w x y r) as [B _]. rewrite B. tauto. }
  destruct (filter p (get_nodes_in_area w x y r)) as [|m ms].
  - apply bind_ok in H. destruct H as (n & E & H). apply of_opt_ok in E. injection H as <-. split; [discriminate|]. split.
    + intros k [<-|[]]. apply nearest_lemma in E. apply E.
    + split; [|intros _; exists n; auto]. intros (k & Hk). apply A in Hk. elim Hk.
  - injection H as <-. split; [discriminate|]. split; [intros n Hn; apply A in Hn; apply Hn|]. split; [intros _; exact A|].
    intro K. elim K. exists m. apply A. left. reflexivity.
Qed.

(** ** Shared demand *)
Lemma asked_comp : forall t0 t1 flow volume F n fl vo, flow_asked t0 t1 flow volume F -> (0 <= F)%Q ->
  shared flow n = Ok fl -> shared volume n = Ok vo -> ((flow == -1)%Q -> (0 < volume)%Q) -> (0 < volume \/ ~ flow == -1)%Q -> 
  0 < n /\ flow_asked t0 t1 fl vo (F / Qof_nat n).
Proof.
  intros t0 t1 flow volume F n fl vo A HF E1 E2 _ Hs. unfold shared in *.
  assert (Hn : 0 < n).
  { destruct n; [|lia]. exfalso. destruct Hs as [Hs|Hs].
    - destruct (qeq volume (-1)) eqn:Ev; qb; [lra|]. unfold qdiv in E2. cbn in E2. discriminate.
    - destruct (qeq flow (-1)) eqn:Ev; qb; [contradiction|]. unfold qdiv in E1. cbn in E1. discriminate. }
  split; [exact Hn|]. assert (Hq : (0 < Qof_nat n)%Q) by (unfold Qof_nat; change 0%Q with (inject_Z 0); rewrite <- Zlt_Qlt; lia).
  destruct A as [[A1 A2]|[A1 A2]].
  - left. destruct (qeq volume (-1)) eqn:Ev; qb; [lra|]. apply qdiv_ok in E2. destruct E2 as [_ E2]. rewrite E2. split.
    + apply Qlt_shift_div_l; lra.
    + rewrite <- A2. field. lra.
  - right. destruct (qeq flow (-1)) eqn:Ef; qb; [rewrite A2, Ef in HF; lra|]. apply qdiv_ok in E1. destruct E1 as [_ E1].
    split; [|rewrite E1, A2; reflexivity]. destruct (qeq volume (-1)) eqn:Ev; qb; [injection E2 as <-; exact A1|].
    apply qdiv_ok in E2. destruct E2 as [_ E2]. rewrite E2. apply Qle_shift_div_r; lra.
Qed.

(** number of platoons per pair *)
Definition per_pair (c : cfg) (t0 t1 F : Q) (n : nat) : nat :=
  Z.to_nat (Qfloor (F / Qof_nat n * (inject_Z (qtrunc (t1 / dt c) - qtrunc (t0 / dt c)) * dt c) / dN c)).

Lemma pairs_loop : forall c t0 t1 fl vo f ps w w', (0 < dN c)%Q -> (0 < dt c)%Q -> flow_asked t0 t1 fl vo f -> (0 <= f)%Q ->
  foldM (fun p w => adddemand c (fst p) (snd p) t0 t1 fl vo w) ps w = Ok w' ->
  let m := upto c f 0 (Z.to_nat (qtrunc (t1 / dt c) - qtrunc (t0 / dt c))) in
  w_nv w' = w_nv w + List.length ps * m /\ (forall v, v < w_nv w -> V w' v = V w v) /\
  (forall i o d, nth_error ps i = Some (o, d) -> forall j, j < m -> let a := V w' (w_nv w + i * m + j) in
     v_orig a = o /\ v_dest a = Some d /\ v_state a = Home /\ v_mode a = SingleTrip /\ (qtrunc (t0 / dt c) <= v_dep a < qtrunc (t1 / dt c))%Z).
Proof.
  intros c t0 t1 fl vo f ps w w' HN HD A Hf. revert w. induction ps as [|[o d] ps IH]; intros w E; cbn [foldM] in E; cbv zeta.
  - injection E as ->. split; [cbn; lia|]. split; [auto|]. intros i o d H. destruct i; discriminate.
  - apply bind_ok in E. destruct E as (w1 & E1 & E2). cbn [fst snd] in E1. specialize (IH w1 E2). cbv zeta in IH. destruct IH as (B1 & B2 & B3).
    destruct (adddemand_spec c o d t0 t1 fl vo f w w1 HN HD A Hf E1) as (C1 & C2 & _).
    destruct (demand_each_lemma c o d t0 t1 fl vo f w w1 HN HD A Hf E1) as (_ & D).
    set (m := upto c f 0 (Z.to_nat (qtrunc (t1 / dt c) - qtrunc (t0 / dt c)))) in *. split; [cbn [List.length]; lia|]. split.
    + intros v Hv. rewrite B2 by lia. apply C2. exact Hv.
    + intros i o' d' Hi j Hj. destruct i as [|i].
      * injection Hi as <- <-. replace (w_nv w + 0 * m + j) with (w_nv w + j) by lia. rewrite B2 by lia. apply D. lia.
      * cbn [nth_error] in Hi. specialize (B3 i o' d' Hi j Hj). replace (w_nv w + S i * m + j) with (w_nv w1 + i * m + j) by lia. exact B3.
Qed.

Lemma upto_pair : forall c t0 t1 F n, (0 < dt c)%Q -> (0 <= t0 <= t1)%Q ->
  upto c (F / Qof_nat n) 0 (Z.to_nat (qtrunc (t1 / dt c) - qtrunc (t0 / dt c))) = per_pair c t0 t1 F n.
Proof.
  intros c t0 t1 F n HD Ht. unfold per_pair, upto, plats.
  assert (Hz : (qtrunc (t0 / dt c) <= qtrunc (t1 / dt c))%Z).
  { rewrite !qtrunc_floor by (apply Qle_shift_div_l; lra). apply Qfloor_resp_le. apply Qle_shift_div_l; [exact HD|]. assert (t0 / dt c * dt c == t0)%Q by (field; lra). lra. }
  rewrite Z2Nat.id by lia. f_equal. apply Qfloor_comp.
  assert (X : (0 + inject_Z (qtrunc (t1 / dt c) - qtrunc (t0 / dt c)) * (F / Qof_nat n * dt c) == F / Qof_nat n * (inject_Z (qtrunc (t1 / dt c) - qtrunc (t0 / dt c)) * dt c))%Q) by ring.
  rewrite X. reflexivity.
Qed.

(** C46: equal shares of the flow for all pairs *)
Lemma spread_lemma : forall c os ds t0 t1 flow volume F w w', (0 < dN c)%Q -> (0 < dt c)%Q -> (0 <= t0 <= t1)%Q ->
  flow_asked t0 t1 flow volume F -> (0 <= F)%Q -> spread c os ds t0 t1 flow volume w = Ok w' ->
  let n := List.length os * List.length ds in let m := per_pair c t0 t1 F n in
  0 < n /\ w_nv w' = w_nv w + n * m /\ (forall v, v < w_nv w -> V w' v = V w v) /\
  (forall i o d, nth_error (list_prod os ds) i = Some (o, d) -> forall j, j < m -> let a := V w' (w_nv w + i * m + j) in
     v_orig a = o /\ v_dest a = Some d /\ v_state a = Home /\ v_mode a = SingleTrip /\ (qtrunc (t0 / dt c) <= v_dep a < qtrunc (t1 / dt c))%Z).
Proof.
  intros c os ds t0 t1 flow volume F w w' HN HD Ht A HF E n m. unfold spread in E. apply bind_ok in E. destruct E as (fl & E1 & E). apply bind_ok in E. destruct E as (vo & E2 & E).
  assert (S : (0 < volume \/ ~ flow == -1)%Q).
  { destruct A as [[A1 _]|[_ A2]]; [left; exact A1|]. right. intro K. rewrite A2, K in HF. lra. }
  destruct (asked_comp t0 t1 flow volume F n fl vo A HF E1 E2) as [Hn A']; [|exact S|].
  { intro K. destruct S as [S|S]; [exact S|contradiction]. }
  assert (Hf : (0 <= F / Qof_nat n)%Q).
  { apply Qle_shift_div_l; [|lra]. unfold Qof_nat. change 0%Q with (inject_Z 0). rewrite <- Zlt_Qlt. lia. }
  pose proof (pairs_loop c t0 t1 fl vo (F / Qof_nat n) (list_prod os ds) w w' HN HD A' Hf E) as B. cbv zeta in B.
  rewrite (upto_pair c t0 t1 F n HD Ht) in B. fold m in B. rewrite prod_length in B. fold n in B. split; [exact Hn|]. exact B.
Qed.

(** C46: the total *)
Lemma per_pair_close : forall c t0 t1 F n, (0 < dN c)%Q -> (0 < dt c)%Q -> (0 <= t0 <= t1)%Q -> (0 <= F)%Q -> 0 < n ->
  (Qof_nat (n * per_pair c t0 t1 F n) * dN c - F * (t1 - t0) <= F * dt c)%Q /\
  (F * (t1 - t0) - Qof_nat (n * per_pair c t0 t1 F n) * dN c < Qof_nat n * dN c + F * dt c)%Q.
Proof.
  intros c t0 t1 F n HN HD Ht HF Hn. unfold per_pair.
  assert (Hq : (0 < Qof_nat n)%Q) by (unfold Qof_nat; change 0%Q with (inject_Z 0); rewrite <- Zlt_Qlt; lia).
  pose proof (trunc_close c HD t0 ltac:(lra)) as K0. pose proof (trunc_close c HD t1 ltac:(lra)) as K1.
  set (z0 := qtrunc (t0 / dt c)) in *. set (z1 := qtrunc (t1 / dt c)) in *.
  assert (Hz : (z0 <= z1)%Z).
  { assert (H : (inject_Z z0 < inject_Z (z1 + 1))%Q) by (rewrite inject_Z_plus; change (inject_Z 1) with 1%Q; nra). rewrite <- Zlt_Qlt in H. lia. }
  assert (Hi : (inject_Z (z1 - z0) == inject_Z z1 - inject_Z z0)%Q) by (unfold Z.sub; rewrite inject_Z_plus, inject_Z_opp; ring).
  assert (Hi0 : (0 <= inject_Z (z1 - z0))%Q) by (change 0%Q with (inject_Z 0); rewrite <- Zle_Qle; lia).
  set (x := (F / Qof_nat n * (inject_Z (z1 - z0) * dt c))%Q).
  assert (Hx : (Qof_nat n * x == F * (inject_Z z1 * dt c - inject_Z z0 * dt c))%Q) by (unfold x; rewrite Hi; field; lra).
  assert (Hx0 : (0 <= x)%Q).
  { unfold x. apply Qmult_le_0_compat; [apply Qle_shift_div_l; lra|]. apply Qmult_le_0_compat; lra. }
  pose proof (Qfloor_le (x / dN c)) as F1. pose proof (Qlt_floor (x / dN c)) as F2.
  rewrite inject_Z_plus in F2. change (inject_Z 1) with 1%Q in F2.
  assert (Hf : (0 <= Qfloor (x / dN c))%Z) by (change 0%Z with (Qfloor 0); apply Qfloor_resp_le; apply Qle_shift_div_l; lra).
  assert (Em : (Qof_nat (n * Z.to_nat (Qfloor (x / dN c))) == Qof_nat n * inject_Z (Qfloor (x / dN c)))%Q).
  { unfold Qof_nat. rewrite Nat2Z.inj_mul, Z2Nat.id by exact Hf. rewrite inject_Z_mult. reflexivity. }
  rewrite Em. set (m := inject_Z (Qfloor (x / dN c))) in *.
  assert (Ex : (x / dN c * dN c == x)%Q) by (field; lra).
  assert (G1 : (m * dN c <= x)%Q) by nra. assert (G2 : (x < m * dN c + dN c)%Q) by nra.
  assert (G3 : (Qof_nat n * (m * dN c) <= Qof_nat n * x)%Q) by (apply Qmult_le_l; assumption).
  assert (G4 : (Qof_nat n * x < Qof_nat n * (m * dN c + dN c))%Q) by (apply Qmult_lt_l; assumption).
  split; nra.
Qed.

(** ** Scattered demand *)
Lemma chosen_in : forall l i n, chosen l i = Ok n -> In n l.
Proof. intros l i n H. unfold chosen in H. apply of_opt_ok in H. apply nth_error_In in H. exact H. Qed.
Lemma chosen_ok : forall l i, l <> [] -> exists n, chosen l i = Ok n.
Proof.
  intros l i H. unfold chosen. destruct (nth_error l (i mod List.length l)) as [n|] eqn:E; [eexists; reflexivity|].
  apply nth_error_None in E. assert (List.length l <> 0) by (destruct l; [congruence|discriminate]).
  pose proof (Nat.mod_upper_bound i (List.length l) H0). lia.
Qed.
Lemma others_in : forall d ds x, In x (others d ds) <-> In x ds /\ x <> d.
Proof. intros d ds x. unfold others. rewrite filter_In. destruct (Nat.eqb_spec x d); cbn; intuition congruence. Qed.

(** a vehicle of the scattered demand *)
Definition sent (c : cfg) (os ds : list nid) (t : Q) (a : vehicle) : Prop :=
  In (v_orig a) os /\ (exists d, v_dest a = Some d /\ In d ds /\ d <> v_orig a) /\ v_state a = Home /\ v_mode a = SingleTrip /\ v_dep a = qtrunc (t / dt c).

Lemma random_vehicle_spec : forall c r os ds t0 t1 size i w w', random_vehicle c r os ds t0 t1 size i w = Ok w' ->
  w_nv w' = S (w_nv w) /\ (forall v, v <> w_nv w -> V w' v = V w v) /\ sent c os ds (linspace t0 t1 size i) (V w' (w_nv w)).
Proof.
  intros c r os ds t0 t1 size i w w' H. unfold random_vehicle in H. apply bind_ok in H. destruct H as (o & Eo & H). apply bind_ok in H. destruct H as (d & Ed & H).
  apply bind_ok in H. destruct H as (d2 & E2 & H). apply chosen_in in Eo, Ed.
  assert (D : In d2 ds /\ d2 <> o).
  { destruct (Nat.eqb_spec o d) as [->|Hn]; [apply chosen_in in E2; apply others_in; exact E2|]. injection E2 as ->. split; [exact Ed|congruence]. }
  destruct (add_vehicle_new _ _ _ _ H) as (A1 & A2 & A3 & A4 & A5 & A6 & A7). cbn in A3, A4, A5, A7. split; [exact A1|]. split; [exact A2|].
  unfold sent. rewrite A3, A4, A5, A6, A7. split; [exact Eo|]. split; [exists d2; destruct D; auto|]. auto.
Qed.
Lemma scatter_loop : forall c r os ds t0 t1 size k i w w', foldM (random_vehicle c r os ds t0 t1 size) (seq i k) w = Ok w' ->
  w_nv w' = w_nv w + k /\ (forall v, v < w_nv w -> V w' v = V w v) /\
  (forall j, j < k -> sent c os ds (linspace t0 t1 size (i + j)) (V w' (w_nv w + j))).
Proof.
  intros c r os ds t0 t1 size k. induction k as [|k IH]; intros i w w' E; cbn [seq foldM] in E.
  - injection E as ->. split; [lia|]. split; [auto|]. intros j Hj. lia.
  - apply bind_ok in E. destruct E as (w1 & E1 & E2). destruct (IH _ _ _ E2) as (A1 & A2 & A3).
    destruct (random_vehicle_spec _ _ _ _ _ _ _ _ _ _ E1) as (B1 & B2 & B3). split; [lia|]. split.
    + intros v Hv. rewrite A2 by lia. apply B2. lia.
    + intros j Hj. destruct j as [|j].
      * rewrite !Nat.add_0_r. rewrite A2 by lia. exact B3.
      * specialize (A3 j ltac:(lia)). rewrite B1 in A3. replace (i + S j) with (S i + j) by lia. replace (w_nv w + S j) with (S (w_nv w) + j) by lia. exact A3.
Qed.

(** C46 *)
Lemma scatter_lemma : forall c r os ds t0 t1 flow volume w w', (0 < dN c)%Q ->
  scatter c r os ds t0 t1 flow volume w = Ok w' ->
  let size := Z.to_nat (qtrunc (volume_of t0 t1 flow volume / dN c)) in
  w_nv w' = w_nv w + size /\ (forall v, v < w_nv w -> V w' v = V w v) /\
  (forall i, i < size -> sent c os ds (linspace t0 t1 size i) (V w' (w_nv w + i))) /\
  ((0 <= volume_of t0 t1 flow volume)%Q ->
     (Qof_nat size * dN c <= volume_of t0 t1 flow volume)%Q /\ (volume_of t0 t1 flow volume < Qof_nat size * dN c + dN c)%Q).
Proof.
  intros c r os ds t0 t1 flow volume w w' HN E size. unfold scatter in E. apply bind_ok in E. destruct E as (q & Eq & E). apply qdiv_ok in Eq. destruct Eq as [_ Eq].
  destruct (Z.ltb_spec (qtrunc q) 0) as [|Hq]; [discriminate|].
  assert (Et : qtrunc q = qtrunc (volume_of t0 t1 flow volume / dN c)).
  { unfold qdiv in *. destruct (Qlt_le_dec q 0) as [K|K].
    - assert (X : forall a b, (a == b)%Q -> qtrunc a = qtrunc b); [|apply X; exact Eq].
      intros [a b] [a' b'] X. unfold Qeq in X. unfold qtrunc. cbn in *.
      rewrite <- (Z.quot_mul_cancel_r a (Zpos b) (Zpos b')) by lia. rewrite <- (Z.quot_mul_cancel_r a' (Zpos b') (Zpos b)) by lia.
      rewrite X. f_equal. lia.
    - rewrite !qtrunc_floor; [apply Qfloor_comp; exact Eq| |exact K]. rewrite <- Eq. exact K. }
  rewrite Et in E, Hq. fold size in E. destruct (scatter_loop _ _ _ _ _ _ _ _ _ _ _ E) as (A1 & A2 & A3). split; [exact A1|]. split; [exact A2|]. split; [exact A3|].
  intro Hv. remember (volume_of t0 t1 flow volume) as vol eqn:Evol.
  assert (K : (0 <= vol / dN c)%Q) by (apply Qle_shift_div_l; lra).
  assert (Es : (Qof_nat size == inject_Z (Qfloor (vol / dN c)))%Q).
  { unfold size, Qof_nat. rewrite Z2Nat.id by exact Hq. rewrite qtrunc_floor by exact K. reflexivity. }
  rewrite Es. pose proof (Qfloor_le (vol / dN c)) as F1. pose proof (Qlt_floor (vol / dN c)) as F2.
  rewrite inject_Z_plus in F2. change (inject_Z 1) with 1%Q in F2.
  assert (Ex : (vol / dN c * dN c == vol)%Q) by (field; lra).
  split; nra.
Qed.

(** the departures are in order, from t0 to t1 *)
Lemma linspace_lemma : forall t0 t1 size, (t0 <= t1)%Q ->
  (0 < size -> (linspace t0 t1 size 0 == t0)%Q) /\ (1 < size -> (linspace t0 t1 size (size - 1) == t1)%Q) /\
  (forall i j, i <= j -> j < size -> (t0 <= linspace t0 t1 size i)%Q /\ (linspace t0 t1 size i <= linspace t0 t1 size j)%Q /\ (linspace t0 t1 size j <= t1)%Q).
Proof.
  intros t0 t1 size H. unfold linspace. destruct (Nat.leb_spec size 1) as [H1|H1].
  - split; [reflexivity|]. split; [lia|]. intros. lra.
  - assert (Hq : (0 < Qof_nat (size - 1))%Q) by (unfold Qof_nat; change 0%Q with (inject_Z 0); rewrite <- Zlt_Qlt; lia).
    split; [intros _; change (Qof_nat 0) with 0%Q; lra|]. split; [intros _; field; lra|]. intros i j Hi Hj.
    assert (D : (0 <= (t1 - t0) / Qof_nat (size - 1))%Q) by (apply Qle_shift_div_l; lra).
    assert (D1 : (Qof_nat (size - 1) * ((t1 - t0) / Qof_nat (size - 1)) == t1 - t0)%Q) by (field; lra).
    assert (I0 : (0 <= Qof_nat i)%Q) by (unfold Qof_nat; change 0%Q with (inject_Z 0); rewrite <- Zle_Qle; lia).
    assert (I1 : (Qof_nat i <= Qof_nat j)%Q) by (unfold Qof_nat; rewrite <- Zle_Qle; lia).
    assert (I2 : (Qof_nat j <= Qof_nat (size - 1))%Q) by (unfold Qof_nat; rewrite <- Zle_Qle; lia).
    remember ((t1 - t0) / Qof_nat (size - 1))%Q as dq eqn:Edq. clear Edq. 
    assert (P1 : (0 <= Qof_nat i * dq)%Q) by (apply Qmult_le_0_compat; assumption).
    assert (P2 : (Qof_nat i * dq <= Qof_nat j * dq)%Q) by (apply Qmult_le_compat_r; assumption).
    assert (P3 : (Qof_nat j * dq <= Qof_nat (size - 1) * dq)%Q) by (apply Qmult_le_compat_r; assumption).
    split; [lra|]. split; lra.
Qed.

(** ** Success *)
Lemma add_vehicle_plain : forall c o d t w, o < w_nn w -> d < w_nn w -> auto_names_free w ->
  exists w', add_vehicle c (mkVehArgs None o (Some d) t None SingleTrip None [] [] true) w = Ok w' /\ w_nn w' = w_nn w /\ auto_names_free w'.
Proof.
  intros c o d t w Ho Hd F. destruct (add_vehicle c (mkVehArgs None o (Some d) t None SingleTrip None [] [] true) w) as [w'|e] eqn:E.
  - exists w'. split; auto. pose proof (proj2 (proj2 (new_object_lemma c w w')) _ E) as (En & Em). cbn in Em.
    pose proof (add_vehicle_new _ _ _ _ E) as (_ & Ev & _).
    unfold add_vehicle in E. cbv zeta in E. destruct (negb _); [discriminate|]. destruct (smem _ _); [discriminate|].
    split; [injection E as <-; reflexivity|]. intros k Hk. unfold veh_names. rewrite En. rewrite names_snoc. intro K. apply in_app_or in K.
    destruct K as [K|[K|[]]].
    + apply (F k); [lia|]. unfold veh_names. apply in_map_iff in K. destruct K as (i & K & Hi). apply in_map_iff. exists i. split; auto.
      rewrite <- K, Ev; auto. apply in_seq in Hi. lia.
    + rewrite Em in K. apply dec_inj in K. lia.
  - exfalso. unfold add_vehicle in E. cbv zeta in E. cbn [va_orig va_dest va_prefer va_avoid node_ok app forallb va_name] in E.
    apply Nat.ltb_lt in Ho, Hd. rewrite Ho, Hd in E. cbn [andb negb] in E.
    destruct (smem (dec (w_nv w)) (veh_names w)) eqn:Em; [|discriminate]. apply smem_iff in Em. apply (F (w_nv w)); auto.
Qed.

Lemma scatter_succeeds : forall c r os ds t0 t1 flow volume w, (0 < dN c)%Q -> (0 <= volume_of t0 t1 flow volume)%Q ->
  os <> [] -> (forall o, In o os -> exists_node w o) -> (forall d, In d ds -> exists_node w d) ->
  (forall o, In o os -> exists d, In d ds /\ d <> o) -> auto_names_free w ->
  exists w', scatter c r os ds t0 t1 flow volume w = Ok w'.
Proof.
  intros c r os ds t0 t1 flow volume w HN Hv Ho O1 D1 Al F. unfold scatter, qdiv. destruct (qeq (dN c) 0) eqn:Ez; qb; [lra|]. cbn [bind].
  destruct (Z.ltb_spec (qtrunc (volume_of t0 t1 flow volume / dN c)) 0) as [K|K].
  { exfalso. assert (X : (0 <= volume_of t0 t1 flow volume / dN c)%Q) by (apply Qle_shift_div_l; lra). rewrite qtrunc_floor in K by exact X.
    apply Qfloor_resp_le in X. change (Qfloor 0) with 0%Z in X. lia. }
  generalize (Z.to_nat (qtrunc (volume_of t0 t1 flow volume / dN c))) at 1. intro size.
  generalize (Z.to_nat (qtrunc (volume_of t0 t1 flow volume / dN c))). intro k. clear K Ez Hv. revert w O1 D1 F.
  generalize 0. induction k as [|k IH]; intros i w O1 D1 F; cbn [seq foldM]; [eexists; reflexivity|].
  unfold random_vehicle at 1. destruct (chosen_ok os (dr_o r i) Ho) as (o & Eo). rewrite Eo. cbn [bind]. pose proof (chosen_in _ _ _ Eo) as Io.
  assert (Dn : ds <> []) by (destruct (Al o Io) as (d & Hd & _); intros ->; exact Hd).
  destruct (chosen_ok ds (dr_d r i) Dn) as (d & Ed). rewrite Ed. cbn [bind]. pose proof (chosen_in _ _ _ Ed) as Id.
  assert (D2 : exists d2, (if Nat.eqb o d then chosen (others d ds) (dr_alt r i) else Ok d) = Ok d2 /\ In d2 ds).
  { destruct (Nat.eqb_spec o d) as [->|_]; [|exists d; auto]. destruct (Al d Io) as (x & Hx & Hxd).
    destruct (chosen_ok (others d ds) (dr_alt r i)) as (d2 & E2).
    - intro K. assert (X : In x (others d ds)) by (apply others_in; auto). rewrite K in X. exact X.
    - exists d2. split; [exact E2|]. apply chosen_in in E2. apply others_in in E2. apply E2. }
  destruct D2 as (d2 & E2 & I2). rewrite E2. cbn [bind].
  destruct (add_vehicle_plain c o d2 (DepSec (linspace t0 t1 size i)) w (O1 o Io) (D1 d2 I2) F) as (w1 & E1 & N1 & F1). rewrite E1. cbn [bind].
  apply IH; [| |exact F1]; unfold exists_node; rewrite N1; assumption.
Qed.

(** the only destination is among the origins: an origin equal to it makes the call raise *)
Lemma scatter_raises : forall c r os d t0 t1 flow volume w, (0 < dN c)%Q -> (dN c <= volume_of t0 t1 flow volume)%Q ->
  chosen os (dr_o r 0) = Ok d -> scatter c r os [d] t0 t1 flow volume w = Err ValueError.
Proof.
  intros c r os d t0 t1 flow volume w HN Hv Ho. unfold scatter, qdiv. destruct (qeq (dN c) 0) eqn:Ez; qb; [lra|]. cbn [bind].
  assert (X : (1 <= volume_of t0 t1 flow volume / dN c)%Q) by (apply Qle_shift_div_l; lra).
  rewrite qtrunc_floor by lra. apply Qfloor_resp_le in X. change (Qfloor 1) with 1%Z in X.
  destruct (Z.ltb_spec (Qfloor (volume_of t0 t1 flow volume / dN c)) 0) as [K|K]; [lia|].
  destruct (Z.to_nat (Qfloor (volume_of t0 t1 flow volume / dN c))) as [|k] eqn:Ek; [lia|]. cbn [seq foldM]. unfold random_vehicle at 1.
  rewrite Ho. cbn [bind]. unfold chosen at 1. cbn [List.length]. rewrite Nat.mod_1_r. cbn [nth_error of_opt bind]. rewrite Nat.eqb_refl.
  unfold others. cbn [filter]. rewrite Nat.eqb_refl. cbn [negb].
  assert (Y : forall x, chosen [] x = Err ValueError) by (intro x; unfold chosen; destruct (x mod _); reflexivity). rewrite Y. reflexivity.
Qed.

(** ** The worlds are reachable *)
Lemma fold_reach : forall A c (f : A -> world -> result world) xs w w', (forall a w w', reach c w -> f a w = Ok w' -> reach c w') ->
  reach c w -> foldM f xs w = Ok w' -> reach c w'.
Proof.
  intros A c f xs. induction xs as [|a xs IH]; intros w w' H R E; cbn [foldM] in E; [injection E as <-; exact R|].
  apply bind_ok in E. destruct E as (w1 & E1 & E2). apply (IH w1 w' H); [|exact E2]. apply (H a w w1 R E1).
Qed.
Lemma spread_reach : forall c os ds t0 t1 flow volume w w', reach c w -> spread c os ds t0 t1 flow volume w = Ok w' -> reach c w'.
Proof.
  intros c os ds t0 t1 flow volume w w' R E. unfold spread in E. apply bind_ok in E. destruct E as (fl & _ & E). apply bind_ok in E. destruct E as (vo & _ & E).
  revert E. apply fold_reach; [|exact R]. intros [o d] x y Rx Ex. apply (rc_op c x (OAddDemand o d t0 t1 fl vo)); auto; [exact I|intros; discriminate].
Qed.
Lemma scatter_reach : forall c r os ds t0 t1 flow volume w w', reach c w -> scatter c r os ds t0 t1 flow volume w = Ok w' -> reach c w'.
Proof.
  intros c r os ds t0 t1 flow volume w w' R E. unfold scatter in E. apply bind_ok in E. destruct E as (q & _ & E). destruct (_ <? _)%Z; [discriminate|].
  revert E. apply fold_reach; [|exact R]. intros i x y Rx Ex. unfold random_vehicle in Ex.
  apply bind_ok in Ex. destruct Ex as (o & _ & Ex). apply bind_ok in Ex. destruct Ex as (d & _ & Ex). apply bind_ok in Ex. destruct Ex as (d2 & _ & Ex).
  apply (rc_op c x (OAddVehicle (mkVehArgs None o (Some d2) (DepSec (linspace t0 t1 (Z.to_nat (qtrunc q)) i)) None SingleTrip None [] [] true))); auto; [exact I|intros; discriminate].
Qed.

(** ** The functions *)
Lemma has_out_iff : forall w n, has_out w n = true <-> n_out (N w n) <> [].
Proof. intros w n. unfold has_out. destruct (n_out (N w n)); cbn; split; congruence. Qed.
Lemma has_in_iff : forall w n, has_in w n = true <-> n_in (N w n) <> [].
Proof. intros w n. unfold has_in. destruct (n_in (N w n)); cbn; split; congruence. Qed.
Lemma usable_origins : forall w ks ns, usable w (has_out w) ks = Ok ns -> origins w ks ns.
Proof. intros w ks ns H n. rewrite <- has_out_iff. apply usable_lemma. exact H. Qed.
Lemma usable_destinations : forall w ks ns, usable w (has_in w) ks = Ok ns -> destinations w ks ns.
Proof. intros w ks ns H n. rewrite <- has_in_iff. apply usable_lemma. exact H. Qed.
Lemma area_ok : forall w p (P : nid -> Prop) x y r ns, (forall n, p n = true <-> P n) -> area_nodes w p x y r = Ok ns -> area w P x y r ns.
Proof.
  intros w p P x y r ns HP H. destruct (area_nodes_lemma _ _ _ _ _ _ H) as (A & B & C & D). split; [exact B|]. unfold area_nodes in H.
  assert (K : (exists n, exists_node w n /\ P n /\ (dist2 w n x y < r * r)%Q) \/ ~ (exists n, exists_node w n /\ P n /\ (dist2 w n x y < r * r)%Q)).
  { destruct (filter p (get_nodes_in_area w x y r)) as [|n l] eqn:E.
    - right. intros (n & N1 & N2 & N3). assert (X : In n (filter p (get_nodes_in_area w x y r))).
      { apply filter_In. split; [apply area_lemma; auto|apply HP; exact N2]. }
      rewrite E in X. exact X.
    - left. assert (X : In n (filter p (get_nodes_in_area w x y r))) by (rewrite E; left; reflexivity). apply filter_In in X. destruct X as [X Y].
      apply area_lemma in X. exists n. split; [apply X|]. split; [apply HP; exact Y|apply X]. }
  assert (Eq : (exists n, exists_node w n /\ p n = true /\ (dist2 w n x y < r * r)%Q) <-> (exists n, exists_node w n /\ P n /\ (dist2 w n x y < r * r)%Q)).
  { split; intros (n & N1 & N2 & N3); exists n; (split; [exact N1|]); (split; [apply HP; exact N2|exact N3]). }
  destruct K as [K|K].
  - left. split; [exact K|]. intro n. rewrite (C (proj2 Eq K) n), HP. reflexivity.
  - right. split; [exact K|]. apply D. intro X. apply K. apply Eq. exact X.
Qed.

Lemma spread_shares : forall c os ds t0 t1 flow volume F w w', (0 < dN c)%Q -> (0 < dt c)%Q -> (0 <= t0 <= t1)%Q ->
  flow_asked t0 t1 flow volume F -> (0 <= F)%Q -> spread c os ds t0 t1 flow volume w = Ok w' ->
  exists m, shares os ds m (qtrunc (t0 / dt c)) (qtrunc (t1 / dt c)) w w' /\
    (Qof_nat (w_nv w' - w_nv w) * dN c - F * (t1 - t0) <= F * dt c)%Q /\
    (F * (t1 - t0) - Qof_nat (w_nv w' - w_nv w) * dN c < Qof_nat (List.length os * List.length ds) * dN c + F * dt c)%Q.
Proof.
  intros c os ds t0 t1 flow volume F w w' HN HD Ht A HF E. destruct (spread_lemma c os ds t0 t1 flow volume F w w' HN HD Ht A HF E) as (B1 & B2 & B3 & B4).
  exists (per_pair c t0 t1 F (List.length os * List.length ds)). split.
  - split; [exact B2|]. split; [exact B3|]. intros i o d j Hi Hj. exact (B4 i o d Hi j Hj).
  - replace (w_nv w' - w_nv w) with (List.length os * List.length ds * per_pair c t0 t1 F (List.length os * List.length ds)) by lia.
    apply per_pair_close; assumption.
Qed.

(** C46 *)
Lemma nodes2nodes_lemma : forall c ko kd t0 t1 flow volume F w w', (0 < dN c)%Q -> (0 < dt c)%Q -> (0 <= t0 <= t1)%Q ->
  flow_asked t0 t1 flow volume F -> (0 <= F)%Q -> adddemand_nodes2nodes c ko kd t0 t1 flow volume w = Ok w' ->
  exists os ds m, origins w ko os /\ destinations w kd ds /\ shares os ds m (qtrunc (t0 / dt c)) (qtrunc (t1 / dt c)) w w' /\
    (Qof_nat (w_nv w' - w_nv w) * dN c - F * (t1 - t0) <= F * dt c)%Q /\
    (F * (t1 - t0) - Qof_nat (w_nv w' - w_nv w) * dN c < Qof_nat (List.length os * List.length ds) * dN c + F * dt c)%Q.
Proof.
  intros c ko kd t0 t1 flow volume F w w' HN HD Ht A HF E. unfold adddemand_nodes2nodes in E. apply bind_ok in E. destruct E as (os & E1 & E).
  apply bind_ok in E. destruct E as (ds & E2 & E). destruct (spread_shares c os ds t0 t1 flow volume F w w' HN HD Ht A HF E) as (m & B).
  exists os, ds, m. split; [apply usable_origins; exact E1|]. split; [apply usable_destinations; exact E2|]. exact B.
Qed.
Lemma area2area_lemma : forall c xo yo ro xd yd rd t0 t1 flow volume F w w', (0 < dN c)%Q -> (0 < dt c)%Q -> (0 <= t0 <= t1)%Q ->
  flow_asked t0 t1 flow volume F -> (0 <= F)%Q -> adddemand_area2area c xo yo ro xd yd rd t0 t1 flow volume w = Ok w' ->
  exists os ds m, area w (fun n => n_out (N w n) <> []) xo yo ro os /\ area w (fun n => n_in (N w n) <> []) xd yd rd ds /\
    shares os ds m (qtrunc (t0 / dt c)) (qtrunc (t1 / dt c)) w w' /\
    (Qof_nat (w_nv w' - w_nv w) * dN c - F * (t1 - t0) <= F * dt c)%Q /\
    (F * (t1 - t0) - Qof_nat (w_nv w' - w_nv w) * dN c < Qof_nat (List.length os * List.length ds) * dN c + F * dt c)%Q.
Proof.
  intros c xo yo ro xd yd rd t0 t1 flow volume F w w' HN HD Ht A HF E. unfold adddemand_area2area in E. apply bind_ok in E. destruct E as (os & E1 & E).
  apply bind_ok in E. destruct E as (ds & E2 & E). destruct (spread_shares c os ds t0 t1 flow volume F w w' HN HD Ht A HF E) as (m & B).
  exists os, ds, m. split; [exact (area_ok _ _ _ _ _ _ _ (has_out_iff w) E1)|]. split; [exact (area_ok _ _ _ _ _ _ _ (has_in_iff w) E2)|]. exact B.
Qed.
Lemma point2point_lemma : forall c xo yo xd yd t0 t1 flow volume w w', adddemand_point2point c xo yo xd yd t0 t1 flow volume w = Ok w' ->
  exists o d, get_nearest_node w xo yo = Some o /\ get_nearest_node w xd yd = Some d /\ adddemand c o d t0 t1 flow volume w = Ok w'.
Proof.
  intros c xo yo xd yd t0 t1 flow volume w w' E. unfold adddemand_point2point in E. apply bind_ok in E. destruct E as (o & E1 & E). apply bind_ok in E. destruct E as (d & E2 & E).
  apply of_opt_ok in E1. apply of_opt_ok in E2. exists o, d. auto.
Qed.

Lemma volume_ok : forall t0 t1 flow volume, volume_asked t0 t1 flow volume (volume_of t0 t1 flow volume).
Proof.
  intros t0 t1 flow volume. unfold volume_of. destruct (qle 0 flow) eqn:E1; destruct (qeq volume (-1)) eqn:E2; qb; cbn [andb].
  - left. split; [exact E1|]. split; [exact E2|reflexivity].
  - right. split; [intros [_ K]; contradiction|reflexivity].
  - right. split; [intros [K _]; lra|reflexivity].
  - right. split; [intros [_ K]; contradiction|reflexivity].
Qed.
Lemma asked_unique : forall t0 t1 flow volume a b, volume_asked t0 t1 flow volume a -> volume_asked t0 t1 flow volume b -> (a == b)%Q.
Proof.
  intros t0 t1 flow volume a b [(A1 & A2 & A3)|(A1 & A2)] [(B1 & B2 & B3)|(B1 & B2)].
  - rewrite A3, B3. reflexivity.
  - elim B1. auto.
  - elim A1. auto.
  - rewrite A2, B2. reflexivity.
Qed.
Lemma linspace_even : forall t0 t1 size i, evenly t0 t1 size i (linspace t0 t1 size i).
Proof.
  intros t0 t1 size i. unfold evenly, linspace. destruct (Nat.leb_spec size 1) as [H|H]; [reflexivity|].
  assert (Hq : (0 < Qof_nat (size - 1))%Q) by (unfold Qof_nat; change 0%Q with (inject_Z 0); rewrite <- Zlt_Qlt; lia). field. lra.
Qed.
Lemma scatter_scattering : forall c r os ds t0 t1 flow volume vol w w', (0 < dN c)%Q -> (0 < dt c)%Q -> (0 <= t0 <= t1)%Q ->
  volume_asked t0 t1 flow volume vol -> (0 <= vol)%Q -> scatter c r os ds t0 t1 flow volume w = Ok w' ->
  scattering c os ds t0 t1 (w_nv w' - w_nv w) w w' /\
  (Qof_nat (w_nv w' - w_nv w) * dN c <= vol)%Q /\ (vol < Qof_nat (w_nv w' - w_nv w) * dN c + dN c)%Q.
Proof.
  intros c r os ds t0 t1 flow volume vol w w' HN HD Ht A Hv E. pose proof (asked_unique _ _ _ _ _ _ A (volume_ok t0 t1 flow volume)) as Ev.
  destruct (scatter_lemma c r os ds t0 t1 flow volume w w' HN E) as (B1 & B2 & B3 & B4).
  remember (Z.to_nat (qtrunc (volume_of t0 t1 flow volume / dN c))) as size eqn:Es. clear Es.
  replace (w_nv w' - w_nv w) with size by lia. split.
  - split; [exact B1|]. split; [exact B2|]. intros i Hi. exists (linspace t0 t1 size i). split; [apply linspace_even|].
    destruct (B3 i Hi) as (C1 & C2 & C3 & C4 & C5). split; [exact C1|]. split; [exact C2|]. split; [exact C3|]. split; [exact C4|]. rewrite C5.
    assert (T : (0 <= linspace t0 t1 size i)%Q).
    { destruct (linspace_lemma t0 t1 size (proj2 Ht)) as (_ & _ & L). destruct (L i i (le_n i) Hi) as (L1 & _). lra. }
    destruct (trunc_close c HD _ T) as [K1 K2]. split; assumption.
  - rewrite Ev. apply B4. rewrite <- Ev. exact Hv.
Qed.
Lemma nodes2nodes2_lemma : forall c r ko kd t0 t1 flow volume vol w w', (0 < dN c)%Q -> (0 < dt c)%Q -> (0 <= t0 <= t1)%Q ->
  volume_asked t0 t1 flow volume vol -> (0 <= vol)%Q -> adddemand_nodes2nodes2 c r ko kd t0 t1 flow volume w = Ok w' ->
  exists os ds, origins w ko os /\ destinations w kd ds /\ scattering c os ds t0 t1 (w_nv w' - w_nv w) w w' /\
  (Qof_nat (w_nv w' - w_nv w) * dN c <= vol)%Q /\ (vol < Qof_nat (w_nv w' - w_nv w) * dN c + dN c)%Q.
Proof.
  intros c r ko kd t0 t1 flow volume vol w w' HN HD Ht A Hv E. unfold adddemand_nodes2nodes2 in E. apply bind_ok in E. destruct E as (os & E1 & E).
  apply bind_ok in E. destruct E as (ds & E2 & E). exists os, ds. split; [apply usable_origins; exact E1|]. split; [apply usable_destinations; exact E2|].
  exact (scatter_scattering c r os ds t0 t1 flow volume vol w w' HN HD Ht A Hv E).
Qed.
Lemma area2area2_lemma : forall c r xo yo ro xd yd rd t0 t1 flow volume vol w w', (0 < dN c)%Q -> (0 < dt c)%Q -> (0 <= t0 <= t1)%Q ->
  volume_asked t0 t1 flow volume vol -> (0 <= vol)%Q -> adddemand_area2area2 c r xo yo ro xd yd rd t0 t1 flow volume w = Ok w' ->
  exists os ds, area w (fun n => n_out (N w n) <> []) xo yo ro os /\ area w (fun n => n_in (N w n) <> []) xd yd rd ds /\
  scattering c os ds t0 t1 (w_nv w' - w_nv w) w w' /\
  (Qof_nat (w_nv w' - w_nv w) * dN c <= vol)%Q /\ (vol < Qof_nat (w_nv w' - w_nv w) * dN c + dN c)%Q.
Proof.
  intros c r xo yo ro xd yd rd t0 t1 flow volume vol w w' HN HD Ht A Hv E. unfold adddemand_area2area2 in E. apply bind_ok in E. destruct E as (os & E1 & E).
  apply bind_ok in E. destruct E as (ds & E2 & E). exists os, ds. split; [exact (area_ok _ _ _ _ _ _ _ (has_out_iff w) E1)|]. split; [exact (area_ok _ _ _ _ _ _ _ (has_in_iff w) E2)|].
  exact (scatter_scattering c r os ds t0 t1 flow volume vol w w' HN HD Ht A Hv E).
Qed.

(** all of them lead to reachable worlds *)
Lemma area_reach_lemma : forall c w w', reach c w ->
  (forall xo yo xd yd t0 t1 fl vo, adddemand_point2point c xo yo xd yd t0 t1 fl vo w = Ok w' -> reach c w') /\
  (forall ko kd t0 t1 fl vo, adddemand_nodes2nodes c ko kd t0 t1 fl vo w = Ok w' -> reach c w') /\
  (forall xo yo ro xd yd rd t0 t1 fl vo, adddemand_area2area c xo yo ro xd yd rd t0 t1 fl vo w = Ok w' -> reach c w') /\
  (forall r ko kd t0 t1 fl vo, adddemand_nodes2nodes2 c r ko kd t0 t1 fl vo w = Ok w' -> reach c w') /\
  (forall r xo yo ro xd yd rd t0 t1 fl vo, adddemand_area2area2 c r xo yo ro xd yd rd t0 t1 fl vo w = Ok w' -> reach c w').
Proof.
  intros c w w' R. repeat split.
  - intros xo yo xd yd t0 t1 fl vo E. apply point2point_lemma in E. destruct E as (o & d & _ & _ & E).
    apply (rc_op c w (OAddDemand o d t0 t1 fl vo)); auto; [exact I|intros; discriminate].
  - intros ko kd t0 t1 fl vo E. unfold adddemand_nodes2nodes in E. apply bind_ok in E. destruct E as (os & _ & E). apply bind_ok in E. destruct E as (ds & _ & E).
    eapply spread_reach; eauto.
  - intros xo yo ro xd yd rd t0 t1 fl vo E. unfold adddemand_area2area in E. apply bind_ok in E. destruct E as (os & _ & E). apply bind_ok in E. destruct E as (ds & _ & E).
    eapply spread_reach; eauto.
  - intros r ko kd t0 t1 fl vo E. unfold adddemand_nodes2nodes2 in E. apply bind_ok in E. destruct E as (os & _ & E). apply bind_ok in E. destruct E as (ds & _ & E).
    eapply scatter_reach; eauto.
  - intros r xo yo ro xd yd rd t0 t1 fl vo E. unfold adddemand_area2area2 in E. apply bind_ok in E. destruct E as (os & _ & E). apply bind_ok in E. destruct E as (ds & _ & E).
    eapply scatter_reach; eauto.
Qed.
(** success of adddemand_nodes2nodes2 *)
Lemma nodes2nodes2_succeeds : forall c r ko kd os ds t0 t1 flow volume vol w, (0 < dN c)%Q -> volume_asked t0 t1 flow volume vol -> (0 <= vol)%Q ->
  usable w (has_out w) ko = Ok os -> usable w (has_in w) kd = Ok ds -> os <> [] -> (forall o, In o os -> exists d, In d ds /\ d <> o) -> auto_names_free w ->
  exists w', adddemand_nodes2nodes2 c r ko kd t0 t1 flow volume w = Ok w'.
Proof.
  intros c r ko kd os ds t0 t1 flow volume vol w HN A Hv E1 E2 Ho Al F. unfold adddemand_nodes2nodes2. rewrite E1. cbn [bind]. rewrite E2. cbn [bind].
  apply scatter_succeeds; auto.
  - rewrite <- (asked_unique _ _ _ _ _ _ A (volume_ok t0 t1 flow volume)). exact Hv.
  - intros o Io. apply (usable_lemma _ _ _ _ E1) in Io. apply Io.
  - intros d Id. apply (usable_lemma _ _ _ _ E2) in Id. apply Id.
Qed.
