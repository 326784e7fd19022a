(** * CppPref: the preferences of the DUO drivers in the compiled engine, World::route_choice_duo and World::route_choice_duo_gradual,
    uxsim/trafficpp/traffi.cpp 1486-1553, initial values 1261-1262. *)
From Verif Require Import Base Types Sim Build Lists Tac Reach Steps Spec SpecDuo.
Local Open Scope nat_scope.

(** ** The model *)

(** route_preference and route_pref_active *)
Definition prefs := (nid -> lid -> Q).
Record cduo := mkCduo { d_pref : prefs; d_active : nid -> bool }.
Definition cduo0 : cduo := mkCduo (fun _ _ => 0%Q) (fun _ => false).
(** 1492-1518 and 1527-1552; [mask k l]: route_next[i][k] == j; [wt]: duo_update_weight, or duo_update_weight*delta_t/duo_update_time (1523) *)
Definition cpp_duo (wt : Q) (nl : nat) (mask : nid -> lid -> bool) (s : cduo) : cduo :=
  let weight k := if d_active s k then wt else 1%Q in
  mkCduo (fun k l => if mask k l then ((1 - weight k) * d_pref s k l + weight k)%Q else ((1 - weight k) * d_pref s k l)%Q)
         (fun k => (d_active s k || existsb (mask k) (seq 0 nl))%bool).
(** the Python update (uxsim.py 1629-1663), see [py_duo_is] *)
Definition py_duo (wt : Q) (nl : nat) (mask : nid -> lid -> bool) (pref : prefs) : prefs :=
  let weight k := if qeq (qsum (map (pref k) (seq 0 nl))) 0 then 1%Q else wt in
  fun k l => ((1 - weight k) * pref k l + (if mask k l then weight k else 0))%Q.
Definition duo_mask (w : world) (k : nid) (l : lid) : bool := opt_eqb (Some (l_end (L w l))) (w_rcnext w (l_start (L w l)) k).
Theorem py_duo_is : forall c w, w_rcpref (homogeneous_DUO_update c w) = py_duo (duo_weight0 c) (w_nl w) (duo_mask w) (w_rcpref w).
Proof. reflexivity. Qed.

(** ** Sums *)
Lemma qsum_cons : forall q qs, (qsum (q :: qs) == q + qsum qs)%Q.
Proof. intros. unfold qsum. cbn. lra. Qed.
Lemma sum_nn : forall (f : lid -> Q) ls, (forall l, In l ls -> (0 <= f l)%Q) -> (0 <= qsum (map f ls))%Q.
Proof.
  intros f. induction ls as [|l ls IH]; intro H; [unfold qsum; cbn; lra|]. cbn [map]. rewrite qsum_cons. pose proof (H l (or_introl eq_refl)). assert (0 <= qsum (map f ls))%Q by (apply IH; intros x Hx; apply H; right; exact Hx). lra.
Qed.
Lemma sum_le : forall (f g : lid -> Q) ls, (forall l, In l ls -> (f l <= g l)%Q) -> (qsum (map f ls) <= qsum (map g ls))%Q.
Proof.
  intros f g. induction ls as [|l ls IH]; intro H; [unfold qsum; cbn; lra|]. cbn [map]. rewrite !qsum_cons. pose proof (H l (or_introl eq_refl)). assert (qsum (map f ls) <= qsum (map g ls))%Q by (apply IH; intros x Hx; apply H; right; exact Hx). lra.
Qed.
Lemma sum_scale : forall a (f : lid -> Q) ls, (qsum (map (fun l => (a * f l)%Q) ls) == a * qsum (map f ls))%Q.
Proof. intros a f. induction ls as [|l ls IH]; [unfold qsum; cbn; ring|]. cbn [map]. rewrite !qsum_cons, IH. ring. Qed.
Lemma sum_one : forall (f : lid -> Q) ls l, (forall x, In x ls -> (0 <= f x)%Q) -> In l ls -> (f l <= qsum (map f ls))%Q.
Proof.
  intros f. induction ls as [|a ls IH]; intros l H Hl; [destruct Hl|]. cbn [map]. rewrite qsum_cons. pose proof (H a (or_introl eq_refl)). assert (G : forall x, In x ls -> (0 <= f x)%Q) by (intros x Hx; apply H; right; exact Hx).
  destruct Hl as [<-|Hl]; [pose proof (sum_nn f ls G); lra|]. pose proof (IH l G Hl). lra.
Qed.
Lemma sum_zero : forall (f : lid -> Q) ls, (forall x, In x ls -> (f x == 0)%Q) -> (qsum (map f ls) == 0)%Q.
Proof. intros f. induction ls as [|a ls IH]; intro H; [reflexivity|]. cbn [map]. rewrite qsum_cons, (H a (or_introl eq_refl)), IH; [ring|]. intros x Hx. apply H. right. exact Hx. Qed.

(** ** Both updates side by side *)
Record duo_same (wt : Q) (nl : nat) (p : prefs) (s : cduo) : Prop := mkDuoSame {
  ds_eq : forall k l, l < nl -> (d_pref s k l == p k l)%Q;
  ds_nn : forall k l, l < nl -> (0 <= p k l)%Q;
  ds_off : forall k, d_active s k = false -> forall l, l < nl -> (p k l == 0)%Q;
  ds_on : forall k, d_active s k = true -> (0 < qsum (map (p k) (seq 0 nl)))%Q \/ (wt == 1)%Q }.
Lemma duo_same_start : forall wt nl, duo_same wt nl (fun _ _ => 0%Q) cduo0.
Proof. intros wt nl. constructor; cbn; try (intros; lra). Qed.
Lemma weight_same : forall wt nl p s k, duo_same wt nl p s -> ((if qeq (qsum (map (p k) (seq 0 nl))) 0 then 1 else wt) == (if d_active s k then wt else 1))%Q.
Proof.
  intros wt nl p s k [E N Off On]. destruct (d_active s k) eqn:A.
  - destruct (qeq _ 0) eqn:Q1; [|reflexivity]. apply qeq_iff in Q1. destruct (On k A) as [K|K]; [lra|]. lra.
  - assert (Z : (qsum (map (p k) (seq 0 nl)) == 0)%Q) by (apply sum_zero; intros x Hx; apply in_seq in Hx; apply (Off k A); lia). apply qeq_iff in Z. rewrite Z. reflexivity.
Qed.
Theorem duo_same_step : forall wt nl mask p s, (0 <= wt)%Q -> (wt <= 1)%Q -> duo_same wt nl p s -> duo_same wt nl (py_duo wt nl mask p) (cpp_duo wt nl mask s).
Proof.
  intros wt nl mask p s W0 W1 D. pose proof (fun k => weight_same wt nl p s k D) as Wk. destruct D as [E N Off On]. unfold py_duo, cpp_duo. cbv zeta.
  set (wp := fun k => if qeq (qsum (map (p k) (seq 0 nl))) 0 then 1%Q else wt) in *. set (wc := fun k => if d_active s k then wt else 1%Q) in *.
  assert (B : forall k, (0 <= wp k)%Q /\ (wp k <= 1)%Q) by (intro k; unfold wp; destruct (qeq _ 0); lra). assert (Ek : forall k, (wp k == wc k)%Q) by exact Wk. clear Wk.
  assert (Nn : forall k l, l < nl -> (0 <= (1 - wp k) * p k l + (if mask k l then wp k else 0))%Q).
  { intros k l Hl. pose proof (N k l Hl). destruct (B k). assert (0 <= (1 - wp k) * p k l)%Q by (apply Qmult_le_0_compat; lra). destruct (mask k l); lra. }
  constructor; cbn [d_pref d_active]; fold (wc : nid -> Q).
  - intros k l Hl. pose proof (E k l Hl) as X. pose proof (Ek k) as Y. change (if d_active s k then wt else 1%Q) with (wc k). change (if qeq (qsum (map (p k) (seq 0 nl))) 0 then 1%Q else wt) with (wp k). destruct (mask k l); rewrite X, Y; ring.
  - intros k l Hl. exact (Nn k l Hl).
  - intros k K l Hl. apply orb_false_iff in K. destruct K as [K1 K2]. change (if qeq (qsum (map (p k) (seq 0 nl))) 0 then 1%Q else wt) with (wp k). assert (M : mask k l = false).
    { destruct (mask k l) eqn:M; [|reflexivity]. enough (existsb (mask k) (seq 0 nl) = true) by congruence. apply existsb_exists. exists l. split; [apply in_seq; lia|exact M]. }
    rewrite M, (Off k K1 l Hl). ring.
  - intros k K. set (p' := fun l => ((1 - wp k) * p k l + (if mask k l then wp k else 0))%Q). change (0 < qsum (map p' (seq 0 nl)) \/ wt == 1)%Q.
    assert (Nn' : forall x, In x (seq 0 nl) -> (0 <= p' x)%Q) by (intros x Hx; apply in_seq in Hx; apply (Nn k x); lia).
    destruct (d_active s k) eqn:A.
    + destruct (On k A) as [S|S]; [|right; exact S]. destruct (Qlt_le_dec wt 1) as [Lt|Ge]; [|right; lra]. left.
      assert (Wt : wp k = wt) by (unfold wp; destruct (qeq _ 0) eqn:Q1; [apply qeq_iff in Q1; lra|reflexivity]).
      assert (Le : (qsum (map (fun l => ((1 - wp k) * p k l)%Q) (seq 0 nl)) <= qsum (map p' (seq 0 nl)))%Q) by (apply sum_le; intros l Hl; unfold p'; destruct (B k); destruct (mask k l); lra).
      rewrite sum_scale, Wt in Le. assert (0 < (1 - wt) * qsum (map (p k) (seq 0 nl)))%Q by (apply Qmult_lt_0_compat; lra). lra.
    + cbn [orb] in K. apply existsb_exists in K. destruct K as (l & L1 & L2). left. pose proof (sum_one p' (seq 0 nl) l Nn' L1) as S. apply in_seq in L1. assert (Wl : (wp k == 1)%Q) by (rewrite (Ek k); unfold wc; rewrite A; reflexivity).
      assert (P1 : (p' l == 1)%Q) by (unfold p'; rewrite L2, (Off k A l) by lia; rewrite Wl; ring). lra.
Qed.
(** any sequence of updates *)
Theorem cpp_duo_same : forall wt nl masks, (0 <= wt)%Q -> (wt <= 1)%Q -> forall k l, l < nl ->
  (d_pref (fold_left (fun s m => cpp_duo wt nl m s) masks cduo0) k l == fold_left (fun p m => py_duo wt nl m p) masks (fun _ _ => 0%Q) k l)%Q.
Proof.
  intros wt nl masks W0 W1. assert (G : forall ms p s, duo_same wt nl p s -> duo_same wt nl (fold_left (fun p m => py_duo wt nl m p) ms p) (fold_left (fun s m => cpp_duo wt nl m s) ms s)).
  { induction ms as [|m ms IH]; intros p s D; [exact D|]. cbn [fold_left]. apply IH. apply duo_same_step; assumption. }
  intros k l Hl. exact (ds_eq _ _ _ _ (G masks _ _ (duo_same_start wt nl)) k l Hl).
Qed.
(** one update of the Python engine, with the compiled state that belongs to it *)
Theorem cpp_duo_step : forall c w s, (0 <= duo_weight0 c)%Q -> (duo_weight0 c <= 1)%Q -> duo_same (duo_weight0 c) (w_nl w) (w_rcpref w) s ->
  duo_same (duo_weight0 c) (w_nl w) (w_rcpref (homogeneous_DUO_update c w)) (cpp_duo (duo_weight0 c) (w_nl w) (duo_mask w) s).
Proof. intros c w s W0 W1 D. rewrite py_duo_is. apply duo_same_step; assumption. Qed.
(** the flag tells apart, for weights below 1, the destinations whose preferences do not sum to 0 *)
Theorem active_sum : forall wt nl masks k, (0 <= wt)%Q -> (wt < 1)%Q -> let s := fold_left (fun s m => cpp_duo wt nl m s) masks cduo0 in
  d_active s k = true <-> ~ (qsum (map (d_pref s k) (seq 0 nl)) == 0)%Q.
Proof.
  intros wt nl masks k W0 W1. cbv zeta. assert (G : forall ms p s, duo_same wt nl p s -> exists p', duo_same wt nl p' (fold_left (fun s m => cpp_duo wt nl m s) ms s)).
  { induction ms as [|m ms IH]; intros p s D; [exists p; exact D|]. cbn [fold_left]. apply (IH (py_duo wt nl m p)). apply duo_same_step; [assumption|lra|exact D]. }
  destruct (G masks _ _ (duo_same_start wt nl)) as (p & [E N Off On]). match goal with |- d_active ?s k = true <-> _ => set (st := s) in * end.
  assert (S : (qsum (map (d_pref st k) (seq 0 nl)) == qsum (map (p k) (seq 0 nl)))%Q).
  { assert (A1 : (qsum (map (d_pref st k) (seq 0 nl)) <= qsum (map (p k) (seq 0 nl)))%Q) by (apply sum_le; intros l Hl; apply in_seq in Hl; rewrite (E k l) by lia; lra).
    assert (A2 : (qsum (map (p k) (seq 0 nl)) <= qsum (map (d_pref st k) (seq 0 nl)))%Q) by (apply sum_le; intros l Hl; apply in_seq in Hl; rewrite (E k l) by lia; lra). lra. }
  rewrite S. split.
  - intros A Z. destruct (On k A) as [K|K]; lra.
  - intro Nz. destruct (d_active st k) eqn:A; [reflexivity|]. exfalso. apply Nz. apply sum_zero. intros x Hx. apply in_seq in Hx. apply (Off k A). lia.
Qed.
(** ** Shares *)
Theorem cpp_duo_bounds : forall wt nl masks, (0 <= wt)%Q -> (wt <= 1)%Q -> forall k l,
  (0 <= d_pref (fold_left (fun s m => cpp_duo wt nl m s) masks cduo0) k l)%Q /\ (d_pref (fold_left (fun s m => cpp_duo wt nl m s) masks cduo0) k l <= 1)%Q.
Proof.
  intros wt nl masks W0 W1. assert (G : forall ms s, (forall k l, (0 <= d_pref s k l)%Q /\ (d_pref s k l <= 1)%Q) -> forall k l, (0 <= d_pref (fold_left (fun s m => cpp_duo wt nl m s) ms s) k l)%Q /\ (d_pref (fold_left (fun s m => cpp_duo wt nl m s) ms s) k l <= 1)%Q).
  { induction ms as [|m ms IH]; intros s H; [exact H|]. cbn [fold_left]. apply IH. intros k l. unfold cpp_duo. cbn [d_pref]. destruct (H k l) as [A B]. set (x := d_pref s k l) in *. assert (V : (0 <= (if d_active s k then wt else 1))%Q /\ ((if d_active s k then wt else 1) <= 1)%Q) by (destruct (d_active s k); lra).
    set (v := if d_active s k then wt else 1%Q) in *. destruct V as [V0 V1]. assert (Z0 : (0 <= (1 - v) * x)%Q) by (apply Qmult_le_0_compat; lra). assert (Z1 : (0 <= (1 - v) * (1 - x))%Q) by (apply Qmult_le_0_compat; lra). destruct (m k l); split; lra. }
  apply G. intros k l. cbn. lra.
Qed.
(** links of which each update finds exactly one on the cheapest path, such as those that leave a node from which the destination is reached: their preferences sum to 1 *)
Definition one_of (out : list lid) (m : lid -> bool) : Prop := List.length (filter m out) = 1.
Lemma masked_sum : forall (v : Q) (m : lid -> bool) (f : lid -> Q) out,
  (qsum (map (fun l => if m l then ((1 - v) * f l + v)%Q else ((1 - v) * f l)%Q) out) == (1 - v) * qsum (map f out) + Qof_nat (List.length (filter m out)) * v)%Q.
Proof.
  intros v m f. induction out as [|l out IH]; [unfold qsum, Qof_nat; cbn; ring|]. cbn [map filter]. rewrite !qsum_cons, IH. destruct (m l); [|ring]. cbn [List.length]. unfold Qof_nat. rewrite Nat2Z.inj_succ, <- Z.add_1_l, inject_Z_plus. ring.
Qed.
Theorem cpp_duo_share : forall wt nl masks k out, masks <> [] -> (forall m, In m masks -> one_of out (m k)) ->
  (qsum (map (d_pref (fold_left (fun s m => cpp_duo wt nl m s) masks cduo0) k) out) == 1)%Q.
Proof.
  intros wt nl masks k out Ne H. assert (St : forall m s, one_of out (m k) -> (qsum (map (d_pref (cpp_duo wt nl m s) k) out) == (1 - (if d_active s k then wt else 1)) * qsum (map (d_pref s k) out) + (if d_active s k then wt else 1))%Q).
  { intros m s O. unfold cpp_duo. cbn [d_pref]. rewrite (masked_sum (if d_active s k then wt else 1%Q) (m k) (d_pref s k) out). rewrite O. unfold Qof_nat. cbn [Z.of_nat]. ring_simplify. reflexivity. }
  assert (G : forall ms s, (qsum (map (d_pref s k) out) == 1)%Q -> (forall m, In m ms -> one_of out (m k)) -> (qsum (map (d_pref (fold_left (fun s m => cpp_duo wt nl m s) ms s) k) out) == 1)%Q).
  { induction ms as [|m ms IH]; intros s E Hm; [exact E|]. cbn [fold_left]. apply IH; [|intros x Hx; apply Hm; right; exact Hx]. rewrite (St m s (Hm m (or_introl eq_refl))), E. ring. }
  destruct masks as [|m ms]; [contradiction|]. cbn [fold_left]. apply G; [|intros x Hx; apply H; right; exact Hx]. rewrite (St m cduo0 (H m (or_introl eq_refl))). cbn [d_active cduo0]. ring.
Qed.
(** ** Examples *)
Definition on (ls : list lid) (k : nid) (l : lid) : bool := existsb (Nat.eqb l) ls.
Lemma duo_example : let s := fold_left (fun s m => cpp_duo (1#2) 3 m s) [on []; on [0; 2]; on [1; 2]] cduo0 in
  d_active s 0 = true /\ (d_pref s 0%nat 0%nat == 1#2)%Q /\ (d_pref s 0%nat 1%nat == 1#2)%Q /\ (d_pref s 0%nat 2%nat == 1)%Q.
Proof. vm_compute. repeat split; reflexivity. Qed.
(** with weight 1 a destination that is no longer reached has no preferences, although they were reinforced *)
Lemma active_refuted : let s := fold_left (fun s m => cpp_duo 1 2 m s) [on [0]; on []] cduo0 in d_active s 0 = true /\ (qsum (map (d_pref s 0%nat) (seq 0 2)) == 0)%Q.
Proof. vm_compute. repeat split; reflexivity. Qed.
(** with a weight above 1 the preferences can cancel, and the engines part *)
Lemma weight_refuted : exists wt masks k l, (1 < wt)%Q /\ l < 3 /\
  ~ (d_pref (fold_left (fun s m => cpp_duo wt 3 m s) masks cduo0) k l == fold_left (fun p m => py_duo wt 3 m p) masks (fun _ _ => 0%Q) k l)%Q.
Proof. exists 3%Q, [on [0; 1; 2]; on [0; 1]; on [0]], 0, 1. split; [lra|]. split; [lia|]. vm_compute. intro H. discriminate H. Qed.
