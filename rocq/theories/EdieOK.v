(** * EdieOK: the cells add up to the trajectories. *)
From Coq Require Import Qfield ZifyBool.
From Verif Require Import Base Types Sim FD LinkQueries Demand Edie SpecEdie.
Local Open Scope nat_scope.

Lemma qsum_app : forall a b, (qsum (a ++ b) == qsum a + qsum b)%Q.
Proof. induction a as [|x a IH]; intros b; cbn [app qsum]; [ring|rewrite IH; ring]. Qed.

(** ** Floors *)
Lemma qidiv_spec : forall a b, (0 < b)%Q -> (inject_Z (qidiv a b) * b <= a /\ a < inject_Z (qidiv a b) * b + b)%Q.
Proof.
  intros a b Hb. unfold qidiv. pose proof (Qfloor_le (a / b)) as H1. pose proof (Qlt_floor (a / b)) as H2.
  rewrite inject_Z_plus in H2. change (inject_Z 1) with 1%Q in H2.
  assert (E : (a / b * b == a)%Q) by (field; lra).
  split.
  - apply Qmult_le_compat_r with (z := b) in H1; [|lra]. rewrite E in H1. exact H1.
  - apply Qmult_lt_compat_r with (z := b) in H2; [|lra]. rewrite E in H2. lra.
Qed.
Lemma zmul_le : forall i j b, (0 < b)%Q -> (i <= j)%Z -> (inject_Z i * b <= inject_Z j * b)%Q.
Proof. intros i j b Hb H. apply Qmult_le_compat_r; [|lra]. rewrite <- Zle_Qle. exact H. Qed.
Lemma zmul_lt : forall i j b, (0 < b)%Q -> (i < j)%Z -> (inject_Z i * b + b <= inject_Z j * b)%Q.
Proof.
  intros i j b Hb H. pose proof (@zmul_le (i + 1) j b Hb ltac:(lia)) as K. rewrite inject_Z_plus in K.
  change (inject_Z 1) with 1%Q in K. lra.
Qed.
Lemma qidiv_unique : forall a b k, (0 < b)%Q -> (inject_Z k * b <= a)%Q -> (a < inject_Z k * b + b)%Q -> qidiv a b = k.
Proof.
  intros a b k Hb H1 H2. destruct (qidiv_spec a b Hb) as [K1 K2].
  destruct (Z.lt_trichotomy (qidiv a b) k) as [H|[H|H]]; [|exact H|].
  - pose proof (zmul_lt _ _ _ Hb H). lra.
  - pose proof (zmul_lt _ _ _ Hb H). lra.
Qed.
Lemma qidiv_nonneg : forall a b, (0 < b)%Q -> (0 <= a)%Q -> (0 <= qidiv a b)%Z.
Proof.
  intros a b Hb Ha. destruct (qidiv_spec a b Hb) as [K1 K2].
  destruct (Z.le_gt_cases 0 (qidiv a b)) as [H|H]; [exact H|exfalso].
  pose proof (zmul_lt _ _ _ Hb H). change (inject_Z 0) with 0%Q in *. lra.
Qed.
Lemma qidiv_mono : forall a c b, (0 < b)%Q -> (a <= c)%Q -> (qidiv a b <= qidiv c b)%Z.
Proof.
  intros a c b Hb H. destruct (qidiv_spec a b Hb) as [K1 K2]. destruct (qidiv_spec c b Hb) as [J1 J2].
  destruct (Z.le_gt_cases (qidiv a b) (qidiv c b)) as [E|E]; [exact E|exfalso].
  pose proof (zmul_lt _ _ _ Hb E). lra.
Qed.

(** ** Minimum and maximum *)
Lemma qmin_cases : forall a b, ((a <= b)%Q /\ qmin a b = a) \/ ((b < a)%Q /\ qmin a b = b).
Proof. intros a b. unfold qmin. destruct (qle a b) eqn:E; [left|right]; (split; [|reflexivity]); [apply qle_iff|apply qle_false]; exact E. Qed.
Lemma qmax_cases : forall a b, ((a <= b)%Q /\ qmax a b = b) \/ ((b < a)%Q /\ qmax a b = a).
Proof. intros a b. unfold qmax. destruct (qle a b) eqn:E; [left|right]; (split; [|reflexivity]); [apply qle_iff|apply qle_false]; exact E. Qed.
Ltac overlap_lra :=
  unfold overlap in *;
  repeat match goal with
  | |- context [qmax 0 ?b] => destruct (qmax_cases 0 b) as [[? ->]|[? ->]]
  | |- context [qmin ?a ?b] => destruct (qmin_cases a b) as [[? OVE]|[? OVE]]; rewrite ?OVE in *; clear OVE
  | |- context [qmax ?a ?b] => destruct (qmax_cases a b) as [[? OVE]|[? OVE]]; rewrite ?OVE in *; clear OVE
  | H : context [qmin ?a ?b] |- _ => destruct (qmin_cases a b) as [[? OVE]|[? OVE]]; rewrite ?OVE in *; clear OVE
  | H : context [qmax ?a ?b] |- _ => destruct (qmax_cases a b) as [[? OVE]|[? OVE]]; rewrite ?OVE in *; clear OVE
  end; try lra.

(** ** Sums over entries *)
Definition at_cell (i j : Z) (e : entry) : bool := ((i =? fst (fst e)) && (j =? snd (fst e)))%Z.
Definition esum (pr : Q * Q -> Q) (i j : Z) (es : list entry) : Q :=
  qsum (map (fun e => if at_cell i j e then pr (snd e) else 0%Q) es).
Lemma esum_app : forall pr i j a b, (esum pr i j (a ++ b) == esum pr i j a + esum pr i j b)%Q.
Proof.
  intros pr i j a b. unfold esum. induction a as [|e a IH]; cbn [map qsum app]; [lra|]. rewrite IH. lra.
Qed.
Definition in_range (nt nx : Z) (e : entry) : Prop := (0 <= fst (fst e) < nt /\ 0 <= snd (fst e) < nx)%Z.

Lemma py_index_id : forall n i, (0 <= i < n)%Z -> py_index n i = Ok i.
Proof.
  intros n i H. unfold py_index. rewrite (proj2 (Z.ltb_ge i 0)) by lia. cbn zeta.
  rewrite (proj2 (Z.leb_le 0 i)) by lia. rewrite (proj2 (Z.ltb_lt i n)) by lia. reflexivity.
Qed.
Lemma add_entries : forall nt nx es m, (forall e, In e es -> in_range nt nx e) ->
  exists m', foldM (add_entry nt nx) es m = Ok m' /\
   forall i j, (fst (m' i j) == fst (m i j) + esum fst i j es)%Q /\ (snd (m' i j) == snd (m i j) + esum snd i j es)%Q.
Proof.
  induction es as [|e es IH]; intros m H.
  - exists m. split; [reflexivity|]. intros i j. unfold esum. cbn [map qsum]. split; lra.
  - destruct (H e (or_introl eq_refl)) as [Hr Hc].
    destruct (IH (cadd (fst (fst e)) (snd (fst e)) (snd e) m)) as (m' & E & F); [intros; apply H; right; assumption|].
    exists m'. split.
    + cbn [foldM]. unfold add_entry at 1. rewrite (py_index_id _ _ Hr). cbn [bind]. rewrite (py_index_id _ _ Hc). cbn [bind]. exact E.
    + intros i j. specialize (F i j). unfold esum in *. cbn [map qsum]. unfold cadd, at_cell in *.
      destruct ((i =? fst (fst e)) && (j =? snd (fst e)))%Z; cbn [fst snd] in F; destruct F as [F1 F2]; rewrite F1, F2; split; lra.
Qed.

Lemma esum_flat : forall pr (g : Z -> Q * Q) nx tt xx n i j,
  (esum pr i j (flat_map (fun k => if (xx + Z.of_nat k <? nx)%Z then [(tt, (xx + Z.of_nat k)%Z, g (Z.of_nat k))] else []) (seq 0 n)) ==
   if ((i =? tt) && (xx <=? j) && (j <? xx + Z.of_nat n) && (j <? nx))%Z then pr (g (j - xx)%Z) else 0)%Q.
Proof.
  intros pr g nx tt xx n i j. induction n as [|n IH].
  - cbn [seq flat_map]. unfold esum. cbn [map qsum].
    destruct (xx <=? j)%Z eqn:A; destruct (j <? xx + Z.of_nat 0)%Z eqn:B; try (exfalso; lia); rewrite ?andb_false_r; cbn [andb]; reflexivity.
  - rewrite seq_S, flat_map_app, esum_app, IH. rewrite Nat.add_0_l. cbn [flat_map]. rewrite app_nil_r.
    destruct (xx + Z.of_nat n <? nx)%Z eqn:A.
    + unfold esum. cbn [map qsum]. unfold at_cell. cbn [fst snd].
      destruct (i =? tt)%Z eqn:Ei; cbn [andb]; [|lra].
      destruct (j =? xx + Z.of_nat n)%Z eqn:Ej.
      * apply Z.eqb_eq in Ej. subst j. assert (T1 : (xx <=? xx + Z.of_nat n = true)%Z) by lia. assert (T2 : (xx + Z.of_nat n <? xx + Z.of_nat n = false)%Z) by lia. assert (T3 : (xx + Z.of_nat n <? xx + Z.of_nat (S n) = true)%Z) by lia.
        rewrite T1, T2, T3, A. cbn [andb].
        replace (xx + Z.of_nat n - xx)%Z with (Z.of_nat n) by lia. lra.
      * destruct (xx <=? j)%Z eqn:B; cbn [andb]; [|lra].
        destruct (j <? nx)%Z; rewrite ?andb_false_r, ?andb_true_r; [|lra].
        destruct (j <? xx + Z.of_nat n)%Z eqn:C; destruct (j <? xx + Z.of_nat (S n))%Z eqn:D; try (exfalso; lia); lra.
    + unfold esum. cbn [map qsum].
      destruct (i =? tt)%Z eqn:Ei; cbn [andb]; [|lra].
      destruct (xx <=? j)%Z eqn:B; cbn [andb]; [|lra].
      destruct (j <? nx)%Z eqn:Hx; rewrite ?andb_false_r, ?andb_true_r; [|lra].
      destruct (j <? xx + Z.of_nat n)%Z eqn:C; destruct (j <? xx + Z.of_nat (S n))%Z eqn:D; try (exfalso; lia); lra.
Qed.

Section Cells.
Variables (dx dt : Q) (nt nx : Z).
Hypothesis (Hdx : (0 < dx)%Q) (Hdt : (0 < dt)%Q).

Lemma seg_range : forall s e, forward s -> In e (seg_entries dx dt nt nx (fst s) (snd s)) -> in_range nt nx e.
Proof.
  intros [p q] e F H. destruct F as (F1 & F2 & F3 & F4 & F5). cbn [fst snd] in *.
  pose proof (qidiv_nonneg _ _ Hdx F1) as P1. pose proof (qidiv_nonneg _ _ Hdt F3) as P2.
  unfold seg_entries in H. cbn zeta in H.
  destruct (qidiv (pt p) dt <? nt)%Z eqn:A; destruct (qidiv (px p) dx <? nx)%Z eqn:B; cbn [andb] in H;
    try (destruct (qlt 0 _) in H; contradiction).
  apply Z.ltb_lt in A. apply Z.ltb_lt in B. destruct (qlt 0 _) in H.
  - destruct (_ =? _)%Z in H.
    + destruct H as [<-|[]]. split; cbn [fst snd]; lia.
    + apply in_flat_map in H. destruct H as (k & _ & H). destruct (_ <? _)%Z eqn:C in H; [|contradiction].
      destruct H as [<-|[]]. apply Z.ltb_lt in C. split; cbn [fst snd]; lia.
  - destruct H as [<-|[]]. split; cbn [fst snd]; lia.
Qed.

Definition cell_lo (j : Z) : Q := (inject_Z j * dx)%Q.
Definition cell_hi (j : Z) : Q := (inject_Z (j + 1) * dx)%Q.
Definition row_lo (i : Z) : Q := (inject_Z i * dt)%Q.
Definition row_hi (i : Z) : Q := (inject_Z (i + 1) * dt)%Q.
Lemma hi_lo : forall j b, (inject_Z (j + 1) * b == inject_Z j * b + b)%Q.
Proof. intros. rewrite inject_Z_plus. change (inject_Z 1) with 1%Q. ring. Qed.

Lemma starts_row : forall s i, starts_in (row_lo i) (row_hi i) s = (i =? qidiv (pt (fst s)) dt)%Z.
Proof.
  intros s i. unfold starts_in, row_lo, row_hi. destruct (i =? _)%Z eqn:E.
  - apply Z.eqb_eq in E. destruct (qidiv_spec (pt (fst s)) dt Hdt) as [K1 K2]. rewrite <- E in *.
    apply andb_true_iff. split; [apply qle_iff; exact K1|apply qlt_iff]. rewrite hi_lo. exact K2.
  - apply Z.eqb_neq in E. apply not_true_iff_false. intros H. apply E. apply andb_true_iff in H. destruct H as [H1 H2].
    apply qle_iff in H1. apply qlt_iff in H2. rewrite hi_lo in H2. symmetry. apply qidiv_unique; assumption.
Qed.

(** the speed of a moving segment *)
Lemma moving_speed : forall p q, forward (p, q) ->
  let v0 := (if qeq (pt q - pt p) 0 then 0 else (px q - px p) / (pt q - pt p))%Q in
  if qlt (px p) (px q) then (0 < v0 /\ v0 == (px q - px p) / (pt q - pt p) /\ pt p < pt q)%Q else (v0 == 0)%Q.
Proof.
  intros p q (F1 & F2 & F3 & F4 & F5). cbn [fst snd] in *. cbn zeta.
  destruct (qlt (px p) (px q)) eqn:E.
  - apply qlt_iff in E. pose proof (F5 E) as Ht. destruct (qeq (pt q - pt p) 0) eqn:E0; [apply qeq_iff in E0; lra|].
    split; [|split; [reflexivity|exact Ht]]. apply Qlt_shift_div_l; lra.
  - apply qlt_false in E. assert (X : (px q - px p == 0)%Q) by lra. destruct (qeq _ _) eqn:E0; [reflexivity|].
    apply qeq_false in E0. rewrite X. unfold Qdiv. ring.
Qed.

Definition pick (b : bool) (x : Q) : Q := if b then x else 0%Q.

Lemma seg_dist : forall s i j, forward s -> (i < nt)%Z -> (0 <= j < nx)%Z ->
  (esum fst i j (seg_entries dx dt nt nx (fst s) (snd s)) == pick (starts_in (row_lo i) (row_hi i) s) (dist_in (cell_lo j) (cell_hi j) s))%Q.
Proof.
  intros [p q] i j F Hi Hj. rewrite starts_row. pose proof (moving_speed p q F) as Mv. cbn zeta in Mv.
  pose proof F as (F1 & F2 & F3 & F4 & F5). cbn [fst snd] in *. unfold seg_entries. cbn zeta.
  unfold dist_in, cell_lo, cell_hi. cbn [fst snd].
  generalize dependent (if qeq (pt q - pt p) 0 then 0%Q else ((px q - px p) / (pt q - pt p))%Q). intros v0 Mv.
  pose proof (qidiv_spec (px p) dx Hdx) as [A1 A2]. pose proof (qidiv_spec (px q) dx Hdx) as [B1 B2].
  pose proof (qidiv_mono _ _ _ Hdx F2) as AB. pose proof (hi_lo j dx) as HL.
  remember (qidiv (px p) dx) as a eqn:Ea. remember (qidiv (px q) dx) as b eqn:Eb. remember (qidiv (pt p) dt) as tt eqn:Et.
  assert (Q0 : (a <? nx = false)%Z -> (0 == overlap (px p) (px q) (inject_Z j * dx) (inject_Z (j + 1) * dx))%Q).
  { intros H. pose proof (@zmul_lt j a dx Hdx ltac:(lia)) as K. overlap_lra. }
  destruct (qlt (px p) (px q)) eqn:E.
  - destruct Mv as (M1 & M2 & M3). rewrite (proj2 (qlt_iff 0 v0) M1). apply qlt_iff in E.
    destruct (tt <? nt)%Z eqn:At; [|assert (Ei : (i =? tt)%Z = false) by lia; rewrite Ei; reflexivity].
    destruct (a <? nx)%Z eqn:Ax; cbn [andb];
      [|unfold pick, esum; cbn [map qsum]; destruct (i =? tt)%Z; [apply Q0; reflexivity|reflexivity]].
    destruct (a =? b)%Z eqn:Eab.
    + apply Z.eqb_eq in Eab. unfold esum, at_cell, pick. cbn [map qsum fst snd]. destruct (i =? tt)%Z; cbn [andb]; [|lra].
      destruct (j =? a)%Z eqn:Ej.
      * apply Z.eqb_eq in Ej. subst j. rewrite <- Eab in *. overlap_lra.
      * apply Z.eqb_neq in Ej. rewrite <- Eab in *. destruct (Z.lt_ge_cases j a) as [K|K].
        -- pose proof (@zmul_lt j a dx Hdx K). overlap_lra.
        -- pose proof (@zmul_lt a j dx Hdx ltac:(lia)). overlap_lra.
    + apply Z.eqb_neq in Eab.
      rewrite (esum_flat fst (fun k => if (k =? 0)%Z then ((dx - qmod (px p) dx)%Q, ((dx - qmod (px p) dx) / v0)%Q)
                                else if (k =? b - a + 1 - 1)%Z then (qmod (px q) dx, (qmod (px q) dx / v0)%Q) else (dx, (dx / v0)%Q))).
      rewrite (proj2 (Z.ltb_lt j nx)) by lia. rewrite Z2Nat.id by lia. rewrite andb_true_r. unfold pick.
      destruct (i =? tt)%Z; cbn [andb]; [|reflexivity].
      destruct (a <=? j)%Z eqn:J1; cbn [andb].
      2:{ pose proof (@zmul_lt j a dx Hdx ltac:(lia)). overlap_lra. }
      destruct (j <? a + (b - a + 1))%Z eqn:J2.
      2:{ pose proof (@zmul_lt b j dx Hdx ltac:(lia)). overlap_lra. }
      pose proof (@zmul_lt a b dx Hdx ltac:(lia)) as Kab.
      destruct (j - a =? 0)%Z eqn:J3.
      * assert (j = a) by lia. subst j. cbn [fst]. unfold qmod. rewrite <- Ea. overlap_lra.
      * pose proof (@zmul_lt a j dx Hdx ltac:(lia)) as Kaj.
        destruct (j - a =? b - a + 1 - 1)%Z eqn:J4; cbn [fst].
        -- assert (j = b) by lia. subst j. unfold qmod. rewrite <- Eb. overlap_lra.
        -- pose proof (@zmul_lt j b dx Hdx ltac:(lia)) as Kjb. overlap_lra.
  - apply qlt_false in E. assert (Z0 : qlt 0 v0 = false) by (apply qlt_false; rewrite Mv; apply Qle_refl). rewrite Z0.
    assert (Q1 : (0 == overlap (px p) (px q) (inject_Z j * dx) (inject_Z (j + 1) * dx))%Q) by (clear Q0; overlap_lra).
    unfold pick, esum. destruct (_ && _)%bool; unfold at_cell; cbn [map qsum fst snd]; destruct (i =? tt)%Z; cbn [andb]; try lra.
    destruct (j =? a)%Z; lra.
Qed.

Lemma esum_scale : forall i j v0 es, (forall e, In e es -> (snd (snd e) == fst (snd e) / v0)%Q) -> (esum snd i j es == esum fst i j es / v0)%Q.
Proof.
  intros i j v0 es H. unfold esum. induction es as [|e es IH]; cbn [map qsum].
  - unfold Qdiv. ring.
  - rewrite IH by (intros; apply H; right; assumption). pose proof (H e (or_introl eq_refl)) as He.
    destruct (at_cell i j e); [rewrite He|]; unfold Qdiv; ring.
Qed.
Lemma seg_scale : forall p q e v0, forward (p, q) -> (px p < px q)%Q -> (v0 == (px q - px p) / (pt q - pt p))%Q ->
  In e (seg_entries dx dt nt nx p q) -> (snd (snd e) == fst (snd e) / v0)%Q.
Proof.
  intros p q e v1 F E Hv He. pose proof (moving_speed p q F) as Mv. cbn zeta in Mv. rewrite (proj2 (qlt_iff _ _) E) in Mv.
  unfold seg_entries in He. cbn zeta in He.
  generalize dependent (if qeq (pt q - pt p) 0 then 0%Q else ((px q - px p) / (pt q - pt p))%Q). intros v0 He (M1 & M2 & M3).
  rewrite (proj2 (qlt_iff 0 v0) M1) in He. destruct (_ && _)%bool in He; [|contradiction].
  assert (Hvv : (v1 == v0)%Q) by (rewrite Hv, M2; reflexivity). rewrite Hvv.
  destruct (_ =? _)%Z in He.
  - destruct He as [<-|[]]. cbn [fst snd]. rewrite M2. field. split; lra.
  - apply in_flat_map in He. destruct He as (k & _ & He). destruct (_ <? _)%Z in He; [|contradiction].
    destruct He as [<-|[]]. cbn [fst snd]. destruct (_ =? _)%Z; [reflexivity|]. destruct (_ =? _)%Z; reflexivity.
Qed.
Lemma seg_time : forall s i j, forward s -> (i < nt)%Z -> (0 <= j < nx)%Z ->
  (esum snd i j (seg_entries dx dt nt nx (fst s) (snd s)) == pick (starts_in (row_lo i) (row_hi i) s) (time_in (cell_lo j) (cell_hi j) s))%Q.
Proof.
  intros [p q] i j F Hi Hj. cbn [fst snd]. destruct (qlt (px p) (px q)) eqn:E.
  - pose proof (proj1 (qlt_iff _ _) E) as E'. pose proof F as (F1 & F2 & F3 & F4 & F5). cbn [fst snd] in *.
    rewrite (esum_scale i j ((px q - px p) / (pt q - pt p))%Q).
    2:{ intros e He. apply (seg_scale p q e _ F E' (Qeq_refl _) He). }
    pose proof (seg_dist (p, q) i j F Hi Hj) as D. cbn [fst snd] in D. rewrite D.
    unfold pick, time_in. cbn [fst snd]. rewrite E. specialize (F5 E'). destruct (starts_in _ _ _); field; [split; lra|split; lra].
  - rewrite starts_row. pose proof (moving_speed p q F) as Mv. cbn zeta in Mv. rewrite E in Mv.
    unfold seg_entries. cbn zeta.
    generalize dependent (if qeq (pt q - pt p) 0 then 0%Q else ((px q - px p) / (pt q - pt p))%Q). intros v0 Mv.
    assert (Z0 : qlt 0 v0 = false) by (apply qlt_false; rewrite Mv; apply Qle_refl). rewrite Z0.
    unfold time_in. cbn [fst snd]. rewrite E.
    assert (C : (qle (cell_lo j) (px p) && qlt (px p) (cell_hi j))%bool = (j =? qidiv (px p) dx)%Z).
    { unfold cell_lo, cell_hi. destruct (j =? _)%Z eqn:Ej.
      - apply Z.eqb_eq in Ej. destruct (qidiv_spec (px p) dx Hdx) as [K1 K2]. rewrite <- Ej in *.
        apply andb_true_iff. split; [apply qle_iff; exact K1|apply qlt_iff]. rewrite hi_lo. exact K2.
      - apply Z.eqb_neq in Ej. apply not_true_iff_false. intros H. apply Ej. apply andb_true_iff in H. destruct H as [H1 H2].
        apply qle_iff in H1. apply qlt_iff in H2. rewrite hi_lo in H2. symmetry. apply qidiv_unique; assumption. }
    rewrite C. unfold esum, pick.
    destruct (qidiv (pt p) dt <? nt)%Z eqn:A; destruct (qidiv (px p) dx <? nx)%Z eqn:B; unfold at_cell; cbn [andb map qsum fst snd].
    + destruct (i =? _)%Z; cbn [andb]; [|lra]. destruct (j =? _)%Z; lra.
    + destruct (i =? _)%Z; [|reflexivity]. destruct (j =? _)%Z eqn:Ej; [exfalso; lia|reflexivity].
    + destruct (i =? _)%Z eqn:Ei; [exfalso; lia|reflexivity].
    + destruct (i =? _)%Z eqn:Ei; [exfalso; lia|reflexivity].
Qed.

(** ** All trajectories *)
Lemma add_segs : forall ss m, (forall s, In s ss -> forward s) ->
  exists m', foldM (add_seg dx dt nt nx) ss m = Ok m' /\
  forall i j, (0 <= i < nt)%Z -> (0 <= j < nx)%Z ->
   (fst (m' i j) == fst (m i j) + qsum (map (dist_in (cell_lo j) (cell_hi j)) (filter (starts_in (row_lo i) (row_hi i)) ss)))%Q /\
   (snd (m' i j) == snd (m i j) + qsum (map (time_in (cell_lo j) (cell_hi j)) (filter (starts_in (row_lo i) (row_hi i)) ss)))%Q.
Proof.
  induction ss as [|s ss IH]; intros m H.
  - exists m. split; [reflexivity|]. intros. cbn [filter map qsum]. split; lra.
  - destruct (add_entries nt nx (seg_entries dx dt nt nx (fst s) (snd s)) m) as (m1 & E1 & A1).
    { intros e He. apply (seg_range s e); [apply H; left; reflexivity|exact He]. }
    destruct (IH m1) as (m2 & E2 & A2); [intros; apply H; right; assumption|].
    exists m2. split; [cbn [foldM]; unfold add_seg at 1; rewrite E1; exact E2|].
    intros i j Hi Hj. destruct (A1 i j) as [B1 B2]. destruct (A2 i j Hi Hj) as [C1 C2].
    rewrite C1, C2, B1, B2. pose proof (H s (or_introl eq_refl)) as F.
    rewrite (seg_dist s i j F) by lia. rewrite (seg_time s i j F) by lia.
    cbn [filter]. destruct (starts_in _ _ s); cbn [pick map qsum]; split; lra.
Qed.
Lemma add_trajs : forall trs m, all_forward trs ->
  exists m', foldM (add_traj dx dt nt nx) trs m = Ok m' /\
  forall i j, (0 <= i < nt)%Z -> (0 <= j < nx)%Z ->
   (fst (m' i j) == fst (m i j) + total_from (row_lo i) (row_hi i) (dist_in (cell_lo j) (cell_hi j)) trs)%Q /\
   (snd (m' i j) == snd (m i j) + total_from (row_lo i) (row_hi i) (time_in (cell_lo j) (cell_hi j)) trs)%Q.
Proof.
  induction trs as [|tr trs IH]; intros m H.
  - exists m. split; [reflexivity|]. intros. unfold total_from. cbn [all_segs flat_map filter map qsum]. split; lra.
  - destruct (add_segs (segs tr) m) as (m1 & E1 & A1).
    { intros s Hs. apply (H tr s); [left; reflexivity|exact Hs]. }
    destruct (IH m1) as (m2 & E2 & A2); [intros t s Ht Hs; apply (H t s); [right; exact Ht|exact Hs]|].
    exists m2. split; [cbn [foldM]; unfold add_traj at 1; rewrite E1; exact E2|].
    intros i j Hi Hj. destruct (A1 i j Hi Hj) as [B1 B2]. destruct (A2 i j Hi Hj) as [C1 C2].
    rewrite C1, C2, B1, B2. unfold total_from. cbn [all_segs flat_map]. rewrite filter_app, !map_app.
    split; rewrite qsum_app; unfold all_segs; ring.
Qed.
End Cells.

(** ** The matrices *)
Lemma ncells_ok : forall a d, (0 < d)%Q -> (0 <= a)%Q -> ncells a d = Ok (qidiv a d) /\ (0 <= qidiv a d)%Z.
Proof.
  intros a d Hd Ha. split; [|apply qidiv_nonneg; assumption]. unfold ncells, qdiv.
  destruct (qeq d 0) eqn:E; [apply qeq_iff in E; lra|]. cbn [bind]. f_equal. unfold qidiv. apply qtrunc_floor.
  apply Qle_shift_div_l; lra.
Qed.

Lemma cell_lemma : forall dx dt len tmax dn trs, (0 < dx)%Q -> (0 < dt)%Q -> (0 <= len)%Q -> (0 <= tmax)%Q -> all_forward trs ->
  exists m, edie dx dt len tmax dn trs = Ok m /\
   forall i j, (0 <= i < qidiv tmax dt)%Z -> (0 <= j < qidiv len dx)%Z ->
    (fst (m i j) == dn * total_from (inject_Z i * dt) (inject_Z (i + 1) * dt) (dist_in (inject_Z j * dx) (inject_Z (j + 1) * dx)) trs)%Q /\
    (snd (m i j) == dn * total_from (inject_Z i * dt) (inject_Z (i + 1) * dt) (time_in (inject_Z j * dx) (inject_Z (j + 1) * dx)) trs)%Q.
Proof.
  intros dx dt len tmax dn trs Hdx Hdt Hl Ht F.
  destruct (ncells_ok len dx Hdx Hl) as [E1 P1]. destruct (ncells_ok tmax dt Hdt Ht) as [E2 P2].
  destruct (add_trajs dx dt (qidiv tmax dt) (qidiv len dx) Hdx Hdt trs (fun _ _ => (0, 0)%Q) F) as (m & E & A).
  exists (fun i j => (dn * fst (m i j), dn * snd (m i j))%Q). split.
  - unfold edie. rewrite E1. cbn [bind]. rewrite E2. cbn [bind]. rewrite E. reflexivity.
  - intros i j Hi Hj. destruct (A i j Hi Hj) as [A1 A2]. cbn [fst snd] in *. rewrite A1, A2.
    unfold row_lo, row_hi, cell_lo, cell_hi. split; ring.
Qed.

(** ** Totals *)
Lemma qsum_ext : forall A (f g : A -> Q) l, (forall x, In x l -> (f x == g x)%Q) -> (qsum (map f l) == qsum (map g l))%Q.
Proof.
  intros A f g l. induction l as [|x l IH]; intros H; cbn [map qsum]; [reflexivity|].
  rewrite (H x) by (left; reflexivity). rewrite IH by (intros; apply H; right; assumption). reflexivity.
Qed.
Lemma qsum_scale : forall A (f : A -> Q) k l, (qsum (map (fun x => k * f x) l) == k * qsum (map f l))%Q.
Proof. intros A f k l. induction l as [|x l IH]; cbn [map qsum]; [ring|rewrite IH; ring]. Qed.
Lemma qsum_plus : forall A (f g : A -> Q) l, (qsum (map (fun x => f x + g x) l) == qsum (map f l) + qsum (map g l))%Q.
Proof. intros A f g l. induction l as [|x l IH]; cbn [map qsum]; [ring|rewrite IH; ring]. Qed.
Lemma qsum_zero_map : forall A (f : A -> Q) l, (forall x, In x l -> (f x == 0)%Q) -> (qsum (map f l) == 0)%Q.
Proof.
  intros A f l. induction l as [|x l IH]; intros H; cbn [map qsum]; [reflexivity|].
  rewrite (H x) by (left; reflexivity). rewrite IH by (intros; apply H; right; assumption). ring.
Qed.
Lemma qsum_swap : forall A B (f : A -> B -> Q) l k,
  (qsum (map (fun a => qsum (map (f a) k)) l) == qsum (map (fun b => qsum (map (fun a => f a b) l)) k))%Q.
Proof.
  intros A B f l k. induction l as [|a l IH]; cbn [map qsum].
  - symmetry. apply qsum_zero_map. intros; reflexivity.
  - rewrite IH, <- qsum_plus. reflexivity.
Qed.
Lemma qsum_filter : forall A (f : A -> Q) (b : A -> bool) l, (qsum (map f (filter b l)) == qsum (map (fun x => pick (b x) (f x)) l))%Q.
Proof.
  intros A f b l. induction l as [|x l IH]; cbn [filter map qsum]; [reflexivity|].
  destruct (b x); cbn [map qsum pick]; rewrite IH; ring.
Qed.

Lemma overlap_split : forall x0 x1 a b c, (a <= b)%Q -> (b <= c)%Q -> (x0 <= x1)%Q ->
  (overlap x0 x1 a b + overlap x0 x1 b c == overlap x0 x1 a c)%Q.
Proof. intros. overlap_lra. Qed.
Lemma dist_columns : forall dx s n, (0 < dx)%Q -> forward s ->
  (qsum (map (fun j => dist_in (inject_Z (Z.of_nat j) * dx) (inject_Z (Z.of_nat j + 1) * dx) s) (seq 0 n)) == dist_in 0 (inject_Z (Z.of_nat n) * dx) s)%Q.
Proof.
  intros dx [p q] n Hdx F. pose proof F as (F1 & F2 & _). cbn [fst snd] in *. induction n as [|n IH].
  - cbn [seq map qsum]. change (inject_Z (Z.of_nat 0)) with 0%Q. unfold dist_in. cbn [fst snd]. assert (Z : (0 * dx == 0)%Q) by ring. overlap_lra.
  - rewrite seq_S, map_app, qsum_app, IH, Nat.add_0_l. cbn [map qsum].
    replace (Z.of_nat (S n)) with (Z.of_nat n + 1)%Z by lia. unfold dist_in. cbn [fst snd].
    pose proof (hi_lo (Z.of_nat n) dx) as HL. pose proof (@zmul_le 0 (Z.of_nat n) dx Hdx ltac:(lia)) as HZ.
    change (inject_Z 0) with 0%Q in HZ.
    rewrite Qplus_0_r. apply overlap_split; lra.
Qed.
Lemma time_columns : forall dx s n, (0 < dx)%Q -> forward s ->
  (qsum (map (fun j => time_in (inject_Z (Z.of_nat j) * dx) (inject_Z (Z.of_nat j + 1) * dx) s) (seq 0 n)) == time_in 0 (inject_Z (Z.of_nat n) * dx) s)%Q.
Proof.
  intros dx s n Hdx F. unfold time_in. destruct (qlt (px (fst s)) (px (snd s))) eqn:E.
  - rewrite <- (dist_columns dx s n Hdx F).
    rewrite (qsum_ext _ _ (fun j => (((pt (snd s) - pt (fst s)) / (px (snd s) - px (fst s))) *
       dist_in (inject_Z (Z.of_nat j) * dx) (inject_Z (Z.of_nat j + 1) * dx) s)%Q)).
    + rewrite qsum_scale. unfold Qdiv. ring.
    + intros j _. unfold Qdiv. ring.
  - pose proof F as (F1 & _). induction n as [|n IH].
    + cbn [seq map qsum]. destruct (_ && _)%bool eqn:B; [exfalso|reflexivity].
      apply andb_true_iff in B. destruct B as [B1 B2]. apply qle_iff in B1. apply qlt_iff in B2. change (inject_Z (Z.of_nat 0)) with 0%Q in B2. lra.
    + rewrite seq_S, map_app, qsum_app, IH, Nat.add_0_l. cbn [map qsum].
      replace (Z.of_nat (S n)) with (Z.of_nat n + 1)%Z by lia.
      pose proof (hi_lo (Z.of_nat n) dx) as HL. pose proof (@zmul_le 0 (Z.of_nat n) dx Hdx ltac:(lia)) as HZ.
      change (inject_Z 0) with 0%Q in HZ.
      repeat match goal with |- context [qle ?a ?b] => destruct (qle a b) eqn:?; [match goal with H : qle a b = true |- _ => apply qle_iff in H end|match goal with H : qle a b = false |- _ => apply qle_false in H end]
        | |- context [qlt ?a ?b] => destruct (qlt a b) eqn:?; [match goal with H : qlt a b = true |- _ => apply qlt_iff in H end|match goal with H : qlt a b = false |- _ => apply qlt_false in H end] end; cbn [andb]; lra.
Qed.
Lemma starts_rows : forall dt (f : point * point -> Q) s n, (0 < dt)%Q -> forward s ->
  (qsum (map (fun i => pick (starts_in (inject_Z (Z.of_nat i) * dt) (inject_Z (Z.of_nat i + 1) * dt) s) (f s)) (seq 0 n)) ==
   pick (starts_in 0 (inject_Z (Z.of_nat n) * dt) s) (f s))%Q.
Proof.
  intros dt f s n Hdt (_ & _ & F3 & _). unfold starts_in. induction n as [|n IH].
  - cbn [seq map qsum]. unfold pick. destruct (_ && _)%bool eqn:B; [exfalso|reflexivity].
    apply andb_true_iff in B. destruct B as [B1 B2]. apply qle_iff in B1. apply qlt_iff in B2. change (inject_Z (Z.of_nat 0)) with 0%Q in B2. lra.
  - rewrite seq_S, map_app, qsum_app, IH, Nat.add_0_l. cbn [map qsum]. unfold pick.
    replace (Z.of_nat (S n)) with (Z.of_nat n + 1)%Z by lia.
    pose proof (hi_lo (Z.of_nat n) dt) as HL. pose proof (@zmul_le 0 (Z.of_nat n) dt Hdt ltac:(lia)) as HZ.
    change (inject_Z 0) with 0%Q in HZ.
    repeat match goal with |- context [qle ?a ?b] => destruct (qle a b) eqn:?; [match goal with H : qle a b = true |- _ => apply qle_iff in H end|match goal with H : qle a b = false |- _ => apply qle_false in H end]
        | |- context [qlt ?a ?b] => destruct (qlt a b) eqn:?; [match goal with H : qlt a b = true |- _ => apply qlt_iff in H end|match goal with H : qlt a b = false |- _ => apply qlt_false in H end] end; cbn [andb]; lra.
Qed.

Lemma in_all_segs : forall trs s, all_forward trs -> In s (all_segs trs) -> forward s.
Proof. intros trs s F H. apply in_flat_map in H. destruct H as (tr & H1 & H2). exact (F tr s H1 H2). Qed.

Lemma sum_of_cells : forall dx dt nt nx (f : Q -> Q -> point * point -> Q) trs, (0 < dx)%Q -> (0 < dt)%Q -> all_forward trs ->
  (forall s n, forward s -> (qsum (map (fun j => f (inject_Z (Z.of_nat j) * dx) (inject_Z (Z.of_nat j + 1) * dx) s) (seq 0 n)) == f 0 (inject_Z (Z.of_nat n) * dx) s))%Q ->
  (cell_sum nt nx (fun i j => total_from (inject_Z i * dt) (inject_Z (i + 1) * dt) (f (inject_Z j * dx) (inject_Z (j + 1) * dx)) trs) ==
   total_from 0 (inject_Z (Z.of_nat nt) * dt) (f 0 (inject_Z (Z.of_nat nx) * dx)) trs)%Q.
Proof.
  intros dx dt nt nx f trs Hdx Hdt F Hf. unfold cell_sum, total_from.
  rewrite (qsum_ext _ _ (fun i => qsum (map (fun s => pick (starts_in (inject_Z (Z.of_nat i) * dt) (inject_Z (Z.of_nat i + 1) * dt) s)
     (f 0 (inject_Z (Z.of_nat nx) * dx) s))%Q (all_segs trs)))).
  - rewrite qsum_swap, qsum_filter. apply qsum_ext. intros s Hs. apply starts_rows; [exact Hdt|]. exact (in_all_segs trs s F Hs).
  - intros i _. rewrite qsum_swap, qsum_filter. apply qsum_ext. intros s Hs. unfold pick at 1.
    destruct (starts_in _ _ s); cbn [pick]; [apply Hf; exact (in_all_segs trs s F Hs)|reflexivity].
Qed.

Lemma cell_sum_ext : forall nt nx f g, (forall i j, (0 <= i < Z.of_nat nt)%Z -> (0 <= j < Z.of_nat nx)%Z -> (f i j == g i j)%Q) ->
  (cell_sum nt nx f == cell_sum nt nx g)%Q.
Proof.
  intros nt nx f g H. unfold cell_sum. apply qsum_ext. intros i Hi. apply in_seq in Hi. apply qsum_ext. intros j Hj. apply in_seq in Hj.
  apply H; lia.
Qed.
Lemma cell_sum_scale : forall nt nx k f, (cell_sum nt nx (fun i j => k * f i j) == k * cell_sum nt nx f)%Q.
Proof.
  intros nt nx k f. unfold cell_sum. rewrite <- qsum_scale. apply qsum_ext. intros i _. apply qsum_scale.
Qed.

Lemma total_lemma : forall dx dt len tmax dn trs, (0 < dx)%Q -> (0 < dt)%Q -> (0 <= len)%Q -> (0 <= tmax)%Q -> all_forward trs ->
  let nx := qidiv len dx in let nt := qidiv tmax dt in
  exists m, edie dx dt len tmax dn trs = Ok m /\
    (cell_sum (Z.to_nat nt) (Z.to_nat nx) (fun i j => fst (m i j)) == dn * total_from 0 (inject_Z nt * dt) (dist_in 0 (inject_Z nx * dx)) trs)%Q /\
    (cell_sum (Z.to_nat nt) (Z.to_nat nx) (fun i j => snd (m i j)) == dn * total_from 0 (inject_Z nt * dt) (time_in 0 (inject_Z nx * dx)) trs)%Q.
Proof.
  intros dx dt len tmax dn trs Hdx Hdt Hl Ht F. cbn zeta.
  destruct (cell_lemma dx dt len tmax dn trs Hdx Hdt Hl Ht F) as (m & E & A). exists m. split; [exact E|].
  pose proof (qidiv_nonneg _ _ Hdx Hl) as P1. pose proof (qidiv_nonneg _ _ Hdt Ht) as P2.
  assert (Z1 : Z.of_nat (Z.to_nat (qidiv len dx)) = qidiv len dx) by lia.
  assert (Z2 : Z.of_nat (Z.to_nat (qidiv tmax dt)) = qidiv tmax dt) by lia.
  split.
  - rewrite (cell_sum_ext _ _ _ (fun i j => dn * total_from (inject_Z i * dt) (inject_Z (i + 1) * dt) (dist_in (inject_Z j * dx) (inject_Z (j + 1) * dx)) trs)%Q).
    + rewrite cell_sum_scale. rewrite (sum_of_cells dx dt _ _ dist_in trs Hdx Hdt F); [rewrite Z1, Z2; reflexivity|].
      intros s n Fs. apply dist_columns; assumption.
    + intros i j Hi Hj. apply A; lia.
  - rewrite (cell_sum_ext _ _ _ (fun i j => dn * total_from (inject_Z i * dt) (inject_Z (i + 1) * dt) (time_in (inject_Z j * dx) (inject_Z (j + 1) * dx)) trs)%Q).
    + rewrite cell_sum_scale. rewrite (sum_of_cells dx dt _ _ time_in trs Hdx Hdt F); [rewrite Z1, Z2; reflexivity|].
      intros s n Fs. apply time_columns; assumption.
    + intros i j Hi Hj. apply A; lia.
Qed.

(** cells that cover the whole link and the whole time *)
Lemma whole_lemma : forall dx dt len tmax dn trs nx nt, (0 < dx)%Q -> (0 < dt)%Q -> (len == inject_Z (Z.of_nat nx) * dx)%Q ->
  (tmax == inject_Z (Z.of_nat nt) * dt)%Q -> all_forward trs -> within len tmax trs ->
  exists m, edie dx dt len tmax dn trs = Ok m /\
    (cell_sum nt nx (fun i j => fst (m i j)) == dn * qsum (map (fun s => px (snd s) - px (fst s)) (all_segs trs)))%Q /\
    (cell_sum nt nx (fun i j => snd (m i j)) == dn * qsum (map (fun s => pt (snd s) - pt (fst s)) (filter (fun s => qlt (px (fst s)) len) (all_segs trs))))%Q.
Proof.
  intros dx dt len tmax dn trs nx nt Hdx Hdt El Et F W.
  pose proof (@zmul_le 0 (Z.of_nat nx) dx Hdx ltac:(lia)) as HX. pose proof (@zmul_le 0 (Z.of_nat nt) dt Hdt ltac:(lia)) as HT.
  change (inject_Z 0) with 0%Q in *.
  assert (Nx : qidiv len dx = Z.of_nat nx) by (apply qidiv_unique; lra).
  assert (Nt : qidiv tmax dt = Z.of_nat nt) by (apply qidiv_unique; lra).
  destruct (total_lemma dx dt len tmax dn trs Hdx Hdt ltac:(lra) ltac:(lra) F) as (m & E & A1 & A2).
  rewrite Nx, Nt, !Nat2Z.id in A1, A2. exists m. split; [exact E|]. rewrite A1, A2. unfold total_from. rewrite !qsum_filter.
  assert (D : forall s, In s (all_segs trs) -> forward s /\ (px (snd s) <= len)%Q /\ (pt (snd s) <= tmax)%Q /\
     (starts_in 0 (inject_Z (Z.of_nat nt) * dt) s = true \/ (starts_in 0 (inject_Z (Z.of_nat nt) * dt) s = false /\ px (snd s) == px (fst s) /\ pt (snd s) == pt (fst s))%Q)).
  { intros s Hs. pose proof (in_all_segs trs s F Hs) as Fs. destruct (W s Hs) as [W1 W2]. split; [exact Fs|]. split; [exact W1|]. split; [exact W2|].
    destruct (starts_in _ _ s) eqn:B; [left; reflexivity|right]. destruct Fs as (F1 & F2 & F3 & F4 & F5).
    unfold starts_in in B. rewrite (proj2 (qle_iff _ _) F3) in B. cbn [andb] in B. apply qlt_false in B.
    split; [reflexivity|]. assert (T : (pt (snd s) == pt (fst s))%Q) by lra. split; [|exact T].
    destruct (Qlt_le_dec (px (fst s)) (px (snd s))) as [K|K]; [specialize (F5 K); lra|lra]. }
  split.
  - apply Qmult_comp; [reflexivity|]. apply qsum_ext. intros s Hs. destruct (D s Hs) as (Fs & W1 & W2 & [B|(B & X & T)]); rewrite B; cbn [pick].
    + destruct Fs as (F1 & F2 & _). unfold dist_in. overlap_lra.
    + lra.
  - apply Qmult_comp; [reflexivity|]. apply qsum_ext. intros s Hs. destruct (D s Hs) as (Fs & W1 & W2 & [B|(B & X & T)]); rewrite B; cbn [pick].
    + pose proof Fs as (F1 & F2 & _ & _ & F5). unfold time_in. destruct (qlt (px (fst s)) (px (snd s))) eqn:M.
      * apply qlt_iff in M. rewrite (proj2 (qlt_iff (px (fst s)) len)) by lra. cbn [pick].
        assert (O : (dist_in 0 (inject_Z (Z.of_nat nx) * dx) s == px (snd s) - px (fst s))%Q) by (unfold dist_in; overlap_lra).
        rewrite O. field. lra.
      * rewrite (proj2 (qle_iff _ _) F1). cbn [andb]. destruct (qlt (px (fst s)) len) eqn:K.
        -- apply qlt_iff in K. rewrite (proj2 (qlt_iff (px (fst s)) _)) by lra. reflexivity.
        -- apply qlt_false in K. rewrite (proj2 (qlt_false (px (fst s)) _)) by lra. reflexivity.
    + destruct (qlt _ len); cbn [pick]; lra.
Qed.

(** ** Flow, density and speed of a cell *)
Lemma qkv_lemma : forall u dx dt d, ~ (density dx dt d == 0)%Q -> (flow dx dt d == density dx dt d * speed_of u dx dt d)%Q.
Proof.
  intros u dx dt d H. unfold speed_of. destruct (qeq _ 0) eqn:E; [apply qeq_iff in E; contradiction|]. field. exact H.
Qed.

Lemma dist_in_nonneg : forall a b s, (0 <= dist_in a b s)%Q.
Proof. intros. unfold dist_in. overlap_lra. Qed.
Lemma time_in_nonneg : forall a b s, forward s -> (0 <= time_in a b s)%Q.
Proof.
  intros a b s (F1 & F2 & F3 & F4 & F5). unfold time_in. destruct (qlt _ _) eqn:E.
  - apply qlt_iff in E. apply Qmult_le_0_compat; [|lra]. apply Qle_shift_div_l; [lra|]. pose proof (dist_in_nonneg a b s). lra.
  - destruct (_ && _)%bool; lra.
Qed.
(** an empty cell has no flow either, so the value nan only arises from 0/0 *)
Lemma time_zero_dist : forall a b s, forward s -> (time_in a b s == 0)%Q -> (dist_in a b s == 0)%Q.
Proof.
  intros a b s (F1 & F2 & F3 & F4 & F5) H. unfold time_in in H. destruct (qlt _ _) eqn:E.
  - apply qlt_iff in E. specialize (F5 E).
    assert (K : (dist_in a b s == dist_in a b s / (px (snd s) - px (fst s)) * (pt (snd s) - pt (fst s)) * (px (snd s) - px (fst s)) / (pt (snd s) - pt (fst s)))%Q) by (field; split; lra).
    rewrite K, H. unfold Qdiv. ring.
  - apply qlt_false in E. unfold dist_in. clear H. overlap_lra.
Qed.
Lemma sum_zero_each : forall A (f : A -> Q) l, (forall x, In x l -> (0 <= f x)%Q) -> (qsum (map f l) == 0)%Q -> forall x, In x l -> (f x == 0)%Q.
Proof.
  intros A f l. induction l as [|y l IH]; intros P H x Hx; [contradiction|]. cbn [map qsum] in H.
  assert (P1 : (0 <= f y)%Q) by (apply P; left; reflexivity).
  assert (P2 : (0 <= qsum (map f l))%Q).
  { clear - P. induction l as [|z l IH]; cbn [map qsum]; [lra|].
    assert (0 <= f z)%Q by (apply P; right; left; reflexivity).
    assert (0 <= qsum (map f l))%Q by (apply IH; intros x [->|Hx]; apply P; [left; reflexivity|right; right; exact Hx]). lra. }
  destruct Hx as [->|Hx]; [lra|]. apply IH; [intros; apply P; right; assumption|lra|exact Hx].
Qed.
Lemma empty_cell_lemma : forall dx dt len tmax dn trs m i j, (0 < dx)%Q -> (0 < dt)%Q -> (0 <= len)%Q -> (0 <= tmax)%Q -> all_forward trs ->
  edie dx dt len tmax dn trs = Ok m -> (0 <= i < qidiv tmax dt)%Z -> (0 <= j < qidiv len dx)%Z ->
  (density dx dt (m i j) == 0)%Q -> (flow dx dt (m i j) == 0)%Q.
Proof.
  intros dx dt len tmax dn trs m i j Hdx Hdt Hl Ht F E Hi Hj H.
  destruct (cell_lemma dx dt len tmax dn trs Hdx Hdt Hl Ht F) as (m' & E' & A). rewrite E in E'. injection E' as <-.
  destruct (A i j Hi Hj) as [A1 A2]. unfold density, flow in *.
  assert (Z0 : (snd (m i j) == 0)%Q).
  { assert (K : (snd (m i j) == snd (m i j) / dt / dx * dt * dx)%Q) by (field; split; lra). rewrite K, H. ring. }
  rewrite A2 in Z0. destruct (Qeq_dec dn 0) as [D|D].
  - rewrite A1, D. unfold Qdiv. ring.
  - assert (S0 : (total_from (inject_Z i * dt) (inject_Z (i + 1) * dt) (time_in (inject_Z j * dx) (inject_Z (j + 1) * dx)) trs == 0)%Q).
    { apply Qmult_integral in Z0. destruct Z0 as [Z0|Z0]; [contradiction|exact Z0]. }
    assert (D0 : (total_from (inject_Z i * dt) (inject_Z (i + 1) * dt) (dist_in (inject_Z j * dx) (inject_Z (j + 1) * dx)) trs == 0)%Q).
    { unfold total_from in *. apply qsum_zero_map. intros s Hs.
      assert (Fs : forall s0, In s0 (filter (starts_in (inject_Z i * dt) (inject_Z (i + 1) * dt)) (all_segs trs)) -> forward s0).
      { intros s0 Hs0. apply filter_In in Hs0. exact (in_all_segs trs s0 F (proj1 Hs0)). }
      apply time_zero_dist; [exact (Fs s Hs)|].
      exact (sum_zero_each _ _ _ (fun x Hx => time_in_nonneg _ _ x (Fs x Hx)) S0 s Hs). }
    rewrite A1, D0. unfold Qdiv. ring.
Qed.
