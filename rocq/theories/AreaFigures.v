(** * AreaFigures: delay, speed and density of areas in terms of the links (property C55). *)
From Verif Require Import Base Types Sim Build Heap Lists Inv FrameBase Tac Frame Eff Eff2 Trace InvStep Reach Steps Spec SpecStats Counts LinkQueries SpecTT SpecDelay SpecLinks Delay LogRoute LinkStats AreaStats.
Local Open Scope nat_scope.

(** the number of vehicles that left link [l] less the number of vehicles on it: the weight of the link *)
Definition surplus (c : cfg) (w : world) (l : lid) : Q :=
  inject_Z (last0 (l_cd (L w l)) - c_deltan c * Z.of_nat (List.length (l_vehs (L w l)))).
(** the sum of [f] over the links of the area, weighted *)
Definition area_sum (c : cfg) (w : world) (area : list nid) (border : bool) (f : lid -> Q) : Q :=
  qsum (map (fun l => f l * surplus c w l)%Q (area_links w area border)).

Lemma row_values : forall c w rs l, (0 <= c_deltan c)%Z -> reach c w -> link_rows w = Ok rs -> exists_link w l ->
  weight w l = surplus c w l /\ r_length (row_of w l) = l_len (L w l) /\ (r_free (row_of w l) == l_len (L w l) / l_u (L w l))%Q.
Proof.
  intros c w rs l Hn R E Hl. pose proof (rows_exist w rs l E Hl) as K. unfold weight, surplus.
  rewrite (row_remain c w l _ Hn R Hl K). clear E R. unfold link_row_of in K.
  apply bind_ok in K. destruct K as (vol & E1 & K). apply bind_ok in K. destruct K as (arr & E2 & K).
  apply bind_ok in K. destruct K as (free & E3 & K). cbv zeta in K. apply bind_ok in K. destruct K as (ra & _ & K).
  injection K as <-. cbn [r_volume r_remain r_free r_length].
  destruct (last_opt (l_cd (L w l))) as [z|] eqn:El; [|discriminate E1]. injection E1 as ->.
  unfold last0. rewrite El. split; [reflexivity|]. split; [reflexivity|].
  unfold qdiv in E3. destruct (qeq (l_u (L w l)) 0); [discriminate E3|]. injection E3 as <-. reflexivity.
Qed.

(** C55: the figures of an area *)
Theorem area_figures : forall c w t areas border rows t', (0 <= c_deltan c)%Z -> reach c w ->
  area_to_pandas c w t areas border = Ok (rows, t') ->
  Forall2 (fun area a =>
    let time := area_sum c w area border (fun l => r_ave (row_of w l)) in
    let free := area_sum c w area border (fun l => l_len (L w l) / l_u (L w l))%Q in
    let dist := area_sum c w area border (fun l => l_len (L w l)) in
    let len := qsum (map (fun l => l_len (L w l)) (area_links w area border)) in
    ((0 < ar_volume a)%Z ->
      (ar_time a == time)%Q /\
      (~ (free == 0)%Q -> exists q, ar_delay a = Fin q /\ (q == qmax (time / free - 1) 0)%Q) /\
      ((0 < time)%Q -> exists q, ar_speed a = Fin q /\ (q == dist / time)%Q) /\ ((time <= 0)%Q -> ar_speed a = Nan) /\
      ((0 < len)%Q -> ar_density a = Fin (inject_Z (ar_volume a) / len)) /\ ((len <= 0)%Q -> ar_density a = Nan)) /\
    ((ar_volume a <= 0)%Z -> ar_time a = 0%Q /\ ar_delay a = Nan /\ ar_speed a = Nan /\ ar_density a = Nan)) areas rows.
Proof.
  intros c w t areas border rows t' Hn R H. unfold area_to_pandas in H. apply bind_ok in H. destruct H as (rs & E & H). cbv zeta in H.
  injection H as <- _. generalize (vehicles_to_pandas w t). intro df.
  induction areas as [|area areas IH]; [constructor|]. cbn [map]. constructor; [|exact IH]. clear IH. cbv zeta.
  unfold area_row_of. rewrite (area_rows_map w rs area border E). cbv zeta. rewrite !map_map.
  assert (Kl : forall l, In l (area_links w area border) -> exists_link w l) by (intros l Hl; apply area_links_in in Hl; tauto).
  assert (K : forall l, In l (area_links w area border) -> inject_Z (r_volume (row_of w l) - r_remain (row_of w l)) = surplus c w l /\
    r_length (row_of w l) = l_len (L w l) /\ (r_free (row_of w l) == l_len (L w l) / l_u (L w l))%Q)
    by (intros l Hl; exact (row_values c w rs l Hn R E (Kl l Hl))).
  set (ls := area_links w area border) in *.
  assert (T1 : (qsum (map (fun l => r_ave (row_of w l) * inject_Z (r_volume (row_of w l) - r_remain (row_of w l))) ls) == area_sum c w area border (fun l => r_ave (row_of w l)))%Q).
  { apply qsum_same. intros l Hl. destruct (K l Hl) as (-> & _ & _). reflexivity. }
  assert (T2 : (qsum (map (fun l => r_free (row_of w l) * inject_Z (r_volume (row_of w l) - r_remain (row_of w l))) ls) == area_sum c w area border (fun l => l_len (L w l) / l_u (L w l)))%Q).
  { apply qsum_same. intros l Hl. destruct (K l Hl) as (-> & _ & X). rewrite X. reflexivity. }
  assert (T3 : (qsum (map (fun l => r_length (row_of w l) * inject_Z (r_volume (row_of w l) - r_remain (row_of w l))) ls) == area_sum c w area border (fun l => l_len (L w l)))%Q).
  { apply qsum_same. intros l Hl. destruct (K l Hl) as (-> & -> & _). reflexivity. }
  assert (T4 : map (fun l => r_length (row_of w l)) ls = map (fun l => l_len (L w l)) ls).
  { apply map_ext_in. intros l Hl. destruct (K l Hl) as (_ & -> & _). reflexivity. }
  rewrite T4. clear K Kl T4 E.
  revert T1 T2 T3. generalize (area_sum c w area border (fun l => r_ave (row_of w l))) (area_sum c w area border (fun l => l_len (L w l) / l_u (L w l)))%Q
    (area_sum c w area border (fun l => l_len (L w l)))
    (qsum (map (fun l => r_ave (row_of w l) * inject_Z (r_volume (row_of w l) - r_remain (row_of w l))) ls)%Q)
    (qsum (map (fun l => r_free (row_of w l) * inject_Z (r_volume (row_of w l) - r_remain (row_of w l))) ls)%Q)
    (qsum (map (fun l => r_length (row_of w l) * inject_Z (r_volume (row_of w l) - r_remain (row_of w l))) ls)%Q)
    (qsum (map (fun l => l_len (L w l)) ls)).
  intros time free dist time' free' dist' len T1 T2 T3.
  destruct (Z.ltb_spec 0 (Z.of_nat (List.length (nodup string_dec (map fst (filter (fun p => smem (snd p) (map (fun l => l_name (L w l)) ls)) (nodup pair_dec df))))) * c_deltan c)) as [Hv|Hv];
    cbn [ar_volume ar_time ar_delay ar_speed ar_density]; (split; intro Hw; [|]); try lia; [|auto].
  split; [exact T1|]. split.
  { intro F. destruct (qeq free' 0) eqn:Q; [exfalso; apply F; rewrite <- T2; apply qeq_iff; exact Q|]. eexists. split; [reflexivity|].
    unfold qmax. destruct (qle (time' / free' - 1) 0) eqn:Q1, (qle (time / free - 1) 0) eqn:Q2; try reflexivity.
    - apply qle_iff in Q1. apply qle_false in Q2. rewrite T1, T2 in Q1. lra.
    - apply qle_iff in Q2. apply qle_false in Q1. rewrite T1, T2 in Q1. lra.
    - rewrite T1, T2. reflexivity. }
  split. { intro F. destruct (qlt 0 time') eqn:Q; [|apply qlt_false in Q; lra]. eexists. split; [reflexivity|]. rewrite T1, T3. reflexivity. }
  split. { intro F. destruct (qlt 0 time') eqn:Q; [|reflexivity]. apply qlt_iff in Q. lra. }
  split; intro F; destruct (qlt 0 len) eqn:Q; try reflexivity; [apply qlt_false in Q; lra|apply qlt_iff in Q; lra].
Qed.
