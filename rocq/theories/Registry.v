(** * Registry: names of nodes, links and vehicles; get_node and get_link.

    [World.NODES_NAME_DICT] and [LINKS_NAME_DICT] (1797-1798) are the dictionaries
    {name: object}, filled by the constructors (142, 591) right after the check that the name
    is not a key yet.  A dictionary is modelled as the list of its insertions; looking up a key
    gives the last insertion. *)
From Verif Require Import Base Types Sim Build Heap Lists Inv FrameBase Tac Frame Eff Eff2 Trace InvStep Reach Steps Phases Spec.
From Coq Require DecimalString DecimalNat DecimalFacts.
Local Open Scope nat_scope.

(** ** The dictionaries *)
Definition node_dict (w : world) : list (string * nid) := map (fun n => (n_name (N w n), n)) (seq 0 (w_nn w)).
Definition link_dict (w : world) : list (string * lid) := map (fun l => (l_name (L w l), l)) (seq 0 (w_nl w)).

Definition dict_get (d : list (string * nat)) (s : string) : option nat :=
  fold_left (fun r kv => if String.eqb (fst kv) s then Some (snd kv) else r) d None.

(** The argument of get_node/get_link: None, an object of this World, an object of another World
    (given by its name), a string, or anything else (2531-2585). *)
Inductive key : Type := KNone | KOwn (i : nat) | KForeign (name : string) | KName (name : string) | KOther.

Definition lookup (d : list (string * nat)) (s : string) : result (option nat) :=
  match dict_get d s with Some i => Ok (Some i) | None => Err Exception_ end.

Definition get_obj (d : list (string * nat)) (n : nat) (k : key) : result (option nat) :=
  match k with
  | KNone => Ok None
  | KOwn i => if i <? n then Ok (Some i) else Err Exception_
  | KForeign s => lookup d s
  | KName s => lookup d s
  | KOther => Err Exception_
  end.
(** 2531-2558 *)
Definition get_node (w : world) (k : key) : result (option nid) := get_obj (node_dict w) (w_nn w) k.
(** 2560-2585 *)
Definition get_link (w : world) (k : key) : result (option lid) := get_obj (link_dict w) (w_nl w) k.

(** ** Lookup in a dictionary with unique keys *)
Lemma dict_get_app : forall d1 d2 s r0,
  fold_left (fun r (kv : string * nat) => if String.eqb (fst kv) s then Some (snd kv) else r) (d1 ++ d2) r0 =
  fold_left (fun r kv => if String.eqb (fst kv) s then Some (snd kv) else r) d2
    (fold_left (fun r kv => if String.eqb (fst kv) s then Some (snd kv) else r) d1 r0).
Proof. intros; apply fold_left_app. Qed.

Lemma dict_get_some : forall d s i, dict_get d s = Some i -> In (s, i) d.
Proof.
  intros d s i. unfold dict_get. induction d as [|[k x] d IH] using rev_ind; cbn; [discriminate|].
  rewrite dict_get_app. cbn. destruct (String.eqb_spec k s) as [-> |N]; intro H.
  - injection H as ->. apply in_or_app. right; left; auto.
  - apply in_or_app. left. auto.
Qed.
Lemma dict_get_none : forall d s, dict_get d s = None -> ~ In s (map fst d).
Proof.
  intros d s. unfold dict_get. induction d as [|[k x] d IH] using rev_ind; cbn; [auto|].
  rewrite dict_get_app, map_app. cbn. destruct (String.eqb_spec k s) as [-> |N]; intro H; [discriminate|].
  intro K. apply in_app_or in K. destruct K as [K|[K|[]]]; [apply IH in H; auto|auto].
Qed.

Section Lookup.
Variables (f : nat -> string) (n : nat).
Let d := map (fun i => (f i, i)) (seq 0 n).
Hypothesis U : NoDup (map f (seq 0 n)).

Lemma names_inj : forall i j, i < n -> j < n -> f i = f j -> i = j.
Proof.
  intros i j Hi Hj E. rewrite NoDup_nth with (d := EmptyString) in U. rewrite map_length, seq_length in U.
  assert (K : forall k, k < n -> nth k (map f (seq 0 n)) EmptyString = f k).
  { intros k Hk. rewrite nth_indep with (d' := f 0) by (rewrite map_length, seq_length; auto).
    rewrite map_nth, seq_nth by auto. reflexivity. }
  apply U; auto. rewrite !K; auto.
Qed.
Lemma dict_fst : map fst d = map f (seq 0 n).
Proof. unfold d. rewrite map_map. reflexivity. Qed.
Lemma lookup_own : forall i, i < n -> lookup d (f i) = Ok (Some i).
Proof.
  intros i Hi. unfold lookup. destruct (dict_get d (f i)) as [j|] eqn:E.
  - apply dict_get_some in E. apply in_map_iff in E. destruct E as (k & E & Hk). injection E as E1 E2. subst k.
    apply in_seq in Hk. apply names_inj in E1; try lia. subst; auto.
  - apply dict_get_none in E. rewrite dict_fst in E. elim E. apply in_map_iff. exists i. split; auto. apply in_seq. lia.
Qed.
Lemma lookup_sound : forall s r, lookup d s = Ok r -> exists i, r = Some i /\ i < n /\ f i = s.
Proof.
  intros s r H. unfold lookup in H. destruct (dict_get d s) as [i|] eqn:E; [|discriminate]. injection H as <-.
  apply dict_get_some in E. apply in_map_iff in E. destruct E as (k & E & Hk). injection E as E1 E2. subst k. apply in_seq in Hk.
  exists i. repeat split; auto; lia.
Qed.
Lemma lookup_unknown : forall s, ~ In s (map f (seq 0 n)) -> lookup d s = Err Exception_.
Proof.
  intros s H. unfold lookup. destruct (dict_get d s) as [i|] eqn:E; auto. apply dict_get_some in E. elim H. rewrite <- dict_fst.
  apply in_map_iff. exists (s, i). auto.
Qed.
End Lookup.

(** ** Names grow and stay unique *)
Definition named (w w' : world) : Prop :=
  (exists a, node_names w' = node_names w ++ a) /\ (exists a, link_names w' = link_names w ++ a) /\ (exists a, veh_names w' = veh_names w ++ a) /\
  (NoDup (node_names w) /\ NoDup (link_names w) /\ NoDup (veh_names w) ->
   NoDup (node_names w') /\ NoDup (link_names w') /\ NoDup (veh_names w')).
Lemma named_same : forall w w', node_names w' = node_names w -> link_names w' = link_names w -> veh_names w' = veh_names w -> named w w'.
Proof. intros w w' A B D. unfold named. rewrite A, B, D. split; [exists []; rewrite app_nil_r; auto|]. split; [exists []; rewrite app_nil_r; auto|]. split; [exists []; rewrite app_nil_r; auto|]. auto. Qed.
Lemma named_trans : forall a b d, named a b -> named b d -> named a d.
Proof.
  intros a b d ((x & A1) & (y & A2) & (z & A3) & A4) ((x' & B1) & (y' & B2) & (z' & B3) & B4).
  split; [exists (x ++ x'); rewrite B1, A1, app_assoc; auto|]. split; [exists (y ++ y'); rewrite B2, A2, app_assoc; auto|].
  split; [exists (z ++ z'); rewrite B3, A3, app_assoc; auto|]. auto.
Qed.
Lemma nodup_snoc : forall (l : list string) x, NoDup l -> ~ In x l -> NoDup (l ++ [x]).
Proof.
  intros l x H K. rewrite <- (rev_involutive (l ++ [x])). apply NoDup_rev. rewrite rev_app_distr. cbn. constructor.
  - intro C. apply K. apply in_rev. auto.
  - apply NoDup_rev. auto.
Qed.

Lemma names_ext : forall A (g h : nat -> A) n, (forall i, i < n -> g i = h i) -> map g (seq 0 n) = map h (seq 0 n).
Proof. intros A g h n H. apply map_ext_in. intros i Hi. apply in_seq in Hi. apply H. lia. Qed.
Lemma names_snoc : forall A (g : nat -> A) n, map g (seq 0 (S n)) = map g (seq 0 n) ++ [g n].
Proof. intros A g n. rewrite seq_S, map_app. reflexivity. Qed.

Lemma fr_named : forall w w', fr w w' -> named w w'.
Proof.
  intros w w' F. apply named_same; unfold node_names, link_names, veh_names.
  - rewrite (fr_w_nn F). apply names_ext. intros; apply (fr_n_name F).
  - rewrite (fr_w_nl F). apply names_ext. intros; apply (fr_l_name F).
  - rewrite (fr_w_nv F). apply names_ext. intros; apply (fr_v_name F).
Qed.

Lemma ostep_named : forall c w w', ostep c w w' -> named w w'.
Proof.
  intros c w w' H. destruct H as [a nd w Hf E Hn|a k w Hf H1 H2 E Hn|a nl nm pv w H1 H2 H3 H4 H5 H6 H7|tm w w' Hf E|w w' A B D E F|w w' A B D E].
  - assert (En : n_name nd = na_name a).
    { unfold new_node in E. cbv zeta in E. apply bind_ok in E. destruct E as ([ph t0] & _ & E). injection E as <-. reflexivity. }
    assert (K : node_names (added_node nd w) = node_names w ++ [na_name a]).
    { unfold node_names, added_node. cbn [w_nn sw_nn]. rewrite names_snoc. f_equal.
      - apply names_ext. intros i Hi. unfold N; cbn. rewrite upd_other by lia. auto.
      - unfold N; cbn. rewrite upd_same. congruence. }
    split; [eexists; exact K|]. split; [exists []; rewrite app_nil_r; reflexivity|]. split; [exists []; rewrite app_nil_r; reflexivity|].
    rewrite K. intros (A & B & D). split; [apply nodup_snoc; auto|auto].
  - assert (En : l_name k = link_name_of w a).
    { unfold new_link in E. repeat (apply bind_ok in E; let x := fresh "x" in destruct E as (x & _ & E)). injection E as <-. reflexivity. }
    set (w' := added_link _ _ k w).
    assert (K : link_names w' = link_names w ++ [link_name_of w a]).
    { unfold link_names, w'. change (w_nl (added_link (la_start a) (la_end a) k w)) with (S (w_nl w)). rewrite names_snoc. f_equal.
      - apply names_ext. intros i Hi. unfold added_link, L, modn; cbn. rewrite upd_other by lia. auto.
      - unfold added_link, L, modn; cbn. rewrite upd_same. congruence. }
    assert (Kn : node_names w' = node_names w).
    { unfold node_names, w'. change (w_nn (added_link (la_start a) (la_end a) k w)) with (w_nn w). apply names_ext. intros i _.
      unfold added_link. rewrite !N_at. destruct (Nat.eqb i _); destruct (Nat.eqb i _); reflexivity. }
    split; [exists []; rewrite app_nil_r; exact Kn|]. split; [eexists; exact K|]. split; [exists []; rewrite app_nil_r; reflexivity|].
    rewrite K, Kn. intros (A & B & D). split; [auto|]. split; [apply nodup_snoc; auto|auto].
  - set (w' := added_veh _ _ w).
    assert (K : veh_names w' = veh_names w ++ [nm]).
    { unfold veh_names, w'. change (w_nv (added_veh (new_vehicle c a nl nm) pv w)) with (S (w_nv w)). rewrite names_snoc. f_equal.
      - apply names_ext. intros i Hi. unfold added_veh, V; cbn. rewrite upd_other by lia. auto.
      - unfold added_veh, V; cbn. rewrite upd_same. reflexivity. }
    split; [exists []; rewrite app_nil_r; reflexivity|]. split; [exists []; rewrite app_nil_r; reflexivity|]. split; [eexists; exact K|].
    rewrite K. intros (A & B & D). split; [auto|]. split; [auto|apply nodup_snoc; auto].
  - apply finalize_ok in E. destruct E as [F1 F2 F3 F4 F5 F6 F7 F8]. injection F5; intros _ _ _ _ _ _ Ev El En.
    apply named_same; unfold node_names, link_names, veh_names.
    + rewrite En. apply names_ext. intros i _. destruct (F3 i) as [-> |(x & y & z & ->)]; reflexivity.
    + rewrite El. apply names_ext. intros i _. destruct (F2 i) as (q & ->). reflexivity.
    + rewrite Ev. apply names_ext. intros i _. unfold V. rewrite F1. reflexivity.
  - unfold wkeep in E. apply named_same; unfold node_names, link_names, veh_names.
    + replace (w_nn w') with (w_nn w) by congruence. apply names_ext. intros i _. unfold N. rewrite D. reflexivity.
    + replace (w_nl w') with (w_nl w) by congruence. apply names_ext. intros i _. unfold L. rewrite B. reflexivity.
    + replace (w_nv w') with (w_nv w) by congruence. apply names_ext. intros i _. specialize (A i). unfold vkeep in A. congruence.
  - unfold wkeep in E. apply named_same; unfold node_names, link_names, veh_names.
    + replace (w_nn w') with (w_nn w) by congruence. apply names_ext. intros i _. specialize (D i). unfold nkeep in D. congruence.
    + replace (w_nl w') with (w_nl w) by congruence. apply names_ext. intros i _. specialize (B i). unfold lkeep in B. congruence.
    + replace (w_nv w') with (w_nv w) by congruence. apply names_ext. intros i _. unfold V. rewrite A. reflexivity.
Qed.

Theorem later_named : forall c P w w', reach c w -> later c P w w' -> named w w'.
Proof.
  intros c P. apply (later_rel c named).
  - intro w. apply named_same; auto.
  - exact named_trans.
  - intros e w p w' p' _ M. apply fr_named. exact (mstep_fr M).
  - intro w. apply named_same; auto.
  - intros w w' _ H. eapply ostep_named; eauto.
Qed.

Theorem unique_lemma : forall c w, reach c w -> NoDup (node_names w) /\ NoDup (link_names w) /\ NoDup (veh_names w).
Proof.
  intros c w H. eapply (reach_inv c (fun w _ => NoDup (node_names w) /\ NoDup (link_names w) /\ NoDup (veh_names w))); [..|exact H].
  - intro tm. repeat split; constructor.
  - intros e x p x' p' _ J M. apply (proj2 (proj2 (proj2 (fr_named _ _ (mstep_fr M))))). auto.
  - auto.
  - intros x x' _ J K. apply (proj2 (proj2 (proj2 (ostep_named _ _ _ K)))). auto.
Qed.

(** ** The statements *)
Theorem get_node_lemma : forall c P w w' n, reach c w -> exists_node w n -> later c P w w' ->
  get_node w' (KName (n_name (N w n))) = Ok (Some n).
Proof.
  intros c P w w' n R Hn L. pose proof (later_named _ _ _ _ R L) as ((a & A) & _).
  assert (R' : reach c w') by (eapply later_reach; eauto). pose proof (unique_lemma _ _ R') as (U & _).
  unfold exists_node in Hn.
  assert (Hn' : n < w_nn w').
  { assert (K : List.length (node_names w') = List.length (node_names w) + List.length a) by (rewrite A, app_length; auto).
    unfold node_names in K. rewrite !map_length, !seq_length in K. lia. }
  assert (E : n_name (N w' n) = n_name (N w n)).
  { assert (K : nth n (node_names w') (n_name (N w' 0)) = n_name (N w' n)) by (unfold node_names; rewrite (map_nth (fun n => n_name (N w' n))), seq_nth by auto; auto).
    rewrite A, app_nth1 in K by (unfold node_names; rewrite map_length, seq_length; auto).
    rewrite <- K. unfold node_names. rewrite nth_indep with (d' := n_name (N w 0)) by (rewrite map_length, seq_length; auto).
    rewrite (map_nth (fun n => n_name (N w n))), seq_nth by auto. auto. }
  rewrite <- E. unfold get_node, get_obj, node_dict. apply (lookup_own (fun n => n_name (N w' n)) (w_nn w')); auto.
Qed.
Theorem get_link_lemma : forall c P w w' n, reach c w -> exists_link w n -> later c P w w' ->
  get_link w' (KName (l_name (L w n))) = Ok (Some n).
Proof.
  intros c P w w' n R Hn Lt. pose proof (later_named _ _ _ _ R Lt) as (_ & (a & A) & _).
  assert (R' : reach c w') by (eapply later_reach; eauto). pose proof (unique_lemma _ _ R') as (_ & U & _).
  unfold exists_link in Hn.
  assert (Hn' : n < w_nl w').
  { assert (K : List.length (link_names w') = List.length (link_names w) + List.length a) by (rewrite A, app_length; auto).
    unfold link_names in K. rewrite !map_length, !seq_length in K. lia. }
  assert (E : l_name (L w' n) = l_name (L w n)).
  { assert (K : nth n (link_names w') (l_name (L w' 0)) = l_name (L w' n)) by (unfold link_names; rewrite (map_nth (fun n => l_name (L w' n))), seq_nth by auto; auto).
    rewrite A, app_nth1 in K by (unfold link_names; rewrite map_length, seq_length; auto).
    rewrite <- K. unfold link_names. rewrite nth_indep with (d' := l_name (L w 0)) by (rewrite map_length, seq_length; auto).
    rewrite (map_nth (fun n => l_name (L w n))), seq_nth by auto. auto. }
  rewrite <- E. unfold get_link, get_obj, link_dict. apply (lookup_own (fun n => l_name (L w' n)) (w_nl w')); auto.
Qed.

Theorem get_node_sound_lemma : forall w k r, get_node w k = Ok r ->
  match k with
  | KNone => r = None
  | KOwn i => r = Some i /\ exists_node w i
  | KForeign s | KName s => exists n, r = Some n /\ exists_node w n /\ n_name (N w n) = s
  | KOther => False
  end.
Proof.
  intros w k r H. unfold get_node, get_obj in H; destruct k; try discriminate; try congruence.
  - destruct (Nat.ltb_spec i (w_nn w)); [injection H as <-; split; auto|discriminate].
  - apply (lookup_sound (fun n => n_name (N w n)) (w_nn w)) in H. exact H.
  - apply (lookup_sound (fun n => n_name (N w n)) (w_nn w)) in H. exact H.
Qed.
Theorem get_link_sound_lemma : forall w k r, get_link w k = Ok r ->
  match k with
  | KNone => r = None
  | KOwn i => r = Some i /\ exists_link w i
  | KForeign s | KName s => exists n, r = Some n /\ exists_link w n /\ l_name (L w n) = s
  | KOther => False
  end.
Proof.
  intros w k r H. unfold get_link, get_obj in H; destruct k; try discriminate; try congruence.
  - destruct (Nat.ltb_spec i (w_nl w)); [injection H as <-; split; auto|discriminate].
  - apply (lookup_sound (fun n => l_name (L w n)) (w_nl w)) in H. exact H.
  - apply (lookup_sound (fun n => l_name (L w n)) (w_nl w)) in H. exact H.
Qed.
Theorem get_unknown_lemma : forall w s,
  (~ In s (node_names w) -> get_node w (KName s) = Err Exception_) /\
  (~ In s (link_names w) -> get_link w (KName s) = Err Exception_).
Proof.
  intros w s. split; intro H; cbn.
  - apply (lookup_unknown (fun n => n_name (N w n)) (w_nn w)); auto.
  - apply (lookup_unknown (fun n => l_name (L w n)) (w_nl w)); auto.
Qed.

Theorem used_name_lemma : forall c w,
  (forall a, In (na_name a) (node_names w) -> forall w', add_node c a w <> Ok w') /\
  (forall a, In (link_name_of w a) (link_names w) -> forall w', add_link c a w <> Ok w') /\
  (forall a s, va_name a = Some s -> In s (veh_names w) -> forall w', add_vehicle c a w <> Ok w').
Proof.
  intros c w. split; [|split].
  - intros a H w' E. unfold add_node in E. apply bind_ok in E. destruct E as (nd & _ & E). apply smem_iff in H. rewrite H in E. discriminate.
  - intros a H w' E. unfold add_link in E. destruct (negb _); [discriminate|]. cbv zeta in E. apply bind_ok in E. destruct E as (nd & _ & E).
    apply smem_iff in H. rewrite H in E. discriminate.
  - intros a s Hs H w' E. unfold add_vehicle in E. destruct (negb _); [discriminate|]. cbv zeta in E. rewrite Hs in E.
    apply smem_iff in H. rewrite H in E. discriminate.
Qed.

(** the new object gets the next id and the name asked for *)
Theorem new_object_lemma : forall c w w',
  (forall a, add_node c a w = Ok w' -> w_nn w' = S (w_nn w) /\ n_name (N w' (w_nn w)) = na_name a) /\
  (forall a, add_link c a w = Ok w' -> w_nl w' = S (w_nl w) /\ l_name (L w' (w_nl w)) = link_name_of w a) /\
  (forall a, add_vehicle c a w = Ok w' -> w_nv w' = S (w_nv w) /\
     v_name (V w' (w_nv w)) = match va_name a with Some s => s | None => dec (w_nv w) end).
Proof.
  intros c w w'. split; [|split]; intros a E.
  - unfold add_node in E. apply bind_ok in E. destruct E as (nd & E1 & E). destruct (smem _ _); [discriminate|]. injection E as <-.
    split; auto. unfold N; cbn. rewrite upd_same. unfold new_node in E1. cbv zeta in E1. apply bind_ok in E1. destruct E1 as ([ph t0] & _ & E1). injection E1 as <-. reflexivity.
  - unfold add_link in E. destruct (negb _); [discriminate|]. cbv zeta in E. apply bind_ok in E. destruct E as (k & E1 & E).
    destruct (smem _ _); [discriminate|]. injection E as <-. split; auto. unfold L, modn; cbn. rewrite upd_same.
    unfold new_link in E1. repeat (apply bind_ok in E1; let x := fresh "x" in destruct E1 as (x & _ & E1)). injection E1 as <-. reflexivity.
  - unfold add_vehicle in E. destruct (negb _); [discriminate|]. cbv zeta in E. destruct (smem _ _); [discriminate|]. injection E as <-.
    split; auto. unfold V; cbn. rewrite upd_same. reflexivity.
Qed.

(** ** Automatic vehicle names *)
Lemma dec_inj : forall a b, dec a = dec b -> a = b.
Proof.
  intros a b H. unfold dec in H.
  assert (K : forall n, Nat.to_uint n <> Decimal.Nil) by (intro n; rewrite <- (DecimalNat.Unsigned.of_to n) at 1; rewrite DecimalNat.Unsigned.to_of; apply DecimalFacts.unorm_nonnil).
  apply (f_equal DecimalString.NilZero.uint_of_string) in H. rewrite !DecimalString.NilZero.usu in H by apply K. injection H as H.
  apply DecimalNat.Unsigned.to_uint_inj in H. auto.
Qed.
