(** * OsmOK: proofs about the postprocessing of road networks (property C60). *)
From Verif Require Import Base Types Sim Lists Tac Osm SpecOsm.
Local Open Scope string_scope.
Local Open Scope nat_scope.

(** ** Dicts *)
Lemma ds_keys : forall A k (x : A) d n, In n (map fst (dset k x d)) <-> n = k \/ In n (map fst d).
Proof.
  intros A k x d n. induction d as [|[k' x'] d IH]; cbn [dset map fst In]; [intuition congruence|].
  destruct (Nat.eqb_spec k k') as [<-|H]; cbn [map fst In]; [intuition congruence|]. rewrite IH. intuition congruence.
Qed.
Lemma ds_in : forall A k (x : A) d n y, In (n, y) (dset k x d) -> (n = k /\ y = x) \/ In (n, y) d.
Proof.
  intros A k x d n y. induction d as [|[k' x'] d IH]; cbn [dset In].
  - intros [H|[]]. injection H as <- <-. auto.
  - destruct (Nat.eqb_spec k k') as [<-|H]; cbn [In]; [intros [E|E]; [injection E as <- <-|]; auto|].
    intros [E|E]; [auto|]. destruct (IH E) as [K|K]; auto.
Qed.
Lemma ds_nodup : forall A k (x : A) d, NoDup (map fst d) -> NoDup (map fst (dset k x d)).
Proof.
  intros A k x d. induction d as [|[k' x'] d IH]; cbn [dset map fst]; intro H; [repeat constructor; auto|].
  destruct (Nat.eqb_spec k k') as [<-|E]; cbn [map fst]; [exact H|]. inversion H as [|? ? H1 H2]; subst. constructor; [|apply IH; exact H2].
  intro K. apply ds_keys in K. destruct K as [K|K]; [congruence|contradiction].
Qed.
Lemma dget_in : forall A k (d : list (nat * A)) a, dget k d = Some a -> In (k, a) d.
Proof.
  intros A k d a. induction d as [|[k' x'] d IH]; cbn [dget]; [discriminate|]. destruct (Nat.eqb_spec k k') as [<-|H]; intro E.
  - injection E as <-. left; reflexivity.
  - right; auto.
Qed.
Lemma dget_none : forall A k (d : list (nat * A)), dget k d = None <-> ~ In k (map fst d).
Proof.
  intros A k d. induction d as [|[k' x'] d IH]; cbn [dget map fst In]; [tauto|]. destruct (Nat.eqb_spec k k') as [<-|H].
  - split; [discriminate|intro K; exfalso; apply K; auto].
  - rewrite IH. split; [intros K [E|E]; [congruence|contradiction]|tauto].
Qed.
Lemma ds_get : forall A k (x : A) d n, dget n (dset k x d) = if Nat.eqb n k then Some x else dget n d.
Proof.
  intros A k x d n. induction d as [|[k' x'] d IH]; cbn [dset dget].
  - destruct (Nat.eqb_spec n k); reflexivity.
  - destruct (Nat.eqb_spec k k') as [<-|H]; cbn [dget].
    + destruct (Nat.eqb_spec n k); reflexivity.
    + rewrite IH. destruct (Nat.eqb_spec n k'); [|reflexivity]. destruct (Nat.eqb_spec n k); [congruence|reflexivity].
Qed.
Lemma ds_ne : forall A k (x : A) d, dset k x d <> [].
Proof. intros A k x [|[k' x'] d]; cbn; [discriminate|]. destruct (Nat.eqb k k'); discriminate. Qed.

(** ** Positions *)
Lemma pos_fold : forall ns d i, NoDup (ids ns) ->
  (forall n, In n ns -> on_id n = i -> dget i (fold_left (fun d n => dset (on_id n) (on_x n, on_y n) d) ns d) = Some (on_x n, on_y n)) /\
  (~ In i (ids ns) -> dget i (fold_left (fun d n => dset (on_id n) (on_x n, on_y n) d) ns d) = dget i d).
Proof.
  induction ns as [|n ns IH]; intros d i H; cbn [fold_left].
  - split; [intros n []|reflexivity].
  - cbn [ids map] in H. inversion H as [|? ? H1 H2]; subst. destruct (IH (dset (on_id n) (on_x n, on_y n) d) i H2) as (I1 & I2). split.
    + intros k [<-|Hk] Ek; [|apply I1; assumption]. rewrite I2; [|subst i; exact H1]. rewrite ds_get, <- Ek, Nat.eqb_refl. reflexivity.
    + intro K. cbn [ids map In] in K. rewrite I2; [|intro X; apply K; right; exact X]. rewrite ds_get.
      destruct (Nat.eqb_spec i (on_id n)) as [E|E]; [exfalso; apply K; left; congruence|reflexivity].
Qed.
Lemma pos_get : forall ns i p, NoDup (ids ns) -> dget i (positions ns) = Some p <-> at_pos ns i p.
Proof.
  intros ns i p H. destruct (pos_fold ns [] i H) as (H1 & H2). split.
  - intro E. destruct (in_dec Nat.eq_dec i (ids ns)) as [K|K].
    + apply in_map_iff in K. destruct K as (n & En & Hn). exists n. split; [exact Hn|]. split; [exact En|]. unfold positions in E. rewrite (H1 n Hn En) in E. congruence.
    + unfold positions in E. rewrite (H2 K) in E. discriminate.
  - intros (n & Hn & En & ->). apply H1; assumption.
Qed.
Lemma pos_some : forall ns i, NoDup (ids ns) -> In i (ids ns) -> exists p, dget i (positions ns) = Some p.
Proof. intros ns i H K. apply in_map_iff in K. destruct K as (n & En & Hn). exists (on_x n, on_y n). apply pos_get; [exact H|]. exists n. auto. Qed.
Lemma at_pos_fun : forall ns i p q, NoDup (ids ns) -> at_pos ns i p -> at_pos ns i q -> p = q.
Proof. intros ns i p q H A B. apply (pos_get ns i p H) in A. apply (pos_get ns i q H) in B. congruence. Qed.
Lemma at_pos_in : forall ns i p, at_pos ns i p -> In i (ids ns).
Proof. intros ns i p (n & Hn & <- & _). apply in_map. exact Hn. Qed.
Lemma at_pos_incl : forall ns ns' i p, incl ns' ns -> at_pos ns' i p -> at_pos ns i p.
Proof. intros ns ns' i p H (n & Hn & E & Ep). exists n. auto. Qed.

Section Proofs.
Variable dist : Q * Q -> Q * Q -> Q.

(** ** The map of deleted nodes *)
Definition map_ok (th : Q) (ns : list onode) (m : list (nat * nat)) : Prop :=
  NoDup (map fst m) /\ (forall a, In a (map fst m) -> ~ In a (map snd m)) /\
  forall a b, In (a, b) m -> In a (ids ns) /\ In b (ids ns) /\ (close dist th ns a b \/ close dist th ns b a).
Lemma map_ok_set : forall th ns m a b, map_ok th ns m -> a <> b -> ~ In a (map snd m) -> ~ In b (map fst m) -> In a (ids ns) -> In b (ids ns) ->
  close dist th ns a b \/ close dist th ns b a -> map_ok th ns (dset a b m).
Proof.
  intros th ns m a b (M1 & M2 & M3) Hab Ha Hb Ia Ib Hc. split; [apply ds_nodup; exact M1|]. split.
  - intros x Hx Hy. apply ds_keys in Hx. apply in_map_iff in Hy. destruct Hy as ([k y] & Ey & Hy). cbn in Ey. subst y.
    apply ds_in in Hy. destruct Hy as [[-> ->]|Hy].
    + destruct Hx as [Hx|Hx]; [congruence|contradiction].
    + assert (K : In x (map snd m)) by (apply in_map_iff; exists (k, x); auto). destruct Hx as [->|Hx]; [contradiction|]. exact (M2 x Hx K).
  - intros x y Hxy. apply ds_in in Hxy. destruct Hxy as [[-> ->]|Hxy]; auto.
Qed.
Lemma register_ok : forall th ns l m, NoDup (ids ns) -> In (ol_from l) (ids ns) -> In (ol_to l) (ids ns) -> ol_from l <> ol_to l -> map_ok th ns m ->
  exists m', register dist th (positions ns) l m = Ok m' /\ map_ok th ns m' /\ (m <> [] -> m' <> []) /\ (short dist th ns l -> m' <> []) /\
    (~ short dist th ns l -> m' = m).
Proof.
  intros th ns l m Hn Hf Ht Hl M. unfold register. destruct (pos_some ns _ Hn Hf) as (p & Ep). destruct (pos_some ns _ Hn Ht) as (q & Eq).
  rewrite Ep, Eq. cbn [of_opt bind]. apply (pos_get ns _ _ Hn) in Ep. apply (pos_get ns _ _ Hn) in Eq.
  destruct (qle (dist p q) th) eqn:El.
  2:{ exists m. split; [reflexivity|]. split; [exact M|]. split; [auto|]. split; [|auto]. intros (p' & q' & A & B & K). exfalso.
      rewrite (at_pos_fun _ _ _ _ Hn A Ep) in K. rewrite (at_pos_fun _ _ _ _ Hn B Eq) in K. apply Qle_bool_iff in K. unfold qle in El. congruence. }
  assert (Sh : close dist th ns (ol_from l) (ol_to l)) by (exists p, q; split; [exact Ep|]; split; [exact Eq|]; apply Qle_bool_iff; exact El).
  cbv zeta. set (m1 := if negb (mem (ol_to l) (map snd m)) && negb (mem (ol_from l) (map fst m)) then dset (ol_to l) (ol_from l) m else m).
  assert (M1 : map_ok th ns m1 /\ (m <> [] -> m1 <> []) /\ (m = [] -> m1 <> [])).
  { unfold m1. destruct (mem (ol_to l) (map snd m)) eqn:E1; cbn [negb andb].
    - split; [exact M|]. split; [auto|]. intros ->. discriminate E1.
    - destruct (mem (ol_from l) (map fst m)) eqn:E2; cbn [negb].
      + split; [exact M|]. split; [auto|]. intros ->. discriminate E2.
      + split; [|split; intros _; apply ds_ne]. apply map_ok_set; auto.
        * intro K. apply mem_iff in K. congruence.
        * intro K. apply mem_iff in K. congruence. }
  clearbody m1. destruct M1 as (M1 & N1 & N2).
  assert (N3 : m1 <> []) by (destruct m; [apply N2; reflexivity|apply N1; discriminate]).
  eexists. split; [reflexivity|].
  destruct (mem (ol_from l) (map snd m1)) eqn:E1; cbn [negb andb]; [split; [exact M1|]; split; [auto|]; split; [auto|intro K; contradiction]|].
  destruct (mem (ol_to l) (map fst m1)) eqn:E2; cbn [negb]; [split; [exact M1|]; split; [auto|]; split; [auto|intro K; contradiction]|].
  split; [|split; [intros _; apply ds_ne|split; [intros _; apply ds_ne|intro K; contradiction]]].
  apply map_ok_set; auto; intro K; apply mem_iff in K; congruence.
Qed.
Lemma registers_ok : forall th ns ls m, NoDup (ids ns) -> (forall l, In l ls -> In (ol_from l) (ids ns) /\ In (ol_to l) (ids ns)) -> no_loops ls -> map_ok th ns m ->
  exists m', foldM (register dist th (positions ns)) ls m = Ok m' /\ map_ok th ns m' /\ (m <> [] -> m' <> []) /\ ((exists l, In l ls /\ short dist th ns l) -> m' <> []) /\
    ((forall l, In l ls -> ~ short dist th ns l) -> m' = m).
Proof.
  intros th ns ls; induction ls as [|l ls IH]; intros m Hn He Hl M; cbn [foldM].
  - exists m. split; [reflexivity|]. split; [exact M|]. split; [auto|]. split; [intros (l & [] & _)|auto].
  - destruct (He l (or_introl eq_refl)) as (H1 & H2). destruct (register_ok th ns l m Hn H1 H2 (Hl l (or_introl eq_refl)) M) as (m1 & E1 & M1 & N1 & S1 & U1).
    rewrite E1. cbn [bind].
    destruct (IH m1 Hn) as (m2 & E2 & M2 & N2 & S2 & U2); [intros k Hk; apply He; right; exact Hk|intros k Hk; apply Hl; right; exact Hk|exact M1|].
    exists m2. split; [exact E2|]. split; [exact M2|]. split; [auto|]. split.
    + intros (k & [<-|Hk] & Sk); [auto|]. apply S2. exists k. auto.
    + intro K. rewrite U2; [|intros k Hk; apply K; right; exact Hk]. apply U1. apply K. left; reflexivity.
Qed.

Lemma target_in : forall th ns m n, map_ok th ns m -> In n (ids ns) -> In (target m n) (ids ns) /\ ~ In (target m n) (map fst m) /\
  (target m n = n \/ close dist th ns n (target m n) \/ close dist th ns (target m n) n).
Proof.
  intros th ns m n (M1 & M2 & M3) Hn. unfold target. destruct (dget n m) as [k|] eqn:E.
  - apply dget_in in E. destruct (M3 n k E) as (_ & Hk & Hc). split; [exact Hk|]. split; [|right; exact Hc].
    intro K. apply (M2 k K). apply in_map_iff. exists (n, k). auto.
  - apply dget_none in E. split; [exact Hn|]. split; [exact E|]. left; reflexivity.
Qed.

(** ** The dict of new links *)
Lemma lset_in : forall l acc k, In k (lset l acc) -> k = l \/ In k acc.
Proof.
  intros l acc k. induction acc as [|a acc IH]; cbn [lset In]; [intros [H|[]]; auto|]. destruct (_ && _); cbn [In]; [intros [H|H]; auto|].
  intros [H|H]; [auto|]. destruct (IH H); auto.
Qed.
Lemma lset_pairs : forall l acc p, In p (map pair_of (lset l acc)) <-> p = pair_of l \/ In p (map pair_of acc).
Proof.
  intros l acc p. induction acc as [|a acc IH]; cbn [lset map In]; [intuition|].
  destruct (Nat.eqb (ol_from a) (ol_from l) && Nat.eqb (ol_to a) (ol_to l)) eqn:E; cbn [map In].
  - apply andb_true_iff in E. destruct E as [E1 E2]. apply Nat.eqb_eq in E1, E2. assert (K : pair_of a = pair_of l) by (unfold pair_of; congruence). rewrite K. intuition.
  - rewrite IH. intuition.
Qed.
Lemma lset_nodup : forall l acc, NoDup (map pair_of acc) -> NoDup (map pair_of (lset l acc)).
Proof.
  intros l acc. induction acc as [|a acc IH]; cbn [lset map]; intro H; [repeat constructor; auto|]. inversion H as [|? ? H1 H2]; subst.
  destruct (Nat.eqb (ol_from a) (ol_from l) && Nat.eqb (ol_to a) (ol_to l)) eqn:E; cbn [map].
  - apply andb_true_iff in E. destruct E as [E1 E2]. apply Nat.eqb_eq in E1, E2. assert (K : pair_of a = pair_of l) by (unfold pair_of; congruence). rewrite <- K. exact H.
  - constructor; [|apply IH; exact H2]. intro K. apply lset_pairs in K. destruct K as [K|K]; [|contradiction].
    unfold pair_of in K. injection K as K1 K2. rewrite K1, K2, !Nat.eqb_refl in E. discriminate E.
Qed.
Lemma has_link_iff : forall s e acc, has_link s e acc = true <-> In (s, e) (map pair_of acc).
Proof.
  intros s e acc. unfold has_link. rewrite existsb_exists, in_map_iff. split.
  - intros (k & Hk & E). apply andb_true_iff in E. destruct E as [E1 E2]. apply Nat.eqb_eq in E1, E2. exists k. split; [unfold pair_of; congruence|exact Hk].
  - intros (k & E & Hk). unfold pair_of in E. injection E as <- <-. exists k. split; [exact Hk|]. rewrite !Nat.eqb_refl. reflexivity.
Qed.

(** links as they should be after an iteration *)
Definition fine (ns : list onode) (m : list (nat * nat)) (l : olink) : Prop :=
  ol_from l <> ol_to l /\ In (ol_from l) (ids ns) /\ In (ol_to l) (ids ns) /\ ~ In (ol_from l) (map fst m) /\ ~ In (ol_to l) (map fst m) /\
  exists p q, at_pos ns (ol_from l) p /\ at_pos ns (ol_to l) q /\ ol_len l = Some (dist p q).
Lemma relinks_ok : forall th ns m ls acc, NoDup (ids ns) -> map_ok th ns m ->
  (forall l, In l ls -> In (ol_from l) (ids ns) /\ In (ol_to l) (ids ns)) -> NoDup (map pair_of acc) -> (forall l, In l acc -> fine ns m l) ->
  exists acc', foldM (relink dist (positions ns) m) ls acc = Ok acc' /\ NoDup (map pair_of acc') /\ (forall l, In l acc' -> fine ns m l) /\
    (forall p, In p (map pair_of acc') <-> In p (map pair_of acc) \/ exists l, In l ls /\ target m (ol_from l) <> target m (ol_to l) /\ p = (target m (ol_from l), target m (ol_to l))).
Proof.
  intros th ns m ls; induction ls as [|l ls IH]; intros acc Hn M He Ha Hf; cbn [foldM].
  - exists acc. split; [reflexivity|]. split; [exact Ha|]. split; [exact Hf|]. intro p. split; [auto|]. intros [H|(l & [] & _)]; exact H.
  - destruct (He l (or_introl eq_refl)) as (H1 & H2). destruct (target_in th ns m _ M H1) as (A1 & A2 & _). destruct (target_in th ns m _ M H2) as (B1 & B2 & _).
    unfold relink at 1. cbv zeta. destruct (pos_some ns _ Hn A1) as (p & Ep). destruct (pos_some ns _ Hn B1) as (q & Eq). rewrite Ep, Eq. cbn [of_opt bind].
    apply (pos_get ns _ _ Hn) in Ep. apply (pos_get ns _ _ Hn) in Eq.
    assert (He' : forall k, In k ls -> In (ol_from k) (ids ns) /\ In (ol_to k) (ids ns)) by (intros k Hk; apply He; right; exact Hk).
    destruct (Nat.eqb_spec (target m (ol_from l)) (target m (ol_to l))) as [E|E].
    + destruct (IH acc Hn M He' Ha Hf) as (acc' & E' & R1 & R2 & R3). exists acc'. split; [exact E'|]. split; [exact R1|]. split; [exact R2|].
      intro x. rewrite R3. split; [intros [K|(k & K1 & K2)]; [auto|right; exists k; split; [right|]; auto]|].
      intros [K|(k & [<-|K1] & K2 & K3)]; [auto|contradiction|right; exists k; auto].
    + destruct (IH (lset (mkOL (ol_name l) (target m (ol_from l)) (target m (ol_to l)) (ol_lanes l) (ol_speed l) (Some (dist p q))) acc) Hn M He') as (acc' & E' & R1 & R2 & R3).
      * apply lset_nodup. exact Ha.
      * intros k Hk. apply lset_in in Hk. destruct Hk as [->|Hk]; [|apply Hf; exact Hk]. repeat (split; [assumption|]). exists p, q. auto.
      * exists acc'. split; [exact E'|]. split; [exact R1|]. split; [exact R2|]. intro x. rewrite R3, lset_pairs. cbn [pair_of ol_from ol_to]. split.
        -- intros [[->|K]|(k & K1 & K2)]; [right; exists l; split; [left|]; auto|auto|right; exists k; split; [right|]; auto].
        -- intros [K|(k & [<-|K1] & K2 & K3)]; [auto|left; left; exact K3|right; exists k; auto].
Qed.

Lemma reverses_ok : forall ns m ls acc, (forall l, In l ls -> In (pair_of l) (map pair_of acc) /\ fine ns m l) -> NoDup (map pair_of acc) -> 
  NoDup (map pair_of (fold_left add_reverse ls acc)) /\
  (forall l, In l (fold_left add_reverse ls acc) -> In l acc \/ exists k, In k ls /\ ol_from l = ol_to k /\ ol_to l = ol_from k /\ ol_len l = ol_len k) /\
  (forall p, In p (map pair_of (fold_left add_reverse ls acc)) <-> In p (map pair_of acc) \/ exists l, In l ls /\ p = (ol_to l, ol_from l)).
Proof.
  intros ns m ls; induction ls as [|l ls IH]; intros acc H Ha; cbn [fold_left].
  - split; [exact Ha|]. split; [auto|]. intro p. split; [auto|]. intros [K|(l & [] & _)]; exact K.
  - assert (Ea : exists acc1, add_reverse acc l = acc1 /\ NoDup (map pair_of acc1) /\
      (forall k, In k acc1 -> In k acc \/ (ol_from k = ol_to l /\ ol_to k = ol_from l /\ ol_len k = ol_len l)) /\
      (forall p, In p (map pair_of acc1) <-> In p (map pair_of acc) \/ p = (ol_to l, ol_from l))).
    { unfold add_reverse. destruct (has_link (ol_to l) (ol_from l) acc) eqn:E.
      - exists acc. split; [reflexivity|]. split; [exact Ha|]. split; [auto|]. intro p. split; [auto|]. intros [K| ->]; [exact K|]. apply has_link_iff. exact E.
      - eexists. split; [reflexivity|]. split; [apply lset_nodup; exact Ha|]. split.
        + intros k Hk. apply lset_in in Hk. destruct Hk as [->|Hk]; auto.
        + intro p. rewrite lset_pairs. cbn [pair_of ol_from ol_to]. tauto. }
    destruct Ea as (acc1 & -> & A1 & A2 & A3).
    destruct (IH acc1) as (R1 & R2 & R3); [|exact A1|].
    + intros k Hk. destruct (H k (or_intror Hk)) as (K1 & K2). split; [|exact K2]. apply A3. auto.
    + split; [exact R1|]. split.
      * intros k Hk. destruct (R2 k Hk) as [K|(k' & K1 & K2)]; [|right; exists k'; split; [right|]; auto].
        destruct (A2 k K) as [K'|K']; [auto|]. right. exists l. split; [left|]; auto.
      * intro p. rewrite R3, A3. split.
        -- intros [[K|K]|(k & K1 & K2)]; [auto|right; exists l; split; [left|]; auto|right; exists k; split; [right|]; auto].
        -- intros [K|(k & [<-|K1] & K2)]; [auto|auto|right; exists k; auto].
Qed.

(** ** One iteration *)
Lemma mem_ends : forall n ls, mem n (ends ls) = true <-> exists l, In l ls /\ (ol_from l = n \/ ol_to l = n).
Proof.
  intros n ls. rewrite mem_iff. unfold ends. rewrite in_flat_map. split.
  - intros (l & Hl & [K|[K|[]]]); exists l; auto.
  - intros (l & Hl & [K|K]); exists l; split; auto; cbn; auto.
Qed.
Lemma ids_filter : forall (f : nat -> bool) ns n, In n (ids (filter (fun x => f (on_id x)) ns)) <-> In n (ids ns) /\ f n = true.
Proof.
  intros f ns n. unfold ids. rewrite !in_map_iff. split.
  - intros (x & <- & K). apply filter_In in K. destruct K as (K1 & K2). split; [exists x|]; auto.
  - intros ((x & <- & K1) & K2). exists x. split; [reflexivity|]. apply filter_In. auto.
Qed.
Lemma nodup_filter : forall (f : onode -> bool) ns, NoDup (ids ns) -> NoDup (ids (filter f ns)).
Proof.
  intros f ns. induction ns as [|n ns IH]; cbn [filter ids map]; intro H; [constructor|]. inversion H as [|? ? H1 H2]; subst.
  destruct (f n); cbn [ids map]; [|apply IH; exact H2]. constructor; [|apply IH; exact H2]. intro K. apply H1. apply in_map_iff in K. destruct K as (x & E & K).
  apply filter_In in K. apply in_map_iff. exists x. tauto.
Qed.
Lemma filter_len : forall A (f : A -> bool) l, List.length (filter f l) <= List.length l.
Proof. intros A f l. induction l as [|x l IH]; cbn; [lia|]. destruct (f x); cbn; lia. Qed.
Lemma filter_less : forall A (f : A -> bool) l x, In x l -> f x = false -> List.length (filter f l) < List.length l.
Proof.
  intros A f l x. induction l as [|y l IH]; cbn [In filter List.length]; [intros []|]. intros [->|H] E.
  - rewrite E. pose proof (filter_len A f l). lia.
  - specialize (IH H E). destruct (f y); cbn; lia.
Qed.
Lemma pair_in : forall s e (ls : list olink), In (s, e) (map pair_of ls) -> exists l, In l ls /\ ol_from l = s /\ ol_to l = e.
Proof. intros s e ls K. apply in_map_iff in K. destruct K as (l & E & Hl). unfold pair_of in E. injection E as <- <-. exists l. auto. Qed.

Theorem step_lemma : forall th bid ns ls, network ns ls -> no_loops ls ->
  exists ns' ls', merge_step dist th bid (ns, ls) = Ok (ns', ls') /\
    network ns' ls' /\ no_loops ls' /\ single_links ls' /\ no_isolated ns' ls' /\ incl ns' ns /\
    (bid = true -> forall l, In l ls' -> exists k, In k ls' /\ ol_from k = ol_to l /\ ol_to k = ol_from l) /\
    (bid = false \/ sym dist -> forall l, In l ls' -> exists p q x, at_pos ns' (ol_from l) p /\ at_pos ns' (ol_to l) q /\ ol_len l = Some x /\ (x == dist p q)%Q) /\
    (exists f, (forall n, In n (ids ns) -> hops dist th ns 1 n (f n)) /\
       forall l, In l ls -> f (ol_from l) = f (ol_to l) \/ exists k, In k ls' /\ ol_from k = f (ol_from l) /\ ol_to k = f (ol_to l)) /\
    ((exists l, In l ls /\ short dist th ns l) -> List.length ns' < List.length ns) /\
    (bid = false \/ sym dist -> (forall l, In l ls -> ~ short dist th ns l) -> forall l, In l ls' -> ~ short dist th ns' l).
Proof.
  intros th bid ns ls (Hn & He) Hl.
  destruct (registers_ok th ns ls [] Hn He Hl) as (m & Em & M & _ & Ms & Mn); [split; [constructor|split; [intros a []|intros a b []]]|].
  destruct (relinks_ok th ns m ls [] Hn M He) as (l1 & E1 & R1 & R2 & R3); [constructor|intros l []|].
  unfold merge_step. rewrite Em. cbn [bind]. rewrite E1. cbn [bind]. cbv zeta.
  set (l2 := if bid then fold_left add_reverse l1 l1 else l1).
  assert (K : NoDup (map pair_of l2) /\
    (forall l, In l l2 -> In l l1 \/ (bid = true /\ exists k, In k l1 /\ ol_from l = ol_to k /\ ol_to l = ol_from k /\ ol_len l = ol_len k)) /\
    (forall p, In p (map pair_of l1) -> In p (map pair_of l2)) /\
    (bid = true -> forall l, In l l1 -> In (ol_to l, ol_from l) (map pair_of l2))).
  { unfold l2. destruct bid; [|split; [exact R1|]; split; [auto|]; split; [auto|discriminate]].
    destruct (reverses_ok ns m l1 l1) as (K1 & K2 & K3); [intros l H; split; [apply in_map; exact H|apply R2; exact H]|exact R1|].
    split; [exact K1|]. split; [intros l H; destruct (K2 l H); auto|]. split; [intros p H; apply K3; auto|]. intros _ l H. apply K3. right. exists l. auto. }
  clearbody l2. destruct K as (K1 & K2 & K3 & K4).
  assert (F2 : forall l, In l l2 -> ol_from l <> ol_to l /\ In (ol_from l) (ids ns) /\ In (ol_to l) (ids ns) /\ ~ In (ol_from l) (map fst m) /\ ~ In (ol_to l) (map fst m)).
  { intros l H. destruct (K2 l H) as [H1|(_ & k & H1 & Ef & Et & _)]; destruct (R2 _ H1) as (F1 & F2 & F3 & F4 & F5 & _).
    - repeat (split; [assumption|]). assumption.
    - rewrite Ef, Et. repeat split; auto. }
  assert (Ends : forall l, In l l2 -> forall n, ol_from l = n \/ ol_to l = n ->
     In n (ids (filter (fun x => mem (on_id x) (ends l2)) (filter (fun x => negb (mem (on_id x) (map fst m))) ns)))).
  { intros l H n E. apply (ids_filter (fun i => mem i (ends l2))). split.
    - apply (ids_filter (fun i => negb (mem i (map fst m)))). destruct (F2 l H) as (_ & A1 & A2 & A3 & A4). split.
      + destruct E as [<-|<-]; assumption.
      + apply negb_true_iff. destruct (mem n (map fst m)) eqn:X; [|reflexivity]. apply mem_iff in X. destruct E as [<-|<-]; contradiction.
    - apply mem_ends. exists l. auto. }
  set (ns' := filter (fun x => mem (on_id x) (ends l2)) (filter (fun x => negb (mem (on_id x) (map fst m))) ns)) in *.
  assert (Inc : incl ns' ns) by (intros x Hx; apply filter_In in Hx; destruct Hx as (Hx & _); apply filter_In in Hx; tauto).
  assert (Nd : NoDup (ids ns')) by (apply nodup_filter, nodup_filter; exact Hn).
  assert (Pos : forall i p, at_pos ns i p -> In i (ids ns') -> at_pos ns' i p).
  { intros i p A B. apply in_map_iff in B. destruct B as (x & <- & Hx). exists x. split; [exact Hx|]. split; [reflexivity|].
    apply (at_pos_fun ns (on_id x)); [exact Hn|exact A|]. exists x. auto. }
  exists ns', l2. split; [reflexivity|].
  split. { split; [exact Nd|]. intros l H. split; apply (Ends l H); auto. }
  split. { intros l H. apply F2. exact H. }
  split; [exact K1|].
  split. { intros n H. unfold ns' in H. apply (ids_filter (fun i => mem i (ends l2))) in H. destruct H as (_ & H). apply mem_ends in H. exact H. }
  split; [exact Inc|].
  split. { intros Eb l H. destruct (K2 l H) as [H1|(_ & k & H1 & Ef & Et & _)].
    - destruct (pair_in _ _ _ (K4 Eb l H1)) as (k & Hk & E). exists k. tauto.
    - rewrite Ef, Et. destruct (pair_in (ol_from k) (ol_to k) l2) as (k' & Hk & E); [apply K3; exact (in_map pair_of l1 k H1)|]. exists k'. tauto. }
  split. { intros Sy l H. destruct (K2 l H) as [H1|(Eb & k & H1 & Ef & Et & El)]; destruct (R2 _ H1) as (_ & _ & _ & _ & _ & p & q & A & B & E).
    - exists p, q, (dist p q). split; [apply Pos; [exact A|apply (Ends l H); auto]|]. split; [apply Pos; [exact B|apply (Ends l H); auto]|]. split; [exact E|reflexivity].
    - destruct Sy as [Sy|Sy]; [congruence|]. exists q, p, (dist p q). rewrite <- Ef in B. rewrite <- Et in A.
      split; [apply Pos; [exact B|apply (Ends l H); auto]|]. split; [apply Pos; [exact A|apply (Ends l H); auto]|]. split; [congruence|apply Sy]. }
  split. { exists (target m). split.
    - intros n H. destruct (target_in th ns m n M H) as (_ & _ & [E|E]); [rewrite E; constructor|]. eapply hp_hop; [exact E|constructor].
    - intros l H. destruct (Nat.eq_dec (target m (ol_from l)) (target m (ol_to l))) as [E|E]; [left; exact E|]. right.
      apply pair_in. apply K3. apply R3. right. exists l. auto. }
  split. { intro Sh. apply Ms in Sh. destruct m as [|[a b] m']; [destruct Sh; reflexivity|]. destruct M as (_ & _ & M3).
    destruct (M3 a b (or_introl eq_refl)) as (Ha & _). apply in_map_iff in Ha. destruct Ha as (x & Ex & Hx).
    apply (Nat.le_lt_trans _ (List.length (filter (fun x0 => negb (mem (on_id x0) (map fst ((a, b) :: m')))) ns))); [apply filter_len|].
    apply (filter_less _ _ _ x Hx). rewrite Ex. cbn. rewrite Nat.eqb_refl. reflexivity. }
  intros Sy No l H. assert (m = []) by (apply Mn; exact No). subst m. unfold target in R3. cbn [dget] in R3.
  assert (Old : forall k, In k l1 -> ~ short dist th ns k).
  { intros k Hk Sk. assert (Hp : In (pair_of k) (map pair_of l1)) by (apply in_map; exact Hk). apply R3 in Hp. destruct Hp as [[]|(o & Ho & _ & Ep)].
    unfold pair_of in Ep. injection Ep as E3 E4. apply (No o Ho). unfold short in *. rewrite <- E3, <- E4. exact Sk. }
  intros (p & q & A & B & D). apply (at_pos_incl ns) in A; [|exact Inc]. apply (at_pos_incl ns) in B; [|exact Inc].
  destruct (K2 l H) as [H1|(Eb & k & H1 & Ef & Et & _)].
  - apply (Old l H1). exists p, q. auto.
  - destruct Sy as [Sy|Sy]; [congruence|]. apply (Old k H1). exists q, p. rewrite <- Ef, <- Et. split; [exact B|]. split; [exact A|]. pose proof (Sy q p) as Sp. rewrite Sp. exact D.
Qed.

(** ** All iterations *)
Lemma hops_incl : forall th ns ns' k u v, incl ns' ns -> hops dist th ns' k u v -> hops dist th ns k u v.
Proof.
  intros th ns ns' k u v H K. induction K as [k u|k u v w C K IH]; [constructor|]. apply (hp_hop _ _ _ _ _ v); [|exact IH].
  destruct C as [(p & q & A & B & D)|(p & q & A & B & D)]; [left|right]; exists p, q; split; [eapply at_pos_incl; eauto| |eapply at_pos_incl; eauto|]; split; auto; eapply at_pos_incl; eauto.
Qed.
Lemma hops_cons : forall th ns k u v w, hops dist th ns 1 u v -> hops dist th ns k v w -> hops dist th ns (S k) u w.
Proof.
  intros th ns k u v w H K. inversion H as [k0 u0|k0 u0 v0 w0 C K0]; subst.
  - clear H. induction K as [k u|k u v w C K IH]; [constructor|]. eapply hp_hop; [exact C|exact IH].
  - inversion K0; subst. eapply hp_hop; [exact C|exact K].
Qed.
Lemma walk_link : forall ls l u v, In l ls -> ol_from l = u -> walk ls (ol_to l) v -> walk ls u v.
Proof. intros ls l u v H <- K. constructor; assumption. Qed.
End Proofs.

Theorem post_lemma : forall dist th bid k ns ls, network ns ls -> no_loops ls ->
  exists ns' ls', postprocess dist (S k) th bid (ns, ls) = Ok (ns', ls') /\
    network ns' ls' /\ no_loops ls' /\ single_links ls' /\ no_isolated ns' ls' /\ incl ns' ns.
Proof.
  intros dist th bid k; induction k as [|k IH]; intros ns ls N Hl; cbn [postprocess];
    destruct (step_lemma dist th bid ns ls N Hl) as (n1 & l1 & E & N1 & L1 & S1 & I1 & C1 & _); rewrite E; cbn [bind].
  - exists n1, l1. repeat (split; [assumption || reflexivity|]). exact C1.
  - destruct (IH n1 l1 N1 L1) as (n2 & l2 & E2 & N2 & L2 & S2 & I2 & C2). cbn [postprocess] in E2. exists n2, l2. split; [exact E2|].
    repeat (split; [assumption|]). intros x Hx. apply C1, C2. exact Hx.
Qed.

Theorem bidirectional_lemma : forall dist th k ns ls ns' ls', network ns ls -> no_loops ls -> postprocess dist (S k) th true (ns, ls) = Ok (ns', ls') ->
  (forall l, In l ls' -> exists r, In r ls' /\ ol_from r = ol_to l /\ ol_to r = ol_from l) /\
  forall n, In n (ids ns') -> (exists l, In l ls' /\ ol_from l = n) /\ (exists l, In l ls' /\ ol_to l = n).
Proof.
  intros dist th k; induction k as [|k IH]; intros ns ls ns' ls' N Hl H; cbn [postprocess] in H;
    destruct (step_lemma dist th true ns ls N Hl) as (n1 & l1 & E & N1 & L1 & S1 & I1 & C1 & B1 & _); rewrite E in H; cbn [bind] in H.
  - injection H as <- <-. split; [apply B1; reflexivity|]. intros n Hn. destruct (I1 n Hn) as (l & Hll & [El|El]);
      destruct (B1 eq_refl l Hll) as (r & Hr & Er1 & Er2); split; solve [exists l; auto|exists r; split; [assumption|congruence]].
  - apply (IH n1 l1); assumption.
Qed.

Theorem length_lemma : forall dist th bid k ns ls ns' ls', network ns ls -> no_loops ls -> bid = false \/ sym dist -> postprocess dist (S k) th bid (ns, ls) = Ok (ns', ls') ->
  forall l, In l ls' -> exists p q x, at_pos ns (ol_from l) p /\ at_pos ns (ol_to l) q /\ ol_len l = Some x /\ (x == dist p q)%Q.
Proof.
  intros dist th bid k; induction k as [|k IH]; intros ns ls ns' ls' N Hl Sy H l Hk; cbn [postprocess] in H;
    destruct (step_lemma dist th bid ns ls N Hl) as (n1 & l1 & E & N1 & L1 & S1 & I1 & C1 & _ & D1 & _); rewrite E in H; cbn [bind] in H.
  - injection H as <- <-. destruct (D1 Sy l Hk) as (p & q & x & A & B & F). exists p, q, x. split; [eapply at_pos_incl; eauto|]. split; [eapply at_pos_incl; eauto|exact F].
  - destruct (IH n1 l1 ns' ls' N1 L1 Sy H l Hk) as (p & q & x & A & B & F). exists p, q, x. split; [eapply at_pos_incl; eauto|]. split; [eapply at_pos_incl; eauto|exact F].
Qed.

Theorem connection_lemma : forall dist th bid k ns ls ns' ls', network ns ls -> no_loops ls -> postprocess dist k th bid (ns, ls) = Ok (ns', ls') ->
  exists f, (forall n, In n (ids ns) -> hops dist th ns k n (f n)) /\ forall u v, walk ls u v -> walk ls' (f u) (f v).
Proof.
  intros dist th bid k; induction k as [|k IH]; intros ns ls ns' ls' N Hl H; cbn [postprocess] in H.
  - injection H as <- <-. exists (fun n => n). split; [intros; constructor|auto].
  - destruct (step_lemma dist th bid ns ls N Hl) as (n1 & l1 & E & N1 & L1 & S1 & I1 & C1 & _ & _ & (f & F1 & F2) & _); rewrite E in H; cbn [bind] in H.
    destruct (IH n1 l1 ns' ls' N1 L1 H) as (g & G1 & G2).
    assert (W : forall u v, walk ls u v -> walk l1 (f u) (f v)).
    { intros u v K. induction K as [u|l v Hk K IK]; [constructor|]. destruct (F2 l Hk) as [Ef|(r & Hr & Er1 & Er2)]; [rewrite Ef; exact IK|].
      apply (walk_link l1 r); [exact Hr|exact Er1|]. rewrite Er2. exact IK. }
    assert (In1 : forall u v, walk l1 u v -> u = v \/ In u (ids n1) /\ In v (ids n1)).
    { intros u v K. induction K as [u|l v Hk K IK]; [auto|]. right. destruct N1 as (_ & N1). destruct (N1 l Hk) as (A & B). destruct IK as [<-|[_ IK]]; auto. }
    exists (fun n => if mem (f n) (ids n1) then g (f n) else f n). split.
    + intros n Hn. destruct (mem (f n) (ids n1)) eqn:Em.
      * apply mem_iff in Em. eapply hops_cons; [apply F1; exact Hn|]. eapply hops_incl; [exact C1|]. apply G1. exact Em.
      * eapply hops_cons; [apply F1; exact Hn|]. constructor.
    + intros u v K. apply W in K. destruct (In1 _ _ K) as [Ex|(A & B)].
      * rewrite Ex. constructor.
      * apply mem_iff in A, B. rewrite A, B. apply G2. exact K.
Qed.

Lemma no_short_stays : forall dist th bid k ns ls ns' ls', network ns ls -> no_loops ls -> bid = false \/ sym dist -> (forall l, In l ls -> ~ short dist th ns l) ->
  postprocess dist k th bid (ns, ls) = Ok (ns', ls') -> forall l, In l ls' -> ~ short dist th ns' l.
Proof.
  intros dist th bid k; induction k as [|k IH]; intros ns ls ns' ls' N Hl Sy No H; cbn [postprocess] in H.
  - injection H as <- <-. exact No.
  - destruct (step_lemma dist th bid ns ls N Hl) as (n1 & l1 & E & N1 & L1 & S1 & I1 & C1 & _ & _ & _ & _ & Q1); rewrite E in H; cbn [bind] in H.
    apply (IH n1 l1); auto.
Qed.
Lemma short_dec : forall dist th ns l, NoDup (ids ns) -> {short dist th ns l} + {~ short dist th ns l}.
Proof.
  intros dist th ns l Hn. destruct (dget (ol_from l) (positions ns)) as [p|] eqn:Ep.
  - destruct (dget (ol_to l) (positions ns)) as [q|] eqn:Eq.
    + apply (pos_get ns _ _ Hn) in Ep, Eq. destruct (Qlt_le_dec th (dist p q)) as [D|D].
      * right. intros (p' & q' & A & B & K). rewrite (at_pos_fun _ _ _ _ Hn A Ep), (at_pos_fun _ _ _ _ Hn B Eq) in K. apply Qle_not_lt in K. contradiction.
      * left. exists p, q. auto.
    + right. intros (p' & q' & A & B & K). apply (pos_get ns _ _ Hn) in B. congruence.
  - right. intros (p' & q' & A & B & K). apply (pos_get ns _ _ Hn) in A. congruence.
Qed.
Lemma short_any : forall dist th ns ls, NoDup (ids ns) -> (exists l, In l ls /\ short dist th ns l) \/ (forall l, In l ls -> ~ short dist th ns l).
Proof.
  intros dist th ns ls Hn. induction ls as [|l ls IH]; [right; intros l []|]. destruct (short_dec dist th ns l Hn) as [D|D]; [left; exists l; split; [left|]; auto|].
  destruct IH as [(k & K1 & K2)|K]; [left; exists k; split; [right|]; auto|]. right. intros k [<-|Hk]; auto.
Qed.
Theorem short_lemma : forall dist th bid k ns ls ns' ls', network ns ls -> no_loops ls -> bid = false \/ sym dist -> List.length ns <= k ->
  postprocess dist k th bid (ns, ls) = Ok (ns', ls') -> forall l, In l ls' -> ~ short dist th ns' l.
Proof.
  intros dist th bid k; induction k as [|k IH]; intros ns ls ns' ls' N Hl Sy Hk H.
  - cbn [postprocess] in H. injection H as <- <-. destruct ns; [|cbn in Hk; lia]. intros l Hi. destruct N as (_ & N). destruct (N l Hi) as ([] & _).
  - destruct (short_any dist th ns ls (proj1 N)) as [Sh|No]; [|apply (no_short_stays dist th bid (S k) ns ls); assumption].
    cbn [postprocess] in H.
    destruct (step_lemma dist th bid ns ls N Hl) as (n1 & l1 & E & N1 & L1 & S1 & I1 & C1 & _ & _ & _ & P1 & _); rewrite E in H; cbn [bind] in H.
    apply (IH n1 l1); auto. specialize (P1 Sh). lia.
Qed.

(** ** Attributes of links *)
Lemma relinks_like : forall dist pos m (P : olink -> Prop) ls acc acc', foldM (relink dist pos m) ls acc = Ok acc' ->
  (forall l s e x, In l ls -> P (mkOL (ol_name l) s e (ol_lanes l) (ol_speed l) x)) -> (forall l, In l acc -> P l) -> forall l, In l acc' -> P l.
Proof.
  intros dist pos m P ls; induction ls as [|k ls IH]; intros acc acc' H K A; cbn [foldM] in H; [injection H as <-; exact A|].
  apply bind_ok in H. destruct H as (a1 & E & H). apply (IH a1 acc' H); [intros l s e x Hl; apply K; right; exact Hl|].
  unfold relink in E. cbv zeta in E. apply bind_ok in E. destruct E as (p & _ & E). apply bind_ok in E. destruct E as (q & _ & E). injection E as <-.
  intros l Hl. destruct (Nat.eqb _ _); [apply A; exact Hl|]. apply lset_in in Hl. destruct Hl as [->|Hl]; [apply K; left; reflexivity|apply A; exact Hl].
Qed.
Lemma reverses_like : forall (P : olink -> Prop) ls acc,
  (forall l, In l ls -> P (mkOL (ol_name l ++ "-reverse") (ol_to l) (ol_from l) (ol_lanes l) (ol_speed l) (ol_len l))) -> (forall l, In l acc -> P l) ->
  forall l, In l (fold_left add_reverse ls acc) -> P l.
Proof.
  intros P ls; induction ls as [|k ls IH]; intros acc K A; cbn [fold_left]; [exact A|]. apply IH; [intros l Hl; apply K; right; exact Hl|].
  intros l Hl. unfold add_reverse in Hl. destruct (has_link _ _ _); [apply A; exact Hl|]. apply lset_in in Hl. destruct Hl as [->|Hl]; [apply K; left; reflexivity|apply A; exact Hl].
Qed.
Theorem attributes_lemma : forall dist th bid k ns ls ns' ls', postprocess dist k th bid (ns, ls) = Ok (ns', ls') ->
  forall l, In l ls' -> exists o, In o ls /\ like bid l o.
Proof.
  intros dist th bid k; induction k as [|k IH]; intros ns ls ns' ls' H; cbn [postprocess] in H.
  - injection H as <- <-. intros l Hl. exists l. split; [exact Hl|]. repeat split.
  - apply bind_ok in H. destruct H as ([n1 l1] & E & H). intros l Hl. destruct (IH n1 l1 ns' ls' H l Hl) as (o & Ho & Lo).
    assert (K : exists r, In r ls /\ like bid o r).
    { unfold merge_step in E. apply bind_ok in E. destruct E as (m & _ & E). apply bind_ok in E. destruct E as (a & Ea & E). injection E as _ <-.
      assert (B : forall x, In x a -> exists r, In r ls /\ like bid x r).
      { apply (relinks_like dist (positions ns) m (fun x => exists r, In r ls /\ like bid x r) ls [] a Ea); [|intros x []].
        intros x s e y Hx. exists x. split; [exact Hx|]. repeat split. }
      destruct bid; [|apply B; exact Ho]. revert o Ho Lo. 
      refine (fun o Ho _ => reverses_like (fun x => exists r, In r ls /\ like true x r) a a _ B o Ho).
      intros x Hx. destruct (B x Hx) as (r & Hr & (L1 & L2 & _)). exists r. split; [exact Hr|]. split; [exact L1|]. split; [exact L2|discriminate]. }
    destruct K as (r & Hr & (R1 & R2 & R3)). destruct Lo as (O1 & O2 & O3). exists r. split; [exact Hr|]. split; [congruence|]. split; [congruence|].
    intro B. rewrite (O3 B). apply R3. exact B.
Qed.
