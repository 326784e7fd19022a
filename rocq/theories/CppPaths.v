(** * CppPaths: the shortest path search of the compiled engine, World::route_search_all, uxsim/trafficpp/traffi.cpp 1317-1385. *)
From Verif Require Import Base Types Sim Lists Tac Steps Spec Paths SpecDuo.
Local Open Scope nat_scope.

(** ** The model *)

(** the neighbours of a node: [adj[i][j] > 0.0].  Simplification: an infinite entry is [None] and no edge; in the code it is an
    edge of infinite weight, which never gives a smaller distance *)
Definition row (n : nat) (m : nid -> nid -> option Q) (i : nid) : list (nid * Q) :=
  flat_map (fun j => match m i j with Some q => if qlt 0 q then [(j, q)] else [] | None => [] end) (seq 0 n).
(** rsa_dist[start] and rsa_next[start] ([None]: infty and -1), the visited nodes, the priority queue *)
Record search := mkSearch { x_dist : nid -> option Q; x_next : nid -> option nid; x_vis : list nid; x_pq : list (Q * nid) }.
(** std::greater on pairs: the least distance, of several the least node *)
Definition ahead (a b : Q * nid) : bool := (qlt (fst a) (fst b) || (qeq (fst a) (fst b) && Nat.ltb (snd a) (snd b)))%bool.
(** pq.top(); pq.pop() *)
Fixpoint pop_min (l : list (Q * nid)) : option ((Q * nid) * list (Q * nid)) :=
  match l with
  | [] => None
  | x :: tl => match pop_min tl with None => Some (x, []) | Some (y, r) => if ahead y x then Some (y, x :: r) else Some (x, y :: r) end
  end.
Definition set_at {A} (f : nid -> option A) (k : nid) (x : option A) : nid -> option A := fun i => if Nat.eqb i k then x else f i.
(** one neighbour *)
Definition relax (s cur : nid) (dcur : Q) (e : nid * Q) (st : search) : search :=
  let nd := (dcur + snd e)%Q in
  if match x_dist st (fst e) with Some d => qlt nd d | None => true end then
    mkSearch (set_at (x_dist st) (fst e) (Some nd)) (set_at (x_next st) (fst e) (if Nat.eqb cur s then Some (fst e) else x_next st cur))
      (x_vis st) (x_pq st ++ [(nd, fst e)])
  else st.
(** one element of the queue *)
Definition visit (n : nat) (m : nid -> nid -> option Q) (s cur : nid) (rest : list (Q * nid)) (st : search) : search :=
  if existsb (Nat.eqb cur) (x_vis st) then mkSearch (x_dist st) (x_next st) (x_vis st) rest
  else
    let st1 := mkSearch (x_dist st) (x_next st) (cur :: x_vis st) rest in
    match x_dist st cur with None => st1 | Some dcur => fold_left (fun a e => relax s cur dcur e a) (row n m cur) st1 end.
Fixpoint search_loop (n : nat) (m : nid -> nid -> option Q) (s : nid) (fuel : nat) (st : search) : option search :=
  match fuel with
  | 0 => None
  | S f => match pop_min (x_pq st) with None => Some st | Some ((_, cur), rest) => search_loop n m s f (visit n m s cur rest st) end
  end.
Definition search_from (n : nat) (m : nid -> nid -> option Q) (s : nid) : option search :=
  search_loop n m s (n * n + 2) (mkSearch (set_at (fun _ => None) s (Some 0%Q)) (set_at (fun _ => None) s (Some s)) [] [(0%Q, s)]).
(** all sources; the threads write to rows of their own *)
Definition cpp_dist (n : nat) (m : nid -> nid -> option Q) : nid -> nid -> option Q :=
  fun i k => match search_from n m i with Some st => x_dist st k | None => None end.
Definition cpp_next (n : nat) (m : nid -> nid -> option Q) : nid -> nid -> option nid :=
  fun i k => match search_from n m i with Some st => x_next st k | None => None end.
(** [rsa_next[i][i]] is [i] itself: no next node *)
Definition no_self (nx : nid -> nid -> option nid) : nid -> nid -> option nid := fun i k => if Nat.eqb i k then None else nx i k.

(** the node-by-node walk along next_hop, 1444-1452: the nodes after the first one *)
Fixpoint walk (nx : nid -> nid -> option nid) (fuel : nat) (cur dst : nid) : option (list nid) :=
  if Nat.eqb cur dst then Some []
  else match fuel with
       | 0 => None
       | S f => match nx cur dst with
                | None => None
                | Some j => if Nat.eqb j cur then None else match walk nx f j dst with Some l => Some (j :: l) | None => None end
                end
       end.

(** ** Queue and neighbours *)
Lemma pop_none : forall l, pop_min l = None -> l = [].
Proof. intros [|x tl] H; [reflexivity|]. cbn in H. destruct (pop_min tl) as [[y r]|]; [destruct (ahead y x)|]; discriminate. Qed.
Lemma ahead_le : forall a b, ahead a b = true -> (fst a <= fst b)%Q.
Proof.
  intros a b H. unfold ahead in H. apply orb_prop in H. destruct H as [H|H]; [apply qlt_iff in H; lra|]. apply andb_prop in H. destruct H as [H _]. apply qeq_iff in H. lra.
Qed.
Lemma ahead_ge : forall a b, ahead a b = false -> (fst b <= fst a)%Q.
Proof. intros a b H. unfold ahead in H. apply orb_false_elim in H. destruct H as [H _]. apply qlt_false in H. exact H. Qed.
Lemma pop_some : forall l x r, pop_min l = Some (x, r) ->
  List.length l = S (List.length r) /\ (forall y, In y l <-> y = x \/ In y r) /\ (forall y, In y l -> (fst x <= fst y)%Q).
Proof.
  induction l as [|a l IH]; intros x r H; [discriminate|]. cbn in H. destruct (pop_min l) as [[y r']|] eqn:E.
  - destruct (IH y r' eq_refl) as (A & B & C). destruct (ahead y a) eqn:Ea; injection H as <- <-; cbn [List.length In].
    + split; [lia|]. split; [intro z; rewrite B; intuition congruence|]. intros z [<-|Hz]; [exact (ahead_le _ _ Ea)|auto].
    + split; [lia|]. split; [intro z; rewrite B; intuition congruence|]. apply ahead_ge in Ea. intros z [<-|Hz]; [lra|]. specialize (C z Hz). lra.
  - injection H as <- <-. apply pop_none in E. subst l. cbn. split; [reflexivity|]. split; [intro z; intuition congruence|]. intros z [<-|[]]. lra.
Qed.
Lemma row_in : forall n m i j q, In (j, q) (row n m i) <-> j < n /\ m i j = Some q /\ (0 < q)%Q.
Proof.
  intros n m i j q. unfold row. rewrite in_flat_map. split.
  - intros (k & Hk & H). apply in_seq in Hk. destruct (m i k) as [x|] eqn:E; [|destruct H]. destruct (qlt 0 x) eqn:Ex; [|destruct H]. destruct H as [H|[]]. injection H as -> ->. apply qlt_iff in Ex. split; [lia|auto].
  - intros (H1 & H2 & H3). exists j. split; [apply in_seq; lia|]. rewrite H2. apply qlt_iff in H3. rewrite H3. left. reflexivity.
Qed.
Lemma row_length : forall n m i, List.length (row n m i) <= n.
Proof.
  intros n m i. unfold row. rewrite <- (seq_length n 0) at 2. induction (seq 0 n) as [|j l IH]; [apply le_n|]. cbn [flat_map]. rewrite app_length. cbn [List.length].
  enough (List.length (match m i j with Some q => if qlt 0 q then [(j, q)] else [] | None => [] end) <= 1) by lia. destruct (m i j) as [q|]; [destruct (qlt 0 q)|]; cbn; lia.
Qed.
Lemma path_lt : forall n m i k y, path n m i k y -> i < n /\ k < n.
Proof. intros n m i k y H. induction H; [auto|]. destruct IHpath. auto. Qed.
Lemma path_snoc : forall n m i k y l q, path n m i k y -> m k l = Some q -> ~ (q == 0)%Q -> l < n -> exists z, path n m i l z /\ (z == y + q)%Q.
Proof.
  intros n m i k y l q H. induction H as [i Hi|i j k p r Hi Hm Hp H IH]; intros Hq Nq Hl.
  - exists (q + 0)%Q. split; [apply (p_edge n m i l l q 0); auto; apply p_here; auto|lra].
  - destruct (IH Hq Nq Hl) as (z & Z1 & Z2). exists (p + z)%Q. split; [apply (p_edge n m i j l p z); auto|lra].
Qed.

(** ** Invariant *)
Section Search.
Variable n : nat. Variable m : nid -> nid -> option Q. Variable s : nid.
Definition hop (st : search) (k : nid) (d : Q) : Prop :=
  (k = s /\ (d == 0)%Q) \/
  (k <> s /\ exists j q r, x_next st k = Some j /\ j < n /\ m s j = Some q /\ (0 < q)%Q /\ path n m j k r /\ (d == q + r)%Q).
Record base (st : search) : Prop := mkBase {
  b_start : exists z, x_dist st s = Some z /\ (z == 0)%Q;
  b_path : forall k d, x_dist st k = Some d -> k < n /\ (0 <= d)%Q /\ hop st k d;
  b_pq : forall d k, In (d, k) (x_pq st) -> exists d', x_dist st k = Some d' /\ (d' <= d)%Q;
  b_cov : forall k d, x_dist st k = Some d -> In k (x_vis st) \/ In (d, k) (x_pq st);
  b_le : forall v d k d', In v (x_vis st) -> x_dist st v = Some d -> ~ In k (x_vis st) -> x_dist st k = Some d' -> (d <= d')%Q;
  b_vis : forall v, In v (x_vis st) -> v < n /\ x_dist st v <> None;
  b_nodup : NoDup (x_vis st);
  b_none : forall k, x_dist st k = None -> x_next st k = None }.
Definition edge_done (st : search) (d : Q) (e : nid * Q) : Prop := exists d', x_dist st (fst e) = Some d' /\ (d' <= d + snd e)%Q.
Definition explored (st : search) (v : nid) : Prop := forall d e, x_dist st v = Some d -> In e (row n m v) -> edge_done st d e.
Record mid (cur : nid) (dcur : Q) (fin : list (nid * Q)) (st : search) : Prop := mkMid {
  i_base : base st;
  i_cur : In cur (x_vis st) /\ x_dist st cur = Some dcur;
  i_max : forall v d, In v (x_vis st) -> x_dist st v = Some d -> (d <= dcur)%Q;
  i_others : forall v, In v (x_vis st) -> v <> cur -> explored st v;
  i_fin : Forall (edge_done st dcur) fin }.
Lemma relax_mid : forall cur dcur fin e st, mid cur dcur fin st -> In e (row n m cur) -> mid cur dcur (fin ++ [e]) (relax s cur dcur e st).
Proof.
  intros cur dcur fin [j q] st [[B1 B2 B3 B4 B5 B6 B7 B8] [C1 C2] I1 I2 I3] He. apply row_in in He. destruct He as (Hj & Hm & Hq). unfold relax. cbn [fst snd].
  assert (P0 : (0 <= dcur)%Q) by (apply (B2 cur); exact C2).
  destruct (match x_dist st j with Some d => qlt (dcur + q) d | None => true end) eqn:E.
  2:{ constructor; [constructor; auto|auto|auto|auto|]. apply Forall_app. split; [exact I3|]. constructor; [|constructor]. unfold edge_done. cbn [fst snd].
      destruct (x_dist st j) as [d|]; [|discriminate]. exists d. split; [reflexivity|]. apply qlt_false in E. exact E. }
  assert (Less : forall d, x_dist st j = Some d -> (dcur + q < d)%Q). { intros d Ed. rewrite Ed in E. apply qlt_iff in E. exact E. }
  assert (Nv : ~ In j (x_vis st)).
  { intro K. destruct (B6 j K) as [_ K2]. destruct (x_dist st j) as [d|] eqn:Ed; [|congruence]. specialize (Less d eq_refl). specialize (I1 j d K Ed). lra. }
  assert (Nc : j <> cur) by (intros ->; contradiction).
  assert (Ns : j <> s). { intros ->. destruct B1 as (z & Z1 & Z2). specialize (Less z Z1). lra. }
  set (st' := mkSearch _ _ _ _).
  assert (Dj : x_dist st' j = Some (dcur + q)%Q) by (cbn; unfold set_at; rewrite Nat.eqb_refl; reflexivity).
  assert (Do : forall k, k <> j -> x_dist st' k = x_dist st k) by (intros k Hk; cbn; unfold set_at; apply Nat.eqb_neq in Hk; rewrite Hk; reflexivity).
  assert (Nj : x_next st' j = if Nat.eqb cur s then Some j else x_next st cur) by (cbn; unfold set_at; rewrite Nat.eqb_refl; reflexivity).
  assert (No : forall k, k <> j -> x_next st' k = x_next st k) by (intros k Hk; cbn; unfold set_at; apply Nat.eqb_neq in Hk; rewrite Hk; reflexivity).
  assert (Vis : x_vis st' = x_vis st) by reflexivity. assert (Pq : x_pq st' = x_pq st ++ [((dcur + q)%Q, j)]) by reflexivity. clearbody st'.
  assert (Down : forall d e, edge_done st d e -> edge_done st' d e).
  { intros d e (d' & X1 & X2). destruct (Nat.eq_dec (fst e) j) as [Ee|Ne]; [|exists d'; rewrite Do by exact Ne; auto]. exists (dcur + q)%Q. rewrite Ee in *. split; [exact Dj|]. specialize (Less d' X1). lra. }
  constructor; [constructor| | | |].
  - destruct B1 as (z & Z1 & Z2). exists z. rewrite Do by auto. auto.
  - intros k d Hk. destruct (Nat.eq_dec k j) as [->|Ne].
    + rewrite Dj in Hk. injection Hk as <-. split; [exact Hj|]. split; [lra|]. right. split; [exact Ns|]. rewrite Nj. destruct (B2 cur dcur C2) as (Hc & _ & [[-> X2]|(X1 & a & p & r & Y1 & Y2 & Y3 & Y4 & Y5 & Y6)]).
      * rewrite Nat.eqb_refl. exists j, q, 0%Q. repeat split; auto; [apply p_here; exact Hj|lra].
      * apply Nat.eqb_neq in X1. rewrite X1. destruct (path_snoc n m a cur r j q Y5 Hm ltac:(lra) Hj) as (z & Z1 & Z2). exists a, p, z. repeat split; auto. lra.
    + rewrite Do in Hk by exact Ne. destruct (B2 k d Hk) as (X1 & X2 & X3). split; [exact X1|]. split; [exact X2|]. unfold hop in *. rewrite No by exact Ne. exact X3.
  - intros d k Hk. rewrite Pq in Hk. apply in_app_or in Hk. destruct Hk as [Hk|[Hk|[]]]; [|injection Hk as <- <-; exists (dcur + q)%Q; split; [exact Dj|lra]].
    destruct (B3 d k Hk) as (d' & X1 & X2). destruct (Nat.eq_dec k j) as [->|Ne]; [|exists d'; rewrite Do by exact Ne; auto]. exists (dcur + q)%Q. split; [exact Dj|]. specialize (Less d' X1). lra.
  - intros k d Hk. rewrite Vis, Pq. destruct (Nat.eq_dec k j) as [->|Ne]; [rewrite Dj in Hk; injection Hk as <-; right; apply in_or_app; right; left; reflexivity|].
    rewrite Do in Hk by exact Ne. destruct (B4 k d Hk) as [K|K]; [left; exact K|right; apply in_or_app; left; exact K].
  - intros v d k d' Hv Ed Hk Ed'. rewrite Vis in *. rewrite Do in Ed by (intros ->; contradiction). destruct (Nat.eq_dec k j) as [->|Ne]; [rewrite Dj in Ed'; injection Ed' as <-; specialize (I1 v d Hv Ed); lra|].
    rewrite Do in Ed' by exact Ne. exact (B5 v d k d' Hv Ed Hk Ed').
  - intros v Hv. rewrite Vis in Hv. rewrite Do by (intros ->; contradiction). auto.
  - rewrite Vis. exact B7.
  - intros k Hk. destruct (Nat.eq_dec k j) as [->|Ne]; [congruence|]. rewrite Do in Hk by exact Ne. rewrite No by exact Ne. auto.
  - rewrite Vis, Do by auto. auto.
  - intros v d Hv Ed. rewrite Vis in Hv. rewrite Do in Ed by (intros ->; contradiction). eauto.
  - intros v Hv Hc d e Ed He. rewrite Vis in Hv. rewrite Do in Ed by (intros ->; contradiction). apply Down. exact (I2 v Hv Hc d e Ed He).
  - apply Forall_app. split; [eapply Forall_impl; [|exact I3]; cbn; auto|]. constructor; [|constructor]. exists (dcur + q)%Q. split; [exact Dj|cbn; lra].
Qed.
Lemma relax_size : forall cur dcur e st, x_vis (relax s cur dcur e st) = x_vis st /\ List.length (x_pq (relax s cur dcur e st)) <= S (List.length (x_pq st)).
Proof. intros. unfold relax. destruct (match _ with Some _ => _ | None => _ end); cbn; (split; [reflexivity|]); [rewrite app_length; cbn; lia|lia]. Qed.
Lemma relax_all : forall cur dcur es fin st, mid cur dcur fin st -> incl es (row n m cur) ->
  let st' := fold_left (fun a e => relax s cur dcur e a) es st in
  mid cur dcur (fin ++ es) st' /\ x_vis st' = x_vis st /\ List.length (x_pq st') <= List.length es + List.length (x_pq st).
Proof.
  intros cur dcur. induction es as [|e es IH]; intros fin st H Hi; cbn [fold_left]; [rewrite app_nil_r; auto|].
  destruct (IH (fin ++ [e]) (relax s cur dcur e st)) as (A & B & C); [apply relax_mid; [exact H|apply Hi; left; reflexivity]|intros x Hx; apply Hi; right; exact Hx|].
  rewrite <- app_assoc in A. destruct (relax_size cur dcur e st) as [D E]. cbn zeta in *. split; [exact A|]. split; [congruence|]. cbn [List.length]. lia.
Qed.
Definition inv (st : search) : Prop := base st /\ forall v, In v (x_vis st) -> explored st v.
Definition effort (st : search) : nat := List.length (x_pq st) + n * (n - List.length (x_vis st)).
Lemma visit_inv : forall st d cur rest, inv st -> pop_min (x_pq st) = Some ((d, cur), rest) -> inv (visit n m s cur rest st) /\ effort (visit n m s cur rest st) < effort st.
Proof.
  intros st d cur rest [[B1 B2 B3 B4 B5 B6 B7 B8] X] E. destruct (pop_some _ _ _ E) as (L1 & L2 & L3). cbn [fst] in L3. unfold visit. destruct (existsb (Nat.eqb cur) (x_vis st)) eqn:V.
  - apply existsb_exists in V. destruct V as (v & V1 & V2). apply Nat.eqb_eq in V2. subst v. split; [|unfold effort; cbn; lia]. split; [|exact X]. constructor; cbn [x_dist x_next x_vis x_pq]; auto.
    + intros d' k Hk. apply B3. apply L2. right. exact Hk.
    + intros k d' Hk. destruct (B4 k d' Hk) as [K|K]; [left; exact K|]. apply L2 in K. destruct K as [K|K]; [injection K as -> ->; left; exact V1|right; exact K].
  - assert (Nv : ~ In cur (x_vis st)). { intro K. enough (existsb (Nat.eqb cur) (x_vis st) = true) by congruence. apply existsb_exists. exists cur. split; [exact K|apply Nat.eqb_refl]. }
    destruct (B3 d cur) as (dcur & D1 & D2); [apply L2; left; reflexivity|]. rewrite D1.
    assert (Min : forall k d', x_dist st k = Some d' -> ~ In k (x_vis st) -> (dcur <= d')%Q).
    { intros k d' Hk Nk. destruct (B4 k d' Hk) as [K|K]; [contradiction|]. specialize (L3 _ K). cbn in L3. lra. }
    set (st1 := mkSearch (x_dist st) (x_next st) (cur :: x_vis st) rest).
    assert (M : mid cur dcur [] st1).
    { constructor; [constructor| | | |constructor]; cbn [st1 x_dist x_next x_vis x_pq]; auto.
      - intros d' k Hk. apply B3. apply L2. right. exact Hk.
      - intros k d' Hk. destruct (B4 k d' Hk) as [K|K]; [left; right; exact K|]. apply L2 in K. destruct K as [K|K]; [injection K as -> ->; left; left; reflexivity|right; exact K].
      - intros v dv k dk [<-|Hv] Ed Hk Ek; [rewrite D1 in Ed; injection Ed as <-|]; [apply (Min k); [exact Ek|intro K; apply Hk; right; exact K]|]. apply (B5 v dv k dk Hv Ed); [intro K; apply Hk; right; exact K|exact Ek].
      - intros v [<-|Hv]; [split; [apply (B2 cur dcur D1)|congruence]|auto].
      - constructor; assumption.
      - split; [left; reflexivity|exact D1].
      - intros v dv [<-|Hv] Ed; [rewrite D1 in Ed; injection Ed as <-; lra|exact (B5 v dv cur dcur Hv Ed Nv D1)].
      - intros v [<-|Hv] Hc; [congruence|]. exact (X v Hv). }
    destruct (relax_all cur dcur (row n m cur) [] st1 M (incl_refl _)) as ([A1 [A2 A3] A4 A5 A6] & B & C). cbn [app] in A6.
    match goal with |- inv ?z /\ _ => set (st' := z) in * end. split.
    + split; [exact A1|]. intros v Hv. destruct (Nat.eq_dec v cur) as [->|Ne]; [|exact (A5 v Hv Ne)]. intros d0 e Hd He. rewrite A3 in Hd. injection Hd as <-. rewrite Forall_forall in A6. exact (A6 e He).
    + unfold effort. rewrite B. cbn [st1 x_vis x_pq] in *. cbn [List.length]. pose proof (row_length n m cur).
      assert (List.length (cur :: x_vis st) <= n).
      { rewrite <- (seq_length n 0). apply NoDup_incl_length; [constructor; assumption|]. intros v [<-|Hv]; apply in_seq; [destruct (B2 cur dcur D1); lia|destruct (B6 v Hv); lia]. }
      cbn [List.length] in *. assert (N1 : n - List.length (x_vis st) = S (n - S (List.length (x_vis st)))) by lia. rewrite N1. rewrite Nat.mul_succ_r. lia.
Qed.
Lemma loop_inv : forall fuel st, inv st -> effort st < fuel -> exists st', search_loop n m s fuel st = Some st' /\ inv st' /\ x_pq st' = [].
Proof.
  induction fuel as [|fuel IH]; intros st H Hf; [lia|]. cbn [search_loop]. destruct (pop_min (x_pq st)) as [[[d cur] rest]|] eqn:E; [|exists st; split; [reflexivity|]; split; [exact H|apply pop_none; exact E]].
  destruct (visit_inv st d cur rest H E) as [I1 I2]. apply IH; [exact I1|lia].
Qed.
Lemma start_inv : s < n -> inv (mkSearch (set_at (fun _ => None) s (Some 0%Q)) (set_at (fun _ => None) s (Some s)) [] [(0%Q, s)]).
Proof.
  intro Hs. split; [|intros v []]. assert (K : forall k d, set_at (fun _ => None) s (Some 0%Q) k = Some d -> k = s /\ d = 0%Q). { intros k d H. unfold set_at in H. destruct (Nat.eqb_spec k s) as [->|]; [injection H as <-; auto|discriminate]. }
  constructor; cbn [x_dist x_next x_vis x_pq].
  - exists 0%Q. unfold set_at. rewrite Nat.eqb_refl. split; [reflexivity|lra].
  - intros k d H. apply K in H. destruct H as [-> ->]. split; [exact Hs|]. split; [lra|]. left. split; [reflexivity|lra].
  - intros d k [H|[]]. injection H as <- <-. exists 0%Q. unfold set_at. rewrite Nat.eqb_refl. split; [reflexivity|lra].
  - intros k d H. apply K in H. destruct H as [-> ->]. right. left. reflexivity.
  - intros v d k d' [].
  - intros v [].
  - constructor.
  - intros k H. unfold set_at in *. destruct (Nat.eqb k s); [discriminate|reflexivity].
Qed.
Lemma search_ends : s < n -> exists st, search_from n m s = Some st /\ inv st /\ x_pq st = [].
Proof. intro Hs. unfold search_from. apply loop_inv; [apply start_inv; exact Hs|]. unfold effort. cbn [x_pq x_vis List.length]. rewrite Nat.sub_0_r. lia. Qed.
Lemma search_below : no_negative n m -> forall st, inv st -> x_pq st = [] -> forall i k y, path n m i k y -> forall d, x_dist st i = Some d -> exists d', x_dist st k = Some d' /\ (d' <= d + y)%Q.
Proof.
  intros NN st [[B1 B2 B3 B4 B5 B6 B7 B8] X] E i k y H. induction H as [i Hi|i j k q r Hi Hm Hq H IH]; intros d Hd; [exists d; split; [exact Hd|lra]|].
  assert (Hj : j < n) by (apply (path_lt n m j k r H)). assert (Q0 : (0 < q)%Q) by (pose proof (NN i j q Hi Hj Hm); destruct (Qlt_le_dec 0 q); [assumption|exfalso; apply Hq; lra]).
  assert (Vi : In i (x_vis st)) by (destruct (B4 i d Hd) as [K|K]; [exact K|rewrite E in K; destruct K]).
  destruct (X i Vi d (j, q) Hd) as (dj & J1 & J2); [apply row_in; auto|]. cbn [fst snd] in *. destruct (IH dj J1) as (d' & D1 & D2). exists d'. split; [exact D1|lra].
Qed.
End Search.

(** ** Theorems *)
(** the search from a node of the network ends within n*n+2 elements of the queue *)
Theorem cpp_search_ends : forall n m s, s < n -> search_from n m s <> None.
Proof. intros n m s Hs. destruct (search_ends n m s Hs) as (st & -> & _). discriminate. Qed.
Lemma cpp_least : forall n m i k, no_negative n m -> i < n -> k < n ->
  match cpp_dist n m i k with Some x => least n m i k x | None => forall x, ~ path n m i k x end.
Proof.
  intros n m i k NN Hi Hk. unfold cpp_dist. destruct (search_ends n m i Hi) as (st & -> & I & E). pose proof (search_below n m i NN st I E i k) as Below.
  destruct (b_start _ _ _ _ (proj1 I)) as (z & Z1 & Z2). destruct (x_dist st k) as [x|] eqn:Ex.
  - split; [|intros y Hy; destruct (Below y Hy z Z1) as (d' & D1 & D2); injection D1 as <-; lra].
    destruct (b_path _ _ _ _ (proj1 I) k x Ex) as (_ & _ & [[-> X]|(_ & j & q & r & Y1 & Y2 & Y3 & Y4 & Y5 & Y6)]); [exists 0%Q; split; [apply p_here; exact Hi|lra]|].
    exists (q + r)%Q. split; [apply (p_edge n m i j k q r); auto; lra|lra].
  - intros y Hy. destruct (Below y Hy z Z1) as (d' & D1 & D2). discriminate.
Qed.
Theorem cpp_paths_ok : forall n m, no_negative n m -> paths_ok n m (cpp_dist n m) (no_self (cpp_next n m)).
Proof.
  intros n m NN. assert (Least : forall i k x, i < n -> k < n -> cpp_dist n m i k = Some x -> least n m i k x). { intros i k x Hi Hk E. pose proof (cpp_least n m i k NN Hi Hk) as H. rewrite E in H. exact H. }
  constructor.
  - exact Least.
  - intros i k x Hi Hk E. pose proof (cpp_least n m i k NN Hi Hk) as H. rewrite E in H. apply H.
  - intros i k x Hi Hk Ne E. pose proof (Least i k x Hi Hk E) as [_ Lo]. unfold no_self. apply Nat.eqb_neq in Ne. rewrite Ne. unfold cpp_dist in E. unfold cpp_next.
    destruct (search_ends n m i Hi) as (st & Es & I & Eq). rewrite Es in *.
    destruct (b_path _ _ _ _ (proj1 I) k x E) as (_ & _ & [[-> X]|(_ & j & q & r & Y1 & Y2 & Y3 & Y4 & Y5 & Y6)]); [rewrite Nat.eqb_refl in Ne; discriminate|].
    pose proof (cpp_least n m j k NN Y2 Hk) as H. destruct (cpp_dist n m j k) as [y|] eqn:Ey; [|exfalso; exact (H r Y5)]. destruct H as [(y' & P1 & P2) Lj].
    exists j, q, y. repeat split; auto; [lra|]. specialize (Lj r Y5). specialize (Lo (q + y')%Q (p_edge n m i j k q y' Hi Y3 ltac:(lra) P1)). lra.
  - intros i k Hi Hk H. unfold no_self. destruct (Nat.eqb_spec i k) as [|Ne]; [reflexivity|]. destruct H as [H|H]; [contradiction|]. unfold cpp_dist in H. unfold cpp_next.
    destruct (search_ends n m i Hi) as (st & Es & I & Eq). rewrite Es in *. exact (b_none _ _ _ _ (proj1 I) k H).
Qed.
(** ** The walk along the next nodes *)
Fixpoint legs (m : nid -> nid -> option Q) (i : nid) (l : list nid) : option Q :=
  match l with [] => Some 0%Q | j :: tl => match m i j, legs m j tl with Some q, Some r => Some (q + r)%Q | _, _ => None end end.
Lemma walk_ok : forall n m, no_negative n m -> forall bound seen i k x, NoDup seen -> List.length seen + bound = n -> i < n -> k < n -> Forall (fun v => v < n /\ exists y, cpp_dist n m v k = Some y /\ (x < y)%Q) seen ->
  cpp_dist n m i k = Some x -> exists l c, walk (cpp_next n m) bound i k = Some l /\ last (i :: l) i = k /\ NoDup (i :: l) /\ Forall (fun v => v < n) l /\
    (forall v, In v l -> exists y, cpp_dist n m v k = Some y /\ (y < x)%Q) /\ legs m i l = Some c /\ (c == x)%Q.
Proof.
  intros n m NN. pose proof (cpp_paths_ok n m NN) as P. induction bound as [|b IH]; intros seen i k x D Hl Hi Hk Hs E.
  - exfalso. assert (K : List.length (i :: seen) <= n).
    { rewrite <- (seq_length n 0). apply NoDup_incl_length; [|intros v [<-|Hv]; apply in_seq; [lia|rewrite Forall_forall in Hs; destruct (Hs v Hv); lia]].
      constructor; [|exact D]. intro K. rewrite Forall_forall in Hs. destruct (Hs i K) as (_ & y & Y1 & Y2). rewrite E in Y1. injection Y1 as <-. lra. }
    cbn in K. lia.
  - cbn [walk]. destruct (Nat.eqb_spec i k) as [->|Ne].
    + exists [], 0%Q. split; [reflexivity|]. split; [reflexivity|]. split; [constructor; [intros []|constructor]|]. split; [constructor|]. split; [intros v []|]. split; [reflexivity|].
      destruct (po_least _ _ _ _ P k k x Hk Hk E) as [(y & Y1 & Y2) Y3]. pose proof (Y3 0%Q (p_here n m k Hk)). enough (0 <= y)%Q by lra.
      clear - Y1 NN. induction Y1 as [|a j b q r Ha Hm Hq Hp IHp]; [lra|]. pose proof (NN a j q Ha (proj1 (path_lt _ _ _ _ _ Hp)) Hm). specialize (IHp). lra.
    + destruct (po_next _ _ _ _ P i k x Hi Hk Ne E) as (j & q & y & J1 & J2 & J3 & J4 & J5 & J6). unfold no_self in J1. destruct (Nat.eqb_spec i k) as [|_]; [contradiction|]. rewrite J1.
      assert (Q0 : (0 < q)%Q) by (pose proof (NN i j q Hi J2 J3); destruct (Qlt_le_dec 0 q); [assumption|exfalso; apply J4; lra]).
      assert (Nij : j <> i). { intros ->. rewrite E in J5. injection J5 as <-. lra. } apply Nat.eqb_neq in Nij. rewrite Nij.
      destruct (IH (i :: seen) j k y) as (l & c & W1 & W2 & W3 & W4 & W5 & W6 & W7); auto.
      { constructor; [|exact D]. intro K. rewrite Forall_forall in Hs. destruct (Hs i K) as (_ & z & Z1 & Z2). rewrite E in Z1. injection Z1 as <-. lra. }
      { cbn. lia. }
      { constructor; [split; [exact Hi|]; exists x; split; [exact E|lra]|]. eapply Forall_impl; [|exact Hs]. cbn. intros v (V1 & z & Z1 & Z2). split; [exact V1|]. exists z. split; [exact Z1|lra]. }
      rewrite W1. exists (j :: l), (q + c)%Q. split; [reflexivity|].
      assert (In5 : forall v, In v (j :: l) -> exists z, cpp_dist n m v k = Some z /\ (z < x)%Q). { intros v [<-|Hv]; [exists y; split; [exact J5|lra]|]. destruct (W5 v Hv) as (z & Z1 & Z2). exists z. split; [exact Z1|lra]. }
      split; [|split; [|split; [|split; [exact In5|split]]]].
      * change (last (i :: j :: l) i) with (last (j :: l) i). rewrite <- W2. clear. revert j. induction l as [|a l IHl]; intro j; [reflexivity|]. change (last (j :: a :: l) i) with (last (a :: l) i). change (last (j :: a :: l) j) with (last (a :: l) j). 
        assert (G : forall (z : nid) l d d', last (z :: l) d = last (z :: l) d'). { clear. intros z l. revert z. induction l as [|b l IHl]; intros z d d'; [reflexivity|]. exact (IHl b d d'). } apply G.
      * constructor; [|exact W3]. intro K. destruct (In5 i K) as (z & Z1 & Z2). rewrite E in Z1. injection Z1 as <-. lra.
      * constructor; assumption.
      * cbn [legs]. rewrite J3, W6. reflexivity.
      * lra.
Qed.
(** following the next nodes from a node that has a finite distance leads to the destination, over no node twice and at the least cost *)
Theorem cpp_walk : forall n m i k x, no_negative n m -> i < n -> k < n -> cpp_dist n m i k = Some x ->
  exists l c, walk (cpp_next n m) n i k = Some l /\ last (i :: l) i = k /\ NoDup (i :: l) /\ Forall (fun v => v < n) l /\ legs m i l = Some c /\ (c == x)%Q /\ least n m i k x.
Proof.
  intros n m i k x NN Hi Hk E. destruct (walk_ok n m NN n [] i k x) as (l & c & W1 & W2 & W3 & W4 & _ & W6 & W7); auto; [constructor|]. exists l, c. repeat (split; [assumption|]).
  pose proof (cpp_least n m i k NN Hi Hk) as H. rewrite E in H. exact H.
Qed.
(** every other correct routine finds the same distances *)
Theorem cpp_dist_same : forall n m d nx i k, no_negative n m -> paths_ok n m d nx -> i < n -> k < n ->
  match cpp_dist n m i k, d i k with Some x, Some y => (x == y)%Q | None, None => True | _, _ => False end.
Proof.
  intros n m d nx i k NN P Hi Hk. pose proof (cpp_least n m i k NN Hi Hk) as H. destruct (cpp_dist n m i k) as [x|], (d i k) as [y|] eqn:E; [| | |exact I].
  - destruct H as [(a & A1 & A2) A3]. destruct (po_least _ _ _ _ P i k y Hi Hk E) as [(b & B1 & B2) B3]. specialize (A3 b B1). specialize (B3 a A1). lra.
  - destruct H as [(a & A1 & _) _]. exact (po_none _ _ _ _ P i k a Hi Hk E A1).
  - destruct (po_least _ _ _ _ P i k y Hi Hk E) as [(b & B1 & _) _]. exact (H b B1).
Qed.
(** with this routine the hypothesis about the shortest path routine holds *)
Theorem cpp_correct_routine : forall c, c_dijkstra c = (fun n m => (cpp_dist n m, no_self (cpp_next n m))) -> correct_routine c.
Proof. intros c E n m d nx H NN. rewrite E in H. injection H as <- <-. exact (cpp_paths_ok n m NN). Qed.
