(** * CppEnum: the enumeration of random routes in the compiled engine, World::enumerate_k_random_routes_cpp, uxsim/trafficpp/traffi.cpp 1387-1484. *)
From Coq Require Import Permutation.
From Verif Require Import Base Types Sim Build Heap Lists Inv FrameBase Tac Frame Eff Eff2 Trace InvStep Reach Steps Spec Registry Route SpecDuo SpecRoutes EnumRoutes CppPaths.
Local Open Scope nat_scope.

(** ** The model *)

(** the pairs of different nodes with a next hop, and the nodes on the walk along the next hops ([None]: invalid) *)
Definition cpp_pairs (n : nat) (e : graph) : list ((nid * nid) * option (list nid)) :=
  flat_map (fun s => flat_map (fun t =>
    if Nat.eqb s t then [] else match cpp_next n e s t with None => [] | Some _ => [((s, t), option_map (cons s) (walk (cpp_next n e) n s t))] end) (seq 0 n)) (seq 0 n).
(** one pair: dict_routes[{src, dst}] creates the entry; total_routes and total_pairs are counted before the route is added.
    node_pair_link has the last link between two nodes.  Simplification: [k] is not negative *)
Definition cpp_add (w : world) (k : nat) (a : dict * nat * nat) (e : (nid * nid) * option (list nid)) : dict * nat * nat :=
  let '(d, tr, tp) := a in
  let d1 := touch (fst e) d in
  let rs := d_routes d1 (fst e) in
  let d2 :=
    if Nat.leb k (List.length rs) then d1
    else match snd e with
         | None => d1
         | Some p => match pair_route w p with Ok (l :: r) => if route_in (l :: r) rs then d1 else append_route (fst e) (l :: r) d1 | _ => d1 end
         end in
  (d2, tr + List.length rs, S tp).
Definition cpp_average (tr tp : nat) : Q := if Nat.ltb 0 tp then (Qof_nat tr / Qof_nat tp)%Q else 0%Q.
(** the main loop; [draw it l] is the number drawn for link [l] in iteration [it]; [fuel] bounds the number of iterations *)
Fixpoint cpp_enum_from (w : world) (draw : nat -> lid -> Q) (k fuel it counter : nat) (old : Q) (d : dict) : option dict :=
  match fuel with
  | 0 => None
  | S f =>
    let '(d', tr, tp) := fold_left (cpp_add w k) (cpp_pairs (w_nn w) (edge w (ff_drawn w draw it))) (d, 0, 0) in
    let a := cpp_average tr tp in
    let counter' := if qeq a old then S counter else 0 in
    let old' := if qeq a old then old else a in
    if Nat.ltb 10 counter' then Some d' else cpp_enum_from w draw k f (S it) counter' old' d'
  end.
Definition cpp_enumerate (w : world) (draw : nat -> lid -> Q) (k fuel : nat) : option dict := cpp_enum_from w draw k fuel 0 0 0 (mkDict [] (fun _ => [])).

(** ** Walks are simple paths *)
Lemma legs_weight : forall (e : graph) l i c, legs e i l = Some c -> steps_ok e (i :: l) /\ (c == weight e (i :: l))%Q.
Proof.
  intros e. induction l as [|j l IH]; intros i c H; cbn [legs] in H; [injection H as <-; cbn; split; [exact I|lra]|].
  destruct (e i j) as [q|] eqn:E; [|discriminate]. destruct (legs e j l) as [r|] eqn:Er; [|discriminate]. injection H as <-. destruct (IH j r Er) as [A B]. split; [cbn [steps_ok]; split; [congruence|exact A]|].
  change (weight e (i :: j :: l)) with (match e i j with Some q => q | None => 0 end + weight e (j :: l))%Q. rewrite E. lra.
Qed.
Lemma last_some : forall A (l : list A) i, last_opt (i :: l) = Some (last (i :: l) i).
Proof.
  intros A l i. assert (G : forall (l : list A) z d, last_opt (z :: l) = Some (last (z :: l) d)). { clear. induction l as [|b l IH]; intros z d; [reflexivity|]. rewrite last_opt_cons. exact (IH b d). } apply G.
Qed.
Definition good_pairs (n : nat) (e : graph) : list ((nid * nid) * list nid) :=
  flat_map (fun s => flat_map (fun t => if Nat.eqb s t then [] else match cpp_dist n e s t with None => [] | Some _ => match walk (cpp_next n e) n s t with Some l => [((s, t), s :: l)] | None => [] end end) (seq 0 n)) (seq 0 n).
Lemma flat_map_in : forall A B (f g : A -> list B) l, (forall x, In x l -> f x = g x) -> flat_map f l = flat_map g l.
Proof. intros A B f g. induction l as [|a l IH]; intro H; [reflexivity|]. cbn [flat_map]. rewrite (H a (or_introl eq_refl)), IH; [reflexivity|]. intros x Hx. apply H. right. exact Hx. Qed.
Lemma map_flat : forall A B D (g : B -> D) (h : A -> list B) l, map g (flat_map h l) = flat_map (fun x => map g (h x)) l.
Proof. intros. induction l as [|a l IH]; [reflexivity|]. cbn [flat_map]. rewrite map_app, IH. reflexivity. Qed.
Lemma next_dist : forall n e s t, no_negative n e -> s < n -> t < n -> s <> t -> (cpp_next n e s t = None <-> cpp_dist n e s t = None).
Proof.
  intros n e s t NN Hs Ht Ne. pose proof (cpp_paths_ok n e NN) as P. assert (X : no_self (cpp_next n e) s t = cpp_next n e s t) by (unfold no_self; apply Nat.eqb_neq in Ne; rewrite Ne; reflexivity). split; intro H.
  - destruct (cpp_dist n e s t) as [x|] eqn:E; [|reflexivity]. destruct (po_next _ _ _ _ P s t x Hs Ht Ne E) as (j & q & y & J & _). congruence.
  - rewrite <- X. apply (po_stay _ _ _ _ P); auto.
Qed.
Lemma pairs_good : forall n e, no_negative n e -> cpp_pairs n e = map (fun x => (fst x, Some (snd x))) (good_pairs n e).
Proof.
  intros n e NN. unfold cpp_pairs, good_pairs. rewrite map_flat. apply flat_map_in. intros s Hs. apply in_seq in Hs. rewrite map_flat. apply flat_map_in. intros t Ht. apply in_seq in Ht.
  destruct (Nat.eqb_spec s t) as [|Ne]; [reflexivity|]. pose proof (next_dist n e s t NN ltac:(lia) ltac:(lia) Ne) as X. destruct (cpp_dist n e s t) as [x|] eqn:E.
  - destruct (cpp_next n e s t); [|destruct X as [X _]; specialize (X eq_refl); discriminate]. destruct (cpp_walk n e s t x NN ltac:(lia) ltac:(lia) E) as (l & c & -> & _). reflexivity.
  - destruct X as [_ X]. rewrite (X eq_refl). reflexivity.
Qed.
Lemma good_in : forall n e s t p, no_negative n e -> In ((s, t), p) (good_pairs n e) ->
  s < n /\ t < n /\ s <> t /\ simple_path e s t p /\ exists x, cpp_dist n e s t = Some x /\ (weight e p == x)%Q /\ least n e s t x.
Proof.
  intros n e s t p NN H. unfold good_pairs in H. apply in_flat_map in H. destruct H as (s' & Hs & H). apply in_flat_map in H. destruct H as (t' & Ht & H). apply in_seq in Hs. apply in_seq in Ht.
  destruct (Nat.eqb_spec s' t') as [|Ne]; [destruct H|]. destruct (cpp_dist n e s' t') as [x|] eqn:E; [|destruct H]. destruct (cpp_walk n e s' t' x NN ltac:(lia) ltac:(lia) E) as (l & c & Wl & W2 & W3 & W4 & W5 & W6 & W7).
  rewrite Wl in H. destruct H as [H|[]]. injection H as <- <- <-. destruct (legs_weight e l s' c W5) as [A B]. split; [lia|]. split; [lia|]. split; [exact Ne|]. split.
  - split; [reflexivity|]. split; [rewrite last_some, W2; reflexivity|]. split; [exact W3|exact A].
  - exists x. split; [exact E|]. split; [lra|exact W7].
Qed.
Lemma good_has : forall n e s t, no_negative n e -> s < n -> t < n -> s <> t -> (In (s, t) (map fst (good_pairs n e)) <-> exists x, path n e s t x).
Proof.
  intros n e s t NN Hs Ht Ne. split.
  - intro H. apply in_map_iff in H. destruct H as ([x p] & Ex & H). cbn in Ex. subst x. destruct (good_in n e s t p NN H) as (_ & _ & _ & _ & x & _ & _ & [(y & Y & _) _]). eauto.
  - intros (y & Y). pose proof (cpp_least n e s t NN Hs Ht) as Lo. destruct (cpp_dist n e s t) as [x|] eqn:E; [|exfalso; exact (Lo y Y)].
    destruct (cpp_walk n e s t x NN Hs Ht E) as (l & c & Wl & _). apply in_map_iff. exists ((s, t), s :: l). split; [reflexivity|]. unfold good_pairs. apply in_flat_map. exists s. split; [apply in_seq; lia|].
    apply in_flat_map. exists t. split; [apply in_seq; lia|]. apply Nat.eqb_neq in Ne. rewrite Ne, E, Wl. left. reflexivity.
Qed.
Lemma good_once : forall n e, NoDup (map fst (good_pairs n e)).
Proof.
  intros n e. unfold good_pairs. rewrite map_flat. apply NoDup_flat; [apply seq_NoDup| |].
  - intros s _. rewrite map_flat. apply NoDup_flat; [apply seq_NoDup| |].
    + intros t _. destruct (Nat.eqb s t); [constructor|]. destruct (cpp_dist n e s t); [|constructor]. destruct (walk _ _ _ _); repeat constructor. intros [].
    + intros t t' z _ _ H H'. destruct (Nat.eqb s t); [destruct H|]. destruct (Nat.eqb s t'); [destruct H'|]. destruct (cpp_dist n e s t); [|destruct H]. destruct (cpp_dist n e s t'); [|destruct H'].
      destruct (walk _ _ s t); [|destruct H]. destruct (walk _ _ s t'); [|destruct H']. destruct H as [H|[]]. destruct H' as [H'|[]]. cbn in H, H'. congruence.
  - assert (F : forall s z, In z (map fst (flat_map (fun t => if Nat.eqb s t then [] else match cpp_dist n e s t with None => [] | Some _ => match walk (cpp_next n e) n s t with Some l => [((s, t), s :: l)] | None => [] end end) (seq 0 n))) -> fst z = s).
    { intros s z H. rewrite map_flat in H. apply in_flat_map in H. destruct H as (t & _ & H). destruct (Nat.eqb s t); [destruct H|]. destruct (cpp_dist n e s t); [|destruct H]. destruct (walk _ _ s t); [|destruct H]. destruct H as [<-|[]]. reflexivity. }
    intros s s' z _ _ H H'. apply F in H. apply F in H'. congruence.
Qed.

(** ** One iteration *)
Lemma add_same : forall w f k s t p d tr tp, s <> t -> simple_path (edge w f) s t p -> DictOK w k d ->
  exists d', add_path w k ((s, t), p) d = Ok d' /\ cpp_add w k (d, tr, tp) ((s, t), Some p) = (d', tr + List.length (d_routes d (s, t)), S tp).
Proof.
  intros w f k s t p d tr tp Ne P D. unfold add_path, cpp_add. cbn [fst snd]. destruct (touch_ok w k (s, t) d D) as (_ & Er & _). rewrite Er.
  destruct (Nat.ltb_spec (List.length (d_routes d (s, t))) k) as [Lt|Ge].
  - destruct (simple_path_route w f s t p P) as (r & Hr & [Sr _] & _). rewrite Hr. cbn [bind]. destruct (Nat.leb_spec k (List.length (d_routes d (s, t)))) as [|_]; [lia|].
    destruct r as [|l r]; [cbn in Sr; contradiction|]. eexists. split; [reflexivity|]. reflexivity.
  - destruct (Nat.leb_spec k (List.length (d_routes d (s, t)))) as [_|]; [|lia]. eexists. split; reflexivity.
Qed.
Lemma fold_same : forall w f k es d tr tp, (forall s t p, In ((s, t), p) es -> s <> t /\ simple_path (edge w f) s t p) -> NoDup (map fst es) -> DictOK w k d ->
  exists d', foldM (add_path w k) es d = Ok d' /\
    fold_left (cpp_add w k) (map (fun x => (fst x, Some (snd x))) es) (d, tr, tp) = (d', tr + list_sum (map (fun x => List.length (d_routes d x)) (map fst es)), tp + List.length es).
Proof.
  intros w f k. induction es as [|[[s t] p] es IH]; intros d tr tp P N D; [exists d; split; [reflexivity|]; cbn; rewrite !Nat.add_0_r; reflexivity|].
  destruct (P s t p (or_introl eq_refl)) as [Ne Sp]. cbn [map fst] in N. inversion N as [|? ? N1 N2]; subst.
  destruct (add_same w f k s t p d tr tp Ne Sp D) as (d1 & E1 & E2). destruct (add_path_ok w f k s t p d Sp D) as (d1' & E1' & D1 & [_ _ G3] & _). rewrite E1 in E1'. injection E1' as <-.
  destruct (IH d1 (tr + List.length (d_routes d (s, t))) (S tp)) as (d2 & F1 & F2); [intros; apply P; right; assumption|exact N2|exact D1|].
  exists d2. split; [cbn [foldM]; rewrite E1; cbn [bind]; exact F1|]. cbn [map fst snd fold_left]. rewrite E2, F2. cbn [List.length list_sum fold_right].
  replace (map (fun x => List.length (d_routes d1 x)) (map fst es)) with (map (fun x => List.length (d_routes d x)) (map fst es)).
  2:{ apply map_ext_in. intros x Hx. rewrite G3; [reflexivity|]. intros [<-|[]]. exact (N1 Hx). }
  unfold list_sum. f_equal; [f_equal; lia|lia].
Qed.

Section CppRandom.
Variables (w : world) (draw : nat -> lid -> Q) (k : nat).
Hypothesis wt : topo w.
Hypothesis ff_pos : forall l, exists_link w l -> (0 < ff w l)%Q.
Hypothesis draw_pos : forall it l, (0 < draw it l)%Q.
Definition weights (it : nat) : graph := edge w (ff_drawn w draw it).
Lemma weight_pos : forall it i j q, weights it i j = Some q -> (0 < q)%Q.
Proof.
  intros it i j q E. apply edge_some in E. destruct E as (l & Hl & _ & ->). apply between_in in Hl. destruct Hl as (X & _). unfold ff_drawn. destruct (Nat.eqb it 0); [apply ff_pos, X|]. apply Qmult_lt_0_compat; [apply ff_pos, X|apply draw_pos].
Qed.
Lemma weights_nn : forall it, no_negative (w_nn w) (weights it).
Proof. intros it i j q _ _ E. apply weight_pos in E. lra. Qed.
Lemma path_leads : forall it s t x, path (w_nn w) (weights it) s t x -> exists r, leads w s t r.
Proof.
  intros it s t x H. induction H as [i Hi|i j t q r Hi Hm Hq H [rt IH]]; [exists []; reflexivity|]. apply edge_some in Hm. destruct Hm as (l & Hl & _). apply between_in in Hl. destruct Hl as (X1 & X2 & X3). exists (l :: rt). cbn [leads]. rewrite X3. auto.
Qed.
Lemma leads_path : forall it r s t, s < w_nn w -> leads w s t r -> exists x, path (w_nn w) (weights it) s t x.
Proof.
  intros it. induction r as [|l r IH]; intros s t Hs H; cbn [leads] in H; [subst t; exists 0%Q; apply p_here; exact Hs|]. destruct H as (X & Es & H). destruct (IH _ _ (proj2 (t_ends wt X)) H) as (x & Px).
  destruct (weights it s (l_end (L w l))) as [q|] eqn:E.
  - exists (q + x)%Q. apply (p_edge _ _ s (l_end (L w l)) t q x); auto. apply weight_pos in E. lra.
  - apply edge_none in E. assert (J : In l (links_between w s (l_end (L w l)))) by (apply between_in; auto). rewrite E in J. destruct J.
Qed.
Lemma leads_in : forall s t r, s <> t -> leads w s t r -> s < w_nn w /\ t < w_nn w.
Proof.
  intros s t r. revert s. induction r as [|l r IH]; intros s Ne H; cbn [leads] in H; [contradiction|]. destruct H as (X & Es & H). subst s. split; [apply (t_ends wt X)|].
  destruct (Nat.eq_dec (l_end (L w l)) t) as [<-|N]; [apply (t_ends wt X)|]. apply (IH _ N H).
Qed.
Definition cpp_keys (ks : list (nid * nid)) : Prop := forall s t, In (s, t) ks <-> s <> t /\ exists r, leads w s t r.
Definition es (it : nat) : list ((nid * nid) * list nid) := good_pairs (w_nn w) (weights it).
Lemma es_keys : forall it, cpp_keys (map fst (es it)).
Proof.
  intros it s t. split.
  - intro H. assert (H' := H). apply in_map_iff in H'. destruct H' as ([x p] & Ex & H'). cbn in Ex. subst x. destruct (good_in _ _ s t p (weights_nn it) H') as (Hs & Ht & Ne & _). split; [exact Ne|].
    apply (good_has _ _ s t (weights_nn it) Hs Ht Ne) in H. destruct H as (x & Px). exact (path_leads it s t x Px).
  - intros [Ne [r H]]. destruct (leads_in s t r Ne H) as [Hs Ht]. apply (good_has _ _ s t (weights_nn it) Hs Ht Ne). exact (leads_path it r s t Hs H).
Qed.
Lemma es_perm : forall it, Permutation (map fst (es it)) (map fst (es 0)).
Proof. intro it. apply NoDup_Permutation; [apply good_once|apply good_once|]. intros [s t]. rewrite (es_keys it s t), (es_keys 0 s t). reflexivity. Qed.
Definition total (d : dict) : nat := list_sum (map (fun x => List.length (d_routes d x)) (map fst (es 0))).
Definition width : nat := List.length (map fst (es 0)).
Lemma cpp_round : forall it d, DictOK w k d -> exists d',
  fold_left (cpp_add w k) (cpp_pairs (w_nn w) (edge w (ff_drawn w draw it))) (d, 0, 0) = (d', total d, width) /\ DictOK w k d' /\ grown (map fst (es it)) d d' /\
  (forall x p, In (x, p) (es it) -> d_routes d x = [] -> 1 <= k -> exists r, pair_route w p = Ok r /\ d_routes d' x = [r]).
Proof.
  intros it d D. assert (S1 : forall s t p, In ((s, t), p) (es it) -> s <> t /\ simple_path (edge w (ff_drawn w draw it)) s t p).
  { intros s t p H. destruct (good_in _ _ s t p (weights_nn it) H) as (_ & _ & A & B & _). auto. }
  destruct (round_ok w (ff_drawn w draw it) k (es it) d (fun s t p H => proj2 (S1 s t p H)) (good_once _ _) D) as (d' & E & D' & G & F).
  exists d'. split; [|auto]. change (edge w (ff_drawn w draw it)) with (weights it). rewrite (pairs_good _ _ (weights_nn it)). fold (es it).
  destruct (fold_same w (ff_drawn w draw it) k (es it) d 0 0 S1 (good_once _ _) D) as (d1 & E1 & E2). rewrite E in E1. injection E1 as <-. rewrite E2. unfold total, width. f_equal.
  - f_equal. rewrite Nat.add_0_l. apply (sum_perm _ (fun x => List.length (d_routes d x))). apply es_perm.
  - rewrite Nat.add_0_l, <- (map_length fst (es it)). apply Permutation_length, es_perm.
Qed.
Definition cpp_first (d : dict) : Prop := forall s t, In (s, t) (d_keys d) -> 1 <= k -> exists r0 tl, d_routes d (s, t) = r0 :: tl /\
  forall r, leads w s t r -> Forall (latest w) r -> (cost (ff w) r0 <= cost (ff w) r)%Q.
Definition cpp_inv (d : dict) : Prop := DictOK w k d /\ cpp_keys (d_keys d) /\ cpp_first d.
Lemma cpp_later : forall it d d', cpp_inv d -> DictOK w k d' -> grown (map fst (es it)) d d' -> cpp_inv d'.
Proof.
  intros it d d' (D & K & F) D' [G1 G2 G3]. split; [exact D'|]. assert (K' : cpp_keys (d_keys d')). { intros s t. rewrite G1, (K s t), (es_keys it s t). tauto. }
  split; [exact K'|]. intros s t Hk K1. destruct (F s t) as (r0 & tl & E & B); [apply K; apply K'; exact Hk|exact K1|]. destruct (G2 (s, t)) as [ext Ee]. rewrite E in Ee. exists r0, (tl ++ ext). split; [exact Ee|exact B].
Qed.
Lemma latest_path : forall r s t, s < w_nn w -> leads w s t r -> Forall (latest w) r -> exists x, path (w_nn w) (weights 0) s t x /\ (x == cost (ff w) r)%Q.
Proof.
  induction r as [|l r IH]; intros s t Hs H F; cbn [leads] in H; [subst t; exists 0%Q; split; [apply p_here; exact Hs|unfold cost; cbn; lra]|]. destruct H as (X & Es & H). inversion F as [|? ? F1 F2]; subst.
  destruct (IH _ _ (proj2 (t_ends wt X)) H F2) as (x & Px & Ex). assert (E : weights 0 (l_start (L w l)) (l_end (L w l)) = Some (ff w l)). { unfold weights, edge. unfold latest in F1. rewrite F1. reflexivity. }
  exists (ff w l + x)%Q. split; [apply (p_edge _ _ _ (l_end (L w l)) t (ff w l) x); auto; apply weight_pos in E; lra|]. unfold cost in *. cbn [map qsum]. lra.
Qed.
Lemma cpp_begin : forall d', DictOK w k d' -> grown (map fst (es 0)) (mkDict [] (fun _ => [])) d' ->
  (forall x p, In (x, p) (es 0) -> 1 <= k -> exists r, pair_route w p = Ok r /\ d_routes d' x = [r]) -> cpp_inv d'.
Proof.
  intros d' D' [G1 G2 G3] F. split; [exact D'|]. assert (K : cpp_keys (d_keys d')). { intros s t. rewrite G1, (es_keys 0 s t). cbn. tauto. }
  split; [exact K|]. intros s t Hk K1. apply G1 in Hk. destruct Hk as [[]|Hk]. apply in_map_iff in Hk. destruct Hk as ([x p] & Ex & Hp). cbn in Ex. subst x. destruct (F (s, t) p Hp K1) as (r0 & R1 & R2).
  exists r0, []. split; [exact R2|]. intros r Hr Fr. destruct (good_in _ _ s t p (weights_nn 0) Hp) as (Hs & Ht & Ne & (P1 & P2 & P3 & P4) & x & _ & Wx & [_ Lx]).
  destruct (pair_route_leads w (ff_drawn w draw 0) p s t r0 R1 P1 P2) as (_ & _ & C). destruct (latest_path r s t Hs Hr Fr) as (y & Py & Ey). specialize (Lx y Py). change (edge w (ff_drawn w draw 0)) with (weights 0) in C.
  change (cost (ff_drawn w draw 0) r0) with (cost (ff w) r0) in C. lra.
Qed.
Lemma cpp_from_inv : forall fuel it counter old d d', cpp_inv d -> cpp_enum_from w draw k fuel it counter old d = Some d' -> cpp_inv d'.
Proof.
  induction fuel as [|fuel IH]; intros it counter old d d' I H; [discriminate|]. cbn [cpp_enum_from] in H. destruct (cpp_round it d (proj1 I)) as (d1 & E & D1 & G1 & _). rewrite E in H.
  pose proof (cpp_later it d d1 I D1 G1) as I1. destruct (Nat.ltb 10 _); [injection H as <-; exact I1|]. exact (IH _ _ _ _ _ I1 H).
Qed.
Lemma dict0 : DictOK w k (mkDict [] (fun _ => [])).
Proof. constructor; cbn; intros; try constructor; try reflexivity. lia. Qed.
Lemma cpp_enum_inv : forall fuel d, cpp_enumerate w draw k fuel = Some d -> cpp_inv d.
Proof.
  intros [|fuel] d H; [discriminate|]. unfold cpp_enumerate in H. cbn [cpp_enum_from] in H. destruct (cpp_round 0 _ dict0) as (d1 & E & D1 & G1 & F1). rewrite E in H.
  assert (I1 : cpp_inv d1) by (apply cpp_begin; [exact D1|exact G1|intros x p Hx; apply F1; [exact Hx|reflexivity]]).
  destruct (Nat.ltb 10 _); [injection H as <-; exact I1|]. exact (cpp_from_inv _ _ _ _ _ _ I1 H).
Qed.
Lemma cpp_from_stops : forall fuel it counter old d T, DictOK w k d -> (old == cpp_average T width)%Q -> T <= total d -> counter <= 10 ->
  11 * (k * width - T) + (11 - counter) <= fuel -> exists d', cpp_enum_from w draw k fuel it counter old d = Some d'.
Proof.
  induction fuel as [|fuel IH]; intros it counter old d T D Ho HT Hc Hf; [lia|]. cbn [cpp_enum_from]. destruct (cpp_round it d D) as (d1 & -> & D1 & [_ G2 _] & _).
  assert (Mono : total d <= total d1) by (apply sum_le; intro x; destruct (G2 x) as [ext ->]; rewrite app_length; lia).
  assert (Bd : total d <= k * width). { unfold total, width. apply (sum_bound _ (fun x => List.length (d_routes d x))). intro x. apply (do_number _ _ _ D). }
  destruct (qeq (cpp_average (total d) width) old) eqn:Q1.
  - destruct (Nat.ltb_spec 10 (S counter)) as [|Ng]; [eauto|]. apply (IH _ _ _ _ T); [exact D1|exact Ho|lia|lia|lia].
  - cbn [Nat.ltb Nat.leb]. apply (IH _ _ _ _ (total d)); [exact D1|reflexivity|exact Mono|lia|]. assert (total d <> T). { intro K. apply qeq_false in Q1. apply Q1. rewrite Ho, K. reflexivity. } nia.
Qed.
Lemma width_bound : width <= w_nn w * w_nn w.
Proof.
  unfold width. replace (w_nn w * w_nn w) with (List.length (list_prod (seq 0 (w_nn w)) (seq 0 (w_nn w)))) by (rewrite prod_length, !seq_length; reflexivity).
  apply NoDup_incl_length; [apply good_once|]. intros [s t] H. apply (es_keys 0) in H. destruct H as (Ne & r & H). destruct (leads_in s t r Ne H). apply in_prod; apply in_seq; lia.
Qed.
End CppRandom.

(** ** Theorems *)
Record cpp_routes (w : world) (k : nat) (d : dict) : Prop := mkCppRoutes {
  cr_pairs : forall s t, In (s, t) (d_keys d) <-> s <> t /\ exists r, leads w s t r;
  cr_once_pair : NoDup (d_keys d);
  cr_routes : forall s t, Forall (simple_route w s t) (d_routes d (s, t));
  cr_once : forall x, NoDup (d_routes d x);
  cr_number : forall x, List.length (d_routes d x) <= k;
  cr_first : forall s t, In (s, t) (d_keys d) -> 1 <= k -> exists r0 tl, d_routes d (s, t) = r0 :: tl /\
    forall r, leads w s t r -> Forall (latest w) r -> (cost (ff w) r0 <= cost (ff w) r)%Q }.
Theorem cpp_enum_routes : forall c w draw k fuel d, reach c w -> (forall l, exists_link w l -> (0 < ff w l)%Q) -> (forall it l, (0 < draw it l)%Q) ->
  cpp_enumerate w draw k fuel = Some d -> cpp_routes w k d.
Proof.
  intros c w draw k fuel d R Fp Dp H. apply reach_topo in R. destruct (cpp_enum_inv w draw k R Fp Dp fuel d H) as ([D1 D2 D3 D4 D5] & K & F). constructor; auto.
Qed.
Theorem cpp_enum_stops : forall c w draw k fuel, reach c w -> (forall l, exists_link w l -> (0 < ff w l)%Q) -> (forall it l, (0 < draw it l)%Q) ->
  11 * (k * (w_nn w * w_nn w) + 1) <= fuel -> exists d, cpp_enumerate w draw k fuel = Some d.
Proof.
  intros c w draw k fuel R Fp Dp Hf. apply reach_topo in R. unfold cpp_enumerate. apply (cpp_from_stops w draw k R Fp Dp fuel 0 0 0%Q (mkDict [] (fun _ => [])) 0); [apply dict0| |lia|lia|].
  - unfold cpp_average. destruct (Nat.ltb 0 _); unfold Qof_nat; [unfold Qdiv; ring|reflexivity].
  - pose proof (width_bound w draw R Fp Dp). nia.
Qed.
