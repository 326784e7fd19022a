(** * EnumRoutes: the route enumerations of Utilities.py (C50). *)
From Coq Require Import Permutation.
From Verif Require Import Base Types Sim Build Heap Lists Inv FrameBase Tac Frame Eff Eff2 Trace InvStep Reach Steps Spec Registry Route SpecDuo SpecDue Due SpecDso Dso SpecGenetic Genetic SpecRoutes.
Local Open Scope nat_scope.

(** ** Model *)

(** G.add_edge for every link (Utilities.py 82-84): of several links between the same nodes the last one gives the weight.
    Simplification: nodes are given by their numbers (names are unique). *)
Definition edge (w : world) (f : lid -> Q) : graph :=
  fun i j => match last_opt (links_between w i j) with Some l => Some (f l) | None => None end.
(** a node is in [G] iff a link touches it *)
Definition linked_b (w : world) (n : nid) : bool :=
  existsb (fun l => Nat.eqb (l_start (L w l)) n || Nat.eqb (l_end (L w l)) n) (seq 0 (w_nl w)).
(** path.index(n) *)
Fixpoint index_of (n : nid) (p : list nid) : nat :=
  match p with [] => 0 | a :: tl => if Nat.eqb a n then 0 else S (index_of n tl) end.
(** path[path.index(n)+1] *)
Definition next_in (p : list nid) (n : nid) : nid := nth (S (index_of n p)) p 0.
(** 90-94: for every node of path[:-1], all links to the next node are appended *)
Definition names (w : world) (p : list nid) : list lid := flat_map (fun n => links_between w n (next_in p n)) (removelast p).

(** enumerate_k_shortest_routes and enumerate_k_shortest_routes_on_t (54-163): [f] is the cost function (at time [t]);
    NodeNotFound and NetworkXNoPath are [Exception_].  Simplification: [k] is not negative; links stand for their names. *)
Definition k_shortest (ssp : nat -> graph -> nid -> nid -> list (list nid)) (w : world) (f : lid -> Q) (s t : nid) (k : nat) : result (list (list lid) * list Q) :=
  if linked_b w s && linked_b w t then
    match ssp (w_nn w) (edge w f) s t with
    | [] => Err Exception_
    | ps => Ok (map (names w) (firstn k ps), map (weight (edge w f)) (firstn k ps))
    end
  else Err Exception_.

(** 206-209: the route of a path by W.NODE_PAIR_LINKS (uxsim.py 2348-2358), which has the last link between two nodes *)
Fixpoint pair_route (w : world) (p : list nid) : result (list lid) :=
  match p with
  | a :: ((b :: _) as tl) =>
    match last_opt (links_between w a b) with
    | None => Err KeyError
    | Some l => r <- pair_route w tl ;; Ok (l :: r)
    end
  | _ => Ok []
  end.

(** dict_routes: its keys, and the routes of a pair of nodes (none yet: [[]]) *)
Record dict := mkDict { d_keys : list (nid * nid); d_routes : nid * nid -> list (list lid) }.
Definition pair_eqb (a b : nid * nid) : bool := Nat.eqb (fst a) (fst b) && Nat.eqb (snd a) (snd b).
Definition touch (x : nid * nid) (d : dict) : dict := if existsb (pair_eqb x) (d_keys d) then d else mkDict (d_keys d ++ [x]) (d_routes d).
Definition append_route (x : nid * nid) (r : list lid) (d : dict) : dict :=
  mkDict (d_keys d) (fun y => if pair_eqb x y then d_routes d y ++ [r] else d_routes d y).
Definition route_in (r : list lid) (rs : list (list lid)) : bool := existsb (fun x => if list_eq_dec Nat.eq_dec x r then true else false) rs.
(** 203-211 *)
Definition add_path (w : world) (k : nat) (e : (nid * nid) * list nid) (d : dict) : result dict :=
  let d := touch (fst e) d in
  if Nat.ltb (List.length (d_routes d (fst e))) k then
    r <- pair_route w (snd e) ;;
    Ok (if route_in r (d_routes d (fst e)) then d else append_route (fst e) r d)
  else Ok d.
(** 213 *)
Definition average_n (d : dict) : result Q :=
  qdiv (qsum (map (fun x => Qof_nat (List.length (d_routes d x))) (d_keys d))) (Qof_nat (List.length (d_keys d))).

(** free flow travel time *)
Definition ff (w : world) (l : lid) : Q := (l_len (L w l) / l_u (L w l))%Q.
(** the weights of an iteration; [draw it l] is random.uniform(0, 100) for link [l] (195-199) *)
Definition ff_drawn (w : world) (draw : nat -> lid -> Q) (it : nat) : lid -> Q :=
  fun l => if Nat.eqb it 0 then ff w l else (ff w l * draw it l)%Q.

(** 191-224.  [fuel] bounds the number of iterations *)
Fixpoint enumerate_from (apd : nat -> graph -> list ((nid * nid) * list nid)) (w : world) (draw : nat -> lid -> Q) (k : nat)
    (fuel it counter : nat) (old : Q) (d : dict) : result dict :=
  match fuel with
  | 0 => Err Nontermination
  | S fuel' =>
    d' <- foldM (add_path w k) (apd (w_nn w) (edge w (ff_drawn w draw it))) d ;;
    a <- average_n d' ;;
    let counter' := if qeq a old then S counter else 0 in
    let old' := if qeq a old then old else a in
    if Nat.ltb 10 counter' then Ok d' else enumerate_from apd w draw k fuel' (S it) counter' old' d'
  end.
(** 165-226, pure Python.  A link of speed 0 raises ZeroDivisionError *)
Definition enumerate_k_random (apd : nat -> graph -> list ((nid * nid) * list nid)) (w : world) (draw : nat -> lid -> Q) (k fuel : nat) : result dict :=
  if existsb (fun l => qeq (l_u (L w l)) 0) (seq 0 (w_nl w)) then Err ZeroDivisionError
  else enumerate_from apd w draw k fuel 0 0 0 (mkDict [] (fun _ => [])).

(** ** Paths and routes *)
Lemma between_in : forall w i j l, In l (links_between w i j) <-> exists_link w l /\ l_start (L w l) = i /\ l_end (L w l) = j.
Proof.
  intros. unfold links_between, joins, exists_link. rewrite filter_In, in_seq, andb_true_iff, !Nat.eqb_eq. intuition lia.
Qed.
Lemma last_opt_in : forall A (l : list A) x, last_opt l = Some x -> In x l.
Proof. intros A l x H. rewrite last_opt_nth in H. apply nth_error_In in H. exact H. Qed.
Lemma edge_some : forall w f i j q, edge w f i j = Some q -> exists l, In l (links_between w i j) /\ last_opt (links_between w i j) = Some l /\ q = f l.
Proof. intros w f i j q H. unfold edge in H. destruct (last_opt (links_between w i j)) as [l|] eqn:E; [|discriminate H]. inversion H. exists l. split; [apply last_opt_in, E|auto]. Qed.
Lemma edge_none : forall w f i j, edge w f i j = None <-> links_between w i j = [].
Proof. intros. unfold edge. destruct (last_opt (links_between w i j)) eqn:E; [|apply last_opt_nil in E]; split; intro H; auto; try discriminate H. apply last_opt_nil in H. congruence. Qed.
Lemma edge_within : forall w f, topo w -> within (w_nn w) (edge w f).
Proof.
  intros w f T i j H. destruct (edge w f i j) as [q|] eqn:E; [|exfalso; apply H; reflexivity]. destruct (edge_some _ _ _ _ _ E) as (l & Hl & _). apply between_in in Hl. destruct Hl as (X & <- & <-). apply (t_ends T). exact X.
Qed.
Lemma pair_route_ok : forall w f p, steps_ok (edge w f) p -> exists r, pair_route w p = Ok r.
Proof.
  intros w f. induction p as [|a [|b tl] IH]; intro H; [eexists; reflexivity|eexists; reflexivity|]. cbn [steps_ok] in H. destruct H as [H1 H2]. destruct (IH H2) as [r Er]. cbn [pair_route] in Er |- *. rewrite Er.
  unfold edge in H1. destruct (last_opt (links_between w a b)) as [l|]; [eexists; reflexivity|exfalso; apply H1; reflexivity].
Qed.
Lemma last_opt_cons : forall A (a b : A) l, last_opt (a :: b :: l) = last_opt (b :: l).
Proof. reflexivity. Qed.
Lemma pair_route_leads : forall w f p s t r, pair_route w p = Ok r -> hd_error p = Some s -> last_opt p = Some t ->
  leads w s t r /\ visited w s r = p /\ (weight (edge w f) p == cost f r)%Q.
Proof.
  intros w f. induction p as [|a [|b tl] IH]; intros s t r H Hs Ht; [discriminate Hs| |].
  - cbn in H, Hs, Ht. inversion H; inversion Hs; inversion Ht; subst. cbn. unfold visited, cost. cbn. split; [reflexivity|split; reflexivity].
  - cbn in Hs. inversion Hs; subst s. cbn [pair_route] in H. destruct (last_opt (links_between w a b)) as [l|] eqn:E; [|discriminate H].
    match type of H with bind ?x _ = _ => change x with (pair_route w (b :: tl)) in H end.
    destruct (pair_route w (b :: tl)) as [r'|] eqn:Er; cbn [bind] in H; [|discriminate H]. inversion H; subst r.
    rewrite last_opt_cons in Ht. destruct (IH b t r' eq_refl eq_refl Ht) as (I1 & I2 & I3). pose proof (last_opt_in _ _ _ E) as Hl. apply between_in in Hl. destruct Hl as (X1 & X2 & X3).
    split; [cbn [leads]; rewrite X3; auto|]. split; [unfold visited in *; cbn [map]; rewrite X3, <- I2; reflexivity|].
    cbn [weight]. change (match tl with [] => 0%Q | _ => _ end) with (weight (edge w f) (b :: tl)). unfold cost in *. cbn [map qsum]. unfold edge at 1. rewrite E, I3. reflexivity.
Qed.

Lemma index_skip : forall a pre tl, ~ In a pre -> index_of a (pre ++ a :: tl) = List.length pre.
Proof.
  intros a. induction pre as [|x pre IH]; intros tl H; cbn; [rewrite Nat.eqb_refl; reflexivity|]. destruct (Nat.eqb_spec x a) as [->|N]; [exfalso; apply H; left; reflexivity|]. f_equal. apply IH. intro K. apply H. right. exact K.
Qed.
Lemma next_skip : forall a b pre tl, ~ In a pre -> next_in (pre ++ a :: b :: tl) a = b.
Proof.
  intros. unfold next_in. rewrite index_skip by assumption. rewrite app_nth2 by lia. replace (S (List.length pre) - List.length pre) with 1 by lia. reflexivity.
Qed.
Lemma names_tail : forall w f, single_links w -> forall tl pre r, NoDup (pre ++ tl) -> steps_ok (edge w f) tl -> pair_route w tl = Ok r ->
  flat_map (fun n => links_between w n (next_in (pre ++ tl) n)) (removelast tl) = r.
Proof.
  intros w f S1. induction tl as [|a [|b tl] IH]; intros pre r D P H; [cbn in *; congruence|cbn in *; congruence|].
  change (removelast (a :: b :: tl)) with (a :: removelast (b :: tl)). cbn [flat_map].
  assert (Na : ~ In a pre). { intro K. apply NoDup_remove_2 in D. apply D. apply in_or_app. left. exact K. }
  rewrite next_skip by exact Na. cbn [steps_ok] in P. destruct P as [P1 P2].
  cbn [pair_route] in H. match type of H with match _ with Some l => bind ?x _ | None => _ end = _ => change x with (pair_route w (b :: tl)) in H end.
  destruct (last_opt (links_between w a b)) as [l|] eqn:E; [|discriminate H]. destruct (pair_route w (b :: tl)) as [r'|] eqn:Er; cbn [bind] in H; [|discriminate H]. inversion H; subst r.
  specialize (IH (pre ++ [a]) r'). rewrite <- app_assoc in IH. cbn [app] in IH. rewrite (IH D P2 eq_refl).
  specialize (S1 a b). destruct (links_between w a b) as [|x [|y ls]]; [discriminate E|cbn in E; inversion E; subst; reflexivity|cbn in S1; lia].
Qed.
Lemma names_route : forall w f p, single_links w -> NoDup p -> steps_ok (edge w f) p -> pair_route w p = Ok (names w p).
Proof.
  intros w f p S1 D P. destruct (pair_route_ok w f p P) as [r Er]. rewrite Er. f_equal. symmetry. exact (names_tail w f S1 p [] r D P Er).
Qed.
Lemma visited_last : forall w r s t, leads w s t r -> last_opt (visited w s r) = Some t.
Proof.
  intros w. induction r as [|l r IH]; intros s t H; [cbn in *; congruence|]. cbn [leads] in H. destruct H as (_ & _ & H). unfold visited in *. cbn [map]. rewrite last_opt_cons. apply IH, H.
Qed.
Lemma visited_steps : forall w f r s t, leads w s t r -> steps_ok (edge w f) (visited w s r).
Proof.
  intros w f. induction r as [|l r IH]; intros s t H; [exact Logic.I|]. cbn [leads] in H. destruct H as (X & Es & H). unfold visited in *. cbn [map]. cbn [steps_ok]. split; [|exact (IH _ _ H)].
  rewrite edge_none. intro K. assert (In l (links_between w s (l_end (L w l)))) as J by (apply between_in; auto). rewrite K in J. exact J.
Qed.
Lemma simple_visited : forall w f s t r, simple_route w s t r -> simple_path (edge w f) s t (visited w s r).
Proof. intros w f s t r [H D]. split; [reflexivity|]. split; [apply visited_last, H|]. split; [exact D|exact (visited_steps w f r s t H)]. Qed.
Lemma leads_single : forall w, single_links w -> forall r s t, leads w s t r -> pair_route w (visited w s r) = Ok r.
Proof.
  intros w S1. induction r as [|l r IH]; intros s t H; [reflexivity|]. cbn [leads] in H. destruct H as (X & Es & H). specialize (IH _ _ H). unfold visited in *. cbn [map pair_route].
  cbn [pair_route] in IH. rewrite IH. assert (In l (links_between w s (l_end (L w l)))) as J by (apply between_in; auto). specialize (S1 s (l_end (L w l))).
  destruct (links_between w s (l_end (L w l))) as [|x [|y ls]]; [destruct J| |cbn in S1; lia]. destruct J as [->|[]]. reflexivity.
Qed.
Lemma simple_path_route : forall w f s t p, simple_path (edge w f) s t p -> exists r, pair_route w p = Ok r /\ simple_route w s t r /\ visited w s r = p /\ (weight (edge w f) p == cost f r)%Q.
Proof.
  intros w f s t p (H1 & H2 & H3 & H4). destruct (pair_route_ok w f p H4) as [r Er]. destruct (pair_route_leads w f p s t r Er H1 H2) as (A & B & D). exists r. split; [exact Er|]. split; [split; [exact A|rewrite B; exact H3]|auto].
Qed.

(** ** enumerate_k_shortest_routes *)
Lemma rising_firstn : forall k cs, rising cs -> rising (firstn k cs).
Proof.
  induction k as [|k IH]; intros [|x cs] H; try exact Logic.I. cbn in H |- *. destruct H as [H1 H2]. split; [|apply IH, H2]. intros y Hy. apply H1. eapply firstn_in. exact Hy.
Qed.
Lemma rising_app : forall a b x y, rising (a ++ b) -> In x a -> In y b -> (x <= y)%Q.
Proof.
  induction a as [|z a IH]; intros b x y H Hx Hy; [destruct Hx|]. cbn in H. destruct H as [H1 H2]. destruct Hx as [->|Hx]; [apply H1, in_or_app; right; exact Hy|]. exact (IH b x y H2 Hx Hy).
Qed.
Lemma linked_spec : forall w n, linked_b w n = true <-> linked w n.
Proof.
  intros. unfold linked_b, linked, exists_link. rewrite existsb_exists. split.
  - intros (l & H1 & H2). apply in_seq in H1. exists l. split; [lia|]. apply orb_true_iff in H2. rewrite !Nat.eqb_eq in H2. exact H2.
  - intros (l & H1 & H2). exists l. split; [apply in_seq; lia|]. apply orb_true_iff. rewrite !Nat.eqb_eq. exact H2.
Qed.

Section Costs.
Variables (w : world) (f : lid -> Q).
Hypothesis f_pos : forall l, exists_link w l -> (0 <= f l)%Q.

Lemma suffix_simple : forall r a s t, simple_route w a t r -> In s (visited w a r) ->
  exists r2, simple_route w s t r2 /\ (cost f r2 <= cost f r)%Q.
Proof.
  induction r as [|l r IH]; intros a s t [H D] Hs.
  - cbn in Hs. destruct Hs as [->|[]]. exists []. split; [split; assumption|unfold cost; cbn; lra].
  - destruct (Nat.eq_dec s a) as [->|N]; [exists (l :: r); split; [split; assumption|lra]|].
    cbn [leads] in H. destruct H as (X & Es & H). unfold visited in D, Hs. cbn [map] in D, Hs. inversion D as [|? ? D1 D2]; subst. destruct Hs as [Hs|Hs]; [exfalso; apply N; symmetry; exact Hs|].
    destruct (IH (l_end (L w l)) s t (conj H D2) Hs) as (r2 & A & B). exists r2. split; [exact A|]. unfold cost in *. cbn [map qsum]. pose proof (f_pos l X). lra.
Qed.
(** loops can be left out *)
Lemma shortcut : forall r s t, leads w s t r -> exists r2, simple_route w s t r2 /\ (cost f r2 <= cost f r)%Q.
Proof.
  induction r as [|l r IH]; intros s t H.
  - exists []. split; [split; [exact H|constructor; [intros []|constructor]]|unfold cost; cbn; lra].
  - cbn [leads] in H. destruct H as (X & Es & H). destruct (IH _ _ H) as (r2 & A & B). pose proof (f_pos l X) as P.
    destruct (in_dec Nat.eq_dec s (visited w (l_end (L w l)) r2)) as [K|K].
    + destruct (suffix_simple r2 _ s t A K) as (r3 & A3 & B3). exists r3. split; [exact A3|]. unfold cost in *. cbn [map qsum]. lra.
    + exists (l :: r2). destruct A as [A1 A2]. split; [split; [cbn [leads]; auto|unfold visited in *; cbn [map]; constructor; assumption]|]. unfold cost in *. cbn [map qsum]. lra.
Qed.
End Costs.

Lemma NoDup_map_on : forall A B (g : A -> B) l, (forall x y, In x l -> In y l -> g x = g y -> x = y) -> NoDup l -> NoDup (map g l).
Proof.
  intros A B g. induction l as [|a l IH]; intros H D; [constructor|]. inversion D as [|? ? D1 D2]; subst. cbn. constructor.
  - intro K. apply in_map_iff in K. destruct K as (y & E & Hy). apply D1. rewrite <- (H y a (or_intror Hy) (or_introl eq_refl) E). exact Hy.
  - apply IH; [|exact D2]. intros x y Hx Hy. apply H; right; assumption.
Qed.
Lemma firstn_nodup : forall A k (l : list A), NoDup l -> NoDup (firstn k l).
Proof. intros A. induction k as [|k IH]; intros [|a l] H; cbn; try constructor; inversion H as [|? ? H1 H2]; subst; [intro K; apply H1; eapply firstn_in; exact K|apply IH, H2]. Qed.

Theorem k_shortest_lemma : forall ssp c w f s t k rs cs, correct_ssp ssp -> reach c w -> single_links w ->
  k_shortest ssp w f s t k = Ok (rs, cs) -> k_least w f s t k rs cs.
Proof.
  intros ssp c w f s t k rs cs C R S1 H. apply reach_topo in R. unfold k_shortest in H. destruct (linked_b w s && linked_b w t); [|discriminate H].
  specialize (C (w_nn w) (edge w f) s t (edge_within w f R)). set (ps := ssp (w_nn w) (edge w f) s t) in *. clearbody ps. destruct ps as [|p0 ps0] eqn:Ep; [discriminate H|]. rewrite <- Ep in *. clear Ep p0 ps0.
  assert (H' : rs = map (names w) (firstn k ps) /\ cs = map (weight (edge w f)) (firstn k ps)) by (split; congruence). clear H. destruct H' as [-> ->].
  destruct C as [C1 C2 C3 C4].
  assert (Nm : forall p, In p ps -> simple_route w s t (names w p) /\ visited w s (names w p) = p /\ (weight (edge w f) p == cost f (names w p))%Q).
  { intros p Hp. specialize (C1 p Hp). pose proof C1 as C1'. destruct C1' as (_ & _ & D & P). destruct (simple_path_route w f s t p C1) as (r & Er & A). rewrite (names_route w f p S1 D P) in Er. inversion Er; subst r. exact A. }
  assert (Fi : forall p, In p (firstn k ps) -> In p ps) by (intros p; apply firstn_in).
  constructor.
  - apply Forall_forall. intros r Hr. apply in_map_iff in Hr. destruct Hr as (p & <- & Hp). apply Nm, Fi, Hp.
  - apply NoDup_map_on; [|apply firstn_nodup; exact C3]. intros x y Hx Hy E. destruct (Nm x (Fi x Hx)) as (_ & Vx & _). destruct (Nm y (Fi y Hy)) as (_ & Vy & _). rewrite <- Vx, <- Vy, E. reflexivity.
  - rewrite map_length. apply firstn_le_length.
  - clear - Nm Fi. induction (firstn k ps) as [|p l IH]; cbn; constructor; [apply Nm, Fi; left; reflexivity|]. apply IH. intros q Hq. apply Fi. right. exact Hq.
  - rewrite <- firstn_map. apply rising_firstn. exact C4.
  - intros r Hr Nr. assert (Hp : In (visited w s r) ps) by (apply C2, simple_visited, Hr).
    assert (Er : names w (visited w s r) = r).
    { pose proof (simple_visited w f s t r Hr) as (_ & _ & D & P). pose proof (names_route w f _ S1 D P) as E1. rewrite (leads_single w S1 r s t (proj1 Hr)) in E1. congruence. }
    rewrite <- (firstn_skipn k ps) in Hp. apply in_app_or in Hp. destruct Hp as [Hp|Hp]; [exfalso; apply Nr; rewrite <- Er; apply in_map; exact Hp|].
    split.
    + rewrite map_length. rewrite firstn_length. destruct (Nat.le_gt_cases k (List.length ps)) as [Le|Gt]; [lia|]. rewrite skipn_all2 in Hp by lia. destruct Hp.
    + intros r' Hr'. apply in_map_iff in Hr'. destruct Hr' as (p & <- & Hp'). destruct (Nm p (Fi p Hp')) as (_ & _ & W1).
      assert (Hq : In (visited w s r) ps) by (apply C2, simple_visited, Hr). destruct (Nm _ Hq) as (_ & _ & W2). rewrite Er in W2. rewrite <- W1, <- W2.
      rewrite <- (firstn_skipn k ps), map_app in C4. eapply rising_app; [exact C4|apply in_map; exact Hp'|apply in_map; exact Hp].
Qed.
(** it fails exactly if a node has no link, or no route leads from one node to the other *)
Theorem k_shortest_total : forall ssp c w f s t k, correct_ssp ssp -> reach c w ->
  (linked w s /\ linked w t /\ exists r, leads w s t r) <-> exists x, k_shortest ssp w f s t k = Ok x.
Proof.
  intros ssp c w f s t k C R. apply reach_topo in R. specialize (C (w_nn w) (edge w f) s t (edge_within w f R)). unfold k_shortest. rewrite <- !linked_spec. split.
  - intros (A & B & r & Hr). rewrite A, B. cbn [andb]. destruct (ssp (w_nn w) (edge w f) s t) as [|p ps] eqn:E; [exfalso|eexists; reflexivity].
    destruct (shortcut w (fun _ => 0%Q) (fun _ _ => Qle_refl 0) r s t Hr) as (r2 & A2 & _). exact (lp_complete _ _ _ _ C _ (simple_visited w f s t r2 A2)).
  - intros [x H]. destruct (linked_b w s); [|discriminate H]. destruct (linked_b w t); [|discriminate H]. cbn [andb] in H. split; [reflexivity|split; [reflexivity|]].
    destruct (ssp (w_nn w) (edge w f) s t) as [|p ps] eqn:E; [discriminate H|]. destruct (simple_path_route w f s t p (lp_sound _ _ _ _ C p (or_introl eq_refl))) as (r & _ & A & _). exists r. exact (proj1 A).
Qed.
(** the first route is a shortest one, if no cost is negative *)
Theorem shortest_first : forall ssp c w f s t k rs cs r, correct_ssp ssp -> reach c w -> single_links w ->
  (forall l, exists_link w l -> (0 <= f l)%Q) -> k_shortest ssp w f s t (S k) = Ok (rs, cs) -> leads w s t r ->
  exists r0 tl, rs = r0 :: tl /\ leads w s t r0 /\ (cost f r0 <= cost f r)%Q.
Proof.
  intros ssp c w f s t k rs cs r C R S1 P H Hr. destruct (k_shortest_lemma ssp c w f s t (S k) rs cs C R S1 H) as [K1 K2 K3 K4 K5 K6].
  destruct (shortcut w f P r s t Hr) as (r2 & A & B).
  destruct rs as [|r0 tl]. { destruct (K6 r2 A (fun x => x)) as [K _]. discriminate K. }
  exists r0, tl. split; [reflexivity|]. inversion K1 as [|? ? A0 A1]; subst. split; [exact (proj1 A0)|].
  apply (Qle_trans _ (cost f r2)); [|exact B]. destruct (in_dec (list_eq_dec Nat.eq_dec) r2 (r0 :: tl)) as [J|J]; [|apply (K6 r2 A J); left; reflexivity].
  destruct J as [->|J]; [apply Qle_refl|]. inversion K4 as [|? x ? cs' Q1 Q2]; subst. cbn [rising] in K5. destruct K5 as [K5 _].
  assert (X : exists y, In y cs' /\ (y == cost f r2)%Q).
  { clear - J Q2. induction Q2 as [|a b l l' E Q2 IH]; [destruct J|]. destruct J as [->|J]; [exists b; split; [left; reflexivity|exact E]|]. destruct (IH J) as (y & Y1 & Y2). exists y. split; [right; exact Y1|exact Y2]. }
  destruct X as (y & Y1 & Y2). rewrite <- Q1, <- Y2. apply K5, Y1.
Qed.

(** ** A correct listing of the simple paths *)
Definition edge_b (e : graph) (i j : nid) : bool := match e i j with Some _ => true | None => false end.
Definition mem (x : nat) (l : list nat) : bool := existsb (Nat.eqb x) l.
Fixpoint all_paths (n : nat) (e : graph) (fuel : nat) (seen : list nid) (s t : nid) : list (list nid) :=
  if Nat.eqb s t then [[s]] else
  match fuel with
  | 0 => []
  | S fuel' => flat_map (fun j => if edge_b e s j && negb (mem j (s :: seen)) then map (cons s) (all_paths n e fuel' (s :: seen) j t) else []) (seq 0 n)
  end.
Fixpoint insert_path (g : list nid -> Q) (p : list nid) (ps : list (list nid)) : list (list nid) :=
  match ps with [] => [p] | q :: tl => if qle (g p) (g q) then p :: ps else q :: insert_path g p tl end.
Definition sort_paths (g : list nid -> Q) (ps : list (list nid)) : list (list nid) := fold_right (insert_path g) [] ps.
Definition ssp_ref (n : nat) (e : graph) (s t : nid) : list (list nid) := sort_paths (weight e) (all_paths n e n [] s t).

Lemma mem_in : forall x l, mem x l = true <-> In x l.
Proof. intros. unfold mem. rewrite existsb_exists. split; [intros (y & A & B); apply Nat.eqb_eq in B; subst; exact A|intro H; exists x; split; [exact H|apply Nat.eqb_refl]]. Qed.
Lemma insert_perm : forall g p ps, Permutation (insert_path g p ps) (p :: ps).
Proof. intros g p. induction ps as [|q ps IH]; cbn; [apply Permutation_refl|]. destruct (qle (g p) (g q)); [apply Permutation_refl|]. eapply Permutation_trans; [apply perm_skip, IH|apply perm_swap]. Qed.
Lemma sort_perm : forall g ps, Permutation (sort_paths g ps) ps.
Proof. intros g. induction ps as [|p ps IH]; cbn; [constructor|]. eapply Permutation_trans; [apply insert_perm|apply perm_skip, IH]. Qed.
Lemma insert_rising : forall g p ps, rising (map g ps) -> rising (map g (insert_path g p ps)).
Proof.
  intros g p. induction ps as [|q ps IH]; cbn [insert_path map rising]; intro H; [split; [intros y []|exact Logic.I]|]. destruct H as [H1 H2]. destruct (qle (g p) (g q)) eqn:E.
  - apply qle_iff in E. cbn [map rising]. split; [|split; assumption]. intros y [<-|Hy]; [exact E|]. apply (Qle_trans _ (g q)); [exact E|apply H1, Hy].
  - cbn [map rising]. split; [|apply IH, H2]. intros y Hy. apply in_map_iff in Hy. destruct Hy as (z & <- & Hz). apply (Permutation_in _ (insert_perm g p ps)) in Hz. destruct Hz as [<-|Hz]; [|apply H1, in_map, Hz].
    destruct (Qlt_le_dec (g q) (g p)) as [K|K]; [apply Qlt_le_weak; exact K|]. apply qle_iff in K. congruence.
Qed.
Lemma sort_rising : forall g ps, rising (map g (sort_paths g ps)).
Proof. intros g. induction ps as [|p ps IH]; cbn; [exact Logic.I|]. apply insert_rising, IH. Qed.

Lemma paths_head : forall n e fuel seen s t p, In p (all_paths n e fuel seen s t) -> hd_error p = Some s.
Proof.
  intros n e [|fuel] seen s t p H; cbn [all_paths] in H; destruct (Nat.eqb s t); try (destruct H as [<-|[]]; reflexivity); [destruct H|].
  apply in_flat_map in H. destruct H as (j & _ & H). destruct (edge_b e s j && negb (mem j (s :: seen))); [|destruct H]. apply in_map_iff in H. destruct H as (q & <- & _). reflexivity.
Qed.
Lemma paths_sound : forall n e fuel seen s t p, In p (all_paths n e fuel seen s t) -> ~ In s seen ->
  simple_path e s t p /\ forall x, In x p -> ~ In x seen.
Proof.
  intros n e. assert (One : forall s t p, s = t -> [s] = p -> simple_path e s t p) by (intros s t p -> <-; split; [reflexivity|split; [reflexivity|split; [constructor; [intros []|constructor]|exact Logic.I]]]).
  induction fuel as [|fuel IH]; intros seen s t p H Ns; cbn [all_paths] in H; destruct (Nat.eqb_spec s t) as [Est|Nst].
  - destruct H as [H|[]]. split; [apply One; assumption|]. subst p. intros x [<-|[]]. exact Ns.
  - destruct H.
  - destruct H as [H|[]]. split; [apply One; assumption|]. subst p. intros x [<-|[]]. exact Ns.
  - apply in_flat_map in H. destruct H as (j & _ & H). destruct (edge_b e s j && negb (mem j (s :: seen))) eqn:B; [|destruct H]. apply andb_true_iff in B. destruct B as [B1 B2]. apply negb_true_iff in B2.
    apply in_map_iff in H. destruct H as (q & <- & Hq). pose proof (paths_head _ _ _ _ _ _ _ Hq) as Hh.
    assert (Nj : ~ In j (s :: seen)) by (intro K; apply mem_in in K; congruence). destruct (IH (s :: seen) j t q Hq Nj) as [(P1 & P2 & P3 & P4) P5].
    destruct q as [|b q]; [discriminate Hh|]. cbn in Hh. inversion Hh; subst b. split.
    + split; [reflexivity|]. split; [exact P2|]. split; [constructor; [intro K; apply (P5 s K); left; reflexivity|exact P3]|]. cbn [steps_ok]. split; [|exact P4]. unfold edge_b in B1. destruct (e s j); [discriminate|discriminate B1].
    + intros x [<-|Hx]; [exact Ns|]. intro K. apply (P5 x Hx). right. exact K.
Qed.
Lemma paths_complete : forall n e, within n e -> forall p fuel seen s t, simple_path e s t p -> (forall x, In x p -> ~ In x seen) -> List.length p <= S fuel ->
  In p (all_paths n e fuel seen s t).
Proof.
  intros n e Wn. induction p as [|a p IH]; intros fuel seen s t (H1 & H2 & H3 & H4) Hs Hl; [discriminate H1|]. cbn in H1. inversion H1; subst a.
  destruct p as [|b p].
  - cbn in H2. inversion H2; subst t. destruct fuel; cbn [all_paths]; rewrite Nat.eqb_refl; left; reflexivity.
  - assert (Nst : s <> t). { intros ->. inversion H3 as [|? ? K _]. apply K. apply last_opt_in. exact H2. }
    destruct fuel as [|fuel]; [cbn in Hl; lia|]. cbn [all_paths]. destruct (Nat.eqb_spec s t) as [K|_]; [exfalso; exact (Nst K)|].
    cbn [steps_ok] in H4. destruct H4 as [E P]. apply in_flat_map. exists b. split; [apply in_seq; destruct (Wn s b E); lia|].
    inversion H3 as [|? ? D1 D2]; subst. replace (edge_b e s b) with true by (unfold edge_b; destruct (e s b); [reflexivity|exfalso; apply E; reflexivity]).
    replace (mem b (s :: seen)) with false. 2:{ symmetry. destruct (mem b (s :: seen)) eqn:K; [exfalso|reflexivity]. apply mem_in in K. destruct K as [->|K]; [apply D1; left; reflexivity|]. apply (Hs b); [right; left; reflexivity|exact K]. }
    cbn [andb negb]. apply in_map. apply IH; [split; [reflexivity|split; [exact H2|split; assumption]]| |cbn in *; lia].
    intros x Hx [<-|K]; [exact (D1 Hx)|]. exact (Hs x (or_intror Hx) K).
Qed.
Lemma NoDup_flat : forall A B (g : A -> list B) l, NoDup l -> (forall x, In x l -> NoDup (g x)) -> (forall x y z, In x l -> In y l -> In z (g x) -> In z (g y) -> x = y) -> NoDup (flat_map g l).
Proof.
  intros A B g. induction l as [|a l IH]; intros D H1 H2; [constructor|]. inversion D as [|? ? D1 D2]; subst. cbn [flat_map].
  assert (IH' : NoDup (flat_map g l)). { apply IH; [exact D2|intros; apply H1; right; assumption|]. intros x y z Hx Hy. apply H2; right; assumption. }
  assert (Dj : forall z, In z (g a) -> ~ In z (flat_map g l)). { intros z Hz K. apply in_flat_map in K. destruct K as (y & Hy & K). apply D1. rewrite (H2 a y z (or_introl eq_refl) (or_intror Hy) Hz K). exact Hy. }
  specialize (H1 a (or_introl eq_refl)). induction (g a) as [|b m IHm]; [exact IH'|]. inversion H1 as [|? ? M1 M2]; subst. cbn [app]. constructor.
  - intro K. apply in_app_or in K. destruct K as [K|K]; [exact (M1 K)|]. exact (Dj b (or_introl eq_refl) K).
  - apply IHm; [exact M2|]. intros z Hz. apply Dj. right. exact Hz.
Qed.
Lemma paths_once : forall n e fuel seen s t, NoDup (all_paths n e fuel seen s t).
Proof.
  intros n e. induction fuel as [|fuel IH]; intros seen s t; cbn [all_paths]; destruct (Nat.eqb s t); try (constructor; [intros []|constructor]); [constructor|].
  apply NoDup_flat; [apply seq_NoDup| |].
  - intros j _. destruct (edge_b e s j && negb (mem j (s :: seen))); [|constructor]. apply NoDup_map_on; [|apply IH]. intros x y _ _ E. inversion E. reflexivity.
  - intros i j z _ _ Hi Hj. destruct (edge_b e s i && negb (mem i (s :: seen))); [|destruct Hi]. destruct (edge_b e s j && negb (mem j (s :: seen))); [|destruct Hj].
    apply in_map_iff in Hi. destruct Hi as (p & <- & Hp). apply in_map_iff in Hj. destruct Hj as (q & E & Hq). inversion E; subst q. apply paths_head in Hp. apply paths_head in Hq. congruence.
Qed.
Lemma path_within : forall n e p, within n e -> steps_ok e p -> forall a b tl, p = a :: b :: tl -> forall x, In x p -> x < n.
Proof.
  intros n e. induction p as [|c p IH]; intros Wn P a b tl E x Hx; [discriminate E|]. inversion E; subst. cbn [steps_ok] in P. destruct P as [P1 P2]. destruct Hx as [<-|Hx]; [apply (Wn _ _ P1)|].
  destruct tl as [|d tl]; [destruct Hx as [<-|[]]; apply (Wn _ _ P1)|]. exact (IH Wn P2 b d tl eq_refl x Hx).
Qed.
Theorem ssp_ref_correct : correct_ssp ssp_ref.
Proof.
  intros n e s t Wn. unfold ssp_ref. pose proof (sort_perm (weight e) (all_paths n e n [] s t)) as P. constructor.
  - intros p H. apply (Permutation_in _ P) in H. apply (paths_sound _ _ _ _ _ _ _ H). intros [].
  - intros p H. apply (Permutation_in _ (Permutation_sym P)). apply (paths_complete n e Wn p n [] s t H); [intros x _ []|]. destruct H as (_ & _ & D & Q1). destruct p as [|a [|b tl]]; [cbn; lia|cbn; lia|].
    assert (Hn : forall x, In x (a :: b :: tl) -> x < n) by (apply (path_within n e (a :: b :: tl) Wn Q1 a b tl eq_refl)).
    assert (Hi : incl (a :: b :: tl) (seq 0 n)) by (intros x Hx; apply in_seq; specialize (Hn x Hx); lia). pose proof (NoDup_incl_length D Hi) as Le. rewrite seq_length in Le. lia.
  - apply (Permutation_NoDup (Permutation_sym P)). apply paths_once.
  - apply sort_rising.
Qed.

(** ** A correct all-pairs routine *)
Definition touched_b (n : nat) (e : graph) (i : nid) : bool := existsb (fun j => edge_b e i j || edge_b e j i) (seq 0 n).
Definition apd_ref (n : nat) (e : graph) : list ((nid * nid) * list nid) :=
  flat_map (fun s => if touched_b n e s then flat_map (fun t => match ssp_ref n e s t with p :: _ => [((s, t), p)] | [] => [] end) (seq 0 n) else []) (seq 0 n).
Lemma edge_b_spec : forall (e : graph) i j, edge_b e i j = true <-> e i j <> None.
Proof. intros. unfold edge_b. destruct (e i j); split; intro H; try reflexivity; try discriminate; try discriminate H. exfalso. apply H. reflexivity. Qed.
Lemma touched_spec : forall n e i, within n e -> touched_b n e i = true <-> in_graph e i.
Proof.
  intros n e i Wn. unfold touched_b, in_graph. rewrite existsb_exists. split.
  - intros (j & _ & H). exists j. apply orb_true_iff in H. rewrite !edge_b_spec in H. exact H.
  - intros (j & H). exists j. split; [apply in_seq; destruct H as [H|H]; apply Wn in H; lia|]. apply orb_true_iff. rewrite !edge_b_spec. exact H.
Qed.
Lemma apd_in : forall n e s t p, In ((s, t), p) (apd_ref n e) <-> s < n /\ touched_b n e s = true /\ t < n /\ exists tl, ssp_ref n e s t = p :: tl.
Proof.
  intros n e s t p. unfold apd_ref. rewrite in_flat_map. split.
  - intros (s' & Hs & H). apply in_seq in Hs. destruct (touched_b n e s') eqn:T; [|destruct H]. apply in_flat_map in H. destruct H as (t' & Ht & H). apply in_seq in Ht.
    destruct (ssp_ref n e s' t') as [|q tl] eqn:E; [destruct H|]. destruct H as [H|[]]. inversion H; subst. split; [lia|]. split; [exact T|]. split; [lia|]. exists tl. exact E.
  - intros (Hs & T & Ht & tl & E). exists s. split; [apply in_seq; lia|]. rewrite T. apply in_flat_map. exists t. split; [apply in_seq; lia|]. rewrite E. left. reflexivity.
Qed.
Lemma map_flat_map : forall A B D (g : B -> D) (h : A -> list B) l, map g (flat_map h l) = flat_map (fun x => map g (h x)) l.
Proof. intros A B D g h. induction l as [|a l IH]; cbn; [reflexivity|]. rewrite map_app, IH. reflexivity. Qed.
Lemma simple_within : forall n e s t p, within n e -> in_graph e s -> simple_path e s t p -> s < n /\ t < n.
Proof.
  intros n e s t p Wn G (H1 & H2 & H3 & H4). assert (Sn : s < n) by (destruct G as (j & [G|G]); apply Wn in G; lia). split; [exact Sn|].
  destruct p as [|a [|b tl]]; [discriminate H1|cbn in *; congruence|]. apply (path_within n e _ Wn H4 a b tl eq_refl). apply last_opt_in. exact H2.
Qed.
Theorem apd_ref_correct : correct_apd apd_ref.
Proof.
  intros n e Wn _. constructor.
  - intros s t p H. apply apd_in in H. destruct H as (Hs & T & Ht & tl & E). split; [apply (touched_spec n e s Wn); exact T|]. apply (lp_sound _ _ _ _ (ssp_ref_correct n e s t Wn)). rewrite E. left. reflexivity.
  - intros s t p q H Hq. apply apd_in in H. destruct H as (Hs & T & Ht & tl & E). destruct (ssp_ref_correct n e s t Wn) as [C1 C2 C3 C4]. rewrite E in *. apply C2 in Hq. destruct Hq as [->|Hq]; [lra|]. cbn [map rising] in C4. apply (proj1 C4). apply in_map. exact Hq.
  - intros s t q G Hq. destruct (simple_within n e s t q Wn G Hq) as [Hs Ht]. apply (lp_complete _ _ _ _ (ssp_ref_correct n e s t Wn)) in Hq. destruct (ssp_ref n e s t) as [|p tl] eqn:E; [destruct Hq|].
    apply in_map_iff. exists ((s, t), p). split; [reflexivity|]. apply apd_in. split; [exact Hs|]. split; [apply (touched_spec n e s Wn); exact G|]. split; [exact Ht|]. exists tl. exact E.
  - unfold apd_ref. rewrite map_flat_map.
    assert (Fs : forall s z, In z (map fst (if touched_b n e s then flat_map (fun t => match ssp_ref n e s t with p :: _ => [((s, t), p)] | [] => [] end) (seq 0 n) else [])) -> fst z = s).
    { intros s z H. apply in_map_iff in H. destruct H as (y & <- & H). destruct (touched_b n e s); [|destruct H]. apply in_flat_map in H. destruct H as (t & _ & H). destruct (ssp_ref n e s t); [destruct H|]. destruct H as [<-|[]]. reflexivity. }
    apply NoDup_flat; [apply seq_NoDup| |].
    + intros s _. destruct (touched_b n e s); [|constructor]. rewrite map_flat_map. apply NoDup_flat; [apply seq_NoDup| |].
      * intros t _. destruct (ssp_ref n e s t); cbn; [constructor|constructor; [intros []|constructor]].
      * intros t t' z _ _ H H'. destruct (ssp_ref n e s t); [destruct H|]. destruct (ssp_ref n e s t'); [destruct H'|]. destruct H as [<-|[]]. destruct H' as [H'|[]]. inversion H'. reflexivity.
    + intros s s' z _ _ H H'. apply Fs in H. apply Fs in H'. congruence.
Qed.

(** ** enumerate_k_random_routes *)
Record DictOK (w : world) (k : nat) (d : dict) : Prop := mkDictOK {
  do_routes : forall s t, Forall (simple_route w s t) (d_routes d (s, t));
  do_once : forall x, NoDup (d_routes d x);
  do_number : forall x, List.length (d_routes d x) <= k;
  do_keys : NoDup (d_keys d);
  do_none : forall x, ~ In x (d_keys d) -> d_routes d x = [] }.
Record grown (es : list (nid * nid)) (d d' : dict) : Prop := mkGrown {
  gr_keys : forall x, In x (d_keys d') <-> In x (d_keys d) \/ In x es;
  gr_more : forall x, exists ext, d_routes d' x = d_routes d x ++ ext;
  gr_same : forall x, ~ In x es -> d_routes d' x = d_routes d x }.

Lemma pair_eqb_spec : forall a b, pair_eqb a b = true <-> a = b.
Proof. intros [a1 a2] [b1 b2]. unfold pair_eqb. cbn. rewrite andb_true_iff, !Nat.eqb_eq. split; [intros [-> ->]; reflexivity|intro E; inversion E; auto]. Qed.
Lemma pair_eqb_false : forall a b, a <> b -> pair_eqb a b = false.
Proof. intros a b H. destruct (pair_eqb a b) eqn:E; [exfalso; apply H, pair_eqb_spec, E|reflexivity]. Qed.
Lemma route_in_spec : forall r rs, route_in r rs = true <-> In r rs.
Proof.
  intros. unfold route_in. rewrite existsb_exists. split; [intros (x & H & E); destruct (list_eq_dec Nat.eq_dec x r) as [->|]; [exact H|discriminate E]|intro H; exists r; split; [exact H|destruct (list_eq_dec Nat.eq_dec r r); [reflexivity|congruence]]].
Qed.
Lemma touch_ok : forall w k x d, DictOK w k d -> DictOK w k (touch x d) /\ d_routes (touch x d) = d_routes d /\ (forall y, In y (d_keys (touch x d)) <-> In y (d_keys d) \/ y = x).
Proof.
  intros w k x d [D1 D2 D3 D4 D5]. unfold touch. destruct (existsb (pair_eqb x) (d_keys d)) eqn:E.
  - split; [constructor; assumption|]. split; [reflexivity|]. intro y. split; [intro H; left; exact H|]. intros [H| ->]; [exact H|]. apply existsb_exists in E. destruct E as (z & Hz & E). apply pair_eqb_spec in E. subst z. exact Hz.
  - assert (Nx : ~ In x (d_keys d)). { intro K. assert (existsb (pair_eqb x) (d_keys d) = true) by (apply existsb_exists; exists x; split; [exact K|apply pair_eqb_spec; reflexivity]). congruence. }
    split; [|split; [reflexivity|intro y; cbn [d_keys]; rewrite in_app_iff; cbn; intuition congruence]].
    constructor; cbn [d_keys d_routes]; auto; [apply NoDup_app_last; assumption|]. intros y H. apply D5. intro K. apply H, in_or_app. left. exact K.
Qed.
Lemma add_path_ok : forall w f k s t p d, simple_path (edge w f) s t p -> DictOK w k d ->
  exists d', add_path w k ((s, t), p) d = Ok d' /\ DictOK w k d' /\ grown [(s, t)] d d' /\
    (d_routes d (s, t) = [] -> 1 <= k -> exists r, pair_route w p = Ok r /\ d_routes d' (s, t) = [r]).
Proof.
  intros w f k s t p d P D. unfold add_path. cbn [fst snd]. destruct (touch_ok w k (s, t) d D) as (D' & Er & Ek). set (d1 := touch (s, t) d) in *. clearbody d1.
  assert (G0 : grown [(s, t)] d d1). { constructor; [intro x; rewrite Ek; cbn; intuition congruence|intro x; exists []; rewrite Er, app_nil_r; reflexivity|intros x _; rewrite Er; reflexivity]. }
  destruct (Nat.ltb_spec (List.length (d_routes d1 (s, t))) k) as [Lt|Ge].
  2:{ exists d1. split; [reflexivity|]. split; [exact D'|]. split; [exact G0|]. intros E K. rewrite Er, E in Ge. cbn in Ge. lia. }
  destruct (simple_path_route w f s t p P) as (r & Hr & Sr & _). rewrite Hr. cbn [bind]. destruct (route_in r (d_routes d1 (s, t))) eqn:Ri.
  - exists d1. split; [reflexivity|]. split; [exact D'|]. split; [exact G0|]. intros E K. rewrite Er, E in Ri. discriminate Ri.
  - assert (Nr : ~ In r (d_routes d1 (s, t))) by (intro K; apply route_in_spec in K; congruence).
    exists (append_route (s, t) r d1). split; [reflexivity|]. destruct D' as [D1 D2 D3 D4 D5]. split; [|split].
    + constructor; cbn [append_route d_keys d_routes]; auto.
      * intros s' t'. destruct (pair_eqb (s, t) (s', t')) eqn:E; [|apply D1]. apply pair_eqb_spec in E. inversion E; subst. apply Forall_app. split; [apply D1|constructor; [exact Sr|constructor]].
      * intro x. destruct (pair_eqb (s, t) x) eqn:E; [|apply D2]. apply pair_eqb_spec in E. subst x. apply NoDup_app_last; [apply D2|exact Nr].
      * intro x. destruct (pair_eqb (s, t) x) eqn:E; [|apply D3]. apply pair_eqb_spec in E. subst x. rewrite app_length. cbn. lia.
      * intros x Hx. destruct (pair_eqb (s, t) x) eqn:E; [|apply D5, Hx]. apply pair_eqb_spec in E. subst x. exfalso. apply Hx, Ek. right. reflexivity.
    + destruct G0 as [G1 G2 G3]. constructor; cbn [append_route d_keys d_routes]; [exact G1| |].
      * intro x. destruct (pair_eqb (s, t) x); [|apply G2]. exists [r]. rewrite Er. reflexivity.
      * intros x Hx. rewrite pair_eqb_false by (intro K; apply Hx; left; exact K). apply G3, Hx.
    + intros E _. exists r. split; [reflexivity|]. cbn [append_route d_routes]. rewrite (proj2 (pair_eqb_spec (s, t) (s, t)) eq_refl), Er, E. reflexivity.
Qed.
Lemma round_ok : forall w f k es d, (forall s t p, In ((s, t), p) es -> simple_path (edge w f) s t p) -> NoDup (map fst es) -> DictOK w k d ->
  exists d', foldM (add_path w k) es d = Ok d' /\ DictOK w k d' /\ grown (map fst es) d d' /\
    (forall x p, In (x, p) es -> d_routes d x = [] -> 1 <= k -> exists r, pair_route w p = Ok r /\ d_routes d' x = [r]).
Proof.
  intros w f k. induction es as [|[[s t] p] es IH]; intros d P N D.
  - exists d. split; [reflexivity|]. split; [exact D|]. split; [|intros x p []]. constructor; [intro x; cbn; intuition|intro x; exists []; rewrite app_nil_r; reflexivity|reflexivity].
  - cbn [map fst] in N. inversion N as [|? ? N1 N2]; subst. destruct (add_path_ok w f k s t p d (P s t p (or_introl eq_refl)) D) as (d1 & E1 & D1 & [G1 G2 G3] & H1).
    destruct (IH d1) as (d2 & E2 & D2 & [K1 K2 K3] & H2); [intros s' t' p' H; apply P; right; exact H|exact N2|exact D1|].
    exists d2. split; [cbn [foldM]; rewrite E1; cbn [bind]; exact E2|]. split; [exact D2|]. split.
    + constructor.
      * intro x. rewrite K1, G1. cbn [map fst In]. intuition.
      * intro x. destruct (G2 x) as [a Ha]. destruct (K2 x) as [b Hb]. exists (a ++ b). rewrite Hb, Ha, app_assoc. reflexivity.
      * intros x Hx. cbn [map fst In] in Hx. rewrite K3, G3; [reflexivity| |]; cbn; intuition.
    + intros x q [Hx|Hx] E K.
      * inversion Hx; subst. destruct (H1 E K) as (r & Hr & Hd). exists r. split; [exact Hr|]. rewrite K3 by exact N1. exact Hd.
      * apply H2; [exact Hx| |exact K]. rewrite G3; [exact E|]. intros [Eq|[]]. apply N1. subst x. apply in_map_iff. exists ((s, t), q). split; [reflexivity|exact Hx].
Qed.

(** the pairs of nodes between which a route leads *)
Definition pairs_ok (w : world) (ks : list (nid * nid)) : Prop := forall s t, In (s, t) ks <-> linked w s /\ exists r, leads w s t r.
Lemma edge_def : forall w f g i j, edge w f i j <> None <-> edge w g i j <> None.
Proof. intros. rewrite !edge_none. reflexivity. Qed.
Lemma graph_linked : forall w f s, in_graph (edge w f) s <-> linked w s.
Proof.
  intros w f s. unfold in_graph, linked. split.
  - intros (j & H). assert (X : forall a b, edge w f a b <> None -> exists l, exists_link w l /\ l_start (L w l) = a /\ l_end (L w l) = b).
    { intros a b K. destruct (edge w f a b) as [q|] eqn:E; [|exfalso; apply K; reflexivity]. apply edge_some in E. destruct E as (l & Hl & _). apply between_in in Hl. exists l. exact Hl. }
    destruct H as [H|H]; apply X in H; destruct H as (l & A & B & D); exists l; auto.
  - intros (l & X & H). assert (Y : edge w f (l_start (L w l)) (l_end (L w l)) <> None). { rewrite edge_none. intro K. assert (J : In l (links_between w (l_start (L w l)) (l_end (L w l)))) by (apply between_in; auto). rewrite K in J. exact J. }
    destruct H as [<-|<-]; eexists; [left; exact Y|right; exact Y].
Qed.
Lemma least_pairs : forall w f es, lists_least (edge w f) es -> pairs_ok w (map fst es).
Proof.
  intros w f es [L1 L2 L3 L4] s t. split.
  - intro H. apply in_map_iff in H. destruct H as ([[s' t'] p] & E & H). cbn in E. inversion E; subst. destruct (L1 s t p H) as [G P]. split; [apply (graph_linked w f s), G|]. destruct (simple_path_route w f s t p P) as (r & _ & A & _). exists r. exact (proj1 A).
  - intros (G & r & Hr). destruct (shortcut w (fun _ => 0%Q) (fun _ _ => Qle_refl 0) r s t Hr) as (r2 & A & _). apply (L3 s t (visited w s r2)); [apply (graph_linked w f s), G|apply simple_visited, A].
Qed.

Definition tot (d : dict) : nat := list_sum (map (fun x => List.length (d_routes d x)) (d_keys d)).
Lemma qsum_nat : forall A (g : A -> nat) l, (qsum (map (fun x => Qof_nat (g x)) l) == Qof_nat (list_sum (map g l)))%Q.
Proof. intros A g. induction l as [|a l IH]; cbn [map qsum list_sum fold_right]; [reflexivity|]. change (fold_right Init.Nat.add 0 (map g l)) with (list_sum (map g l)). rewrite IH. unfold Qof_nat. rewrite Nat2Z.inj_add, inject_Z_plus. reflexivity. Qed.
Lemma average_ok : forall d, d_keys d <> [] -> exists a, average_n d = Ok a /\ (a == Qof_nat (tot d) / Qof_nat (List.length (d_keys d)))%Q.
Proof.
  intros d H. unfold average_n, qdiv. destruct (qeq (Qof_nat (List.length (d_keys d))) 0) eqn:E.
  - exfalso. apply qeq_iff in E. unfold Qof_nat in E. change 0%Q with (inject_Z 0) in E. rewrite inject_Z_injective in E. destruct (d_keys d); [apply H; reflexivity|]. cbn [List.length] in E. lia.
  - eexists. split; [reflexivity|]. unfold tot. rewrite (qsum_nat _ (fun x => List.length (d_routes d x))). reflexivity.
Qed.
Lemma sum_perm : forall A (g : A -> nat) l l', Permutation l l' -> list_sum (map g l) = list_sum (map g l').
Proof. intros A g l l' P. unfold list_sum. induction P; cbn [map fold_right] in *; lia. Qed.
Lemma sum_le : forall A (g h : A -> nat) l, (forall x, g x <= h x) -> list_sum (map g l) <= list_sum (map h l).
Proof. intros A g h l H. unfold list_sum in *. induction l as [|a l IH]; cbn [map fold_right List.length] in *; [lia|]. specialize (H a). lia. Qed.
Lemma sum_bound : forall A (g : A -> nat) k l, (forall x, g x <= k) -> list_sum (map g l) <= k * List.length l.
Proof. intros A g k l H. unfold list_sum in *. induction l as [|a l IH]; cbn [map fold_right List.length] in *; [lia|]. specialize (H a). lia. Qed.
Lemma same_pairs : forall w a b, pairs_ok w a -> pairs_ok w b -> NoDup a -> NoDup b -> Permutation a b.
Proof. intros w a b A B Na Nb. apply NoDup_Permutation; [exact Na|exact Nb|]. intros [s t]. rewrite (A s t), (B s t). reflexivity. Qed.
Lemma pairs_bound : forall w ks, topo w -> pairs_ok w ks -> NoDup ks -> List.length ks <= w_nn w * w_nn w.
Proof.
  intros w ks T P N. replace (w_nn w * w_nn w) with (List.length (list_prod (seq 0 (w_nn w)) (seq 0 (w_nn w)))) by (rewrite prod_length, !seq_length; reflexivity).
  apply NoDup_incl_length; [exact N|]. intros [s t] H. apply P in H. destruct H as (G & r & Hr). assert (Sn : s < w_nn w) by (destruct G as (l & X & [<-|<-]); apply (t_ends T) in X; lia).
  apply in_prod; apply in_seq; [lia|]. clear G. assert (t < w_nn w); [|lia]. clear N P. revert s Sn Hr. induction r as [|l r IH]; intros s Sn Hr; cbn [leads] in Hr; [congruence|]. destruct Hr as (X & _ & Hr). apply (IH _ (proj2 (t_ends T X)) Hr).
Qed.
Lemma nat_ratio : forall a b n, n <> 0 -> (Qof_nat a / Qof_nat n == Qof_nat b / Qof_nat n)%Q -> a = b.
Proof.
  intros a b n H E. assert (P : ~ (Qof_nat n == 0)%Q) by (unfold Qof_nat; change 0%Q with (inject_Z 0); intro K; rewrite inject_Z_injective in K; lia).
  assert (E2 : (Qof_nat a == Qof_nat b)%Q). { transitivity (Qof_nat a / Qof_nat n * Qof_nat n)%Q; [field; exact P|]. rewrite E. field. exact P. }
  unfold Qof_nat in E2. rewrite inject_Z_injective in E2. lia.
Qed.

Section RandomRoutes.
Variables (apd : nat -> graph -> list ((nid * nid) * list nid)) (w : world) (draw : nat -> lid -> Q) (k : nat).
Hypothesis routine : correct_apd apd.
Hypothesis wt : topo w.
Hypothesis ff_pos : forall l, exists_link w l -> (0 <= ff w l)%Q.
Hypothesis draw_pos : forall it l, (0 <= draw it l)%Q.

Lemma drawn_pos : forall it l, exists_link w l -> (0 <= ff_drawn w draw it l)%Q.
Proof. intros it l X. unfold ff_drawn. destruct (Nat.eqb it 0); [apply ff_pos, X|]. apply Qmult_le_0_compat; [apply ff_pos, X|apply draw_pos]. Qed.
Lemma routine_ok : forall it, lists_least (edge w (ff_drawn w draw it)) (apd (w_nn w) (edge w (ff_drawn w draw it))).
Proof.
  intro it. apply routine; [apply edge_within, wt|]. intros i j q E. apply edge_some in E. destruct E as (l & Hl & _ & ->). apply between_in in Hl. apply drawn_pos, Hl.
Qed.
(** the first route of a pair, found without random numbers *)
Definition first_ok (d : dict) : Prop :=
  forall s t, In (s, t) (d_keys d) -> 1 <= k -> exists p r, pair_route w p = Ok r /\ hd_error (d_routes d (s, t)) = Some r /\
    simple_path (edge w (ff w)) s t p /\ forall q, simple_path (edge w (ff w)) s t q -> (weight (edge w (ff w)) p <= weight (edge w (ff w)) q)%Q.
Definition LoopInv (d : dict) : Prop := DictOK w k d /\ pairs_ok w (d_keys d) /\ first_ok d.

Lemma loop_round : forall it d, DictOK w k d -> exists d', foldM (add_path w k) (apd (w_nn w) (edge w (ff_drawn w draw it))) d = Ok d' /\ DictOK w k d' /\
  grown (map fst (apd (w_nn w) (edge w (ff_drawn w draw it)))) d d' /\ pairs_ok w (map fst (apd (w_nn w) (edge w (ff_drawn w draw it)))) /\
  (forall x p, In (x, p) (apd (w_nn w) (edge w (ff_drawn w draw it))) -> d_routes d x = [] -> 1 <= k -> exists r, pair_route w p = Ok r /\ d_routes d' x = [r]).
Proof.
  intros it d D. pose proof (routine_ok it) as R. destruct (round_ok w (ff_drawn w draw it) k _ d (fun s t p H => proj2 (ll_sound _ _ R s t p H)) (ll_once _ _ R) D) as (d' & A & B & G & H).
  exists d'. split; [exact A|]. split; [exact B|]. split; [exact G|]. split; [exact (least_pairs _ _ _ R)|exact H].
Qed.
Lemma loop_keeps : forall it d d', LoopInv d -> foldM (add_path w k) (apd (w_nn w) (edge w (ff_drawn w draw it))) d = Ok d' -> LoopInv d' /\ tot d <= tot d' /\ List.length (d_keys d') = List.length (d_keys d).
Proof.
  intros it d d' (D & P & F) H. destruct (loop_round it d D) as (d1 & E & D' & [G1 G2 G3] & Pm & _). rewrite E in H. inversion H; subst d1.
  assert (P' : pairs_ok w (d_keys d')). { intros s t. rewrite G1. rewrite (P s t), (Pm s t). intuition. }
  assert (Pe : Permutation (d_keys d') (d_keys d)) by (apply (same_pairs w); [exact P'|exact P|apply (do_keys _ _ _ D')|apply (do_keys _ _ _ D)]).
  split; [|split; [|apply Permutation_length, Pe]].
  - split; [exact D'|]. split; [exact P'|]. intros s t Hk K. apply (Permutation_in _ Pe) in Hk. destruct (F s t Hk K) as (p & r & A1 & A2 & A3). exists p, r. split; [exact A1|]. split; [|exact A3]. destruct (G2 (s, t)) as [ext ->]. destruct (d_routes d (s, t)); [discriminate A2|exact A2].
  - unfold tot. rewrite (sum_perm _ (fun x => List.length (d_routes d' x)) _ _ Pe). apply sum_le. intro x. destruct (G2 x) as [ext ->]. rewrite app_length. lia.
Qed.
Lemma loop_first : forall d, foldM (add_path w k) (apd (w_nn w) (edge w (ff_drawn w draw 0))) (mkDict [] (fun _ => [])) = Ok d -> LoopInv d.
Proof.
  intros d H. assert (D0 : DictOK w k (mkDict [] (fun _ => []))). { constructor; cbn; intros; try constructor; try reflexivity. lia. }
  destruct (loop_round 0 _ D0) as (d1 & E & D' & [G1 G2 G3] & Pm & Fi). rewrite E in H. inversion H; subst d1. pose proof (routine_ok 0) as R.
  split; [exact D'|]. split; [intros s t; rewrite G1, (Pm s t); cbn; intuition|]. intros s t Hk K. apply G1 in Hk. destruct Hk as [[]|Hk]. apply in_map_iff in Hk. destruct Hk as ([x p] & Ex & Hp). cbn in Ex. subst x.
  destruct (Fi (s, t) p Hp eq_refl K) as (r & Hr & Hd). exists p, r. split; [exact Hr|]. split; [rewrite Hd; reflexivity|]. split; [exact (proj2 (ll_sound _ _ R s t p Hp))|]. intros q Hq. exact (ll_least _ _ R s t p q Hp Hq).
Qed.
Lemma from_inv : forall fuel it counter old d d', LoopInv d -> enumerate_from apd w draw k fuel it counter old d = Ok d' -> LoopInv d'.
Proof.
  induction fuel as [|fuel IH]; intros it counter old d d' Li H; [discriminate H|]. cbn [enumerate_from] in H.
  destruct (foldM (add_path w k) (apd (w_nn w) (edge w (ff_drawn w draw it))) d) as [d1|] eqn:E; cbn [bind] in H; [|discriminate H]. destruct (average_n d1) as [a|]; cbn [bind] in H; [|discriminate H].
  destruct (loop_keeps it d d1 Li E) as [L1 _]. destruct (Nat.ltb 10 (if qeq a old then S counter else 0)); [inversion H; subst; exact L1|]. exact (IH _ _ _ _ _ L1 H).
Qed.
Lemma from_stops : forall fuel it counter old d, LoopInv d -> d_keys d <> [] -> (old == Qof_nat (tot d) / Qof_nat (List.length (d_keys d)))%Q -> counter <= 10 ->
  11 * (k * List.length (d_keys d) - tot d) + (11 - counter) <= fuel -> exists d', enumerate_from apd w draw k fuel it counter old d = Ok d'.
Proof.
  induction fuel as [|fuel IH]; intros it counter old d Li Kn Ho Hc Hf; [lia|]. cbn [enumerate_from]. destruct (loop_round it d (proj1 Li)) as (d1 & E & _). rewrite E. cbn [bind].
  destruct (loop_keeps it d d1 Li E) as (L1 & Tm & Le). assert (Kn1 : d_keys d1 <> []) by (intro K; rewrite K in Le; destruct (d_keys d); [apply Kn; reflexivity|discriminate Le]).
  destruct (average_ok d1 Kn1) as (a & Ea & Ha). rewrite Ea. cbn [bind].
  assert (Bd : forall d, LoopInv d -> tot d <= k * List.length (d_keys d)) by (intros d0 [D0 _]; unfold tot; apply (sum_bound _ (fun x => List.length (d_routes d0 x))); intro x; apply (do_number _ _ _ D0)).
  pose proof (Bd d1 L1) as B1. destruct (qeq a old) eqn:Q1.
  - apply qeq_iff in Q1. assert (Et : tot d1 = tot d). { apply (nat_ratio _ _ (List.length (d_keys d))); [destruct (d_keys d); [exfalso; apply Kn; reflexivity|discriminate]|]. rewrite <- Ho, <- Q1, Ha, Le. reflexivity. }
    destruct (Nat.ltb_spec 10 (S counter)) as [Gt|Ng]; [eexists; reflexivity|]. apply IH; [exact L1|exact Kn1|rewrite Et, Le; exact Ho|lia|]. rewrite Et, Le. lia.
  - apply qeq_false in Q1. assert (Et : tot d1 <> tot d). { intro K. apply Q1. rewrite Ha, Ho, K, Le. reflexivity. }
    cbn [Nat.ltb Nat.leb]. apply IH; [exact L1|exact Kn1|exact Ha|lia|]. rewrite Le in *. nia.
Qed.
End RandomRoutes.

(** what the enumeration promises *)
Record random_routes (w : world) (k : nat) (d : dict) : Prop := mkRandom {
  rr_pairs : pairs_ok w (d_keys d);
  rr_routes : forall s t, Forall (simple_route w s t) (d_routes d (s, t));
  rr_once : forall x, NoDup (d_routes d x);
  rr_number : forall x, List.length (d_routes d x) <= k;
  rr_some : forall x, In x (d_keys d) -> 1 <= k -> d_routes d x <> [] }.

Lemma no_zero : forall w, existsb (fun l => qeq (l_u (L w l)) 0) (seq 0 (w_nl w)) = false -> forall l, exists_link w l -> ~ (l_u (L w l) == 0)%Q.
Proof. intros w H l X K. apply qeq_iff in K. assert (existsb (fun l => qeq (l_u (L w l)) 0) (seq 0 (w_nl w)) = true); [|congruence]. apply existsb_exists. exists l. split; [apply in_seq; unfold exists_link in X; lia|exact K]. Qed.
Lemma random_inv : forall apd c w draw k fuel d, correct_apd apd -> reach c w -> (forall l, exists_link w l -> (0 <= ff w l)%Q) -> (forall it l, (0 <= draw it l)%Q) ->
  enumerate_k_random apd w draw k fuel = Ok d -> LoopInv w k d.
Proof.
  intros apd c w draw k fuel d C R Fp Dp H. apply reach_topo in R. unfold enumerate_k_random in H. destruct (existsb (fun l => qeq (l_u (L w l)) 0) (seq 0 (w_nl w))); [discriminate H|]. destruct fuel as [|fuel]; [discriminate H|]. cbn [enumerate_from] in H.
  destruct (foldM (add_path w k) (apd (w_nn w) (edge w (ff_drawn w draw 0))) (mkDict [] (fun _ => []))) as [d1|] eqn:E; cbn [bind] in H; [|discriminate H]. pose proof (loop_first apd w draw k C R Fp Dp d1 E) as L1.
  destruct (average_n d1) as [a|]; cbn [bind] in H; [|discriminate H]. destruct (Nat.ltb 10 (if qeq a 0 then 1 else 0)); [inversion H; subst; exact L1|]. exact (from_inv apd w draw k C R Fp Dp _ _ _ _ _ _ L1 H).
Qed.
Theorem random_lemma : forall apd c w draw k fuel d, correct_apd apd -> reach c w -> (forall l, exists_link w l -> (0 <= ff w l)%Q) -> (forall it l, (0 <= draw it l)%Q) ->
  enumerate_k_random apd w draw k fuel = Ok d -> random_routes w k d.
Proof.
  intros apd c w draw k fuel d C R Fp Dp H. destruct (random_inv apd c w draw k fuel d C R Fp Dp H) as ([D1 D2 D3 D4 D5] & P & F). constructor; auto.
  intros [s t] Hk K E. destruct (F s t Hk K) as (p & r & _ & A & _). rewrite E in A. discriminate A.
Qed.
(** the links that NODE_PAIR_LINKS knows *)
Definition latest (w : world) (l : lid) : Prop := last_opt (links_between w (l_start (L w l)) (l_end (L w l))) = Some l.
Lemma leads_latest : forall w r s t, leads w s t r -> Forall (latest w) r -> pair_route w (visited w s r) = Ok r.
Proof.
  intros w. induction r as [|l r IH]; intros s t H F; [reflexivity|]. cbn [leads] in H. destruct H as (X & Es & H). inversion F as [|? ? F1 F2]; subst. specialize (IH _ _ H F2). unfold visited in *. cbn [map pair_route]. cbn [pair_route] in IH. rewrite IH.
  unfold latest in F1. rewrite F1. reflexivity.
Qed.
Lemma suffix_latest : forall w f, (forall l, exists_link w l -> (0 <= f l)%Q) -> forall r a s t, simple_route w a t r -> Forall (latest w) r -> In s (visited w a r) ->
  exists r2, simple_route w s t r2 /\ Forall (latest w) r2 /\ (cost f r2 <= cost f r)%Q.
Proof.
  intros w f f_pos. induction r as [|l r IH]; intros a s t [H D] F Hs.
  - cbn in Hs. destruct Hs as [->|[]]. exists []. split; [split; assumption|]. split; [constructor|unfold cost; cbn; lra].
  - destruct (Nat.eq_dec s a) as [->|N]; [exists (l :: r); split; [split; assumption|split; [exact F|lra]]|].
    cbn [leads] in H. destruct H as (X & Es & H). unfold visited in D, Hs. cbn [map] in D, Hs. inversion D as [|? ? D1 D2]; subst. inversion F as [|? ? F1 F2]; subst. destruct Hs as [Hs|Hs]; [exfalso; apply N; symmetry; exact Hs|].
    destruct (IH (l_end (L w l)) s t (conj H D2) F2 Hs) as (r2 & A & B & B'). exists r2. split; [exact A|]. split; [exact B|]. unfold cost in *. cbn [map qsum]. pose proof (f_pos l X). lra.
Qed.
Lemma shortcut_latest : forall w f, (forall l, exists_link w l -> (0 <= f l)%Q) -> forall r s t, leads w s t r -> Forall (latest w) r ->
  exists r2, simple_route w s t r2 /\ Forall (latest w) r2 /\ (cost f r2 <= cost f r)%Q.
Proof.
  intros w f f_pos. induction r as [|l r IH]; intros s t H F.
  - exists []. split; [split; [exact H|constructor; [intros []|constructor]]|]. split; [constructor|unfold cost; cbn; lra].
  - cbn [leads] in H. destruct H as (X & Es & H). inversion F as [|? ? F1 F2]; subst. destruct (IH _ _ H F2) as (r2 & A & B & B'). pose proof (f_pos l X) as P.
    destruct (in_dec Nat.eq_dec (l_start (L w l)) (visited w (l_end (L w l)) r2)) as [K|K].
    + destruct (suffix_latest w f f_pos r2 _ (l_start (L w l)) t A B K) as (r3 & A3 & B3 & B3'). exists r3. split; [exact A3|]. split; [exact B3|]. unfold cost in *. cbn [map qsum]. lra.
    + exists (l :: r2). destruct A as [A1 A2]. split; [split; [cbn [leads]; auto|unfold visited in *; cbn [map]; constructor; assumption]|]. split; [constructor; assumption|]. unfold cost in *. cbn [map qsum]. lra.
Qed.
(** the first route of a pair is a shortest one by free flow travel time, among those of the links of NODE_PAIR_LINKS *)
Theorem random_first : forall apd c w draw k fuel d s t r, correct_apd apd -> reach c w -> (forall l, exists_link w l -> (0 <= ff w l)%Q) -> (forall it l, (0 <= draw it l)%Q) ->
  enumerate_k_random apd w draw (S k) fuel = Ok d -> linked w s -> leads w s t r -> Forall (latest w) r ->
  exists r0 tl, d_routes d (s, t) = r0 :: tl /\ (cost (ff w) r0 <= cost (ff w) r)%Q.
Proof.
  intros apd c w draw k fuel d s t r C R Fp Dp H G Hr Fr. destruct (random_inv apd c w draw (S k) fuel d C R Fp Dp H) as (D & P & F).
  assert (Hk : In (s, t) (d_keys d)) by (apply P; split; [exact G|exists r; exact Hr]). destruct (F s t Hk) as (p & r0 & A1 & A2 & A3 & A4); [lia|].
  destruct (d_routes d (s, t)) as [|r1 tl]; [discriminate A2|]. cbn in A2. inversion A2; subst r1. exists r0, tl. split; [reflexivity|].
  destruct (shortcut_latest w (ff w) Fp r s t Hr Fr) as (r2 & B1 & B2 & B3). apply (Qle_trans _ (cost (ff w) r2)); [|exact B3].
  destruct A3 as (P1 & P2 & P3 & P4). destruct (pair_route_leads w (ff w) p s t r0 A1 P1 P2) as (_ & _ & W1). pose proof (leads_latest w r2 s t (proj1 B1) B2) as E2.
  pose proof (simple_visited w (ff w) s t r2 B1) as V. destruct (pair_route_leads w (ff w) _ s t r2 E2 eq_refl (visited_last w r2 s t (proj1 B1))) as (_ & _ & W2). rewrite <- W1, <- W2. apply A4, V.
Qed.
Lemma single_latest : forall w r s t, single_links w -> leads w s t r -> Forall (latest w) r.
Proof.
  intros w r s t S1. revert s. induction r as [|l r IH]; intros s H; [constructor|]. cbn [leads] in H. destruct H as (X & _ & H). constructor; [|exact (IH _ H)]. unfold latest.
  assert (J : In l (links_between w (l_start (L w l)) (l_end (L w l)))) by (apply between_in; auto). specialize (S1 (l_start (L w l)) (l_end (L w l))).
  destruct (links_between w (l_start (L w l)) (l_end (L w l))) as [|x [|y ls]]; [destruct J| |cbn in S1; lia]. destruct J as [->|[]]. reflexivity.
Qed.
Theorem random_shortest : forall apd c w draw k fuel d s t r, correct_apd apd -> reach c w -> single_links w -> (forall l, exists_link w l -> (0 <= ff w l)%Q) -> (forall it l, (0 <= draw it l)%Q) ->
  enumerate_k_random apd w draw (S k) fuel = Ok d -> linked w s -> leads w s t r -> exists r0 tl, d_routes d (s, t) = r0 :: tl /\ (cost (ff w) r0 <= cost (ff w) r)%Q.
Proof. intros. eapply random_first; eauto. eapply single_latest; eauto. Qed.

(** it ends after at most this number of iterations *)
Theorem random_stops : forall apd c w draw k fuel, correct_apd apd -> reach c w -> w_nl w <> 0 ->
  (forall l, exists_link w l -> ~ (l_u (L w l) == 0)%Q /\ (0 <= ff w l)%Q) -> (forall it l, (0 <= draw it l)%Q) ->
  12 + 11 * (k * (w_nn w * w_nn w)) <= fuel -> exists d, enumerate_k_random apd w draw k fuel = Ok d.
Proof.
  intros apd c w draw k fuel C R Nl Up Dp Hf. apply reach_topo in R. assert (Fp : forall l, exists_link w l -> (0 <= ff w l)%Q) by (intros l X; apply (Up l X)).
  unfold enumerate_k_random. destruct (existsb (fun l => qeq (l_u (L w l)) 0) (seq 0 (w_nl w))) eqn:Z0.
  { exfalso. apply existsb_exists in Z0. destruct Z0 as (l & Hl & Z0). apply in_seq in Hl. apply qeq_iff in Z0. assert (X : exists_link w l) by (unfold exists_link; lia). exact (proj1 (Up l X) Z0). }
  destruct fuel as [|fuel]; [lia|]. cbn [enumerate_from].
  assert (D0 : DictOK w k (mkDict [] (fun _ => []))). { constructor; cbn; intros; try constructor; try reflexivity. lia. }
  destruct (loop_round apd w draw k C R Fp Dp 0 _ D0) as (d1 & E & _). rewrite E. cbn [bind]. pose proof (loop_first apd w draw k C R Fp Dp d1 E) as L1.
  assert (Kn : d_keys d1 <> []). { intro K. destruct L1 as (_ & P & _). assert (X : exists_link w 0) by (unfold exists_link; lia). assert (J : In (l_start (L w 0), l_start (L w 0)) (d_keys d1)) by (apply P; split; [exists 0; auto|exists []; reflexivity]). rewrite K in J. exact J. }
  destruct (average_ok d1 Kn) as (a & Ea & Ha). rewrite Ea. cbn [bind].
  pose proof (pairs_bound w (d_keys d1) R (proj1 (proj2 L1)) (do_keys _ _ _ (proj1 L1))) as Bk.
  assert (Bf : k * List.length (d_keys d1) <= k * (w_nn w * w_nn w)) by (apply Nat.mul_le_mono_l; exact Bk).
  destruct (qeq a 0) eqn:Q1.
  - cbn [Nat.ltb Nat.leb]. apply (from_stops apd w draw k C R Fp Dp); [exact L1|exact Kn| |lia|lia]. apply qeq_iff in Q1. rewrite <- Ha, Q1. reflexivity.
  - cbn [Nat.ltb Nat.leb]. apply (from_stops apd w draw k C R Fp Dp); [exact L1|exact Kn|exact Ha|lia|lia].
Qed.
(** a network without links makes it fail *)
Theorem random_no_links : forall apd c w draw k fuel, correct_apd apd -> reach c w -> w_nl w = 0 -> enumerate_k_random apd w draw k (S fuel) = Err ZeroDivisionError.
Proof.
  intros apd c w draw k fuel C R Nl. apply reach_topo in R. unfold enumerate_k_random. rewrite Nl. cbn [seq existsb enumerate_from].
  assert (Nx : forall l, ~ exists_link w l) by (intros l X; unfold exists_link in X; lia).
  assert (Ll : lists_least (edge w (ff_drawn w draw 0)) (apd (w_nn w) (edge w (ff_drawn w draw 0)))). { apply C; [apply edge_within, R|]. intros i j q E. apply edge_some in E. destruct E as (l & Hl & _). apply between_in in Hl. exfalso. exact (Nx l (proj1 Hl)). }
  destruct (apd (w_nn w) (edge w (ff_drawn w draw 0))) as [|[[s t] p] es]; [reflexivity|]. exfalso. destruct (ll_sound _ _ Ll s t p (or_introl eq_refl)) as [G _]. apply (graph_linked w) in G. destruct G as (l & X & _). exact (Nx l X).
Qed.
