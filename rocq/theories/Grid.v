(** * Grid: generate_grid_network of Utilities (C71).

    /repo/uxsim/Utilities/Utilities.py 15-52.  The nodes of a grid of [imax] times [jmax] are
    added row by row, then the links of each node to its neighbours.  The names are the
    f-strings of lines 37 and 45-51: "n(i, j)" and "l(i, j, k, l)".  The keyword arguments that
    are handed on to addLink are a record of link arguments of which the name and the two nodes
    are overwritten.  Simplification: what the function returns, two dictionaries of the new
    objects, is not part of the model; the nodes are referred to by their number. *)
From Coq Require Import Ascii.
From Verif Require Import Base Types Sim Build Heap Lists Tac Reach Steps Registry CppOK Spec SpecRoutes.
Local Open Scope nat_scope.

Notation cell := (nat * nat)%type.

(** the two nested loops, 35-36 and 41-42 *)
Definition cells (imax jmax : nat) : list cell := list_prod (seq 0 imax) (seq 0 jmax).

(** lines 43-50, in this order *)
Definition neighbours (imax jmax : nat) (p : cell) : list cell :=
  let (i, j) := p in
  (if i =? imax - 1 then [] else [(S i, j)]) ++ (if i =? 0 then [] else [(i - 1, j)]) ++
  (if j =? jmax - 1 then [] else [(i, S j)]) ++ (if j =? 0 then [] else [(i, j - 1)]).

Definition edges (imax jmax : nat) : list (cell * cell) :=
  flat_map (fun p => map (pair p) (neighbours imax jmax p)) (cells imax jmax).

Definition cell_text (p : cell) : string := (dec (fst p) ++ ", " ++ dec (snd p))%string.
Definition cell_name (p : cell) : string := ("n(" ++ cell_text p ++ ")")%string.
Definition edge_name (e : cell * cell) : string := ("l(" ++ cell_text (fst e) ++ ", " ++ cell_text (snd e) ++ ")")%string.

(** line 37; the other arguments of addNode have their default values *)
Definition cell_args (p : cell) : node_args :=
  mkNodeArgs (cell_name p) (Qof_nat (fst p)) (Qof_nat (snd p)) [0%Q] 0 None (Some (16 # 10)) None.

(** the node of the cell, when the first one is number [b] *)
Definition cell_node (b jmax : nat) (p : cell) : nid := b + (fst p * jmax + snd p).

Definition edge_args (kw : link_args) (b jmax : nat) (e : cell * cell) : link_args :=
  mkLinkArgs (Some (edge_name e)) (cell_node b jmax (fst e)) (cell_node b jmax (snd e)) (la_len kw) (la_ffs kw) (la_jam kw)
    (la_jampl kw) (la_lanes kw) (la_prio kw) (la_group kw) (la_cout kw) (la_cin kw) (la_toll kw) (la_eulardx kw).

Definition generate_grid_network (c : cfg) (imax jmax : nat) (kw : link_args) (w : world) : result world :=
  w1 <- foldM (fun p w => add_node c (cell_args p) w) (cells imax jmax) w ;;
  foldM (fun e w2 => add_link c (edge_args kw (w_nn w) jmax e) w2) (edges imax jmax) w1.

(** ** The names are different *)
Definition isdigit (a : ascii) : bool := let n := nat_of_ascii a in (48 <=? n) && (n <=? 57).
Fixpoint digits (s : string) : Prop := match s with EmptyString => True | String a s => isdigit a = true /\ digits s end.

Lemma uint_digits : forall u, digits (DecimalString.NilEmpty.string_of_uint u).
Proof. induction u; cbn; auto. Qed.
Lemma dec_digits : forall n, digits (dec n).
Proof.
  intro n. unfold dec, DecimalString.NilZero.string_of_uint. destruct (Nat.to_uint n) eqn:E; [cbn; auto|..];
  match goal with |- digits (DecimalString.NilEmpty.string_of_uint ?x) => apply (uint_digits x) end.
Qed.
Lemma digits_split : forall s s' a b t t', digits s -> digits s' -> isdigit a = false -> isdigit b = false ->
  (s ++ String a t = s' ++ String b t')%string -> s = s' /\ t = t'.
Proof.
  induction s as [|x s IH]; intros [|y s'] a b t t' H H' Ha Hb E; cbn in *.
  - injection E as _ E. auto.
  - injection E as E1 _. destruct H' as [H' _]. congruence.
  - injection E as E1 _. destruct H as [H _]. congruence.
  - destruct H as [_ H], H' as [_ H']. injection E as E1 E. destruct (IH s' a b t t' H H' Ha Hb E) as [-> ->]. subst; auto.
Qed.

Lemma app_assoc_s : forall a b c : string, ((a ++ b) ++ c = a ++ (b ++ c))%string.
Proof. induction a; intros; cbn; [auto|]. rewrite IHa. auto. Qed.

Lemma cell_text_split : forall p q a b t t', isdigit a = false -> isdigit b = false ->
  (cell_text p ++ String a t = cell_text q ++ String b t')%string -> p = q /\ t = t'.
Proof.
  intros [i j] [i' j'] a b t t' Ha Hb E. unfold cell_text in E. cbn [fst snd] in E. rewrite !app_assoc_s in E.
  change (", " ++ dec j)%string with (String "," (String " " (dec j))) in E.
  change (", " ++ dec j')%string with (String "," (String " " (dec j'))) in E.
  cbn [append] in E.
  apply digits_split in E; [|apply dec_digits|apply dec_digits|reflexivity|reflexivity]. destruct E as [E1 E].
  injection E as E. apply digits_split in E; [|apply dec_digits|apply dec_digits|auto|auto]. destruct E as [E2 E].
  apply dec_inj in E1. apply dec_inj in E2. subst. auto.
Qed.
Lemma cell_name_inj : forall p q, cell_name p = cell_name q -> p = q.
Proof.
  intros p q E. unfold cell_name in E. cbn [append] in E. injection E as E.
  eapply (cell_text_split p q ")" ")"); [reflexivity|reflexivity|exact E].
Qed.
Lemma edge_name_inj : forall e f, edge_name e = edge_name f -> e = f.
Proof.
  intros [p q] [p' q'] E. unfold edge_name in E. cbn [append fst snd] in E. injection E as E.
  apply cell_text_split in E; [|reflexivity|reflexivity]. destruct E as [-> E]. injection E as E.
  apply cell_text_split in E; [|reflexivity|reflexivity]. destruct E as [-> _]. auto.
Qed.

(** ** The cells and the edges *)
Definition in_grid (imax jmax : nat) (p : cell) : Prop := fst p < imax /\ snd p < jmax.
(** the distance on the grid *)
Definition gap (a b : nat) : nat := (a - b) + (b - a).
Definition manhattan (p q : cell) : nat := gap (fst p) (fst q) + gap (snd p) (snd q).

Lemma in_cells : forall imax jmax p, In p (cells imax jmax) <-> in_grid imax jmax p.
Proof. intros imax jmax [i j]. unfold in_grid. cbn [fst snd]. pose proof (in_prod_iff (seq 0 imax) (seq 0 jmax) i j) as H. rewrite !in_seq in H. unfold cells in *. split; intro K; [apply H in K|apply H]; lia. Qed.
Lemma in_neighbours : forall imax jmax p q, in_grid imax jmax p ->
  (In q (neighbours imax jmax p) <-> in_grid imax jmax q /\ manhattan p q = 1).
Proof.
  intros imax jmax [i j] [i' j'] [Hi Hj]. unfold neighbours, in_grid, manhattan, gap in *. cbn [fst snd] in *. rewrite !in_app_iff. split.
  - intros [H|[H|[H|H]]].
    + destruct (Nat.eqb_spec i (imax - 1)); [destruct H|destruct H as [H|[]]]. injection H as <- <-. lia.
    + destruct (Nat.eqb_spec i 0); [destruct H|destruct H as [H|[]]]. injection H as <- <-. lia.
    + destruct (Nat.eqb_spec j (jmax - 1)); [destruct H|destruct H as [H|[]]]. injection H as <- <-. lia.
    + destruct (Nat.eqb_spec j 0); [destruct H|destruct H as [H|[]]]. injection H as <- <-. lia.
  - intros [[A B] M]. assert (K : (i' = S i /\ j' = j) \/ (i = S i' /\ j' = j) \/ (i' = i /\ j' = S j) \/ (i' = i /\ j = S j')) by lia.
    destruct K as [[-> ->]|[[-> ->]|[[-> ->]|[-> ->]]]].
    + left. destruct (Nat.eqb_spec i (imax - 1)); [lia|left; auto].
    + right; left. cbn. left. f_equal. lia.
    + right; right; left. destruct (Nat.eqb_spec j (jmax - 1)); [lia|left; auto].
    + right; right; right. cbn. left. f_equal. lia.
Qed.
Lemma in_edges : forall imax jmax p q,
  In (p, q) (edges imax jmax) <-> in_grid imax jmax p /\ in_grid imax jmax q /\ manhattan p q = 1.
Proof.
  intros imax jmax p q. unfold edges. rewrite in_flat_map. split.
  - intros (x & Hx & H). apply in_map_iff in H. destruct H as (y & E & H). injection E as -> ->.
    apply in_cells in Hx. pose proof (proj1 (in_neighbours imax jmax p q Hx) H). tauto.
  - intros (A & B & M). exists p. split; [apply in_cells; auto|]. apply in_map. apply in_neighbours; auto.
Qed.

Lemma nodup_prod : forall A B (l : list A) (m : list B), NoDup l -> NoDup m -> NoDup (list_prod l m).
Proof.
  induction l as [|a l IH]; intros m Hl Hm; cbn; [constructor|]. inversion Hl as [|? ? Ha Hl']; subst.
  apply NoDup_app_intro; auto.
  - apply FinFun.Injective_map_NoDup; auto. intros x y E. injection E as E. auto.
  - intros [x y] H1 H2. apply in_map_iff in H1. destruct H1 as (z & E & _). injection E as -> ->. apply in_prod_iff in H2. tauto.
Qed.
Lemma nodup_cells : forall imax jmax, NoDup (cells imax jmax).
Proof. intros. apply nodup_prod; apply seq_NoDup. Qed.
Lemma nodup_neighbours : forall imax jmax p, NoDup (neighbours imax jmax p).
Proof.
  intros imax jmax [i j]. unfold neighbours.
  destruct (Nat.eqb_spec i (imax - 1)); destruct (Nat.eqb_spec i 0); destruct (Nat.eqb_spec j (jmax - 1)); destruct (Nat.eqb_spec j 0); cbn;
  repeat constructor; cbn; intros H; repeat destruct H as [H|H]; try injection H; intros; try lia; auto.
Qed.
Lemma nodup_edges_over : forall imax jmax ps, NoDup ps ->
  NoDup (flat_map (fun p => map (pair p) (neighbours imax jmax p)) ps).
Proof.
  intros imax jmax. induction ps as [|p ps IH]; intros H; cbn; [constructor|]. inversion H as [|? ? Hp Hps]; subst.
  apply NoDup_app_intro; auto.
  - apply FinFun.Injective_map_NoDup; [|apply nodup_neighbours]. intros x y E. injection E as E. auto.
  - intros [x y] H1 H2. apply in_map_iff in H1. destruct H1 as (z & E & _). injection E as -> ->.
    apply in_flat_map in H2. destruct H2 as (q & Hq & H2). apply in_map_iff in H2. destruct H2 as (z & E & _). injection E as -> ->. auto.
Qed.
Lemma nodup_edges : forall imax jmax, NoDup (edges imax jmax).
Proof. intros. apply nodup_edges_over, nodup_cells. Qed.

Lemma cells_length : forall imax jmax, List.length (cells imax jmax) = imax * jmax.
Proof. intros. unfold cells. rewrite prod_length, !seq_length. auto. Qed.

(** the place of a cell in the order of the loops *)
Lemma nth_prod : forall A B (l : list A) (m : list B) i j a b, nth_error l i = Some a -> nth_error m j = Some b ->
  nth_error (list_prod l m) (i * List.length m + j) = Some (a, b).
Proof.
  induction l as [|x l IH]; intros m i j a b Hi Hj; [destruct i; discriminate|].
  assert (Hj' : j < List.length m) by (apply nth_error_Some; congruence).
  destruct i as [|i]; cbn [list_prod].
  - injection Hi as ->. rewrite nth_error_app1 by (rewrite map_length; cbn; lia). cbn. apply (map_nth_error (fun y => (a, y))). auto.
  - rewrite nth_error_app2 by (rewrite map_length; cbn; lia). rewrite map_length.
    replace (S i * List.length m + j - List.length m) with (i * List.length m + j) by (cbn; lia). apply IH; auto.
Qed.
Lemma nth_seq : forall n i, i < n -> nth_error (seq 0 n) i = Some i.
Proof. intros n i H. rewrite (nth_error_nth' _ 0) by (rewrite seq_length; auto). rewrite seq_nth; auto. Qed.
Lemma nth_cells : forall imax jmax p, in_grid imax jmax p -> nth_error (cells imax jmax) (fst p * jmax + snd p) = Some p.
Proof.
  intros imax jmax [i j] [Hi Hj]. cbn [fst snd] in *. unfold cells.
  pose proof (nth_prod _ _ (seq 0 imax) (seq 0 jmax) i j i j (nth_seq _ _ Hi) (nth_seq _ _ Hj)) as H. rewrite seq_length in H. auto.
Qed.
Lemma cell_below : forall imax jmax p, in_grid imax jmax p -> fst p * jmax + snd p < imax * jmax.
Proof. intros imax jmax [i j] [Hi Hj]. cbn in *. nia. Qed.
Lemma cell_node_inj : forall b imax jmax p q, in_grid imax jmax p -> in_grid imax jmax q -> cell_node b jmax p = cell_node b jmax q -> p = q.
Proof.
  intros b imax jmax p q Hp Hq E. unfold cell_node in E. assert (K : fst p * jmax + snd p = fst q * jmax + snd q) by lia.
  apply nth_cells in Hp. apply nth_cells in Hq. rewrite K in Hp. congruence.
Qed.

(** ** The number of edges *)
Definition b2n (b : bool) : nat := if b then 1 else 0.
Fixpoint total (l : list nat) : nat := match l with [] => 0 | a :: t => a + total t end.
Lemma total_app : forall l m, total (l ++ m) = total l + total m.
Proof. induction l; intros; cbn; [auto|]. rewrite IHl. lia. Qed.
Definition ends_of (n i : nat) : nat := b2n (negb (i =? n - 1)) + b2n (negb (i =? 0)).
Lemma neighbours_length : forall imax jmax i j, List.length (neighbours imax jmax (i, j)) = ends_of imax i + ends_of jmax j.
Proof.
  intros. unfold neighbours, ends_of. rewrite !app_length.
  destruct (i =? imax - 1); destruct (i =? 0); destruct (j =? jmax - 1); destruct (j =? 0); reflexivity.
Qed.
Lemma total_split : forall (f g : nat -> nat) (l m : list nat),
  total (map (fun p => f (fst p) + g (snd p)) (list_prod l m)) = List.length m * total (map f l) + List.length l * total (map g m).
Proof.
  intros f g l m. induction l as [|a l IH]; [cbn; lia|]. cbn [list_prod]. rewrite map_app, total_app, IH, map_map. cbn [fst snd map total List.length].
  assert (K : total (map (fun x => f a + g x) m) = List.length m * f a + total (map g m)) by (clear; induction m as [|x m IH]; cbn; [lia|]; rewrite IH; lia).
  rewrite K. lia.
Qed.
Lemma total_ends : forall n, total (map (ends_of n) (seq 0 n)) = 2 * (n - 1).
Proof.
  intro n. assert (K : forall k s, s + k <= n -> total (map (ends_of n) (seq s k)) = 2 * k - b2n ((s =? 0) && (0 <? k)) - b2n ((0 <? k) && (s + k =? n))).
  { induction k as [|k IH]; intros s H; [cbn; destruct (s =? 0); reflexivity|]. cbn [seq map total]. rewrite IH by lia. unfold ends_of, b2n.
    destruct (Nat.eqb_spec s (n - 1)); destruct (Nat.eqb_spec s 0); destruct (Nat.eqb_spec (S s) 0); destruct (Nat.ltb_spec 0 k); destruct (Nat.ltb_spec 0 (S k));
    destruct (Nat.eqb_spec (S s + k) n); destruct (Nat.eqb_spec (s + S k) n); cbn [negb andb]; lia. }
  rewrite K by lia. unfold b2n. destruct n; [reflexivity|]. cbn [Nat.eqb Nat.ltb andb]. rewrite Nat.add_0_l, Nat.eqb_refl. cbn. lia.
Qed.
Lemma edges_length : forall imax jmax, List.length (edges imax jmax) = 2 * ((imax - 1) * jmax + imax * (jmax - 1)).
Proof.
  intros imax jmax. unfold edges.
  assert (K : forall ps, List.length (flat_map (fun p => map (pair p) (neighbours imax jmax p)) ps) = total (map (fun p => ends_of imax (fst p) + ends_of jmax (snd p)) ps)).
  { induction ps as [|[i j] ps IH]; [auto|]. cbn [flat_map map total]. rewrite app_length, map_length, IH, neighbours_length. auto. }
  rewrite K. unfold cells. rewrite total_split, !seq_length, !total_ends. lia.
Qed.
