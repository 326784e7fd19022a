(** * OsmDemo: small road networks on a line (property C60).  On a line [dist] is the absolute difference. *)
From Verif Require Import Base Types Sim Osm SpecOsm OsmOK.
From Coq Require Import Qabs.
Local Open Scope string_scope.
Local Open Scope nat_scope.

Definition line_dist (p q : Q * Q) : Q := Qabs (fst p - fst q).
Definition nd (i : nat) (x : Q) : onode := mkON i x 0.
Definition lk (s : string) (a b : nat) : olink := mkOL s a b 1 10 None.
Lemma line_sym : sym line_dist.
Proof. intros p q. unfold line_dist. setoid_replace (fst p - fst q)%Q with (- (fst q - fst p))%Q by ring. apply Qabs_opp. Qed.

Definition net_b (ns : list onode) (ls : list olink) : bool := forallb (fun l => mem (ol_from l) (ids ns) && mem (ol_to l) (ids ns)) ls.
Lemma net_ok : forall ns ls, NoDup (ids ns) -> net_b ns ls = true -> network ns ls.
Proof.
  intros ns ls H K. split; [exact H|]. intros l Hl. unfold net_b in K. rewrite forallb_forall in K. specialize (K l Hl). apply andb_true_iff in K.
  rewrite !mem_iff in K. exact K.
Qed.
Definition free_b (ls : list olink) : bool := forallb (fun l => negb (Nat.eqb (ol_from l) (ol_to l))) ls.
Lemma free_ok : forall ls, free_b ls = true -> no_loops ls.
Proof.
  intros ls K l Hl. unfold free_b in K. rewrite forallb_forall in K. specialize (K l Hl). apply negb_true_iff, Nat.eqb_neq in K. exact K.
Qed.
Ltac nodups := repeat constructor; cbn; intuition discriminate.

(** a short link between 0 and 1, longer ones to 2 and 3 *)
Definition town_n := [nd 0 0; nd 1 3; nd 2 100; nd 3 200].
Definition town_l := [lk "a" 0 1; lk "b" 1 2; lk "c" 2 3; lk "d" 2 3].
Definition rows (ls : list olink) := map (fun l => (ol_name l, ol_from l, ol_to l)) ls.
Lemma town_example : network town_n town_l /\ no_loops town_l /\
  exists ns ls, postprocess line_dist 5 5 true (town_n, town_l) = Ok (ns, ls) /\ ids ns = [0; 2; 3] /\
    rows ls = [("b", 0, 2); ("d", 2, 3); ("b-reverse", 2, 0); ("d-reverse", 3, 2)] /\ map ol_len ls = [Some 100; Some 100; Some 100; Some 100]%Q.
Proof.
  split; [apply net_ok; [nodups|reflexivity]|]. split; [apply free_ok; reflexivity|].
  eexists _, _. split; [vm_compute; reflexivity|]. repeat split.
Qed.

(** eight streets that meet in node 0 within the threshold: five iterations remove only five of the nodes *)
Definition star_n := [nd 0 0; nd 1 1; nd 2 (3 # 2); nd 3 2; nd 4 (5 # 2); nd 5 3; nd 6 (7 # 2); nd 7 4].
Definition star_l := [lk "a" 1 0; lk "b" 2 0; lk "c" 3 0; lk "d" 4 0; lk "e" 5 0; lk "f" 6 0; lk "g" 7 0].
Lemma remain_refuted : exists th ns ls ns' ls', network ns ls /\ no_loops ls /\
  postprocess line_dist 5 th false (ns, ls) = Ok (ns', ls') /\ exists l, In l ls' /\ short line_dist th ns' l.
Proof.
  exists 5%Q, star_n, star_l. eexists _, _. split; [apply net_ok; [nodups|reflexivity]|]. split; [apply free_ok; reflexivity|].
  split; [vm_compute; reflexivity|]. eexists. split; [left; reflexivity|].
  exists (1, 0)%Q, (2, 0)%Q. split; [eexists; split; [left; reflexivity|split; reflexivity]|].
  split; [eexists; split; [right; right; left; reflexivity|split; reflexivity]|]. vm_compute. discriminate.
Qed.

(** three nodes in a row, 4 apart, threshold 5: the first short link is not removed but becomes longer *)
Definition row_n := [nd 0 0; nd 1 4; nd 2 8].
Definition row_l := [lk "a" 0 1; lk "b" 1 2].
Lemma removed_refuted : exists th ns ls l ns' ls' k, network ns ls /\ no_loops ls /\ In l ls /\ short line_dist th ns l /\
  postprocess line_dist 5 th false (ns, ls) = Ok (ns', ls') /\ In k ls' /\ ol_name k = ol_name l /\ ol_from k = ol_from l /\ ol_len k = Some 8%Q.
Proof.
  exists 5%Q, row_n, row_l, (lk "a" 0 1). eexists _, _, _. split; [apply net_ok; [nodups|reflexivity]|]. split; [apply free_ok; reflexivity|].
  split; [left; reflexivity|]. split.
  { exists (0, 0)%Q, (4, 0)%Q. split; [eexists; split; [left; reflexivity|split; reflexivity]|].
    split; [eexists; split; [right; left; reflexivity|split; reflexivity]|]. vm_compute. discriminate. }
  split; [vm_compute; reflexivity|]. split; [left; reflexivity|]. repeat split.
Qed.

(** a link from a node to itself: the node is deleted, its links are not *)
Definition loop_n := [nd 0 0; nd 1 100].
Definition loop_l := [lk "a" 0 0; lk "b" 0 1; lk "c" 1 0].
Lemma loop_refuted : exists th ns ls, network ns ls /\ postprocess line_dist 5 th false (ns, ls) = Err KeyError /\
  exists ns' ls', postprocess line_dist 1 th false (ns, ls) = Ok (ns', ls') /\ ~ network ns' ls'.
Proof.
  exists 5%Q, loop_n, loop_l. split; [apply net_ok; [nodups|reflexivity]|]. split; [vm_compute; reflexivity|].
  eexists _, _. split; [vm_compute; reflexivity|]. intros (_ & K). destruct (K _ (or_introl eq_refl)) as (K1 & _). cbn in K1. destruct K1 as [K1|[]]. discriminate K1.
Qed.
