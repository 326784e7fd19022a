(** * EdieDemo: examples for the cells of a link. *)
From Verif Require Import Base Types Sim Edie SpecEdie EdieOK.
Local Open Scope nat_scope.

Definition forwardb (s : point * point) : bool :=
  (qle 0 (px (fst s)) && qle (px (fst s)) (px (snd s)) && qle 0 (pt (fst s)) && qle (pt (fst s)) (pt (snd s)) &&
   (qle (px (snd s)) (px (fst s)) || qlt (pt (fst s)) (pt (snd s))))%bool.
Lemma forwardb_ok : forall s, forwardb s = true -> forward s.
Proof.
  intros s H. unfold forwardb in H. repeat (apply andb_true_iff in H; destruct H as [H ?]).
  repeat match goal with K : qle _ _ = true |- _ => apply qle_iff in K end. repeat split; try assumption.
  intros K. match goal with J : (_ || _)%bool = true |- _ => apply orb_true_iff in J; destruct J as [J|J]; [apply qle_iff in J; lra|apply qlt_iff in J; exact J] end.
Qed.
Lemma all_forwardb : forall trs, forallb (fun tr => forallb forwardb (segs tr)) trs = true -> all_forward trs.
Proof.
  intros trs H tr s Ht Hs. apply forwardb_ok. rewrite forallb_forall in H. specialize (H tr Ht). rewrite forallb_forall in H. exact (H s Hs).
Qed.

(** the sums over the cells of the matrices, as numbers *)
Definition totals (dx dt len tmax dn : Q) (nt nx : nat) (trs : list (list point)) : result (Q * Q) :=
  m <- edie dx dt len tmax dn trs ;;
  Ok (Qred (cell_sum nt nx (fun i j => fst (m i j))), Qred (cell_sum nt nx (fun i j => snd (m i j)))).

(** two vehicles on a link of 300 with cells of 100 x 10 *)
Definition two : list (list point) :=
  [ [(0, 0); (50, 5); (150, 10); (150, 15); (300, 20)]; [(0, 10); (100, 15); (250, 20); (300, 25)] ]%Q.
Lemma two_demo : all_forward two /\ within 300 30 two /\
  totals 100 10 300 30 5 3 3 two = Ok (3000 # 1, 175 # 1)%Q.
Proof.
  split; [apply all_forwardb; vm_compute; reflexivity|]. split; [|vm_compute; reflexivity].
  intros s H. assert (B : forallb (fun s => qle (px (snd s)) 300 && qle (pt (snd s)) 30)%bool (all_segs two) = true) by (vm_compute; reflexivity).
  rewrite forallb_forall in B. specialize (B s H). apply andb_true_iff in B. destruct B as [B1 B2]. split; apply qle_iff; assumption.
Qed.

(** a vehicle that waits at the end of the link: the waiting time is in no cell *)
Definition waits : list (list point) := [ [(0, 0); (100, 5); (100, 10); (100, 15)] ]%Q.
Lemma waits_lemma : exists dx dt len tmax dn trs m, (0 < dx)%Q /\ (0 < dt)%Q /\ all_forward trs /\ within len tmax trs /\
  edie dx dt len tmax dn trs = Ok m /\ (inject_Z (qidiv len dx) * dx == len)%Q /\ (inject_Z (qidiv tmax dt) * dt == tmax)%Q /\
  ~ (cell_sum (Z.to_nat (qidiv tmax dt)) (Z.to_nat (qidiv len dx)) (fun i j => snd (m i j)) ==
     dn * qsum (map (fun s => pt (snd s) - pt (fst s)) (all_segs trs)))%Q.
Proof.
  assert (F : all_forward waits) by (apply all_forwardb; vm_compute; reflexivity).
  destruct (cell_lemma 50 10 100 20 5 waits ltac:(reflexivity) ltac:(reflexivity) ltac:(discriminate) ltac:(discriminate) F) as (m & E & _).
  exists 50%Q, 10%Q, 100%Q, 20%Q, 5%Q, waits, m.
  split; [reflexivity|]. split; [reflexivity|]. split; [exact F|]. split.
  - intros s H. assert (B : forallb (fun s => qle (px (snd s)) 100 && qle (pt (snd s)) 20)%bool (all_segs waits) = true) by (vm_compute; reflexivity).
    rewrite forallb_forall in B. specialize (B s H). apply andb_true_iff in B. destruct B as [B1 B2]. split; apply qle_iff; assumption.
  - split; [exact E|]. split; [vm_compute; reflexivity|]. split; [vm_compute; reflexivity|].
    vm_compute in E. injection E as <-. vm_compute. discriminate.
Qed.

(** a segment is put into the time slice of its first point, also the part after it *)
Definition late : list (list point) := [ [(0, 8); (50, 13)] ]%Q.
Lemma late_lemma : exists dx dt len tmax dn trs m, (0 < dx)%Q /\ (0 < dt)%Q /\ all_forward trs /\
  edie dx dt len tmax dn trs = Ok m /\ qidiv tmax dt = 1%Z /\ qidiv len dx = 1%Z /\
  (snd (m 0%Z 0%Z) == dn * (13 - 8))%Q /\ all_segs trs = [((0, 8), (50, 13))]%Q /\ (tmax == 10)%Q.
Proof.
  assert (F : all_forward late) by (apply all_forwardb; vm_compute; reflexivity).
  destruct (cell_lemma 100 10 100 10 5 late ltac:(reflexivity) ltac:(reflexivity) ltac:(discriminate) ltac:(discriminate) F) as (m & E & _).
  exists 100%Q, 10%Q, 100%Q, 10%Q, 5%Q, late, m.
  split; [reflexivity|]. split; [reflexivity|]. split; [exact F|]. split; [exact E|]. split; [vm_compute; reflexivity|]. split; [vm_compute; reflexivity|].
  split; [|split; reflexivity]. vm_compute in E. injection E as <-. vm_compute. reflexivity.
Qed.
(** cells that do not divide the length: the rest of the link is in no cell *)
Definition drives : list (list point) := [ [(0, 0); (100, 5)] ]%Q.
Lemma rest_lemma : exists dx dt len tmax dn trs m, (0 < dx)%Q /\ (0 < dt)%Q /\ all_forward trs /\ within len tmax trs /\
  edie dx dt len tmax dn trs = Ok m /\
  ~ (cell_sum (Z.to_nat (qidiv tmax dt)) (Z.to_nat (qidiv len dx)) (fun i j => fst (m i j)) ==
     dn * qsum (map (fun s => px (snd s) - px (fst s)) (all_segs trs)))%Q.
Proof.
  assert (F : all_forward drives) by (apply all_forwardb; vm_compute; reflexivity).
  destruct (cell_lemma 60 10 100 20 5 drives ltac:(reflexivity) ltac:(reflexivity) ltac:(discriminate) ltac:(discriminate) F) as (m & E & _).
  exists 60%Q, 10%Q, 100%Q, 20%Q, 5%Q, drives, m.
  split; [reflexivity|]. split; [reflexivity|]. split; [exact F|]. split.
  - intros s [<-|[]]. split; discriminate.
  - split; [exact E|]. vm_compute in E. injection E as <-. vm_compute. discriminate.
Qed.
