(** * TrajDemo: trajectories of simulated vehicles. *)
From Coq Require Import Lqa.
From Verif Require Import Base Types Sim Build Inv Reach Steps Spec Trials Paths Demo MotionDemo Edie SpecEdie.
Local Open Scope nat_scope.

Definition forwardb (s : point * point) : bool :=
  (qle 0 (px (fst s)) && qle (px (fst s)) (px (snd s)) && qle 0 (pt (fst s)) && qle (pt (fst s)) (pt (snd s)))%bool.
Lemma forwardb_ok : forall trs, all_forward trs -> forallb (fun tr => forallb forwardb (segs tr)) trs = true.
Proof.
  intros trs H. apply forallb_forall. intros tr Ht. apply forallb_forall. intros s Hs. destruct (H tr s Ht Hs) as (A1 & A2 & A3 & A4 & _).
  unfold forwardb. rewrite !andb_true_iff, !qle_iff. auto.
Qed.

(** the taxi that jumps back (see C04_forward_refuted) has a recorded trajectory that goes backwards *)
Lemma back_traj : exists w, reachable cfg_det w /\ c_logint cfg_det = 1%Z /\ (0 < dt cfg_det)%Q /\ no_loops w /\ ~ all_forward (recorded w 1).
Proof.
  destruct (play_witness cfg_det (taxi_net None ++ [OExec (UntilT 75)]) (Some 400%Q)
    (fun w => (negb (forallb (fun tr => forallb forwardb (segs tr)) (recorded w 1)) &&
       forallb (fun l => negb (Nat.eqb (l_start (L w l)) (l_end (L w l)))) (seq 0 (w_nl w)))%bool)) as (w & R & H).
  - vm_compute. reflexivity.
  - exists w. apply andb_true_iff in H. destruct H as [H1 H2]. split; [exact R|]. split; [reflexivity|]. split; [reflexivity|]. split.
    + intros l Hl. assert (Hi : In l (seq 0 (w_nl w))) by (apply in_seq; unfold exists_link in Hl; lia).
      pose proof (proj1 (forallb_forall _ _) H2 l Hi) as X. cbv beta in X. apply negb_true_iff, Nat.eqb_neq in X. exact X.
    + intro A. apply forwardb_ok in A. rewrite A in H1. discriminate H1.
Qed.

(** two links in a row: the second is entered at 80 m, hence extrapolated to its start *)
Definition pts_eqb (a b : list point) : bool :=
  (Nat.eqb (List.length a) (List.length b) && forallb (fun z => Qeq_bool (px (fst z)) (px (snd z)) && Qeq_bool (pt (fst z)) (pt (snd z))) (combine a b))%bool.
Lemma row_traj : exists w, reachP cfg_det keep_speed w /\
  (Z.eqb (c_logint cfg_det) 1 && forallb (fun l => negb (Nat.eqb (l_start (L w l)) (l_end (L w l)))) (seq 0 (w_nl w)) &&
   forallb (fun v => match v_mode (V w v) with SingleTrip => true | _ => false end) (seq 0 (w_nv w)) &&
   match recorded w 1 with
   | tr :: _ => pts_eqb tr [(80, 35); (180, 40); (280, 45); (380, 50); (480, 55)] &&
             pts_eqb (extend (l_u (L w 1)) (l_len (L w 1)) (dt cfg_det) tr) [(0, 31); (80, 35); (180, 40); (280, 45); (380, 50); (480, 55); (500, 56)]
   | _ => false
   end)%bool%Q = true.
Proof.
  apply (playP_witness cfg_det keep_speed speed_b (row_net ++ [OExec (UntilT 80)]) (Some 200%Q));
    [apply speed_b_ok|intro w; split; [exact Logic.I|discriminate]|vm_compute; reflexivity].
Qed.
