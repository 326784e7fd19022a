(** * EnumRoutesDemo: route enumerations at work. *)
From Verif Require Import Base Types Sim Build Tac Reach Steps Lists Spec Registry Route SpecDuo SpecDue Due SpecDso Dso SpecGenetic Genetic Paths Demo MotionDemo DueDemo DsoDemo SpecRoutes EnumRoutes.
Local Open Scope string_scope.
Local Open Scope nat_scope.

Definition rlist_eqb (a b : list (list lid)) : bool := if list_eq_dec (list_eq_dec Nat.eq_dec) a b then true else false.
Lemma rlist_eqb_ok : forall a b, rlist_eqb a b = true -> a = b.
Proof. intros a b H. unfold rlist_eqb in H. destruct (list_eq_dec (list_eq_dec Nat.eq_dec) a b); [assumption|discriminate H]. Qed.

(** two routes from 0 to 3, over 1 and over 2 *)
Definition fork_net : list op := [ node_ "o"; node_ "a"; node_ "b"; node_ "d"; link_ "oa" 0 1 1000; link_ "ad" 1 3 1000; link_ "ob" 0 2 1000; link_ "bd" 2 3 2000; OFinalize None ].
(** a quick and a slow link from 0 to 1 *)
Definition twin_net : list op := [ node_ "o"; node_ "a"; node_ "d"; link_ "quick" 0 1 1000; link_ "slow" 0 1 4000; link_ "out" 1 2 1000; OFinalize None ].
Definition ones : nat -> lid -> Q := fun _ _ => 1%Q.
(** the second iteration makes link 0 dear *)
Definition dear : nat -> lid -> Q := fun it l => if Nat.eqb l 0 then 50%Q else 1%Q.

Definition qlist_eqb (a b : list Q) : bool := Nat.eqb (List.length a) (List.length b) && forallb (fun p => qeq (fst p) (snd p)) (combine a b).
Definition found_b (w : world) (k : nat) (s t : nid) (rs : list (list lid)) (cs : list Q) : bool :=
  match k_shortest ssp_ref w (ff w) s t k with Ok (rs', cs') => rlist_eqb rs' rs && qlist_eqb cs' cs | Err _ => false end.
Definition random_b (w : world) (draw : nat -> lid -> Q) (k : nat) (s t : nid) (rs : list (list lid)) : bool :=
  match enumerate_k_random apd_ref w draw k 100 with Ok d => rlist_eqb (d_routes d (s, t)) rs | Err _ => false end.

Fixpoint leads_b (w : world) (s t : nid) (r : list lid) : bool :=
  match r with [] => Nat.eqb s t | l :: tl => Nat.ltb l (w_nl w) && Nat.eqb (l_start (L w l)) s && leads_b w (l_end (L w l)) t tl end.
Lemma leads_b_spec : forall w r s t, leads_b w s t r = true <-> leads w s t r.
Proof.
  intros w. induction r as [|l r IH]; intros s t; cbn [leads_b leads]; [apply Nat.eqb_eq|]. rewrite !andb_true_iff, IH, Nat.ltb_lt, Nat.eqb_eq. unfold exists_link. tauto.
Qed.

(** With two links between the same nodes the route has both of them, so it is none; its cost is that of a route with the last of them, not the least one. *)
Theorem parallel_refuted : exists c w s t r x, reachable c w /\ correct_ssp ssp_ref /\ k_shortest ssp_ref w (ff w) s t 1 = Ok ([r], [x]) /\
  ~ leads w s t r /\ exists r', leads w s t r' /\ (cost (ff w) r' < x)%Q.
Proof.
  destruct (play_found cfg_det twin_net (Some 200%Q) (fun w => (match k_shortest ssp_ref w (ff w) 0 2 1 with Ok ([r], [x]) => negb (leads_b w 0 2 r) && negb (qle x (cost (ff w) [0; 2])) | _ => false end && leads_b w 0 2 [0; 2])%bool)) as (w & E & R & H). { vm_compute. reflexivity. }
  clear E. apply andb_true_iff in H. destruct H as [H H3]. destruct (k_shortest ssp_ref w (ff w) 0 2 1) as [[[|r [|]] [|x [|]]]|] eqn:K; try discriminate H. apply andb_true_iff in H. destruct H as [H1 H2]. apply negb_true_iff in H1. apply negb_true_iff in H2. apply qle_false in H2.
  exists cfg_det, w, 0, 2, r, x. split; [exact R|]. split; [exact ssp_ref_correct|]. split; [exact K|]. split; [intro J; apply leads_b_spec in J; congruence|]. exists [0; 2]. split; [apply leads_b_spec; exact H3|exact H2].
Qed.

(** With two links between the same nodes the shortest route by free flow travel time need not be among the random ones. *)
Theorem random_first_refuted : exists c w draw d s t r, reachable c w /\ correct_apd apd_ref /\ (forall it l, (0 <= draw it l)%Q) /\
  enumerate_k_random apd_ref w draw 2 100 = Ok d /\ leads w s t r /\ forall r', In r' (d_routes d (s, t)) -> (cost (ff w) r < cost (ff w) r')%Q.
Proof.
  destruct (play_found cfg_det twin_net (Some 200%Q) (fun w => (match enumerate_k_random apd_ref w dear 2 100 with Ok d => forallb (fun r' => negb (qle (cost (ff w) r') (cost (ff w) [0; 2]))) (d_routes d (0, 2)) | _ => false end && leads_b w 0 2 [0; 2])%bool)) as (w & E & R & H). { vm_compute. reflexivity. }
  clear E. apply andb_true_iff in H. destruct H as [H H3]. destruct (enumerate_k_random apd_ref w dear 2 100) as [d|] eqn:K; [|discriminate H].
  exists cfg_det, w, dear, d, 0, 2, [0; 2]. split; [exact R|]. split; [exact apd_ref_correct|]. split; [intros it l; unfold dear; destruct (Nat.eqb l 0); lra|]. split; [exact K|]. split; [apply leads_b_spec; exact H3|].
  intros r' Hr. rewrite forallb_forall in H. specialize (H r' Hr). apply negb_true_iff in H. apply qle_false in H. exact H.
Qed.

(** Fewer than [k] routes may be found although there are [k]. *)
Theorem random_number_refuted : exists c w draw d s t, reachable c w /\ (forall it l, (0 <= draw it l)%Q) /\
  enumerate_k_random apd_ref w draw 2 100 = Ok d /\ simple_route w s t [0; 1] /\ simple_route w s t [2; 3] /\ d_routes d (s, t) = [[0; 1]].
Proof.
  destruct (play_found cfg_det fork_net (Some 200%Q) (fun w => random_b w ones 2 0 3 [[0; 1]] && leads_b w 0 3 [0; 1] && leads_b w 0 3 [2; 3] && rlist_eqb [visited w 0 [0; 1]; visited w 0 [2; 3]] [[0; 1; 3]; [0; 2; 3]])%bool) as (w & E & R & H). { vm_compute. reflexivity. }
  clear E. repeat match goal with K : _ && _ = true |- _ => apply andb_true_iff in K; destruct K end. unfold random_b in H. destruct (enumerate_k_random apd_ref w ones 2 100) as [d|] eqn:K; [|discriminate H]. apply rlist_eqb_ok in H.
  match goal with J : rlist_eqb [_; _] _ = true |- _ => apply rlist_eqb_ok in J; assert (V1 : visited w 0 [0; 1] = [0; 1; 3]) by congruence; assert (V2 : visited w 0 [2; 3] = [0; 2; 3]) by congruence end.
  exists cfg_det, w, ones, d, 0, 3. split; [exact R|]. split; [intros; unfold ones; lra|]. split; [exact K|]. unfold simple_route. rewrite V1, V2.
  split; [split; [apply leads_b_spec; assumption|repeat constructor; cbn; lia]|]. split; [split; [apply leads_b_spec; assumption|repeat constructor; cbn; lia]|exact H].
Qed.

(** the enumerations at work *)
Lemma enumeration_example : exists w, reachable cfg_det w /\
  found_b w 1 0 3 [[0; 1]] [100%Q] = true /\ found_b w 5 0 3 [[0; 1]; [2; 3]] [100%Q; 150%Q] = true /\ random_b w dear 2 0 3 [[0; 1]; [2; 3]] = true /\ random_b w dear 1 0 3 [[0; 1]] = true /\ random_b w dear 2 3 0 [] = true /\
  k_shortest ssp_ref w (ff w) 3 0 1 = Err Exception_.
Proof.
  destruct (play_found cfg_det fork_net (Some 200%Q) (fun w => found_b w 1 0 3 [[0; 1]] [100%Q] && found_b w 5 0 3 [[0; 1]; [2; 3]] [100%Q; 150%Q] && random_b w dear 2 0 3 [[0; 1]; [2; 3]] && random_b w dear 1 0 3 [[0; 1]] && random_b w dear 2 3 0 [] && match k_shortest ssp_ref w (ff w) 3 0 1 with Err Exception_ => true | _ => false end)%bool) as (w & E & R & H). { vm_compute. reflexivity. }
  clear E. repeat match goal with K : _ && _ = true |- _ => apply andb_true_iff in K; destruct K end. exists w. split; [exact R|]. repeat (split; [assumption|]). destruct (k_shortest ssp_ref w (ff w) 3 0 1) as [|[]]; try discriminate; reflexivity.
Qed.
