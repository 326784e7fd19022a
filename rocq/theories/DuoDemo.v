(** * DuoDemo: scenarios for the route search and the DUO preferences. *)
From Verif Require Import Base Types Sim Build Tac Reach Steps Spec Paths PathsOK SpecDuo Demo MotionDemo.
Local Open Scope string_scope.
Local Open Scope nat_scope.

(** route search every second timestep; [g]: route_choice_update_gradual; [t]: duo_update_time; [d]: hard_deterministic_mode *)
Definition cfg_duo (g d : bool) (t : Q) (pr : princ) : cfg :=
  mkCfg 5 1 t (1#2) (1#100) pr g 1 false false 1 false d 120
        (fun k => Nat.modulo (7 * k + 3) 11) (fun k => (1#2)%Q) shortest_paths.

Lemma routine_example : forall g d t p, correct_routine (cfg_duo g d t p) /\ good_noise (cfg_duo g d t p).
Proof.
  intros g d t p. split; [|unfold good_noise; cbn; lra]. intros n m x nx E H. cbn in E. exact (shortest_paths_ok _ _ _ _ E H).
Qed.

Definition costs_b (o : op) (w : world) : bool := sound_b o w &&
  match o with OAddLink a => match la_toll a with Some _ => false | None => true end | OSetToll _ (Some _) => false | _ => true end.
Lemma costs_b_ok : forall o w, costs_b o w = true -> sound_costs o w.
Proof.
  intros o w H. apply andb_true_iff in H. destruct H as [H1 H2]. split; [apply sound_b_ok; exact H1|].
  destruct o; auto; [destruct (la_toll a)|destruct f]; auto; discriminate.
Qed.
Definition prefs_b (o : op) (w : world) : bool :=
  match o with OAddVehicle a => match va_pref a with Some _ => false | None => true end | _ => true end.
Lemma prefs_b_ok : forall o w, prefs_b o w = true -> sound_prefs o w.
Proof. intros o w H. unfold sound_prefs. destruct o; auto. cbn in H. destruct (va_pref a); [discriminate|exact Logic.I]. Qed.

(** two routes from a to d: via b (1000 m) and via c (1600 m) *)
Definition two_routes : list op :=
  [ node_ "a"; node_ "b"; node_ "c"; node_ "d";
    link_ "ab" 0 1 500; link_ "bd" 1 3 500; link_ "ac" 0 2 800; link_ "cd" 2 3 800; veh_ 0 3 0; veh_ 0 3 1; veh_ 0 3 2 ].
Definition nodup_b (l : list nat) : bool := forallb (fun x => Nat.eqb (count_occ Nat.eq_dec l x) 1) l.
Definition no_parallel_b (w : world) (n : nid) : bool := nodup_b (map (fun l => l_end (L w l)) (n_out (N w n))).
Lemma no_parallel_b_ok : forall w n, no_parallel_b w n = true -> no_parallel w n.
Proof.
  intros w n H. unfold no_parallel, no_parallel_b, nodup_b in *. rewrite forallb_forall in H.
  apply (NoDup_count_occ Nat.eq_dec). intro x. destruct (in_dec Nat.eq_dec x (map (fun l => l_end (L w l)) (n_out (N w n)))) as [i|i].
  - specialize (H x i). apply Nat.eqb_eq in H. lia.
  - apply (count_occ_not_In Nat.eq_dec) in i. lia.
Qed.
Definition reached_b (w : world) (n k : nid) : bool := forallb (fun r => match snd r n k with Some _ => true | None => false end) (w_rcrec w).
Lemma reached_b_ok : forall w n k, reached_b w n k = true -> always_reached w n k.
Proof.
  intros w n k H t d Hi. unfold reached_b in H. rewrite forallb_forall in H. specialize (H _ Hi). cbn in H. intro E. rewrite E in H. discriminate.
Qed.

(** a closed link makes the preferences move half-way: a fraction on each link, summing to one *)
Lemma exact_example : exists w, reachP (cfg_duo false true 10 HomogeneousDUO) sound_costs w /\
  (Nat.eqb (List.length (w_rcrec w)) 2 && Nat.ltb 3 (w_nn w) && reached_b w 0 3 && no_parallel_b w 0 &&
   Qeq_bool (out_pref w 3 0) 1 && Qeq_bool (w_rcpref w 3 0) (1#2) && Qeq_bool (w_rcpref w 3 2) (1#2))%bool = true.
Proof.
  apply (playP_witness (cfg_duo false true 10 HomogeneousDUO) sound_costs costs_b
    (two_routes ++ [OExec (UntilT 5); OSetCapIn 0 0; OExec (UntilT 15)]) (Some 200%Q));
    [apply costs_b_ok|intro w; split; [exact Logic.I|exact Logic.I]|vm_compute; reflexivity].
Qed.

(** the first update of the preferences *)
Lemma first_example : exists w, reachP cfg_det sound_costs w /\
  (w_final w && Nat.eqb (List.length (w_rcrec w)) 0 && match tick cfg_det w with
   | Ok w' => Nat.eqb (List.length (w_rcrec w')) 1 && Qeq_bool (w_rcpref w' 3 0) 1 && Qeq_bool (w_rcpref w' 3 2) 0
   | Err _ => false end)%bool = true.
Proof.
  apply (playP_witness cfg_det sound_costs costs_b (two_routes ++ [OFinalize None]) (Some 200%Q));
    [apply costs_b_ok|intro w; split; [exact Logic.I|exact Logic.I]|vm_compute; reflexivity].
Qed.

(** preferences of their own *)
Lemma own_example : exists w, reachP (cfg_duo false true 10 HeterogeneousDUO) sound_prefs w /\
  match v_pref (V w 0) with PrefOwn d => Nat.eqb (List.length d) 4 && Qeq_bool (qsum (map snd d)) 3 | _ => false end = true.
Proof.
  apply (playP_witness (cfg_duo false true 10 HeterogeneousDUO) sound_prefs prefs_b (two_routes ++ [OExec (UntilT 15)]) (Some 200%Q));
    [apply prefs_b_ok|intro w; exact Logic.I|vm_compute; reflexivity].
Qed.

(** Gradual updates with duo_update_time shorter than the timestep: the weight of one update exceeds one. *)
Lemma gradual_refuted : exists w, reachable (cfg_duo true true 1 HomogeneousDUO) w /\
  existsb (fun l => qlt (w_rcpref w 3 l) 0) (seq 0 (w_nl w)) = true.
Proof.
  apply (play_witness (cfg_duo true true 1 HomogeneousDUO)
    (two_routes ++ [OExec (UntilT 5); OSetCapIn 0 0; OExec (UntilT 15)]) (Some 200%Q)). vm_compute. reflexivity.
Qed.

(** Two parallel links: each of them gets preference one. *)
Lemma parallel_refuted : exists w, reachable cfg_det w /\ Qeq_bool (out_pref w 1 0) 2 = true.
Proof.
  apply (play_witness cfg_det ([node_ "a"; node_ "b"; link_ "ab1" 0 1 500; link_ "ab2" 0 1 500; veh_ 0 1 0; OExec (UntilT 15)]) (Some 200%Q)).
  vm_compute. reflexivity.
Qed.

(** A node that could not reach the destination at an earlier search keeps a sum below one after it can. *)
Lemma later_refuted : exists w, reachP (cfg_duo false true 10 HomogeneousDUO) sound_costs w /\
  (Nat.eqb (List.length (w_rcrec w)) 2 && no_parallel_b w 0 && match w_rcdist w 0 3 with Some _ => true | None => false end && Qeq_bool (out_pref w 3 0) (1#2))%bool = true.
Proof.
  apply (playP_witness (cfg_duo false true 10 HomogeneousDUO) sound_costs costs_b
    (two_routes ++ [OSetCapIn 0 0; OSetCapIn 2 0; OExec (UntilT 5); OSetCapIn 0 10; OExec (UntilT 15)]) (Some 200%Q));
    [apply costs_b_ok|intro w; split; [exact Logic.I|exact Logic.I]|vm_compute; reflexivity].
Qed.

(** Closing one of two parallel links makes the pair of nodes unreachable, although the other one is open. *)
Lemma closed_parallel_refuted : exists w, reachable cfg_det w /\
  (Nat.eqb (List.length (n_out (N w 0))) 2 && negb (closed (L w 0)) && match w_rcdist w 0 1 with None => true | _ => false end)%bool = true.
Proof.
  apply (play_witness cfg_det ([node_ "a"; node_ "b"; link_ "ab1" 0 1 500; link_ "ab2" 0 1 500; OSetCapIn 1 0; OExec (UntilT 15)]) (Some 200%Q)).
  vm_compute. reflexivity.
Qed.
