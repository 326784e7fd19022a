(** * ChoiceDemo: scenarios for the choice of links and for enforced routes. *)
From Verif Require Import Base Types Sim Build Tac Reach Steps Spec Paths Demo Choice Enforce.
Local Open Scope string_scope.
Local Open Scope nat_scope.

(** World(no_cyclic_routing=True) *)
Definition cfg_nc : cfg :=
  mkCfg 5 1 600 (1#2) (1#100) HomogeneousDUO false 1 true false 1 false false 120
        (fun k => Nat.modulo (7 * k + 3) 11) (fun k => (1#2)%Q) shortest_paths.
(** a road with a fork: links 1 and 2 both lead from node 1 to node 2 *)
Definition fork : list op :=
  [ node_ "o"; node_ "a"; node_ "d"; link_ "in" 0 1 200; link_ "left" 1 2 200; link_ "right" 1 2 200; veh_ 0 2 0 ].
(** a road, a way out (link 1) and a loop (link 2) at its end, and an unreachable destination *)
Definition loop_net : list op :=
  [ node_ "o"; node_ "a"; node_ "b"; node_ "d"; link_ "in" 0 1 200; link_ "out" 1 2 200; link_ "loop" 1 1 200; veh_ 0 3 0 ].

Definition next_is (w : world) (v : vid) (l : lid) : bool :=
  match v_next (V w v) with Some (Some k) => k =? l | _ => false end.
Definition at_end_b (w : world) (v : vid) (l : lid) : bool :=
  vstate_eqb (v_state (V w v)) Run && opt_eqb (v_link (V w v)) (Some l) && Qeq_bool (v_x (V w v)) (l_len (L w l)).
Definition spec_is (w : world) (v : vid) (r : list lid) : bool :=
  match v_spec (V w v) with Some sp => nlist_eqb sp r | None => false end.
Definition no_spec (w : world) (v : vid) : bool := match v_spec (V w v) with Some _ => false | None => true end.
Definition goes_to (w : world) (v : vid) (n : nid) : bool := opt_eqb (v_dest (V w v)) (Some n).

(** the vehicle arrives at the fork in the next timestep; link 2 is preferred *)
Lemma choice_example : exists w, reachable cfg0 w /\
  (w_final w && (0 <? w_nv w) &&
   match tick cfg0 w with
   | Ok w' => at_end_b w' 0 0 && no_spec w' 0 && next_is w' 0 2 && negb (next_is w 0 2) &&
              nlist_eqb (n_out (N w' 1)) [1; 2] && nlist_eqb (v_prefer (V w' 0)) [2] && goes_to w' 0 2
   | Err _ => false end)%bool = true.
Proof. apply (play_witness cfg0 (fork ++ [OSetPrefer 0 [2]; OExec (UntilT 5)]) (Some 200%Q)). vm_compute. reflexivity. Qed.
(** with both links avoided the next timestep fails *)
Lemma choice_error_example : exists w, reachable cfg0 w /\
  (w_final w && match tick cfg0 w with Err ValueError => nlist_eqb (v_avoid (V w 0)) [1; 2] | _ => false end)%bool = true.
Proof. apply (play_witness cfg0 (fork ++ [OSetAvoid 0 [1; 2]; OExec (UntilT 5)]) (Some 200%Q)). vm_compute. reflexivity. Qed.
(** the vehicle waits at its origin and enters link 0 in the next timestep *)
Lemma enter_example : exists w, reachable cfg0 w /\
  (w_final w && (0 <? w_nv w) && vstate_eqb (v_state (V w 0)) Wait && no_spec w 0 &&
   match tick cfg0 w with
   | Ok w' => vstate_eqb (v_state (V w' 0)) Run && nlist_eqb (links_of (v_tlog (V w' 0))) [0]
   | Err _ => false end)%bool = true.
Proof. apply (play_witness cfg0 (removelast fork ++ [veh_ 0 2 1; OExec (UntilT 5)]) (Some 200%Q)). vm_compute. reflexivity. Qed.
(** no_cyclic_routing: the loop at the node just reached is chosen although link 1 leads to a new node *)
Lemma loop_example : exists w, reachable cfg_nc w /\
  (at_end_b w 0 0 && no_spec w 0 && next_is w 0 2 && (l_end (L w 2) =? l_end (L w 0)) &&
   nlist_eqb (n_out (N w 1)) [1; 2] && nlist_eqb (links_of (v_tlog (V w 0))) [0] && negb (l_end (L w 1) =? l_end (L w 0)) &&
   negb (l_end (L w 1) =? l_start (L w 0)) && nlist_eqb (v_prefer (V w 0)) [] && nlist_eqb (v_avoid (V w 0)) [] &&
   match v_mode (V w 0) with SingleTrip => true | Taxi => false end)%bool = true.
Proof. apply (play_witness cfg_nc (loop_net ++ [OExec (UntilT 10)]) (Some 200%Q)). vm_compute. reflexivity. Qed.
(** an enforced route wins over links_avoid *)
Lemma avoid_example : exists w, reachable cfg0 w /\
  (at_end_b w 0 0 && next_is w 0 2 && nlist_eqb (v_avoid (V w 0)) [2])%bool = true.
Proof. apply (play_witness cfg0 (fork ++ [OEnforceRoute 0 [0; 2] false; OSetAvoid 0 [2]; OExec (UntilT 10)]) (Some 200%Q)). vm_compute. reflexivity. Qed.

(** enforced routes *)
Lemma enforced_example : exists w, reachable cfg0 w /\
  ((0 <? w_nv w) && spec_is w 0 [0; 2] && nlist_eqb (links_of (v_tlog (V w 0))) [0; 2] && vstate_eqb (v_state (V w 0)) End_)%bool = true.
Proof. apply (play_witness cfg0 (fork ++ [OEnforceRoute 0 [0; 2] false; OExec (UntilT 100)]) (Some 200%Q)). vm_compute. reflexivity. Qed.
Lemma enforced_start_example : exists w, reachable cfg0 w /\
  ((0 <? w_nv w) && spec_is w 0 [0; 2] && vstate_eqb (v_state (V w 0)) Home)%bool = true.
Proof. apply (play_witness cfg0 (fork ++ [OEnforceRoute 0 [0; 2] false]) (Some 200%Q)). vm_compute. reflexivity. Qed.
(** a route that ends before the destination *)
Lemma enforced_short_example : exists w, reachable cfg0 w /\
  (w_final w && spec_is w 0 [0] && match tick cfg0 w with Err IndexError => true | _ => false end)%bool = true.
Proof. apply (play_witness cfg0 (fork ++ [OEnforceRoute 0 [0] false; OExec (UntilT 5)]) (Some 200%Q)). vm_compute. reflexivity. Qed.
(** a route that jumps *)
Lemma enforced_jump_example : exists w, reachable cfg0 w /\
  (w_final w && spec_is w 0 [0; 0] && match tick cfg0 w with Err ValueError => true | _ => false end)%bool = true.
Proof. apply (play_witness cfg0 (fork ++ [OEnforceRoute 0 [0; 0] false; OExec (UntilT 5)]) (Some 200%Q)). vm_compute. reflexivity. Qed.
(** how often the logged position on link [l] falls back *)
Fixpoint rounds (l : lid) (g : list logrow) : nat :=
  match g with
  | a :: ((b :: _) as g') =>
      (if opt_eqb (g_link a) (Some l) && opt_eqb (g_link b) (Some l) &&
          match g_x a, g_x b with Some x, Some y => qlt y x | _, _ => false end then 1 else 0)%bool + rounds l g'
  | _ => 0
  end.
(** a route that takes a loop twice is never left *)
Lemma enforced_loop_example : exists w, reachable cfg0 w /\
  (spec_is w 0 [0; 2; 2; 1] && opt_eqb (v_link (V w 0)) (Some 2) && vstate_eqb (v_state (V w 0)) Run && next_is w 0 2 &&
   (20 <? rounds 2 (v_log (V w 0))))%bool = true.
Proof. apply (play_witness cfg0 (loop_net ++ [OEnforceRoute 0 [0; 2; 2; 1] false; OExec (UntilT 300)]) (Some 500%Q)). vm_compute. reflexivity. Qed.
