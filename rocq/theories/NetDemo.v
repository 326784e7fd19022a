(** * NetDemo: networks for the fundamental diagram, the spatial queries and node capacities. *)
From Verif Require Import Base Types Sim Build Tac Reach Steps Spec Paths Demo FD Spatial NodeCap.
Local Open Scope string_scope.
Local Open Scope nat_scope.

Definition node_at (s : string) (x y : Q) : op := OAddNode (mkNodeArgs s x y [0%Q] 0 None None None).
(** a three lane link after two changes *)
Lemma fd_example : exists w, reachable cfg0 w /\
  ((0 <? w_nl w) && qlt 0 (c_react cfg0) && qlt 0 (l_u (L w 0)) && qlt 0 (l_kappa (L w 0)) && (l_lanes (L w 0) =? 3) &&
   Qeq_bool (l_u (L w 0)) 10 && Qeq_bool (l_kappa (L w 0)) (4#10))%bool = true.
Proof. apply (play_witness cfg0 [node_ "a"; node_ "b"; link_lanes "l" 0 1 1000 3; OChangeSpeed 0 10; OChangeJam 0 (4#10)] None). vm_compute. reflexivity. Qed.
Lemma per_lane_example : exists w, reachable cfg0 w /\
  match add_link cfg0 (mkLinkArgs (Some "l") 0 1 1000 20 (2#10) (Some (15#100)) 2 1 [0] None None None None) w with
  | Ok w' => Qeq_bool (l_kappa (L w' 0)) (3#10) | Err _ => false end = true.
Proof. apply (play_witness cfg0 [node_ "a"; node_ "b"] None). vm_compute. reflexivity. Qed.
Lemma per_lane_error : exists w, reachable cfg0 w /\
  match add_link cfg0 (mkLinkArgs (Some "l") 0 1 1000 20 (1#10) (Some (15#100)) 2 1 [0] None None None None) w with
  | Err AttributeError => true | _ => false end = true.
Proof. apply (play_witness cfg0 [node_ "a"; node_ "b"] None). vm_compute. reflexivity. Qed.

Lemma nearest_example : exists w, reachable cfg0 w /\
  (match get_nearest_node w 4 4 with Some n => n =? 1 | None => false end && nlist_eqb (get_nodes_in_area w 0 0 (15#2)) [0; 1])%bool = true.
Proof. apply (play_witness cfg0 [node_at "a" 0 0; node_at "b" 5 5; node_at "c" 9 0] None). vm_compute. reflexivity. Qed.
Lemma nearest_far_example : exists w, reachable cfg0 w /\
  ((w_nn w =? 1) && match get_nearest_node w 0 0 with Some n => false | None => true end)%bool = true.
Proof. apply (play_witness cfg0 [node_at "a" 100000 0] None). vm_compute. reflexivity. Qed.

(** World(adjust_node_capacity=True) *)
Definition cfg_adj : cfg :=
  mkCfg 5 1 600 (1#2) (1#100) HomogeneousDUO false 1 false true 1 false false 120
        (fun k => Nat.modulo (7 * k + 3) 11) (fun k => (1#2)%Q) shortest_paths.
Lemma nodecap_example : exists w, reachable cfg_adj w /\
  (negb (w_final w) && c_adjust cfg_adj && (2 <? w_nn w) &&
   match finalize cfg_adj None w with
   | Ok w' => match n_fcap (N w' 1), n_lanes (N w' 1) with Some q, Some m => Qeq_bool q (16#15) && (m =? 2) | _, _ => false end
   | Err _ => false end)%bool = true.
Proof.
  apply (play_witness cfg_adj [node_ "a"; node_ "b"; node_ "c"; link_ "l" 0 1 1000; link_lanes "m" 1 2 1000 2; link_ "k" 1 2 1000] (Some 100%Q)). vm_compute. reflexivity.
Qed.
