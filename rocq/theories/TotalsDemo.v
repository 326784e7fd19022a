(** * TotalsDemo: scenarios for distances and travel times of trips. *)
From Verif Require Import Base Types Sim Build Tac Reach Steps Spec Paths Demo MotionDemo.
Local Open Scope string_scope.
Local Open Scope nat_scope.

(** A completed trip over two links of 520 m and 500 m: distance_traveled is 940 m, because the
    80 m left over when crossing the node are not counted; the travel time is 55 s (free flow: 51 s). *)
Lemma distance_example : exists w, reachP cfg_det keep_speed w /\
  (match v_state (V w 0) with End_ => true | _ => false end && nlist_eqb (route_of (V w 0)) [0; 1] &&
   Qeq_bool (total_length w (route_of (V w 0))) 1020 && Qeq_bool (v_dist (V w 0)) 940 &&
   Qeq_bool (v_tt (V w 0)) 55 && Qeq_bool (free_time w (route_of (V w 0))) 51)%bool = true.
Proof.
  apply (playP_witness cfg_det keep_speed speed_b (row_net ++ [OExec (UntilT 200)]) (Some 200%Q));
    [apply speed_b_ok|intro w; split; [exact Logic.I|discriminate]|vm_compute; reflexivity].
Qed.

(** A vehicle that prefers a link from b to b: re-entering it is not recorded. *)
Definition loop_net : list op :=
  [ node_ "a"; node_ "b"; node_ "c"; link_ "ab" 0 1 500; link_ "bb" 1 1 500; link_ "bc" 1 2 500;
    OAddVehicle (mkVehArgs None 0 (Some 2) (DepStep 0) None SingleTrip None [1] [] true) ].
Lemma loop_example : exists w, reachP cfg_det keep_speed w /\
  (match v_state (V w 0) with Run => true | _ => false end && nlist_eqb (route_of (V w 0)) [0; 1] &&
   Qeq_bool (total_length w (route_of (V w 0))) 1000 && qlt 1000 (v_dist (V w 0)))%bool = true.
Proof.
  apply (playP_witness cfg_det keep_speed speed_b (loop_net ++ [OExec (UntilT 150)]) (Some 200%Q));
    [apply speed_b_ok|intro w; split; [exact Logic.I|discriminate]|vm_compute; reflexivity].
Qed.

(** Lowering the free flow speed of a link already traveled makes the travel time smaller than the
    free-flow travel time of the route. *)
Lemma slower_example : exists w, reachP cfg_det sound_links w /\
  (match v_state (V w 0) with End_ => true | _ => false end && nlist_eqb (route_of (V w 0)) [0; 1] &&
   Qeq_bool (v_tt (V w 0)) 55 && Qeq_bool (l_u (L w 0)) 5 && Qeq_bool (free_time w (route_of (V w 0))) 129)%bool = true.
Proof.
  apply (playP_witness cfg_det sound_links sound_b (row_net ++ [OExec (UntilT 45); OChangeSpeed 0 5; OExec (UntilT 200)]) (Some 200%Q));
    [apply sound_b_ok|intro w; exact Logic.I|vm_compute; reflexivity].
Qed.
