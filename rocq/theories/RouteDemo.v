(** * RouteDemo: traveled routes, Route objects and a signalised crossing, as witnesses. *)
From Verif Require Import Base Types Sim Build Reach Steps Spec Registry LinkQueries Route Signal Demo.
Local Open Scope nat_scope.

(** vehicle 0 has travelled link1 and link3 *)
Lemma traveled_example : exists w, reachable cfg0 w /\
  ((0 <? w_nv w) && vstate_eqb (v_state (V w 0)) End_ &&
   match traveled_route w 0 true false with
   | Ok (ls, ts) => nlist_eqb ls [0; 2] && (List.length ts =? 3)
   | Err _ => false end)%bool = true.
Proof. apply (play_witness cfg0 (merge_net ++ [OExec (UntilT 100)]) (Some 200%Q)). vm_compute. reflexivity. Qed.

(** link1, link3 is a Route; link1, link2 is not *)
Lemma route_example : exists w, reachable cfg0 w /\
  (match route_new w [KOwn 0; KName "link3"] with Ok ls => nlist_eqb ls [0; 2] | Err _ => false end &&
   match route_new w [KOwn 0; KName "link2"] with Ok _ => false | Err _ => true end &&
   match route_time cfg0 w [0; 2] 0 with Ok t => Qeq_bool t 10 | Err _ => false end)%bool = true.
Proof. apply (play_witness cfg0 (merge_net ++ [OExec (UntilT 100)]) (Some 200%Q)). vm_compute. reflexivity. Qed.

(** in the next timestep a vehicle moves from link1 to link3 at the two-phase signal *)
Definition cross_net : list op :=
  [ node_ "orig1"; node_ "orig2"; node_sig "merge" [10%Q; 10%Q]; node_ "dest";
    OAddLink (mkLinkArgs (Some "link1"%string) 0 2 100 20 (2#10) None 1 1 [0] None None None None);
    OAddLink (mkLinkArgs (Some "link2"%string) 1 2 100 20 (2#10) None 1 1 [1] None None None None);
    link_ "link3" 2 3 1000; OAddDemand 0 3 0 60 (45#100) (-1)%Q; OExec (UntilT 25) ].
Lemma crossing_example : exists w, reachable cfg0 w /\
  (w_final w &&
   match tick cfg0 w with
   | Ok w' => existsb (fun v => vstate_eqb (v_state (V w v)) Run && vstate_eqb (v_state (V w' v)) Run &&
                opt_eqb (v_link (V w v)) (Some 0) && opt_eqb (v_link (V w' v)) (Some 2)) (seq 0 (w_nv w)) &&
              (1 <? List.length (n_signal (N w' 2)))
   | Err _ => false end)%bool = true.
Proof. apply (play_witness cfg0 cross_net (Some 200%Q)). vm_compute. reflexivity. Qed.
