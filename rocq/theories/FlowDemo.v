(** * FlowDemo: capacities in concrete runs. *)
From Verif Require Import Base Types Sim Build Tac Reach Steps Spec Paths Demo Origin Bucket Outflow.
Local Open Scope string_scope.
Local Open Scope nat_scope.

(** capacity_in = 1/5, eight vehicles (platoons of five): forty are waiting, ten got in during 50 s *)
Definition slow_net : list op :=
  [ node_ "a"; node_ "b"; OAddLink (mkLinkArgs (Some "l") 0 1 1000 20 (2#10) None 1 1 [0] None (Some (1#5)%Q) None None);
    veh_ 0 1 0; veh_ 0 1 0; veh_ 0 1 0; veh_ 0 1 0 ].
Lemma inflow_example : exists w, reachable cfg0 w /\
  (Z.eqb (latest (l_ca (L w 0))) 10 && (List.length (n_queue (N w 0)) =? 2) && (w_T w =? 11))%bool = true.
Proof. apply (play_witness cfg0 (slow_net ++ [OExec (UntilT 50)]) (Some 100%Q)). vm_compute. reflexivity. Qed.

(** the same link closed in the middle of the run: the allowance left lets one more platoon in *)
Definition closing_net : list op :=
  [ node_ "a"; node_ "b"; link_ "l" 0 1 1000; veh_ 0 1 5; OExec (UntilT 10); OSetCapIn 0 0; OExec (UntilT 50) ].
Lemma closing_example : exists w, reachable cfg0 w /\
  (match l_cin (L w 0) with Some q => Qeq_bool q 0 | None => false end && Z.eqb (nth 2 (l_ca (L w 0)) 0%Z) 0 &&
   Z.eqb (latest (l_ca (L w 0))) 5)%bool = true.
Proof. apply (play_witness cfg0 closing_net (Some 100%Q)). vm_compute. reflexivity. Qed.

Definition crossing (c : cfg) (l : lid) (w : world) : list vid := match tick c w with Ok w' => crossed c w w' l | Err _ => [] end.
Definition crossing_at (c : cfg) (n : nid) (w : world) : list vid := match tick c w with Ok w' => crossed_at c w w' n | Err _ => [] end.
Definition through_net : list op :=
  [ node_ "a"; OAddNode (mkNodeArgs "m" 0 0 [0%Q] 0 None (Some (1#5)%Q) (Some 1)); node_ "b"; link_ "k" 0 1 100;
    link_ "l" 1 2 1000; veh_ 0 2 0; OExec (UntilT 10) ].
Lemma outflow_example : exists w, reachable cfg0 w /\ 
  (nlist_eqb (crossing cfg0 0 w) [0] && nlist_eqb (crossing_at cfg0 1 w) [0])%bool = true.
Proof. apply (play_witness cfg0 through_net (Some 100%Q)). vm_compute. reflexivity. Qed.
(** a link with capacity_out=0 keeps its vehicle; if its end is the destination, the trip ends nevertheless *)
Definition shut_net (d : nat) : list op :=
  [ node_ "a"; node_ "m"; node_ "b"; OAddLink (mkLinkArgs (Some "k") 0 1 100 20 (2#10) None 1 1 [0] (Some 0%Q) None None None);
    link_ "l" 1 2 1000; veh_ 0 d 0; OExec (UntilT 90) ].
Definition vstate_eqb (a b : vstate) : bool :=
  match a, b with Home, Home | Wait, Wait | Run, Run | End_, End_ | Abort, Abort => true | _, _ => false end.
Lemma shut_example : exists w, reachable cfg0 w /\ (nlist_eqb (l_vehs (L w 0)) [0] && (w_T w =? 19))%bool = true.
Proof. apply (play_witness cfg0 (shut_net 2) (Some 100%Q)). vm_compute. reflexivity. Qed.
Lemma shut_end_example : exists w, reachable cfg0 w /\ (nlist_eqb (l_vehs (L w 0)) [] && vstate_eqb (v_state (V w 0)) End_)%bool = true.
Proof. apply (play_witness cfg0 (shut_net 1) (Some 100%Q)). vm_compute. reflexivity. Qed.
