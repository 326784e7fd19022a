(** * OriginDemo: queues at origins, merging vehicles. *)
From Verif Require Import Base Types Sim Build Tac Reach Steps Spec Paths Demo Origin Merge.
Local Open Scope string_scope.
Local Open Scope nat_scope.

Definition body_queue (c : cfg) (n : nid) (w : world) : list vid :=
  match body c w with Ok w' => n_queue (N w' n) | Err _ => [] end.
(** three vehicles depart together on a one-lane link: one is released, the attempts are used up *)
Lemma queue_example : exists w, reachable cfg0 w /\
  (nlist_eqb (n_queue (N w 0)) [0; 1; 2] && nlist_eqb (body_queue cfg0 0 w) [1; 2])%bool = true.
Proof.
  apply (play_witness cfg0 [node_ "a"; node_ "b"; link_ "l" 0 1 1000; veh_ 0 1 0; veh_ 0 1 0; veh_ 0 1 0; OExec (UntilT 0)] (Some 100%Q)).
  vm_compute. reflexivity.
Qed.
(** a closed link keeps all of them *)
Lemma closed_example : exists w, reachable cfg0 w /\
  (nlist_eqb (n_queue (N w 0)) [0; 1; 2] && nlist_eqb (body_queue cfg0 0 w) [0; 1; 2])%bool = true.
Proof.
  apply (play_witness cfg0 [node_ "a"; node_ "b"; 
     OAddLink (mkLinkArgs (Some "l") 0 1 1000 20 (2#10) None 1 1 [0] None (Some 0%Q) None None);
     veh_ 0 1 0; veh_ 0 1 0; veh_ 0 1 0; OExec (UntilT 20)] (Some 100%Q)).
  vm_compute. reflexivity.
Qed.

(** two links with the given priorities meet; a vehicle arrives on each at the same time *)
Definition prio_net (p q : Q) : list op :=
  [ node_ "a"; node_ "b"; node_ "m"; node_ "d";
    OAddLink (mkLinkArgs (Some "k1") 0 2 100 20 (2#10) None 1 p [0] None None None None);
    OAddLink (mkLinkArgs (Some "k2") 1 2 100 20 (2#10) None 1 q [0] None None None None);
    link_ "k3" 2 3 1000; veh_ 0 3 0; veh_ 1 3 0; OExec (UntilT 5)].
Definition trial_winner (c : cfg) (n : nid) (out : lid) (w : world) : option vid :=
  match transfer_trial c n out w with Ok w' => last_opt (l_vehs (L w' out)) | Err _ => None end.
Definition winner_is (c : cfg) (n : nid) (out : lid) (v : vid) (w : world) : bool :=
  match trial_winner c n out w with Some u => u =? v | None => false end.
Definition cand (c : cfg) (n : nid) (out : lid) (v : vid) (w : world) : bool :=
  mem v (n_incoming (N w n)) && match candidate c n out w v with Ok b => b | Err _ => false end.

Lemma prio_example : exists w, reachable cfg_det w /\
  (cand cfg_det 2 2 0 w && cand cfg_det 2 2 1 w && winner_is cfg_det 2 2 1 w)%bool = true.
Proof. apply (play_witness cfg_det (prio_net 1 2) (Some 100%Q)). vm_compute. reflexivity. Qed.
Lemma prio_zero_example : exists w, reachable cfg0 w /\
  (cand cfg0 2 2 0 w && cand cfg0 2 2 1 w && winner_is cfg0 2 2 1 w)%bool = true.
Proof. apply (play_witness cfg0 (prio_net 0 2) (Some 100%Q)). vm_compute. reflexivity. Qed.
(** negative priorities that cancel out count as equal *)
Lemma prio_negative_example : exists w, reachable cfg_det w /\
  (cand cfg_det 2 2 0 w && cand cfg_det 2 2 1 w && winner_is cfg_det 2 2 0 w &&
   match v_link (V w 0), v_link (V w 1) with Some k, Some l => qlt (l_prio (L w k)) (l_prio (L w l)) | _, _ => false end)%bool = true.
Proof. apply (play_witness cfg_det (prio_net (-1) 1) (Some 100%Q)). vm_compute. reflexivity. Qed.
