(** * CppGreenDemo: signals and capacities in concrete runs of the compiled engine. *)
From Coq Require Import Bool.
From Verif Require Import Base Types Sim Build Tac Reach Steps Spec Demo MotionDemo FlowDemo Bucket Signal SignalDemo Cpp CppLoop CppInv CppInvDemo CppSafe CppSafeDemo CppGreen CppFlow CppOut CppSignal CppNode.
Local Open Scope string_scope.
Local Open Scope nat_scope.

(** two origins merge at a signal with two phases; the link behind it is longer than a timestep *)
Definition light_net : list op :=
  [ node_ "orig1"; node_ "orig2"; node_sig "merge" [10%Q; 10%Q]; node_ "dest";
    OAddLink (mkLinkArgs (Some "link1") 0 2 100 20 (2#10) None 1 1 [0] None None None None);
    OAddLink (mkLinkArgs (Some "link2") 1 2 100 20 (2#10) None 1 1 [1] None None None None);
    link_ "link3" 2 3 1000; veh_ 0 3 5; veh_ 1 3 0 ].
(** the vehicle from the second link stands at the red light and crosses in the first timestep of the second phase *)
Lemma cpp_green_example : exists w, creachP cfg0 phase_safe w /\
  (match cpp_tick cfg0 w with
   | Ok w' => opt_eqb (v_link (V w 1)) (Some 1) && Qeq_bool (v_x (V w 1)) 100 && opt_eqb (v_link (V w' 1)) (Some 2) && Nat.eqb (l_end (L w 1)) 2 && (List.length (n_signal (N w' 2)) =? 2) &&
              Nat.eqb (n_phase (N w 2)) 0 && Nat.eqb (n_phase (N w' 2)) 1 && nlist_eqb (l_group (L w 1)) [1] && nlist_eqb (n_siglog (N w' 2)) [0; 0; 0; 1]
   | Err _ => false
   end)%bool = true.
Proof.
  apply (cplayP_witness cfg0 phase_safe phase_safeb (map inl light_net ++ [inl (OFinalize None); inr 3])%list (Some 200%Q)
    (fun w => match cpp_tick cfg0 w with
   | Ok w' => opt_eqb (v_link (V w 1)) (Some 1) && Qeq_bool (v_x (V w 1)) 100 && opt_eqb (v_link (V w' 1)) (Some 2) && Nat.eqb (l_end (L w 1)) 2 && (List.length (n_signal (N w' 2)) =? 2) &&
              Nat.eqb (n_phase (N w 2)) 0 && Nat.eqb (n_phase (N w' 2)) 1 && nlist_eqb (l_group (L w 1)) [1] && nlist_eqb (n_siglog (N w' 2)) [0; 0; 0; 1]
   | Err _ => false
   end)); [apply phase_safeb_ok|]. vm_compute. reflexivity.
Qed.

Definition keep_cin_b (l : lid) (o : op) (w : world) : bool := match o with OSetCapIn k _ => negb (Nat.eqb k l) | _ => true end.
Lemma keep_cin_b_ok : forall l o w, keep_cin_b l o w = true -> keep_cin l o w.
Proof. intros l [] w H; cbn in *; try exact I. apply negb_true_iff, Nat.eqb_neq in H. exact H. Qed.
Definition keep_cout_b (l : lid) (o : op) (w : world) : bool := match o with OSetCapOut k _ => negb (Nat.eqb k l) | _ => true end.
Lemma keep_cout_b_ok : forall l o w, keep_cout_b l o w = true -> keep_cout l o w.
Proof. intros l [] w H; cbn in *; try exact I. apply negb_true_iff, Nat.eqb_neq in H. exact H. Qed.

(** a narrow entrance: capacity_in = 1/5, and after 15 timesteps of 5 s three of four platoons of five are in *)
Lemma cpp_inflow_example : exists w, creachP cfg0 (keep_cin 0) w /\
  (Z.eqb (latest (l_ca (L w 0))) 15 && (List.length (n_queue (N w 0)) =? 1) && (w_T w =? 15) && Qeq_bool (l_cinr (L w 0)) 1)%bool = true.
Proof. apply (cplayP_witness cfg0 (keep_cin 0) (keep_cin_b 0) (map inl slow_net ++ [inl (OFinalize None); inr 15])%list (Some 100%Q)); [apply keep_cin_b_ok|]. vm_compute. reflexivity. Qed.
(** a closed link *)
Definition closed_net : list op :=
  [ node_ "a"; node_ "b"; OAddLink (mkLinkArgs (Some "l") 0 1 1000 20 (2#10) None 1 1 [0] None (Some 0%Q) None None); veh_ 0 1 0 ].
Lemma cpp_closed_example : exists w, creachP cfg0 (keep_cin 0) w /\
  (Z.eqb (latest (l_ca (L w 0))) 0 && (List.length (n_queue (N w 0)) =? 1) && (w_T w =? 15) && match l_cin (L w 0) with Some q => Qeq_bool q 0 | None => false end)%bool = true.
Proof. apply (cplayP_witness cfg0 (keep_cin 0) (keep_cin_b 0) (map inl closed_net ++ [inl (OFinalize None); inr 15])%list (Some 100%Q)); [apply keep_cin_b_ok|]. vm_compute. reflexivity. Qed.
(** a transfer uses the allowance of the link *)
Lemma cpp_outflow_example : exists w, creachP cfg0 (keep_cout 0) w /\
  (match cpp_tick cfg0 w with
   | Ok w' => nlist_eqb (crossed cfg0 w w' 0) [0] && Qeq_bool (l_coutr (L w 0)) 8 && Qeq_bool (l_coutr (L w' 0)) 3
   | Err _ => false
   end)%bool = true.
Proof.
  apply (cplayP_witness cfg0 (keep_cout 0) (keep_cout_b 0) (map inl (removelast through_net) ++ [inl (OFinalize None); inr 3])%list (Some 100%Q)
    (fun w => match cpp_tick cfg0 w with
   | Ok w' => nlist_eqb (crossed cfg0 w w' 0) [0] && Qeq_bool (l_coutr (L w 0)) 8 && Qeq_bool (l_coutr (L w' 0)) 3
   | Err _ => false
   end)); [apply keep_cout_b_ok|]. vm_compute. reflexivity.
Qed.
(** two vehicles stand at the ends of two links that meet at a node with flow_capacity = 1/5; one crosses, the other waits *)
Definition narrow_net : list op :=
  [ node_ "a"; node_ "b"; OAddNode (mkNodeArgs "m" 0 0 [0%Q] 0 None (Some (1#5)%Q) (Some 1)); node_ "d"; link_ "k" 0 2 100; link_ "l" 1 2 100;
    link_ "o" 2 3 1000; veh_ 0 3 0; veh_ 1 3 0 ].
Lemma cpp_node_example : exists w w', creach cfg0 w /\ clater cfg0 w w' /\
  ((List.length (n_incoming (N w 2)) =? 2) && (List.length (crossed_at cfg0 w w' 2) =? 1) && (List.length (n_incoming (N w' 2)) =? 1) && w_final w && (w_T w' =? S (w_T w)) &&
   match n_fcap (N w 2) with Some q => Qeq_bool q (1#5) | None => false end && (node_lanes (N w 2) =? 1))%bool = true.
Proof. apply (cplay_witness cfg0 (map inl narrow_net ++ [inl (OFinalize None); inr 3])%list [inr 1] (Some 100%Q)). vm_compute. reflexivity. Qed.
