(** * CppSafeDemo: vehicles on the links of the compiled engine. *)
From Coq Require Import Bool.
From Verif Require Import Base Types Sim Build Tac Reach Steps Spec Demo MotionDemo Cpp CppLoop CppInv CppInvDemo CppSafe.
Local Open Scope string_scope.
Local Open Scope nat_scope.

Fixpoint cplayP (c : cfg) (pb : op -> world -> bool) (os : list (op + nat)) (w : world) : option world :=
  match os with
  | [] => Some w
  | inl o :: tl => if op_okb o w && pb o w && match o with OExec _ => false | _ => true end
                   then match apply_op c o w with Ok w1 => cplayP c pb tl w1 | Err _ => None end else None
  | inr n :: tl => match cticks c n w with Some w1 => cplayP c pb tl w1 | None => None end
  end.
Lemma cticks_reachP : forall c P n w w', creachP c P w -> cticks c n w = Some w' -> creachP c P w'.
Proof.
  intros c P n. induction n as [|n IH]; intros w w' A H; cbn [cticks] in H; [injection H as <-; exact A|]. destruct (w_final w) eqn:F; [|discriminate]. destruct (cpp_tick c w) as [w1|e] eqn:E; [|discriminate].
  eapply IH; [|exact H]. eapply crp_tick; eauto.
Qed.
Lemma cplayP_reachP : forall c (P : op -> world -> Prop) pb os w w', (forall o x, pb o x = true -> P o x) -> creachP c P w -> cplayP c pb os w = Some w' -> creachP c P w'.
Proof.
  intros c P pb os w w' HP. revert w. induction os as [|[o|n] os IH]; intros w R H; cbn [cplayP] in H; [injection H as <-; exact R| |].
  - destruct (op_okb o w && pb o w && _) eqn:Ok; [|discriminate]. apply andb_true_iff in Ok. destruct Ok as [O1 O2]. apply andb_true_iff in O1. destruct O1 as [O1 O3]. destruct (apply_op c o w) as [w1|e] eqn:E; [|discriminate].
    eapply IH; [|exact H]. eapply crp_op; [exact R|apply op_okb_ok; exact O1|apply HP; exact O3| |exact E]. intros a ->. discriminate O2.
  - destruct (cticks c n w) as [w1|] eqn:E; [|discriminate]. eapply IH; [|exact H]. eapply cticks_reachP; eauto.
Qed.
Lemma cplayP_witness : forall c (P : op -> world -> Prop) pb os tm (t : world -> bool), (forall o x, pb o x = true -> P o x) ->
  match cplayP c pb os (empty_world tm) with Some w => t w | None => false end = true -> exists w, creachP c P w /\ t w = true.
Proof.
  intros c P pb os tm t HP H. destruct (cplayP c pb os (empty_world tm)) as [w|] eqn:E; [|discriminate]. exists w. split; [|exact H].
  eapply cplayP_reachP; [exact HP|apply crp_init|exact E].
Qed.

(** A two-lane queue in front of a red light: link 0 is full *)
Lemma cpp_queue_example : exists w, creachP cfg_det keep_room w /\
  (nlist_eqb (l_vehs (L w 0)) [0; 1; 2; 3] && negb (is_nil (n_queue (N w 0))) &&
   opt_eqb (v_leader (V w 3)) (Some 1) && Qeq_bool (v_x (V w 1)) 100 && Qeq_bool (v_x (V w 3)) 50 &&
   Qeq_bool (jam_gap cfg_det (L w 0)) 50 && Qeq_bool (l_kappa (L w 0) * l_len (L w 0)) 20 && nlist_eqb (n_incoming (N w 1)) [0; 1])%bool = true.
Proof.
  apply (cplayP_witness cfg_det keep_room room_b (map inl queue_net ++ [inl (OFinalize None); inr 60])%list (Some 600%Q)); [apply room_b_ok|].
  vm_compute. reflexivity.
Qed.
(** The move of a lone vehicle inside a link, in one timestep *)
Lemma cpp_moving_example : exists w, creachP cfg_det keep_room w /\ w_final w = true /\
  (match cpp_tick cfg_det w with
   | Ok w' => match v_link (V w 0), v_link (V w' 0) with
              | Some k, Some l => Nat.eqb k 0 && Nat.eqb l 0 && Qeq_bool (v_x (V w 0)) 200 && Qeq_bool (v_xold (V w' 0)) 200 &&
                                  Qeq_bool (v_x (V w' 0)) 300 && Qeq_bool (v_v (V w' 0)) 20
              | _, _ => false
              end
   | Err _ => false
   end)%bool = true.
Proof.
  destruct (cplayP_witness cfg_det keep_room room_b (map inl row_net ++ [inl (OFinalize None); inr 3])%list (Some 200%Q)
    (fun w => w_final w && match cpp_tick cfg_det w with
   | Ok w' => match v_link (V w 0), v_link (V w' 0) with
              | Some k, Some l => Nat.eqb k 0 && Nat.eqb l 0 && Qeq_bool (v_x (V w 0)) 200 && Qeq_bool (v_xold (V w' 0)) 200 &&
                                  Qeq_bool (v_x (V w' 0)) 300 && Qeq_bool (v_v (V w' 0)) 20
              | _, _ => false
              end
   | Err _ => false
   end)%bool) as (w & R & H); [apply room_b_ok|vm_compute; reflexivity|].
  apply andb_true_iff in H. destruct H as [H1 H2]. exists w. auto.
Qed.
(** Lowering the jam density: the vehicles already on the link are too close for it *)
Lemma cpp_denser_example : exists w, creach cfg_det w /\
  (nlist_eqb (l_vehs (L w 0)) [0; 1; 2; 3] && opt_eqb (v_leader (V w 3)) (Some 1) &&
   qlt (v_x (V w 1)) (v_x (V w 3) + jam_gap cfg_det (L w 0)) && qlt 0 (l_kappa (L w 0)))%bool = true.
Proof.
  destruct (cplay_witness cfg_det (map inl queue_net ++ [inl (OFinalize None); inr 60; inl (OChangeJam 0 (1#10))])%list [] (Some 600%Q)
    (fun w _ => nlist_eqb (l_vehs (L w 0)) [0; 1; 2; 3] && opt_eqb (v_leader (V w 3)) (Some 1) &&
   qlt (v_x (V w 1)) (v_x (V w 3) + jam_gap cfg_det (L w 0)) && qlt 0 (l_kappa (L w 0)))%bool) as (w & w' & R & _ & H); [vm_compute; reflexivity|].
  exists w. split; assumption.
Qed.
