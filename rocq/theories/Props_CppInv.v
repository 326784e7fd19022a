(** * Props_CppInv: invariants of the compiled engine (C69). *)
From Verif Require Import Base Types Sim Build Reach Steps Spec Inv Demo Cpp CppInv CppInvDemo.
Local Open Scope nat_scope.

(** C69: in every state of the compiled engine every vehicle is in exactly one place *)
Theorem C69_books : forall c w, creach c w -> books_agree w.
Proof. exact cpp_books. Qed.
Print Assumptions C69_books.

(** C69: what was created is never removed *)
Theorem C69_nothing_lost : forall c w w', creach c w -> clater c w w' -> w_nn w <= w_nn w' /\ w_nl w <= w_nl w' /\ w_nv w <= w_nv w'.
Proof. exact cpp_nothing_lost. Qed.
Print Assumptions C69_nothing_lost.

(** C69: between any two states of the compiled engine vehicles enter a link at the back and leave it at the front, and the curves grow by exactly these numbers *)
Theorem C69_fifo : forall c w w' l, creach c w -> clater c w w' -> exists_link w l -> exists a d, in_out w w' l a d /\
  latest (l_ca (L w' l)) = (latest (l_ca (L w l)) + c_deltan c * Z.of_nat (List.length a))%Z /\
  latest (l_cd (L w' l)) = (latest (l_cd (L w l)) + c_deltan c * Z.of_nat d)%Z.
Proof. exact cpp_fifo. Qed.
Print Assumptions C69_fifo.

(** C69: the cumulative curves have one entry per timestep, never decrease, and their difference is the number of vehicles on the link *)
Theorem C69_curves : forall c w l, (0 <= c_deltan c)%Z -> creach c w -> exists_link w l -> curves_ok c (w_T w) (L w l) (List.length (l_vehs (L w l))).
Proof. exact cpp_curves. Qed.
Print Assumptions C69_curves.

(** C69: a trip only moves on from home to waiting, running, and ended or aborted *)
Theorem C69_state_only_advances : forall c w w' v, creach c w -> clater c w w' -> exists_veh w v ->
  may_become (v_state (V w v)) (v_state (V w' v)) /\ v_dep (V w' v) = v_dep (V w v) /\
  (v_state (V w v) = End_ \/ v_state (V w v) = Abort -> v_arr (V w' v) = v_arr (V w v) /\ v_tt (V w' v) = v_tt (V w v)).
Proof. exact cpp_advance. Qed.
Print Assumptions C69_state_only_advances.

(** C69: departure, arrival and travel time *)
Theorem C69_times : forall c w v, creach c w -> exists_veh w v ->
  (v_state (V w v) <> Home -> (v_dep (V w v) < Z.of_nat (w_T w))%Z) /\
  (v_state (V w v) <> End_ -> v_arr (V w v) = (-1)%Z /\ v_tt (V w v) = (-1)%Q) /\
  (v_state (V w v) = End_ -> (v_dep (V w v) < v_arr (V w v) < Z.of_nat (w_T w))%Z /\
     v_tt (V w v) = (inject_Z (v_arr (V w v) - v_dep (V w v)) * dt c)%Q).
Proof. exact cpp_times. Qed.
Print Assumptions C69_times.

(** C69: the leader is the vehicle as many places ahead as there are lanes, in the same lane *)
Theorem C69_leader : forall c w l i v, creach c w -> nth_error (l_vehs (L w l)) i = Some v ->
  v_lane (V w v) < l_lanes (L w l) /\
  v_leader (V w v) = ahead w l i (l_lanes (L w l)) /\
  (forall u, v_leader (V w v) = Some u ->
     v_lane (V w u) = v_lane (V w v) /\ v_link (V w u) = Some l /\ v_follower (V w u) = Some v).
Proof. exact cpp_lanes. Qed.
Print Assumptions C69_leader.

(** two states of the compiled engine *)
Example C69_example : exists w w', creach cfg0 w /\ clater cfg0 w w' /\
  (Nat.eqb (w_T w) 8 && (count_state Home w =? 5) && (count_state Run w =? 3) && (count_state End_ w =? 3) &&
   list_eqb (l_vehs (L w 0)) [2] && list_eqb (l_vehs (L w 1)) [6; 7] && Z.eqb (latest (l_ca (L w 1))) 15 && Z.eqb (latest (l_cd (L w 1))) 5 &&
   (count_state End_ w' =? 8) && list_eqb (l_vehs (L w' 1)) [9; 10] && Z.eqb (latest (l_ca (L w' 1))) 30 && Z.eqb (latest (l_cd (L w' 1))) 20)%bool = true.
Proof. exact inv_example. Qed.
