(** * Props_Safe: errors raised by a timestep (C20) and the lane assertions (C05). *)
From Verif Require Import Base Types Sim Build Reach Steps Trace Spec SpecSafe Paths Demo Errors Assert SafeDemo.
Local Open Scope nat_scope.

(** C20: in a well-formed scenario the only errors of a timestep are the ValueErrors of route choice, raised in a state [w1] in the middle of the timestep in which a vehicle has to follow a route that does not fit or has no admissible link *)
Theorem C20_timestep : forall c w e, sane c -> reachP c well_formed w -> w_final w = true -> tick c w = Err e ->
  e = ValueError /\ exists w1, run c k_all w w1 /\ route_fault w1.
Proof. exact tick_errors_lemma. Qed.
Print Assumptions C20_timestep.

(** C20: the same for exec_simulation, which also refuses to go back in time *)
Theorem C20_simulation : forall c ts w e, sane c -> reachP c well_formed w -> w_final w = true -> exec_until c ts w = Err e ->
  e = Exception_ \/ e = ValueError /\ exists w' w1, later c well_formed w w' /\ run c k_all w' w1 /\ route_fault w1.
Proof. exact exec_errors_lemma. Qed.
Print Assumptions C20_simulation.

(** a well-formed scenario in the middle of a run *)
Example C20_example : exists w, reachP cfg0 well_formed w /\
  (w_final w && negb (count_state Wait w =? 0) && negb (count_state Run w =? 0) && negb (count_state End_ w =? 0) && (0 <? w_T w))%bool = true.
Proof. exact wf_example. Qed.

(** the default parameters are sane *)
Example C20_parameters : sane cfg0.
Proof. exact sane0. Qed.

(** all links avoided *)
Example C20_no_link_example : exists w, reachP cfg_det well_formed w /\
  (w_final w && match tick cfg_det w with Err ValueError => true | _ => false end)%bool = true.
Proof. exact no_link_example. Qed.

(** a route that jumps *)
Example C20_jump_example : exists w, reachP cfg_det well_formed w /\
  (w_final w && match tick cfg_det w with Err ValueError => true | _ => false end)%bool = true.
Proof. exact jump_example. Qed.

(** C20: a link added after a vehicle with own preferences makes a timestep raise KeyError *)
Theorem C20_late_link_refuted : exists w, reachable cfg_het w /\ w_final w = true /\ tick cfg_het w = Err KeyError.
Proof. exact late_link_example. Qed.
Print Assumptions C20_late_link_refuted.

(** C20: an enforced route that ends before the destination makes a timestep raise IndexError *)
Theorem C20_short_route_refuted : exists w, reachable cfg0 w /\ w_final w = true /\ tick cfg0 w = Err IndexError.
Proof. exact short_route_example. Qed.
Print Assumptions C20_short_route_refuted.

(** C20: overriding a signal by one with fewer phases without reset makes a timestep raise IndexError *)
Theorem C20_fewer_phases_refuted : exists w, reachable cfg0 w /\ w_final w = true /\ tick cfg0 w = Err IndexError.
Proof. exact fewer_phases_example. Qed.
Print Assumptions C20_fewer_phases_refuted.

(** C20: changing the free flow speed to 0 makes a timestep raise ZeroDivisionError *)
Theorem C20_zero_speed_refuted : exists w, reachable cfg0 w /\ w_final w = true /\ tick cfg0 w = Err ZeroDivisionError.
Proof. exact zero_speed_example. Qed.
Print Assumptions C20_zero_speed_refuted.

(** C20: a taxi sent to the node where it already is makes a timestep raise AttributeError *)
Theorem C20_taxi_refuted : exists w, reachable cfg0 w /\ w_final w = true /\ tick cfg0 w = Err AttributeError.
Proof. exact taxi_same_example. Qed.
Print Assumptions C20_taxi_refuted.

(** C20: a vacant taxi with own preferences makes a timestep raise AttributeError *)
Theorem C20_vacant_taxi_refuted : exists w, reachable cfg_het w /\ w_final w = true /\ tick cfg_het w = Err AttributeError.
Proof. exact vacant_taxi_example. Qed.
Print Assumptions C20_vacant_taxi_refuted.

(** C05: the lane assertions never fail, in whatever scenario *)
Theorem C05_assertion : forall c w, reach c w -> tick c w <> Err AssertionError.
Proof. exact assertion_lemma. Qed.
Print Assumptions C05_assertion.
