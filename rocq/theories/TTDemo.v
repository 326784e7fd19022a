(** * TTDemo: actual travel times of links. *)
From Verif Require Import Base Types Sim Build Tac Reach Steps Spec Paths LinkQueries Demo MotionDemo LogsDemo.
Local Open Scope string_scope.
Local Open Scope nat_scope.

Definition att_is (c : cfg) (w : world) (l : lid) (t q : Q) : bool :=
  match actual_travel_time c (L w l) t with Ok x => Qeq_bool x q | Err _ => false end.

(** One vehicle enters link 0 (520 m, 20 m/s) at 5 s and link 1 (500 m) at 35 s, where its trip ends in the timestep of 55 s.
    Before 5 s the free-flow time 26 s remains; afterwards 35 - 5 = 30 s.  On link 1 the trip counts until the end of the timestep: 25 s. *)
Lemma actual_example : exists w, reachable cfg_det w /\
  (state_eqb (v_state (V w 0)) End_ && att_is cfg_det w 0 0 26 && att_is cfg_det w 0 (49 # 10) 26 && att_is cfg_det w 0 5 30 &&
   att_is cfg_det w 0 190 30 && att_is cfg_det w 0 5000 30 && att_is cfg_det w 1 30 25 && att_is cfg_det w 1 35 25 &&
   att_is cfg_det w 1 (-7) 25)%bool = true.
Proof. apply (play_witness cfg_det (row_net ++ [OExec (UntilT 80)])%list (Some 200%Q)). vm_compute. reflexivity. Qed.

(** While the vehicle is on link 1 only link 0 has a new value. *)
Lemma actual_before_example : exists w, reachable cfg_det w /\
  (state_eqb (v_state (V w 0)) Run && att_is cfg_det w 0 5 30 && att_is cfg_det w 1 35 25)%bool = true.
Proof. apply (play_witness cfg_det (row_net ++ [OExec (UntilT 40)])%list (Some 200%Q)). vm_compute. reflexivity. Qed.
