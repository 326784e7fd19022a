(** * Properties of the state of the World between timesteps (C01, C05 part). *)
From Verif Require Import Base Types Sim Build Reach Steps Spec State Demo.

(** C01: in every state between public calls and between timesteps, all containers agree with
    the states of the vehicles. *)
Theorem C01_books_agree : forall c w, reach c w -> books_agree w.
Proof. exact books_lemma. Qed.
Print Assumptions C01_books_agree.

(** C01: what was created is never removed. *)
Theorem C01_nothing_lost : forall c P w w', reach c w -> later c P w w' ->
  w_nn w <= w_nn w' /\ w_nl w <= w_nl w' /\ w_nv w <= w_nv w'.
Proof. exact counts_grow. Qed.
Print Assumptions C01_nothing_lost.

(** the states between public calls are among the states considered *)
Theorem C01_public_calls : forall c w, reachable c w -> books_agree w.
Proof. exact (fun c w H => books_lemma c w (reachable_reach c w H)). Qed.
Print Assumptions C01_public_calls.

(** C05, structure: the i-th vehicle of a link's queue follows the (i - lanes)-th one, which
    is in the same lane of the same link. *)
Theorem C05_leader_is_lanes_ahead : forall c w l i v, reach c w ->
  nth_error (l_vehs (L w l)) i = Some v ->
  v_lane (V w v) < l_lanes (L w l) /\
  v_leader (V w v) = ahead w l i (l_lanes (L w l)) /\
  (forall u, v_leader (V w v) = Some u ->
     v_lane (V w u) = v_lane (V w v) /\ v_link (V w u) = Some l /\ v_follower (V w u) = Some v).
Proof. exact lanes_lemma. Qed.
Print Assumptions C05_leader_is_lanes_ahead.

(** a reachable state with vehicles at home, waiting, running and arrived *)
Example C01_not_vacuous : exists w, reachable cfg0 w /\
  (negb (count_state Wait w =? 0) && negb (count_state Run w =? 0) && negb (count_state End_ w =? 0) &&
   negb (count_state Home w =? 0)) = true.
Proof. exact merge_mid. Qed.
