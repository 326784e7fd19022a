(** * Props_Taxi: the order of the stops of a taxi, trip requests, and assignment rounds (C30 and C31). *)
From Coq Require Import Permutation.
From Verif Require Import Base Types Sim Build Reach Steps Spec Rounds SpecTaxi Taxi2 Taxi3 RoundsOK Demo TaxiDemo.
Local Open Scope nat_scope.

(** C30: between two states the plan of a taxi grows at its end by the nodes it is given, and shrinks at its front by the nodes at which it stops *)
Theorem C30_order : forall c w w' v, (0 <= dt c)%Q -> reach c w -> v < w_nv w -> later c appending w w' ->
  exists g s, journey c appending v w g s w' /\ plan w v ++ g = s ++ plan w' v.
Proof. exact order_lemma. Qed.
Print Assumptions C30_order.

(** three stops in the order given *)
Example C30_order_example : exists w w', reach cfg0 w /\ later cfg0 appending w w' /\ 0 < w_nv w /\ plan w 0 = [2; 1; 0] /\ plan w' 0 = [].
Proof. exact order_demo. Qed.

(** C30: a running vehicle enters a link only from the end of its link, and then a link that starts there, or its own link again when its destination is the node where it already is *)
Theorem C30_links : forall c w w' v l out, (0 < dt c)%Q -> reach c w -> w_final w = true -> tick c w = Ok w' -> v < w_nv w ->
  v_state (V w v) = Run -> v_link (V w v) = Some l -> enters c w w' v out ->
  (v_x (V w v) == l_len (L w l))%Q /\
  (l_start (L w out) = l_end (L w l) \/ out = l /\ v_dest (V w v) = Some (l_end (L w l))).
Proof. exact enter_lemma. Qed.
Print Assumptions C30_links.

(** C30: the first link starts at the origin *)
Theorem C30_first_link : forall c w w' v out, reach c w -> w_final w = true -> tick c w = Ok w' -> v < w_nv w ->
  v_state (V w v) = Home \/ v_state (V w v) = Wait -> enters c w w' v out -> l_start (L w out) = v_orig (V w v).
Proof. exact enter_first_taxi. Qed.
Print Assumptions C30_first_link.

(** C30 fails when the same node is given twice in succession: the taxi leaves the end of its link into the start of the same link *)
Theorem C30_links_refuted : exists c w w' v l out, (0 < dt c)%Q /\ reach c w /\ w_final w = true /\ tick c w = Ok w' /\ v < w_nv w /\
  v_state (V w v) = Run /\ v_link (V w v) = Some l /\ enters c w w' v out /\ ~ (v_larr (V w v) == now c w)%Q /\ l_start (L w out) <> l_end (L w l).
Proof. exact jump_lemma. Qed.
Print Assumptions C30_links_refuted.

(** C31: a request is pending, assigned, picked up or delivered; it is picked up only after the assignment to a taxi, and delivered only after that *)
Theorem C31_stages : forall c w r, (0 <= dt c)%Q -> reach c w -> r < w_nr w -> stage w r.
Proof. exact stages_lemma. Qed.
Print Assumptions C31_stages.

(** C31: the pending requests are exactly those without a taxi, each listed once *)
Theorem C31_pending : forall c w, (0 <= dt c)%Q -> reach c w ->
  NoDup (w_pending w) /\ (forall r, pending w r -> r < w_nr w) /\
  forall r, r < w_nr w -> (pending w r <-> r_taxi (R w r) = None).
Proof. exact pending_lemma. Qed.
Print Assumptions C31_pending.

(** C31: the taxi, the pick-up and the delivery of a request never change once they are set; an assigned request is never pending again *)
Theorem C31_history : forall c P w w' r, (0 <= dt c)%Q -> reach c w -> later c P w w' -> r < w_nr w -> r < w_nr w' /\ kept w w' r.
Proof. exact history_lemma. Qed.
Print Assumptions C31_history.

(** a state with requests in all four stages *)
Example C31_stages_example : exists w, reach cfg0 w /\ stages_test w = true.
Proof. exact stages_demo. Qed.

(** C31: a round of each handler assigns due pending requests to vacant taxis, no request and no taxi twice, and splits the requests accordingly; the random and the nearest handler assign as many as possible, the nearest ones take a nearest unused taxi *)
Theorem C31_round : forall c h w w' vac, (0 <= dt c)%Q -> reach c w -> Permutation vac (vacant w) -> round c h vac w = Ok w' ->
  exists ps, pairs c w ps w' /\ proper w ps /\ split_up w ps w' /\ chosen h w vac ps /\ reach c w'.
Proof. exact round_lemma. Qed.
Print Assumptions C31_round.

(** rounds with three vacant taxis and four pending requests *)
Example C31_round_example : forall h k, In (h, k) [(HRandom, 1); (HNearest, 1); (HRadius 60, 2); (HRadius (-1), 4)] ->
  exists w w', reach cfg0 w /\ Permutation (vacant w) (vacant w) /\ round cfg0 h (vacant w) w = Ok w' /\ List.length (vacant w) = 3 /\
    List.length (w_pending w) = 4 /\ List.length (w_pending w') = k.
Proof. exact round_demo. Qed.

(** Being assigned does not mean being served: of two requests from one node for the same taxi the first one is forgotten, although the taxi is vacant again *)
Theorem C31_lost_request_refuted : exists c w v r, reach c w /\ r < w_nr w /\ assigned w r v /\ is_vacant w v /\ plan w v = [] /\ v_events (V w v) = [] /\ r_geton (R w r) = None.
Proof. exact lost_lemma. Qed.
Print Assumptions C31_lost_request_refuted.
