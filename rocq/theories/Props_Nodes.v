(** * Properties of nodes: queues at origins (C36), merging (C38). *)
From Verif Require Import Base Types Sim Build Reach Steps Spec Paths Demo Origin Merge OriginDemo.
Local Open Scope nat_scope.

(** C36: the generation queue of a node is first in, first out: between any two states of a run, vehicles left it only from the front and joined it only at the back *)
Theorem C36_fifo : forall (c : cfg) (P : op -> world -> Prop) w w', reach c w -> later c P w w' ->
  w_nn w <= w_nn w' /\ forall n, n < w_nn w -> exists k new, n_queue (N w' n) = skipn k (n_queue (N w n) ++ new) /\
    k <= List.length (n_queue (N w n) ++ new).
Proof. exact later_queue. Qed.
Print Assumptions C36_fifo.

(** C36: in a timestep, [k] vehicles are released from the front of the queue of [n]; the next one is held back only for the reasons of [held_back]; newly departing vehicles join at the back *)
Theorem C36_origin : forall c w w', reach c w -> body c w = Ok w' ->
  exists w1 w2, phase_links c w = Ok w1 /\ phase_nodes c w1 = Ok w2 /\
  forall n, n < w_nn w -> exists k new,
    n_queue (N w2 n) = skipn k (n_queue (N w n)) /\ k <= List.length (n_queue (N w n)) /\
    held_back c w2 n k /\ n_queue (N w' n) = n_queue (N w2 n) ++ new.
Proof. exact origin_lemma. Qed.
Print Assumptions C36_origin.

(** three vehicles depart together on a one-lane link: one is released, the attempts are used up *)
Example C36_example : exists w, reachable cfg0 w /\
  (nlist_eqb (n_queue (N w 0)) [0; 1; 2] && nlist_eqb (body_queue cfg0 0 w) [1; 2])%bool = true.
Proof. exact queue_example. Qed.

(** a closed link keeps all of them *)
Example C36_closed_example : exists w, reachable cfg0 w /\
  (nlist_eqb (n_queue (N w 0)) [0; 1; 2] && nlist_eqb (body_queue cfg0 0 w) [0; 1; 2])%bool = true.
Proof. exact closed_example. Qed.

(** C38: one attempt to fill link [out] from node [n] changes nothing or moves a candidate; in deterministic mode one of greatest priority, and priority zero never beats a positive one (for non-negative priorities) *)
Theorem C38_merge : forall c n out w w', transfer_trial c n out w = Ok w' ->
  (forall u l, merge_candidate c w n out u l -> (0 <= l_prio (L w l))%Q) ->
  w' = w \/
  exists v l w1, merge_candidate c w n out v l /\ (w1 = w \/ w1 = sw_draw (S (w_draw w)) w) /\ transfer_move c n out v w1 = Ok w' /\
    (c_det c = true -> forall u k, merge_candidate c w n out u k -> (l_prio (L w k) <= l_prio (L w l))%Q) /\
    (forall u k, merge_candidate c w n out u k -> (0 < l_prio (L w k))%Q -> (0 < l_prio (L w l))%Q).
Proof. exact merge_lemma. Qed.
Print Assumptions C38_merge.

(** C38: the moved vehicle is then the last on the link *)
Theorem C38_last : forall c n out v w w', transfer_move c n out v w = Ok w' -> exists q, l_vehs (L w' out) = q ++ [v].
Proof. exact move_last. Qed.
Print Assumptions C38_last.

(** C38: if there is a candidate, room and capacity, one is moved *)
Theorem C38_moves : forall c n out w w', transfer_trial c n out w = Ok w' -> 1 <= l_lanes (L w out) ->
  room c w out -> (dN c <= l_cinr (L w out))%Q -> (dN c <= n_fcapr (N w n))%Q ->
  (exists v l, merge_candidate c w n out v l) ->
  exists v l w1, merge_candidate c w n out v l /\ transfer_move c n out v w1 = Ok w' /\ (w1 = w \/ w1 = sw_draw (S (w_draw w)) w).
Proof. exact moves_lemma. Qed.
Print Assumptions C38_moves.

(** C38 needs non-negative priorities: priorities -1 and 1 sum to zero, count as equal, and the vehicle from the link of lower priority goes first even in deterministic mode *)
Theorem C38_negative_refuted : exists w, reachable cfg_det w /\
  (cand cfg_det 2 2 0 w && cand cfg_det 2 2 1 w && winner_is cfg_det 2 2 0 w &&
   match v_link (V w 0), v_link (V w 1) with Some k, Some l => qlt (l_prio (L w k)) (l_prio (L w l)) | _, _ => false end)%bool = true.
Proof. exact prio_negative_example. Qed.
Print Assumptions C38_negative_refuted.

(** deterministic mode: of two candidates the one from the link of priority 2 wins over priority 1 *)
Example C38_example : exists w, reachable cfg_det w /\
  (cand cfg_det 2 2 0 w && cand cfg_det 2 2 1 w && winner_is cfg_det 2 2 1 w)%bool = true.
Proof. exact prio_example. Qed.

(** random mode: priority 2 wins over 0 *)
Example C38_zero_example : exists w, reachable cfg0 w /\
  (cand cfg0 2 2 0 w && cand cfg0 2 2 1 w && winner_is cfg0 2 2 1 w)%bool = true.
Proof. exact prio_zero_example. Qed.

