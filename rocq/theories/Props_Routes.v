(** * Properties of traveled routes and Route objects (C13, C26). *)
From Coq Require Import Sorted.
From Verif Require Import Base Types Sim Build Reach Steps Spec Registry LinkQueries Route RouteDemo Demo.
Local Open Scope nat_scope.

(** C13: traveled_route never fails; its links are the recorded ones, they exist, form a connected path,
    start at the origin and, if the trip has ended, end at the destination. *)
Theorem C13_connected : forall c w v ad dd, reach c w -> exists_veh w v ->
  exists ls ts, traveled_route w v ad dd = Ok (ls, ts) /\
    ls = links_of (v_tlog (V w v)) /\ Forall (exists_link w) ls /\ connected w ls /\
    (forall l tl, ls = l :: tl -> l_start (L w l) = v_orig (V w v)) /\
    (v_state (V w v) = End_ -> exists ls' l, ls = ls' ++ [l] /\ v_dest (V w v) = Some (l_end (L w l))).
Proof. exact traveled_lemma. Qed.
Print Assumptions C13_connected.

(** C13: one entering time for every link, strictly increasing *)
Theorem C13_times_increase : forall c w v ls ts, (0 < dt c)%Q -> reach c w -> exists_veh w v ->
  traveled_route w v false false = Ok (ls, ts) -> List.length ts = List.length ls /\ StronglySorted Qlt ts.
Proof. exact times_lemma. Qed.
Print Assumptions C13_times_increase.

(** C13: with include_arrival_time: the entering times, then the arrival time, which is not before them, or -1 *)
Theorem C13_arrival : forall c w v ls ts, (0 < dt c)%Q -> reach c w -> exists_veh w v ->
  traveled_route w v true false = Ok (ls, ts) -> exists ts' t, ts = ts' ++ [t] /\ traveled_route w v false false = Ok (ls, ts') /\
    (v_state (V w v) = End_ -> (t == inject_Z (v_arr (V w v)) * dt c)%Q /\ Forall (fun x => (x <= t)%Q) ts') /\
    (v_state (V w v) <> End_ -> (t == -1)%Q).
Proof. exact arrival_lemma. Qed.
Print Assumptions C13_arrival.

(** an arrived vehicle with a route of two links *)
Example C13_not_vacuous : exists w, reachable cfg0 w /\
  ((0 <? w_nv w) && vstate_eqb (v_state (V w 0)) End_ &&
   match traveled_route w 0 true false with
   | Ok (ls, ts) => nlist_eqb ls [0; 2] && (List.length ts =? 3)
   | Err _ => false end)%bool = true.
Proof. exact traveled_example. Qed.

(** C26: Route(W, links) succeeds iff the keys name links of the world which are consecutively adjacent,
    and then holds exactly these links. *)
Theorem C26_route_iff : forall c w ks ls, reach c w -> (route_new w ks = Ok ls <-> named_by w ks ls /\ connected w ls).
Proof. exact route_iff_lemma. Qed.
Print Assumptions C26_route_iff.

(** C26: equality of routes is equality of the link sequences *)
Theorem C26_equal : forall c w a b, reach c w -> Forall (exists_link w) a -> Forall (exists_link w) b ->
  (route_eqb w a b = true <-> a = b).
Proof. exact route_equal_lemma. Qed.
Print Assumptions C26_equal.

(** C26: every traveled route is accepted: see C13_connected, in which traveled_route builds the Route
    object; here explicitly *)
Theorem C26_traveled_accepted : forall c w v, reach c w -> exists_veh w v ->
  route_new w (map KOwn (links_of (v_tlog (V w v)))) = Ok (links_of (v_tlog (V w v))).
Proof. exact traveled_accepted_lemma. Qed.
Print Assumptions C26_traveled_accepted.

(** C26: the travel time of a concatenation *)
Theorem C26_concatenation : forall c w a b t x y, route_time c w a t = Ok x -> route_time c w b (t + x)%Q = Ok y ->
  exists z, route_time c w (a ++ b) t = Ok z /\ (z == x + y)%Q.
Proof. exact route_concat_lemma. Qed.
Print Assumptions C26_concatenation.

(** C26: ... which is defined iff the two parts are *)
Theorem C26_concatenation_fails : forall c w a b t, (exists e, route_time c w (a ++ b) t = Err e) <->
  (exists e, route_time c w a t = Err e) \/ (exists x e, route_time c w a t = Ok x /\ route_time c w b (t + x)%Q = Err e).
Proof. exact route_concat_err_lemma. Qed.
Print Assumptions C26_concatenation_fails.

Example C26_not_vacuous : exists w, reachable cfg0 w /\
  (match route_new w [KOwn 0; KName "link3"] with Ok ls => nlist_eqb ls [0; 2] | Err _ => false end &&
   match route_new w [KOwn 0; KName "link2"] with Ok _ => false | Err _ => true end &&
   match route_time cfg0 w [0; 2] 0 with Ok t => Qeq_bool t 10 | Err _ => false end)%bool = true.
Proof. exact route_example. Qed.
