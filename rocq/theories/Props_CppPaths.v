(** * Props_CppPaths: shortest paths and random routes in the compiled engine (C74, C75). *)
From Verif Require Import Base Types Sim Build Lists Reach Steps Spec SpecDuo SpecRoutes EnumRoutes Demo MotionDemo EnumRoutesDemo CppPaths CppEnum CppPathsDemo.
Local Open Scope nat_scope.

(** C74: the search from every node ends *)
Theorem C74_ends : forall n m s, s < n -> search_from n m s <> None.
Proof. exact cpp_search_ends. Qed.
Print Assumptions C74_ends.

(** C74: the distances are the least costs, and the next node lies on a path of least cost *)
Theorem C74_paths : forall n m, no_negative n m -> paths_ok n m (cpp_dist n m) (no_self (cpp_next n m)).
Proof. exact cpp_paths_ok. Qed.
Print Assumptions C74_paths.

(** C74: every other correct routine, such as that of the Python engine, finds the same distances *)
Theorem C74_same : forall n m d nx i k, no_negative n m -> paths_ok n m d nx -> i < n -> k < n ->
  match cpp_dist n m i k, d i k with Some x, Some y => (x == y)%Q | None, None => True | _, _ => False end.
Proof. exact cpp_dist_same. Qed.
Print Assumptions C74_same.

(** C74: the walk along the next nodes reaches the destination at the least cost, over no node twice *)
Theorem C74_walk : forall n m i k x, no_negative n m -> i < n -> k < n -> cpp_dist n m i k = Some x ->
  exists l c, walk (cpp_next n m) n i k = Some l /\ last (i :: l) i = k /\ NoDup (i :: l) /\ Forall (fun v => v < n) l /\ legs m i l = Some c /\ (c == x)%Q /\ least n m i k x.
Proof. exact cpp_walk. Qed.
Print Assumptions C74_walk.

(** C74: the routine meets the hypothesis that other properties make about it *)
Theorem C74_routine : forall c, c_dijkstra c = (fun n m => (cpp_dist n m, no_self (cpp_next n m))) -> correct_routine c.
Proof. exact cpp_correct_routine. Qed.
Print Assumptions C74_routine.

(** a node that is put into the queue twice, and one that cannot be reached *)
Example C74_example : no_negative 5 five /\ cpp_dist 5 five 0 1 = Some 3%Q /\ cpp_dist 5 five 0 3 = Some 4%Q /\ cpp_next 5 five 0 3 = Some 2 /\ walk (cpp_next 5 five) 5 0 3 = Some [2; 1; 3] /\
  cpp_dist 5 five 0 4 = None /\ cpp_next 5 five 0 4 = None /\ cpp_next 5 five 0 0 = Some 0 /\ cpp_dist 5 five 2 0 = Some 10%Q.
Proof. exact search_example. Qed.

(** C75: for all pairs of different nodes with a route, at most k different simple routes from one to the other; the first one is a shortest one among those of the last links between the nodes *)
Theorem C75_routes : forall c w draw k fuel d, reach c w -> (forall l, exists_link w l -> (0 < ff w l)%Q) -> (forall it l, (0 < draw it l)%Q) ->
  cpp_enumerate w draw k fuel = Some d -> cpp_routes w k d.
Proof. exact cpp_enum_routes. Qed.
Print Assumptions C75_routes.

(** C75: the enumeration ends *)
Theorem C75_stops : forall c w draw k fuel, reach c w -> (forall l, exists_link w l -> (0 < ff w l)%Q) -> (forall it l, (0 < draw it l)%Q) ->
  11 * (k * (w_nn w * w_nn w) + 1) <= fuel -> exists d, cpp_enumerate w draw k fuel = Some d.
Proof. exact cpp_enum_stops. Qed.
Print Assumptions C75_stops.

(** the second route is found when the first one is dear *)
Example C75_example : exists w, reachable cfg_det w /\
  (cpp_b w dear 2 0 3 [[0; 1]; [2; 3]] && cpp_b w dear 1 0 3 [[0; 1]] && cpp_b w dear 2 3 0 [] && cpp_b w ones 2 0 3 [[0; 1]])%bool = true.
Proof. exact enum_example. Qed.

(** C75: the Python engine has pairs of a node with itself, the compiled one does not *)
Theorem C75_self_refuted : exists w d d', reachable cfg_det w /\ enumerate_k_random apd_ref w dear 2 100 = Ok d /\ cpp_enumerate w dear 2 100 = Some d' /\
  In (0, 0) (d_keys d) /\ d_routes d (0, 0) = [[]] /\ ~ In (0, 0) (d_keys d').
Proof. exact self_refuted. Qed.
Print Assumptions C75_self_refuted.

(** C75: without links the Python engine fails, the compiled one does not *)
Theorem C75_empty_refuted : exists w d, reachable cfg_det w /\ enumerate_k_random apd_ref w ones 2 100 = Err ZeroDivisionError /\ cpp_enumerate w ones 2 100 = Some d /\ d_keys d = [].
Proof. exact empty_refuted. Qed.
Print Assumptions C75_empty_refuted.

(** C75: with parallel links the shortest route need not be found *)
Theorem C75_shortest_refuted : exists w d s t r, reachable cfg_det w /\ cpp_enumerate w dear 2 100 = Some d /\ leads w s t r /\ forall r', In r' (d_routes d (s, t)) -> (cost (ff w) r < cost (ff w) r')%Q.
Proof. exact cpp_shortest_refuted. Qed.
Print Assumptions C75_shortest_refuted.
