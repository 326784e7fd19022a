(** * Props_Grid: the grid network of Utilities (C71). *)
From Verif Require Import Base Types Sim Build Reach Steps Registry Spec SpecDuo SpecRoutes Demo Grid GridNet GridDemo.
Local Open Scope nat_scope.

(** C71: the numbers of nodes and links, their names, places and parameters; what was there before stays as it was *)
Theorem C71_network : forall c imax jmax kw w w', generate_grid_network c imax jmax kw w = Ok w' -> grid_over imax jmax kw w w'.
Proof. exact grid_built. Qed.
Print Assumptions C71_network.

(** C71: the call succeeds unless a name is taken or the arguments of the links are refused *)
Theorem C71_succeeds : forall c imax jmax kw w, acceptable c kw ->
  (forall p, in_grid imax jmax p -> ~ In (cell_name p) (node_names w)) ->
  (forall e, ~ In (edge_name e) (link_names w)) ->
  exists w', generate_grid_network c imax jmax kw w = Ok w'.
Proof. exact grid_succeeds. Qed.
Print Assumptions C71_succeeds.

(** C71: ordinary arguments are not refused *)
Theorem C71_arguments : forall c kw, (0 < c_react c)%Q -> 1 <= la_lanes kw -> (0 < la_ffs kw)%Q -> (0 < la_jam kw)%Q -> la_jampl kw = None ->
  acceptable c kw.
Proof. exact plain_acceptable. Qed.
Print Assumptions C71_arguments.

(** C71: neighbours are joined by one link in each direction, other nodes by none *)
Theorem C71_links : forall c imax jmax kw w w' p q, reach c w -> generate_grid_network c imax jmax kw w = Ok w' ->
  in_grid imax jmax p -> in_grid imax jmax q ->
  List.length (links_between w' (cell_node (w_nn w) jmax p) (cell_node (w_nn w) jmax q)) = if manhattan p q =? 1 then 1 else 0.
Proof. exact grid_links. Qed.
Print Assumptions C71_links.

(** C71: between any two nodes there is a route as long as their distance on the grid *)
Theorem C71_route : forall c imax jmax kw w w' p q, generate_grid_network c imax jmax kw w = Ok w' ->
  in_grid imax jmax p -> in_grid imax jmax q ->
  exists r, leads w' (cell_node (w_nn w) jmax p) (cell_node (w_nn w) jmax q) r /\ List.length r = manhattan p q.
Proof. exact grid_route. Qed.
Print Assumptions C71_route.

(** C71: and no shorter one *)
Theorem C71_shortest : forall c imax jmax kw w w' p q r, reach c w -> generate_grid_network c imax jmax kw w = Ok w' ->
  in_grid imax jmax p -> in_grid imax jmax q ->
  leads w' (cell_node (w_nn w) jmax p) (cell_node (w_nn w) jmax q) r -> manhattan p q <= List.length r.
Proof. exact grid_route_bound. Qed.
Print Assumptions C71_shortest.

(** C71: a second grid in the same world is refused *)
Theorem C71_twice : forall c imax jmax kw imax' jmax' kw' w w', 0 < imax -> 0 < jmax -> 0 < imax' -> 0 < jmax' ->
  generate_grid_network c imax jmax kw w = Ok w' -> generate_grid_network c imax' jmax' kw' w' = Err ValueError.
Proof. exact grid_twice. Qed.
Print Assumptions C71_twice.

(** C71: the world is one that addNode and addLink can make *)
Theorem C71_reach : forall c imax jmax kw w w', reach c w -> w_final w = false -> generate_grid_network c imax jmax kw w = Ok w' ->
  reach c w' /\ w_final w' = false.
Proof. exact grid_reach. Qed.
Print Assumptions C71_reach.

(** a grid of three times two nodes *)
Example C71_example : generate_grid_network cfg_det 3 2 kw_demo (empty_world None) = Ok grid_demo /\
  node_names grid_demo = ["n(0, 0)"; "n(0, 1)"; "n(1, 0)"; "n(1, 1)"; "n(2, 0)"; "n(2, 1)"]%string /\
  w_nl grid_demo = 14 /\ l_name (L grid_demo 0) = "l(0, 0, 1, 0)"%string /\ l_name (L grid_demo 1) = "l(0, 0, 0, 1)"%string /\
  map (fun l => (l_start (L grid_demo l), l_end (L grid_demo l))) (seq 0 14) =
    [(0, 2); (0, 1); (1, 3); (1, 0); (2, 4); (2, 0); (2, 3); (3, 5); (3, 1); (3, 2); (4, 2); (4, 5); (5, 3); (5, 4)].
Proof. exact grid_example_lemma. Qed.

(** two of its nodes at distance three; a second grid of one node *)
Example C71_apart_example : in_grid 3 2 (0, 0) /\ in_grid 3 2 (2, 1) /\ manhattan (0, 0) (2, 1) = 3 /\ acceptable cfg_det kw_demo /\
  generate_grid_network cfg_det 1 1 kw_demo grid_demo = Err ValueError.
Proof. exact grid_apart_lemma. Qed.

(** links without lanes *)
Example C71_refused_example : generate_grid_network cfg_det 2 1 (mkLinkArgs None 0 0 1000 20 (2 # 10) None 0 1 [] None None None None) (empty_world None) = Err ZeroDivisionError /\
  exists w, generate_grid_network cfg_det 1 1 (mkLinkArgs None 0 0 1000 20 (2 # 10) None 0 1 [] None None None None) (empty_world None) = Ok w.
Proof. exact grid_refused_lemma. Qed.
