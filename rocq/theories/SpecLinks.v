(** * SpecLinks: statistics of links and areas, in terms of the vehicles that left them and of the routes of the vehicles. *)
From Verif Require Import Base Types Sim Build Steps Spec SpecTT SpecStats.
Local Open Scope nat_scope.

(** the travel time of the last vehicle that entered at or before timestep [j]; [ff] if there is none *)
Definition travel_at (c : cfg) (ff : Q) (g : list exit) (j : nat) : Q :=
  match last_exit (Qof_nat j * dt c) g with Some x => spent x | None => ff end.
Definition mean (xs : list Q) : Q := (qsum xs / Qof_nat (List.length xs))%Q.
(** the mean over the vehicles *)
Definition mean_spent (g : list exit) : Q := mean (map spent g).

(** the links of an area: both ends, or at least one end if the border is included *)
Definition of_area (w : world) (area : list nid) (border : bool) (l : lid) : bool :=
  let a := existsb (Nat.eqb (l_start (L w l))) area in
  let b := existsb (Nat.eqb (l_end (L w l))) area in
  if border then a || b else a && b.
Definition area_links (w : world) (area : list nid) (border : bool) : list lid := filter (of_area w area border) (seq 0 (w_nl w)).
(** the vehicles whose route has a link of the area *)
Definition visits (w : world) (area : list nid) (border : bool) (v : vid) : bool :=
  existsb (of_area w area border) (route_of (V w v)).
Definition visitors (w : world) (area : list nid) (border : bool) : nat := List.length (filter (visits w area border) (vehicles w)).

(** names which the log of all vehicles uses for vehicles that are on no link *)
Definition reserved (s : string) : Prop := s = "waiting_at_origin_node"%string \/ s = "trip_aborted"%string \/ s = "trip_end"%string.
