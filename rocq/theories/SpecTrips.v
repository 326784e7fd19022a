(** * SpecTrips: statistics of the trips between areas and of groups of vehicles, in terms of the vehicles. *)
From Verif Require Import Base Types Sim Build Steps Spec SpecStats SpecDelay SpecLinks.
Local Open Scope nat_scope.

(** the trip of [v] leads from a node of [origs] to a node of [dests] *)
Definition makes_trip (w : world) (origs dests : list nid) (v : vid) : bool :=
  match v_dest (V w v) with
  | Some d => existsb (Nat.eqb (v_orig (V w v))) origs && existsb (Nat.eqb d) dests
  | None => false
  end.
Definition trips (w : world) (origs dests : list nid) : list vid := filter (makes_trip w origs dests) (vehicles w).
Definition ended_trips (w : world) (origs dests : list nid) : list vid := filter (has_ended w) (trips w origs dests).
(** those whose group, with the same origin and the same destination, has a completed trip *)
Definition served_trips (w : world) (origs dests : list nid) : list vid := filter (served w) (trips w origs dests).
(** the pairs of areas with trips between them *)
Definition used_pairs (w : world) (areas : list (list nid)) : list (nat * nat) :=
  filter (fun ij => negb (Nat.eqb (List.length (trips w (nth (fst ij) areas []) (nth (snd ij) areas []))) 0))
    (list_prod (seq 0 (List.length areas)) (seq 0 (List.length areas))).
