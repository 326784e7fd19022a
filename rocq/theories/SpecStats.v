(** * SpecStats: the basic statistics of a world, in terms of its vehicles. *)
From Verif Require Import Base Types Sim.
Local Open Scope nat_scope.

Definition vehicles (w : world) : list vid := seq 0 (w_nv w).
Definition has_dest (w : world) (v : vid) : bool := match v_dest (V w v) with Some _ => true | None => false end.
Definition has_ended (w : world) (v : vid) : bool := match v_state (V w v) with End_ => true | _ => false end.
(** numbers of platoons *)
Definition with_dest (w : world) : nat := List.length (filter (has_dest w) (vehicles w)).
Definition completed (w : world) : nat := List.length (filter (has_ended w) (vehicles w)).
(** the sum of the travel times of the ended platoons *)
Definition times (w : world) : Q := qsum (map (fun v => v_tt (V w v)) (filter (has_ended w) (vehicles w))).

(** The values of the property: trip_all, trip_completed, total_travel_time, average_travel_time. Without a completed
    trip the code reports -1 for the last two. *)
Record stats := mkStats { st_all : Z; st_completed : Z; st_total : Q; st_average : Q }.
Definition right_stats (c : cfg) (w : world) (s : stats) : Prop :=
  st_all s = (c_deltan c * Z.of_nat (with_dest w))%Z /\
  st_completed s = (c_deltan c * Z.of_nat (completed w))%Z /\
  (completed w <> 0 -> (st_total s == inject_Z (c_deltan c) * times w)%Q /\ (st_average s == times w / Qof_nat (completed w))%Q) /\
  (completed w = 0 -> st_total s = (-1)%Q /\ st_average s = (-1)%Q).
