(** * SpecMfd: density and flow of a set of links in a time slice. *)
From Verif Require Import Base Types Sim Edie SpecEdie.
Local Open Scope nat_scope.

(** the part of the link that is divided into cells *)
Definition covered (len dx : Q) : Q := (inject_Z (qidiv len dx) * dx)%Q.
(** of the trajectories of a link: the distance driven and the time spent on the first [len] metres, of the segments that start in time slice [i] *)
Definition slice_dist (e : Q) (i : nat) (len : Q) (trs : list (list point)) : Q := total_from (Qof_nat i * e) (Qof_nat (S i) * e) (dist_in 0 len) trs.
Definition slice_time (e : Q) (i : nat) (len : Q) (trs : list (list point)) : Q := total_from (Qof_nat i * e) (Qof_nat (S i) * e) (time_in 0 len) trs.
