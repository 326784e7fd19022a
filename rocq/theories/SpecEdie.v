(** * SpecEdie: distance and time of trajectories within a region. *)
From Verif Require Import Base Edie.
Local Open Scope nat_scope.

(** the length of the intersection of [x0, x1] and [a, b] *)
Definition overlap (x0 x1 a b : Q) : Q := qmax 0 (qmin x1 b - qmax x0 a)%Q.

(** a segment that goes forward in space and time *)
Definition forward (s : point * point) : Prop :=
  (0 <= px (fst s) /\ px (fst s) <= px (snd s) /\ 0 <= pt (fst s) /\ pt (fst s) <= pt (snd s) /\
   (px (fst s) < px (snd s) -> pt (fst s) < pt (snd s)))%Q.
Definition all_forward (trs : list (list point)) : Prop := forall tr s, In tr trs -> In s (segs tr) -> forward s.

(** the segments that start in the time slice [a, b) *)
Definition starts_in (a b : Q) (s : point * point) : bool := (qle a (pt (fst s)) && qlt (pt (fst s)) b)%bool.
(** the distance driven between a and b *)
Definition dist_in (a b : Q) (s : point * point) : Q := overlap (px (fst s)) (px (snd s)) a b.
(** the time spent between a and b, at constant speed; a standing vehicle is in [a, b) *)
Definition time_in (a b : Q) (s : point * point) : Q :=
  if qlt (px (fst s)) (px (snd s))
  then (dist_in a b s / (px (snd s) - px (fst s)) * (pt (snd s) - pt (fst s)))%Q
  else if (qle a (px (fst s)) && qlt (px (fst s)) b)%bool then (pt (snd s) - pt (fst s))%Q else 0%Q.

Definition all_segs (trs : list (list point)) : list (point * point) := flat_map segs trs.
(** total of f over the segments that start in [a, b) *)
Definition total_from (a b : Q) (f : point * point -> Q) (trs : list (list point)) : Q :=
  qsum (map f (filter (starts_in a b) (all_segs trs))).

(** sum over all cells *)
Definition cell_sum (nt nx : nat) (f : Z -> Z -> Q) : Q :=
  qsum (map (fun i => qsum (map (fun j => f (Z.of_nat i) (Z.of_nat j)) (seq 0 nx))) (seq 0 nt)).

(** the trajectory of a vehicle that stays on the link within [0, len] and the time span [0, tmax] *)
Definition within (len tmax : Q) (trs : list (list point)) : Prop :=
  forall s, In s (all_segs trs) -> (px (snd s) <= len /\ pt (snd s) <= tmax)%Q.
