(** * SpecTsn: walks in the time-space network and least costs (property C61). *)
From Verif Require Import Base Types Sim Build Steps Spec LinkQueries Route Tsn.
Local Open Scope nat_scope.

Inductive twalk (es : list gedge) : gnode -> gnode -> Q -> Prop :=
| tw_here : forall u, twalk es u u 0
| tw_edge : forall u v x q r, In (u, v, q) es -> twalk es v x r -> twalk es u x (q + r).

(** [f] gives the least cost of the walks from [s], and nothing for nodes that cannot be reached (this is what
    [nx.single_source_dijkstra] is relied on for) *)
Definition least_costs (es : list gedge) (s : gnode) (f : gnode -> option Q) : Prop :=
  forall v, match f v with
            | Some q => (exists y, twalk es s v y /\ (y == q)%Q) /\ forall y, twalk es s v y -> (q <= y)%Q
            | None => forall y, ~ twalk es s v y
            end.

(** the recorded travel time of a link for the timestep of time [t] *)
Definition time_at (c : cfg) (w : world) (l : lid) (t : Z) : option Q := nth_error (l_tta (L w l)) (Z.to_nat (qtrunc (inject_Z t / dt c))).
(** the last multiple of [d] up to [t + x] *)
Definition arrive (d t : Z) (x : Q) : Z := (qtrunc ((inject_Z t + x) / inject_Z d) * d)%Z.

(** Driving the links [r] from time [t] takes [q] and ends at time [t'], if the times at the nodes are rounded down to multiples
    of [d]; all of them are before [tmax]. *)
Inductive drive (c : cfg) (w : world) (d tmax : Z) : list lid -> Z -> Q -> Z -> Prop :=
| dr_stop : forall t, drive c w d tmax [] t 0 t
| dr_link : forall l r t x q t', time_at c w l t = Some x -> (arrive d t x < tmax)%Z -> drive c w d tmax r (arrive d t x) q t' ->
    drive c w d tmax (l :: r) t (x + q) t'.

(** Driving the links [r] from time [t], with the travel times of [Link.actual_travel_time] and without rounding, reaches all
    nodes before [tm]. *)
Fixpoint in_time (c : cfg) (w : world) (r : list lid) (t tm : Q) : Prop :=
  match r with
  | [] => True
  | l :: tl => exists x, actual_travel_time c (L w l) t = Ok x /\ (t + x < tm)%Q /\ in_time c w tl (t + x)%Q tm
  end.

(** every recorded travel time is a multiple of the timestep *)
Definition whole_times (c : cfg) (w : world) : Prop := forall l q, l < w_nl w -> In q (l_tta (L w l)) -> exists k : nat, (q == Qof_nat k * dt c)%Q.
(** no recorded travel time is negative *)
Definition sane_times (w : world) : Prop := forall l q, l < w_nl w -> In q (l_tta (L w l)) -> (0 <= q)%Q.
