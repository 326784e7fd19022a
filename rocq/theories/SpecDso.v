(** * SpecDso: the convergence figures of SolverDUE and SolverDSO_D2D, and congestion externalities (C42, C47). *)
From Verif Require Import Base Types Sim Build LinkQueries Route.
Local Open Scope nat_scope.

(** [b] has, with the cost [f], a cost below [x] *)
Definition improves (f : list lid -> result Q) (x : Q) (b : list lid) : Prop := exists y, f b = Ok y /\ (y < x)%Q.
(** the cost of [a] is one of the least of the routes [alts] *)
Definition least (f : list lid -> result Q) (alts : list (list lid)) (a : list lid) : Prop :=
  In a alts /\ exists y, f a = Ok y /\ forall b z, In b alts -> f b = Ok z -> (y <= z)%Q.

(** Entering the link [k] in timestep [i] means waiting in a queue: the recorded travel time exceeds the free-flow one by more than a
    hundredth, and in the timestep of the exit more vehicles have entered than left. *)
Definition queued (c : cfg) (k : link) (i : nat) : Prop :=
  exists x a d, nth_error (l_tta k) i = Some x /\ (l_len k / l_u k * (101 # 100) < x)%Q /\
    nth_error (l_ca k) (i + Z.to_nat (qtrunc (x / dt c))) = Some a /\ nth_error (l_cd k) (i + Z.to_nat (qtrunc (x / dt c))) = Some d /\ (d < a)%Z.
(** [behind c k i n]: [n] is the number of vehicles that enter after timestep [i] up to the last timestep of the queue (the timesteps from
    [i] on without interruption in which entering means waiting). *)
Definition behind (c : cfg) (k : link) (i : nat) (n : Z) : Prop :=
  exists e a b, i <= e /\ (forall j, i <= j <= e -> queued c k j) /\ ~ queued c k (S e) /\ nth_error (l_ca k) i = Some a /\ nth_error (l_ca k) e = Some b /\ n = (b - a)%Z.
(** [h] timesteps have passed at timestep [o] since the last departure was recorded *)
Definition headway (k : link) (o h : nat) : Prop :=
  h <= o /\ forall m, nth_error (l_cd k) o = Some m ->
    (forall j x, o - h < j <= o -> nth_error (l_cd k) j = Some x -> x = m) /\
    (h = 0 /\ (forall j x, 1 <= j <= o -> nth_error (l_cd k) j = Some x -> x = m) \/
     exists x, nth_error (l_cd k) (o - h) = Some x /\ (x < m)%Z).
