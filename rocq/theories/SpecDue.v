(** * SpecDue: costs of routes on a day of SolverDUE (property C42). *)
From Verif Require Import Base Types Sim Build LinkQueries Route.
Local Open Scope nat_scope.

(** Cost of driving the links [ls] from time [t] on: the actual travel time and the toll of every link, both at the time the
    link is entered. *)
Fixpoint day_cost (c : cfg) (w : world) (ls : list lid) (t : Q) : result Q :=
  match ls with
  | [] => Ok 0%Q
  | l :: tl => x <- actual_travel_time c (L w l) t ;; y <- day_cost c w tl (t + x)%Q ;; Ok (x + get_toll (L w l) t + y)%Q
  end.
(** Cost of the traveled route [ls], entered at the times [ts]: the travel time of the route from the first time on, and the toll
    of every link at the time it was entered. *)
Definition own_cost (c : cfg) (w : world) (ls : list lid) (ts : list Q) (x : Q) : Prop :=
  exists t0 y, nth_error ts 0 = Some t0 /\ route_time c w ls t0 = Ok y /\
    (x == y + qsum (map (fun p => get_toll (L w (fst p)) (snd p)) (combine ls ts)))%Q.
(** [alt] is strictly cheaper than [x] from [t0] on *)
Definition cheaper (c : cfg) (w : world) (t0 x : Q) (alt : list lid) : Prop := exists y, day_cost c w alt t0 = Ok y /\ (y < x)%Q.
(** [alt] is one of the cheapest routes of [alts] *)
Definition cheapest (c : cfg) (w : world) (t0 : Q) (alts : list (list lid)) (alt : list lid) : Prop :=
  In alt alts /\ exists y, day_cost c w alt t0 = Ok y /\ forall b z, In b alts -> day_cost c w b t0 = Ok z -> (y <= z)%Q.
(** tolls that do not depend on the time *)
Definition flat_tolls (w : world) (ls : list lid) : Prop := forall l t t', In l ls -> (get_toll (L w l) t == get_toll (L w l) t')%Q.
(** tolls are functions of the time as a number (not of its representation as a fraction) *)
Definition proper_tolls (w : world) : Prop := forall l t t', (t == t')%Q -> (get_toll (L w l) t == get_toll (L w l) t')%Q.
