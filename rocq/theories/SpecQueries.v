(** * SpecQueries: what the count and travel-time queries of links have to return (C23, C45). *)
From Verif Require Import Base Types Sim Build Inv Steps SpecTT.
Local Open Scope nat_scope.

(** [x] is the record of [l] for time [t]: that of the timestep containing [t]; the first one before 0, the last one after the end *)
Definition record_at {A} (c : cfg) (l : list A) (t : Q) (x : A) : Prop :=
  (exists k, nth_error l k = Some x /\ (Qof_nat k * dt c <= t)%Q /\ (t < (Qof_nat k + 1) * dt c)%Q) \/
  ((t < 0)%Q /\ nth_error l 0 = Some x) \/
  ((Qof_nat (List.length l) * dt c <= t)%Q /\ last_opt l = Some x).

(** the arithmetic mean *)
Definition mean (xs : list Q) : Q := (qsum xs / Qof_nat (List.length xs))%Q.

(** the vehicle entered in [t0, t1) *)
Definition during (t0 t1 : Q) (x : exit) : bool := (qle t0 (entered x) && qlt (entered x) t1)%bool.
