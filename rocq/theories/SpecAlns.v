(** * SpecAlns: solutions of the adaptive large neighbourhood search (C49). *)
From Verif Require Import Base.
Local Open Scope nat_scope.

(** a solution gives every vehicle the number of a route *)
Definition vec := list nat.
Definition in_domains (ds : list (list nat)) (x : vec) : Prop := List.length x = List.length ds /\ forall i, i < List.length x -> In (nth i x 0) (nth i ds []).
(** [x'] differs from [x] at most at the places [ks], and has values of the domains there *)
Definition redone (ds : list (list nat)) (ks : list nat) (x x' : vec) : Prop :=
  List.length x' = List.length x /\ forall i, i < List.length x -> nth i x' 0 = nth i x 0 \/ (In i ks /\ In (nth i x' 0) (nth i ds [])).
(** [x] is one of least objective among [xs] *)
Definition least (f : vec -> Q) (xs : list vec) (x : vec) : Prop := In x xs /\ forall y, In y xs -> (f x <= f y)%Q.
