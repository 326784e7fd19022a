(** * SpecGenetic: genomes of SolverDSO_GA (C48). *)
From Verif Require Import Base.
Local Open Scope nat_scope.

(** A genome gives every vehicle the number of one of its routes; [maxs] are the numbers of routes. *)
Definition genome := list nat.
Definition valid (maxs : list nat) (g : genome) : Prop := Forall2 (fun x m => x < m) g maxs.
(** [a] and [b] are crossed from [p] and [q]: at every place they have the two genes of the parents, in one order or the other *)
Definition crossed (p q a b : genome) : Prop :=
  List.length a = List.length p /\ List.length b = List.length p /\
  forall i, i < List.length p ->
    (nth i a 0 = nth i p 0 /\ nth i b 0 = nth i q 0) \/ (nth i a 0 = nth i q 0 /\ nth i b 0 = nth i p 0).
(** every gene is the old one, or a new one below its bound *)
Definition mutated (maxs : list nat) (g g' : genome) : Prop :=
  List.length g' = List.length g /\ forall i, i < List.length g -> nth i g' 0 = nth i g 0 \/ nth i g' 0 < nth i maxs 0.
(** [g] is one of the best of [pop] *)
Definition fittest (f : genome -> Q) (pop : list genome) (g : genome) : Prop := In g pop /\ forall h, In h pop -> (f h <= f g)%Q.
