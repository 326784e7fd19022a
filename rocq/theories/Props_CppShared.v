(** * Props_CppShared: solution of the compiled system-optimum solver and its statistics (C79). *)
From Verif Require Import Base Types Sim Build Lists Tac Reach Steps Spec Registry LinkQueries Route SpecDue Due SpecDso Dso CppShared.
Local Open Scope nat_scope.

(** C79: the days never fail; the solution is that of the Python solver, and its statistics remain those of its own day *)
Theorem C79_solution : forall days, exists s, foldM cpp_best_day days shared0 = Ok s /\ h_best s = option_map fst (best_day days 0 None) /\
  forall j a, best_day days 0 None = Some (j, a) -> h_avg s = Some a /\ day_stats s j = Some (j, a).
Proof. exact shared_best. Qed.
Print Assumptions C79_solution.

(** C79: the statistics that are read after the simulation of a day are those of the day *)
Theorem C79_day : forall d s s', cpp_best_day d s = Ok s' -> List.length (h_ptr s') = S (List.length (h_ptr s)) /\ day_stats s' (List.length (h_ptr s)) = Some (List.length (h_ptr s), snd d).
Proof. exact shared_last. Qed.
Print Assumptions C79_day.

(** four days, the first of them with unfinished trips *)
Example C79_example : exists s, foldM cpp_best_day [(false, 1%Q); (true, 9%Q); (true, 7%Q); (true, 8%Q)] shared0 = Ok s /\ h_best s = Some 2 /\ day_stats s 2 = Some (2, 7%Q) /\ day_stats s 3 = Some (3, 8%Q).
Proof. exact shared_example. Qed.

(** C79: the worlds of other days can lose their statistics: they show a later world *)
Theorem C79_others_refuted : exists days s i a b, foldM cpp_best_day days shared0 = Ok s /\ nth_error days i = Some (true, a) /\ day_stats s i = Some b /\ ~ (snd b == a)%Q /\ fst b <> i.
Proof. exact shared_refuted. Qed.
Print Assumptions C79_others_refuted.
