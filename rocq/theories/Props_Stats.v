(** * Props_Stats: the basic statistics of the analyzer (C27). *)
From Verif Require Import Base Types Sim Build Reach Steps Spec SpecStats Analyzer Demo AnalyzerDemo.
Local Open Scope nat_scope.

(** C27: without an earlier query the statistics are right *)
Theorem C27_statistics : forall c w a, (0 <= dt c)%Q -> (0 < c_deltan c)%Z -> reach c w -> a_od a = None ->
  exists s, a_basic (basic_analysis c w a) = Some s /\ right_stats c w s.
Proof. exact basic_right. Qed.
Print Assumptions C27_statistics.

(** C27: in general they are right for the state at the first query since the finalization, which is the final one without earlier queries *)
Theorem C27_first_query : forall c P tm w a, (0 <= dt c)%Q -> (0 < c_deltan c)%Z -> qlater c P (empty_world tm, new_analyzer) (w, a) ->
  exists w1 s, later c P w1 w /\ a_basic (basic_analysis c w a) = Some s /\ right_stats c w1 s /\ (a_od a = None -> w1 = w).
Proof. exact basic_frozen. Qed.
Print Assumptions C27_first_query.

(** C27: asking again never changes them *)
Theorem C27_repeated : forall c w w' a, basic_analysis c w' (basic_analysis c w a) = basic_analysis c w a.
Proof. exact basic_again. Qed.
Print Assumptions C27_repeated.

(** three of four platoons arrive *)
Example C27_example : exists w a, qlater cfg_det any_op (empty_world (Some 200%Q), new_analyzer) (w, a) /\ test 20 15 675 45 3 (w, a) = true.
Proof. exact stats_example. Qed.

(** C27 fails after an early query (od_to_pandas during the simulation): the final statistics report no completed trip *)
Theorem C27_early_query_refuted : exists w a, qlater cfg_det any_op (empty_world (Some 200%Q), new_analyzer) (w, a) /\
  at_end w = true /\ completed w = 3 /\ exists s, a_basic (basic_analysis cfg_det w a) = Some s /\ st_completed s = 0%Z /\ st_total s = (-1)%Q /\ ~ right_stats cfg_det w s.
Proof. exact stats_refuted. Qed.
Print Assumptions C27_early_query_refuted.
