(** * TaxiStatsDemo: witnesses for Props_TaxiStats. *)
From Verif Require Import Base Types Sim Build Reach Steps Spec Demo Rounds SpecTaxi ExecDemo TaxiDemo TaxiStats.
Local Open Scope nat_scope.

(** ** Statistics of a small service *)
Definition service : list op :=
  some_taxis ++ [OFinalize None; OAssignTaxi 0 0; OAssignTaxi 1 1; OExec (UntilT 20); OAssignTaxi 2 3; OExec (UntilT 60)].
Definition on_time_b (o : op) (w : world) : bool := match o with OAssignTaxi _ r => due_b w r | _ => true end.
Lemma on_time_b_ok : forall o w, on_time_b o w = true -> on_time o w.
Proof. intros o w H v r ->. unfold on_time_b, due_b, qle in H. unfold due. apply Qle_bool_iff. exact H. Qed.
Definition service_test (w : world) : bool :=
  match compute_stats cfg0 w with
  | Ok s => Z.eqb (ts_total s) 20 && Z.eqb (ts_done s) 15 && Z.eqb (ts_taxis s) 15 && (List.length (ts_wait s) =? 3) &&
            Qeq_bool (mean0 (ts_travel s)) 15 && Qeq_bool (mean0 (ts_wait s)) (25 # 3)
  | Err _ => false
  end.
Lemma service_example : exists w s, reachP cfg0 on_time w /\ compute_stats cfg0 w = Ok s /\ ts_total s = 20%Z /\ ts_done s = 15%Z /\ ts_taxis s = 15%Z /\
  List.length (ts_wait s) = 3 /\ (mean0 (ts_travel s) == 15)%Q /\ (mean0 (ts_wait s) == 25 # 3)%Q.
Proof.
  destruct (playP_witness cfg0 on_time on_time_b service (Some 200%Q) service_test) as (w & Rw & T); [apply on_time_b_ok|intros w v r K; discriminate K|vm_compute; reflexivity|].
  unfold service_test in T. destruct (compute_stats cfg0 w) as [s|] eqn:E; [|discriminate T]. exists w, s. split; [exact Rw|]. split; [exact E|]. clear E.
  repeat (apply andb_true_iff in T; let X := fresh "X" in destruct T as [T X]).
  apply Z.eqb_eq in T, X3, X2. apply Nat.eqb_eq in X1. apply Qeq_bool_iff in X0, X. repeat split; assumption.
Qed.

(** a request that is assigned before it is due: a negative waiting time and a negative travel time *)
Definition early : list op := ring ++ [OAddRequest 2 1 100; OFinalize None; OAssignTaxi 0 0; OExec (UntilT 50)].
Lemma early_lemma : exists c w s, (0 < dt c)%Q /\ reach c w /\ compute_stats c w = Ok s /\ (mean0 (ts_wait s) == -95)%Q /\ (mean0 (ts_travel s) == -85)%Q /\ (mean0 (ts_ride s) == 10)%Q.
Proof.
  destruct (play_witness cfg0 early (Some 200%Q) (fun w => match compute_stats cfg0 w with
    | Ok s => Qeq_bool (mean0 (ts_wait s)) (-95) && Qeq_bool (mean0 (ts_travel s)) (-85) && Qeq_bool (mean0 (ts_ride s)) 10 | Err _ => false end)) as (w & Rw & T); [vm_compute; reflexivity|].
  destruct (compute_stats cfg0 w) as [s|] eqn:E; [|discriminate T]. exists cfg0, w, s. split; [reflexivity|]. split; [apply reachable_reach; exact Rw|]. split; [exact E|]. clear E.
  repeat (apply andb_true_iff in T; let X := fresh "X" in destruct T as [T X]). apply Qeq_bool_iff in T, X, X0. auto.
Qed.

(** the statistics cannot be printed when there are no taxis *)
Lemma no_taxi_lemma : exists c w s, (0 < dt c)%Q /\ reach c w /\ compute_stats c w = Ok s /\ print_stats c w = Err ZeroDivisionError.
Proof.
  destruct (play_witness cfg0 [OFinalize None] (Some 200%Q) (fun w => match compute_stats cfg0 w, print_stats cfg0 w with
    | Ok s, Err ZeroDivisionError => true | _, _ => false end)) as (w & Rw & T); [vm_compute; reflexivity|].
  destruct (compute_stats cfg0 w) as [s|] eqn:E; [|discriminate T]. destruct (print_stats cfg0 w) as [|[]] eqn:E2; try discriminate T.
  exists cfg0, w, s. split; [reflexivity|]. split; [apply reachable_reach; exact Rw|]. auto.
Qed.

(** ** Names *)
Definition named : list op := [ node_ "A"; node_ "B"; link_ "AB" 0 1 100; OAddRequest 0 1 0; OAddRequest 1 0 0; OFinalize None; OExec (UntilT 10) ].
Lemma names_example : exists w, valid cfg0 named (empty_world (Some 100%Q)) /\ forallb (fun o => negb (is_assign o)) named = true /\
  names cfg0 named (empty_world (Some 100%Q)) [] = Some (w, [0; 1]).
Proof.
  destruct (names cfg0 named (empty_world (Some 100%Q)) []) as [[w ns]|] eqn:E.
  - exists w. split; [vm_compute; repeat split; try lia; auto|]. split; [reflexivity|].
    assert (H : match names cfg0 named (empty_world (Some 100%Q)) [] with Some (_, l) => l | None => [] end = [0; 1]) by (vm_compute; reflexivity).
    rewrite E in H. rewrite H. reflexivity.
  - exfalso. assert (H : match names cfg0 named (empty_world (Some 100%Q)) [] with Some _ => true | None => false end = true) by (vm_compute; reflexivity).
    rewrite E in H. discriminate H.
Qed.
(** after an assignment the next request is given a name that is in use: under this name only the older request is found *)
Definition renamed : list op := ring ++ [OAddRequest 2 1 0; OFinalize None; OAssignTaxi 0 0; OAddRequest 2 1 0].
Lemma names_refuted_lemma : exists c os w ns, valid c os (empty_world (Some 200%Q)) /\ names c os (empty_world (Some 200%Q)) [] = Some (w, ns) /\
  w_nr w = 2 /\ nth_error ns 0 = Some 0 /\ nth_error ns 1 = Some 0 /\ get_trip ns 0 0 = Ok 0 /\ forall k, get_trip ns k 0 <> Ok 1.
Proof.
  exists cfg0, renamed. destruct (names cfg0 renamed (empty_world (Some 200%Q)) []) as [[w ns]|] eqn:E.
  - exists w, ns. split; [vm_compute; repeat split; try lia; auto|]. split; [reflexivity|].
    assert (H : match names cfg0 renamed (empty_world (Some 200%Q)) [] with Some (x, l) => (w_nr x, l) | None => (0, []) end = (2, [0; 0])) by (vm_compute; reflexivity).
    rewrite E in H. injection H as H1 H2. subst ns. rewrite H1. repeat split. intros k. cbn. destruct (Nat.eqb k 0); discriminate.
  - exfalso. assert (H : match names cfg0 renamed (empty_world (Some 200%Q)) [] with Some _ => true | None => false end = true) by (vm_compute; reflexivity).
    rewrite E in H. discriminate H.
Qed.
