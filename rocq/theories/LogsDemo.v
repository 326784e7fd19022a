(** * LogsDemo: the log of a trip. *)
From Verif Require Import Base Types Sim Build Tac Reach Steps Spec SpecLogs Paths Demo MotionDemo.
Local Open Scope string_scope.
Local Open Scope nat_scope.

Definition state_eqb (a b : vstate) : bool := match a, b with Home, Home | Wait, Wait | Run, Run | End_, End_ | Abort, Abort => true | _, _ => false end.
Definition row_is (e : Q * vstate * option (lid * Q)) (r : logrow) : bool :=
  let '(t, s, p) := e in
  (Qeq_bool (g_t r) t && state_eqb (g_state r) s &&
   match p, g_link r, g_x r with
   | None, None, None => true
   | Some (l, x), Some l', Some x' => Nat.eqb l l' && Qeq_bool x x'
   | _, _, _ => false
   end)%bool.
Fixpoint rows_are (es : list (Q * vstate * option (lid * Q))) (rs : list logrow) : bool :=
  match es, rs with
  | [], [] => true
  | e :: es, r :: rs => row_is e r && rows_are es rs
  | _, _ => false
  end.

(** A vehicle created in timestep 0 that drives over two links: 12 rows, one per timestep, and the final row. *)
Lemma log_example : exists w, reachable cfg_det w /\
  (Z.eqb (c_logint cfg_det) 1 && state_eqb (v_state (V w 0)) End_ && Nat.eqb (w_T w) 17 &&
   rows_are [(0, Home, None); (5, Run, Some (0%nat, 0)); (10, Run, Some (0%nat, 100)); (15, Run, Some (0%nat, 200)); (20, Run, Some (0%nat, 300));
     (25, Run, Some (0%nat, 400)); (30, Run, Some (0%nat, 500)); (35, Run, Some (1%nat, 80)); (40, Run, Some (1%nat, 180)); (45, Run, Some (1%nat, 280));
     (50, Run, Some (1%nat, 380)); (55, Run, Some (1%nat, 480)); (55, End_, None)]%Q (v_log (V w 0)))%bool = true.
Proof. apply (play_witness cfg_det (row_net ++ [OExec (UntilT 80)])%list (Some 200%Q)). vm_compute. reflexivity. Qed.

(** A vehicle in the middle of its trip, and one that has not departed: their logs have one row per timestep since 0. *)
Lemma log_running_example : exists w, reachable cfg_det w /\
  (state_eqb (v_state (V w 0)) Run && Nat.eqb (w_T w) 4 &&
   rows_are [(0, Home, None); (5, Run, Some (0%nat, 0)); (10, Run, Some (0%nat, 100)); (15, Run, Some (0%nat, 200))]%Q (v_log (V w 0)))%bool = true.
Proof. apply (play_witness cfg_det (row_net ++ [OExec (UntilT 15)])%list (Some 200%Q)). vm_compute. reflexivity. Qed.
