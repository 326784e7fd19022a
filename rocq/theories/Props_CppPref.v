(** * Props_CppPref: preferences of the DUO drivers in the compiled engine (C77). *)
From Verif Require Import Base Types Sim Build Lists Reach Steps Spec SpecDuo CppPref.
Local Open Scope nat_scope.

(** C77: the update of the Python engine, for a given mask of links on cheapest paths *)
Theorem C77_python : forall c w, w_rcpref (homogeneous_DUO_update c w) = py_duo (duo_weight0 c) (w_nl w) (duo_mask w) (w_rcpref w).
Proof. exact py_duo_is. Qed.
Print Assumptions C77_python.

(** C77: after any sequence of updates the preferences are those of the Python engine *)
Theorem C77_same : forall wt nl masks, (0 <= wt)%Q -> (wt <= 1)%Q -> forall k l, l < nl ->
  (d_pref (fold_left (fun s m => cpp_duo wt nl m s) masks cduo0) k l == fold_left (fun p m => py_duo wt nl m p) masks (fun _ _ => 0%Q) k l)%Q.
Proof. exact cpp_duo_same. Qed.
Print Assumptions C77_same.

(** C77: one update of a state of the Python engine, with the compiled state that belongs to it *)
Theorem C77_step : forall c w s, (0 <= duo_weight0 c)%Q -> (duo_weight0 c <= 1)%Q -> duo_same (duo_weight0 c) (w_nl w) (w_rcpref w) s ->
  duo_same (duo_weight0 c) (w_nl w) (w_rcpref (homogeneous_DUO_update c w)) (cpp_duo (duo_weight0 c) (w_nl w) (duo_mask w) s).
Proof. exact cpp_duo_step. Qed.
Print Assumptions C77_step.

(** C77: for weights below 1 the flag of a destination says that its preferences do not sum to 0 *)
Theorem C77_active : forall wt nl masks k, (0 <= wt)%Q -> (wt < 1)%Q -> let s := fold_left (fun s m => cpp_duo wt nl m s) masks cduo0 in
  d_active s k = true <-> ~ (qsum (map (d_pref s k) (seq 0 nl)) == 0)%Q.
Proof. exact active_sum. Qed.
Print Assumptions C77_active.

(** C77: the preferences are between 0 and 1 *)
Theorem C77_bounds : forall wt nl masks, (0 <= wt)%Q -> (wt <= 1)%Q -> forall k l,
  (0 <= d_pref (fold_left (fun s m => cpp_duo wt nl m s) masks cduo0) k l)%Q /\ (d_pref (fold_left (fun s m => cpp_duo wt nl m s) masks cduo0) k l <= 1)%Q.
Proof. exact cpp_duo_bounds. Qed.
Print Assumptions C77_bounds.

(** C77: links of which every update finds exactly one on the cheapest path have preferences that sum to 1, whatever the weight *)
Theorem C77_share : forall wt nl masks k out, masks <> [] -> (forall m, In m masks -> one_of out (m k)) ->
  (qsum (map (d_pref (fold_left (fun s m => cpp_duo wt nl m s) masks cduo0) k) out) == 1)%Q.
Proof. exact cpp_duo_share. Qed.
Print Assumptions C77_share.

(** three updates with weight 1/2, the first one without any route *)
Example C77_example : let s := fold_left (fun s m => cpp_duo (1#2) 3 m s) [on []; on [0; 2]; on [1; 2]] cduo0 in
  d_active s 0 = true /\ (d_pref s 0%nat 0%nat == 1#2)%Q /\ (d_pref s 0%nat 1%nat == 1#2)%Q /\ (d_pref s 0%nat 2%nat == 1)%Q.
Proof. exact duo_example. Qed.

(** with weight 1 the flag can be set although the preferences are 0 *)
Example C77_active_example : let s := fold_left (fun s m => cpp_duo 1 2 m s) [on [0]; on []] cduo0 in d_active s 0 = true /\ (qsum (map (d_pref s 0%nat) (seq 0 2)) == 0)%Q.
Proof. exact active_refuted. Qed.

(** C77: with a weight above 1 the engines can differ *)
Theorem C77_weight_refuted : exists wt masks k l, (1 < wt)%Q /\ l < 3 /\
  ~ (d_pref (fold_left (fun s m => cpp_duo wt 3 m s) masks cduo0) k l == fold_left (fun p m => py_duo wt 3 m p) masks (fun _ _ => 0%Q) k l)%Q.
Proof. exact weight_refuted. Qed.
Print Assumptions C77_weight_refuted.
