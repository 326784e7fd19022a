(** * Names (C28). *)
From Verif Require Import Base Types Sim Build Reach Steps Spec Demo Registry DemandDemo.
Local Open Scope nat_scope.

(** C28: names are unique. *)
Theorem C28_unique : forall c w, reach c w -> NoDup (node_names w) /\ NoDup (link_names w) /\ NoDup (veh_names w).
Proof. exact unique_lemma. Qed.
Print Assumptions C28_unique.

(** C28: adding an object under a used name raises. *)
Theorem C28_used_name_raises : forall c w,
  (forall a, In (na_name a) (node_names w) -> forall w', add_node c a w <> Ok w') /\
  (forall a, In (link_name_of w a) (link_names w) -> forall w', add_link c a w <> Ok w') /\
  (forall a s, va_name a = Some s -> In s (veh_names w) -> forall w', add_vehicle c a w <> Ok w').
Proof. exact used_name_lemma. Qed.
Print Assumptions C28_used_name_raises.

(** C28: a new object gets the next id and the name asked for. *)
Theorem C28_new_object : forall c w w',
  (forall a, add_node c a w = Ok w' -> w_nn w' = S (w_nn w) /\ n_name (N w' (w_nn w)) = na_name a) /\
  (forall a, add_link c a w = Ok w' -> w_nl w' = S (w_nl w) /\ l_name (L w' (w_nl w)) = link_name_of w a) /\
  (forall a, add_vehicle c a w = Ok w' -> w_nv w' = S (w_nv w) /\
     v_name (V w' (w_nv w)) = match va_name a with Some s => s | None => dec (w_nv w) end).
Proof. exact new_object_lemma. Qed.
Print Assumptions C28_new_object.

(** C28: at any later time, get_node(name) is the node created under this name. *)
Theorem C28_get_node : forall c P w w' n, reach c w -> exists_node w n -> later c P w w' ->
  get_node w' (KName (n_name (N w n))) = Ok (Some n).
Proof. exact get_node_lemma. Qed.
Print Assumptions C28_get_node.
Theorem C28_get_link : forall c P w w' n, reach c w -> exists_link w n -> later c P w w' ->
  get_link w' (KName (l_name (L w n))) = Ok (Some n).
Proof. exact get_link_lemma. Qed.
Print Assumptions C28_get_link.

(** C28: what the lookups return, for every argument; unknown names raise. *)
Theorem C28_get_node_sound : forall w k r, get_node w k = Ok r ->
  match k with
  | KNone => r = None
  | KOwn i => r = Some i /\ exists_node w i
  | KForeign s | KName s => exists n, r = Some n /\ exists_node w n /\ n_name (N w n) = s
  | KOther => False
  end.
Proof. exact get_node_sound_lemma. Qed.
Print Assumptions C28_get_node_sound.
Theorem C28_get_link_sound : forall w k r, get_link w k = Ok r ->
  match k with
  | KNone => r = None
  | KOwn i => r = Some i /\ exists_link w i
  | KForeign s | KName s => exists n, r = Some n /\ exists_link w n /\ l_name (L w n) = s
  | KOther => False
  end.
Proof. exact get_link_sound_lemma. Qed.
Print Assumptions C28_get_link_sound.
Theorem C28_unknown_raises : forall w s,
  (~ In s (node_names w) -> get_node w (KName s) = Err Exception_) /\
  (~ In s (link_names w) -> get_link w (KName s) = Err Exception_).
Proof. exact get_unknown_lemma. Qed.
Print Assumptions C28_unknown_raises.

Example C28_not_vacuous : exists w, reachable cfg0 w /\ names_test w = true.
Proof. exact names_run. Qed.
