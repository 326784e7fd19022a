(** * SpecScenario: what a loaded scenario has in common with the saved one (C29). *)
From Verif Require Import Base Types Sim Build Scenario.
Local Open Scope nat_scope.

Definition adds_network (a : act) : Prop := (exists x, a = AOp (OAddNode x)) \/ (exists x, a = AOp (OAddLink x)).
(** [OAddNode]; [OAddLink] with a given capacity_in *)
Definition adds_node (a : act) : Prop := exists x, a = AOp (OAddNode x).
Definition adds_link_cin (a : act) : Prop := exists x, a = AOp (OAddLink x) /\ la_cin x <> None.
Definition one_kind (ds : list dcall) : Prop := forall a b, In a ds -> In b ds -> kind a = kind b.

(** everything of a World but its nodes and links *)
Definition rest (w : world) :=
  (w_nv w, w_nr w, w_vehs w, w_reqs w, w_pending w, w_living w, w_running w, w_T w, w_TIME w, w_tmax w, w_tsize w, w_final w, w_prefveh w,
   (w_rcdist w, w_rcnext w, w_rcpref w, w_rcrec w, w_avgspd w, w_avgcnt w, w_draw w)).

(** a link whose remaining capacity for the first timestep is that of an explicitly given capacity_in *)
Definition restored (c : cfg) (k : link) : link := match l_cin k with Some q => sl_cinr (q * dt c)%Q k | None => k end.

(** the same nodes and links (up to that remaining capacity), vehicles, and everything else *)
Definition recreated (c : cfg) (w w' : world) : Prop :=
  w_nn w' = w_nn w /\ w_nl w' = w_nl w /\ (forall n, n < w_nn w -> N w' n = N w n) /\
  (forall l, l < w_nl w -> L w' l = restored c (L w l)) /\ rest w' = rest w.
