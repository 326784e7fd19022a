(** * SpecTT: vehicles leaving a link and the actual travel times (property C35). *)
From Verif Require Import Base Types Sim Build Inv Steps.
Local Open Scope nat_scope.

(** a vehicle that left a link, when it entered it and when it left it *)
Definition exit : Type := (vid * Q * Q)%type.
Definition entered (x : exit) : Q := snd (fst x).
Definition left_at (x : exit) : Q := snd x.
Definition spent (x : exit) : Q := (left_at x - entered x)%Q.

(** the vehicles on link [l], in order, with the times they entered *)
Definition on_link (w : world) (l : lid) : list (vid * Q) := map (fun v => (v, v_larr (V w v))) (l_vehs (L w l)).

(** In a timestep a vehicle leaves a link either to the next link, at the time of the timestep, or because its trip is over, at
    the end of the timestep. *)
Definition leaves (c : cfg) (w w' : world) (x : exit) : Prop :=
  let v := fst (fst x) in
  (left_at x = now c w /\ v_larr (V w' v) = now c w) \/
  (left_at x = (Qof_nat (S (w_T w)) * dt c)%Q /\ ~ alive (v_state (V w' v)) /\ v_larr (V w' v) = entered x).

(** the exits from [l] in the timestep from [w] to [w'], in their order *)
Definition exits_in (c : cfg) (l : lid) (w w' : world) (g : list exit) : Prop :=
  exists new, on_link w l ++ map (fun v => (v, now c w)) new = map fst g ++ on_link w' l /\
    (forall v, In v new -> v_larr (V w' v) = now c w) /\ Forall (leaves c w w') g.

(** all exits from [l] from [w] to [w'] *)
Inductive exits (c : cfg) (P : op -> world -> Prop) (l : lid) (w : world) : world -> list exit -> Prop :=
| ex_start : exits c P l w w []
| ex_tick : forall w1 w2 g g2, exits c P l w w1 g -> w_final w1 = true -> tick c w1 = Ok w2 -> exits_in c l w1 w2 g2 -> exits c P l w w2 (g ++ g2)
| ex_other : forall w1 w2 g, exits c P l w w1 g -> step c P w1 w2 -> w_T w2 = w_T w1 -> on_link w2 l = on_link w1 l -> exits c P l w w2 g.

(** the last exit of a vehicle that entered at or before [t] *)
Definition last_exit (t : Q) (g : list exit) : option exit := last_opt (filter (fun x => qle (entered x) t) g).
