(** * SpecTaxi: the plans of taxis and the stages of trip requests (properties C30 and C31). *)
From Verif Require Import Base Types Sim Build Inv Steps Rounds.
Local Open Scope nat_scope.

(** the nodes that vehicle [v] has still to visit, in order *)
Definition plan (w : world) (v : vid) : list nid :=
  match v_dest (V w v) with Some d => d :: v_dests (V w v) | None => v_dests (V w v) end.

(** [v] stands at node [n]: it runs, and is at the end of a link that ends there *)
Definition standing (w : world) (v : vid) (n : nid) : Prop :=
  exists l, v_state (V w v) = Run /\ v_link (V w v) = Some l /\ (v_x (V w v) == l_len (L w l))%Q /\ l_end (L w l) = n.

(** [v] entered link [out] in the timestep from [w] to [w']: it is on [out], and has been there since the time of this timestep *)
Definition enters (c : cfg) (w w' : world) (v : vid) (out : lid) : Prop :=
  v_state (V w' v) = Run /\ v_link (V w' v) = Some out /\ (v_larr (V w' v) == now c w)%Q.

(** operations that give a taxi further nodes only at the end of its plan *)
Definition appending (o : op) (w : world) : Prop := forall v d i, o <> OAddDest v d (Some i).

(** ** Trip requests *)
Definition pending (w : world) (r : rid) : Prop := In r (w_pending w).
Definition assigned (w : world) (r : rid) (v : vid) : Prop := r_taxi (R w r) = Some v.

(** what never changes once it is known about a request *)
Definition kept (w w' : world) (r : rid) : Prop :=
  r_orig (R w' r) = r_orig (R w r) /\ r_dest (R w' r) = r_dest (R w r) /\ r_depart (R w' r) = r_depart (R w r) /\
  (forall v, r_taxi (R w r) = Some v -> r_taxi (R w' r) = Some v) /\ (forall t, r_geton (R w r) = Some t -> r_geton (R w' r) = Some t) /\
  (forall t, r_arrived (R w r) = Some t -> r_arrived (R w' r) = Some t) /\ (pending w' r -> pending w r).

(** the stages of a request: pending, assigned, picked up, delivered *)
Inductive stage (w : world) (r : rid) : Prop :=
| sg_pending : pending w r -> r_taxi (R w r) = None -> r_geton (R w r) = None -> r_arrived (R w r) = None -> stage w r
| sg_assigned : forall v, ~ pending w r -> assigned w r v -> v < w_nv w -> v_mode (V w v) = Taxi ->
    r_geton (R w r) = None -> r_arrived (R w r) = None -> stage w r
| sg_riding : forall v t, ~ pending w r -> assigned w r v -> v < w_nv w -> v_mode (V w v) = Taxi ->
    r_geton (R w r) = Some t -> r_arrived (R w r) = None -> (t <= w_TIME w)%Q -> stage w r
| sg_delivered : forall v t t', ~ pending w r -> assigned w r v -> v < w_nv w -> v_mode (V w v) = Taxi ->
    r_geton (R w r) = Some t -> r_arrived (R w r) = Some t' -> (t <= t')%Q -> (t' <= w_TIME w)%Q -> stage w r.

(** a taxi that a round may use *)
Definition is_vacant (w : world) (v : vid) : Prop :=
  v < w_nv w /\ v_mode (V w v) = Taxi /\ v_state (V w v) = Run /\ v_dest (V w v) = None.

(** ** The stops of a taxi *)
(** the node that an operation adds to the plan of [v] *)
Definition gives (w : world) (v : vid) (o : op) : list nid :=
  match o with
  | OAddDest u d _ => if Nat.eqb u v then [d] else []
  | OAssignTaxi u r => if Nat.eqb u v then [r_orig (R w r)] else []
  | _ => []
  end.
(** the node that a timestep adds to the plan of [v]: the destination of a passenger who got on *)
Definition picked (w w' : world) (v : vid) (a : list nid) : Prop :=
  a = [] \/ exists r, a = [r_dest (R w r)] /\ assigned w r v /\ r_geton (R w r) = None /\ r_geton (R w' r) <> None.
(** the node at which [v] stopped in a timestep *)
Definition stopped (w' : world) (v : vid) (b : list nid) : Prop := b = [] \/ exists n, b = [n] /\ standing w' v n.

(** [journey c P v w g s w']: on the way from [w] to [w'] vehicle [v] is given the nodes [g], and stops at the nodes [s], at most one per timestep *)
Inductive journey (c : cfg) (P : op -> world -> Prop) (v : vid) (w : world) : list nid -> list nid -> world -> Prop :=
| jo_start : journey c P v w [] [] w
| jo_op : forall g s w1 o w2, journey c P v w g s w1 -> op_ok o w1 -> P o w1 -> (forall a, o <> OExec a) -> apply_op c o w1 = Ok w2 ->
    journey c P v w (g ++ gives w1 v o) s w2
| jo_tick : forall g s w1 w2 a b, journey c P v w g s w1 -> w_final w1 = true -> tick c w1 = Ok w2 ->
    picked w1 w2 v a -> stopped w2 v b -> journey c P v w (g ++ a) (s ++ b) w2
| jo_time : forall g s w1, journey c P v w g s w1 -> journey c P v w g s (sw_TIME (now c w1) w1).

(** ** Assignment rounds *)
Definition due (w : world) (r : rid) : Prop := (r_depart (R w r) <= w_TIME w)%Q.
Definition due_b (w : world) (r : rid) : bool := qle (r_depart (R w r)) (w_TIME w).

(** [pairs c w ps w']: the requests are assigned to the taxis, one pair after the other *)
Definition pairs (c : cfg) (w : world) (ps : list (rid * vid)) (w' : world) : Prop :=
  foldM (fun p => assign_taxi c (snd p) (fst p)) ps w = Ok w'.
(** every pair uses a pending, due request and a vacant taxi, and nothing is used twice *)
Definition proper (w : world) (ps : list (rid * vid)) : Prop :=
  NoDup (map fst ps) /\ NoDup (map snd ps) /\
  forall r v, In (r, v) ps -> pending w r /\ due w r /\ is_vacant w v.
(** the requests are exactly split into the assigned ones and the pending ones *)
Definition split_up (w : world) (ps : list (rid * vid)) (w' : world) : Prop :=
  w_pending w' = filter (fun r => negb (mem r (map fst ps))) (w_pending w) /\ w_nr w' = w_nr w /\
  (forall r v, In (r, v) ps -> assigned w' r v) /\ (forall r, ~ In r (map fst ps) -> R w' r = R w r).
(** a taxi is chosen that is nearest among the vacant taxis not used before, and within the limit *)
Definition nearest (w : world) (lim : Q -> bool) (vac : list vid) (ps : list (rid * vid)) : Prop :=
  forall ps1 r v ps2, ps = ps1 ++ (r, v) :: ps2 -> exists d, dist2 w v r = Ok d /\ lim d = true /\
    forall u e, In u vac -> ~ In u (map snd ps1) -> dist2 w u r = Ok e -> lim e = true -> (d <= e)%Q.
Definition chosen (h : handler) (w : world) (vac : list vid) (ps : list (rid * vid)) : Prop :=
  match h with
  | HRandom => List.length ps = min (List.length (filter (due_b w) (w_pending w))) (List.length vac)
  | HNearest => List.length ps = min (List.length (filter (due_b w) (w_pending w))) (List.length vac) /\ nearest w (fun _ => true) vac ps
  | HRadius q => nearest w (fun d => qle 0 q && qle d (q * q)) vac ps /\
      (* no match is left over *)
      forall r u e, pending w r -> due w r -> ~ In r (map fst ps) -> In u vac -> ~ In u (map snd ps) ->
        dist2 w u r = Ok e -> qle 0 q && qle e (q * q) = false
  end.
