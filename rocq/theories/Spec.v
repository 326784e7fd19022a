(** * Spec: the vocabulary of the theorem statements.

    Nothing here depends on how the model's functions are written; only on its records. *)
From Verif Require Import Base Types Sim Build.

(** how often [x] occurs in [l] *)
Definition times (x : nat) (l : list nat) : nat := count_occ Nat.eq_dec l x.

Definition exists_veh (w : world) (v : vid) : Prop := v < w_nv w.
Definition exists_link (w : world) (l : lid) : Prop := l < w_nl w.
Definition exists_node (w : world) (n : nid) : Prop := n < w_nn w.

Definition on_link (w : world) (v : vid) (l : lid) : Prop :=
  v_state (V w v) = Run /\ v_link (V w v) = Some l.
Definition waiting_at (w : world) (v : vid) (n : nid) : Prop :=
  v_state (V w v) = Wait /\ v_orig (V w v) = n.

(** The containers of the World agree with the states of its vehicles: every container lists
    exactly the vehicles in the corresponding state, each once. *)
Record books_agree (w : world) : Prop := mkBooks {
  ba_living : forall v, times v (w_living w) = 1 <->
      exists_veh w v /\ (v_state (V w v) = Home \/ v_state (V w v) = Wait \/ v_state (V w v) = Run);
  ba_living1 : forall v, times v (w_living w) <= 1;
  ba_running : forall v, times v (w_running w) = 1 <-> exists_veh w v /\ v_state (V w v) = Run;
  ba_running1 : forall v, times v (w_running w) <= 1;
  ba_link : forall l v, times v (l_vehs (L w l)) = 1 <-> exists_veh w v /\ on_link w v l;
  ba_link1 : forall l v, times v (l_vehs (L w l)) <= 1;
  ba_attr : forall v, exists_veh w v ->
      (v_state (V w v) = Run -> exists l, v_link (V w v) = Some l /\ exists_link w l) /\
      (v_state (V w v) <> Run -> v_link (V w v) = None);
  ba_queue : forall n v, times v (n_queue (N w n)) = 1 <-> exists_veh w v /\ waiting_at w v n;
  ba_queue1 : forall n v, times v (n_queue (N w n)) <= 1;
  ba_orig : forall v, exists_veh w v -> exists_node w (v_orig (V w v)) }.

(** The vehicle [k] places ahead of place [i] in the queue of link [l]. *)
Definition ahead (w : world) (l : lid) (i k : nat) : option vid :=
  if i <? k then None else nth_error (l_vehs (L w l)) (i - k).

(** ** Cumulative curves *)

(** a curve that never decreases *)
Definition nondecreasing (l : list Z) : Prop :=
  forall i j a b, i <= j -> nth_error l i = Some a -> nth_error l j = Some b -> (a <= b)%Z.

(** last recorded value, 0 before the first timestep *)
Definition latest (l : list Z) : Z := List.last l 0%Z.

(** The curves of link [k], on which [n] platoons are, after [t] timesteps. *)
Record curves_ok (c : cfg) (t : nat) (k : link) (n : nat) : Prop := mkCurves {
  cv_arrivals : List.length (l_ca k) = t;
  cv_departures : List.length (l_cd k) = t;
  cv_now : (latest (l_ca k) - latest (l_cd k) = c_deltan c * Z.of_nat n)%Z;
  cv_up_a : nondecreasing (l_ca k);
  cv_up_d : nondecreasing (l_cd k);
  cv_order : forall i a d, nth_error (l_ca k) i = Some a -> nth_error (l_cd k) i = Some d ->
               (0 <= d <= a)%Z }.

(** Between [w] and [w'] the vehicles [a] entered link [l], in this order, and [d] vehicles
    left it, each time the one that had been there longest. *)
Definition in_out (w w' : world) (l : lid) (a : list vid) (d : nat) : Prop :=
  l_vehs (L w' l) = skipn d (l_vehs (L w l) ++ a) /\ d <= List.length (l_vehs (L w l) ++ a).

(** ** Trips *)

(** the order of the states of a trip: home, wait, run, then end or abort *)
Inductive may_become : vstate -> vstate -> Prop :=
| mb_refl : forall s, may_become s s
| mb_home : forall s, may_become Wait s -> may_become Home s
| mb_wait : forall s, may_become Run s -> may_become Wait s
| mb_end : may_become Run End_
| mb_abort : may_become Run Abort.

(** consecutive links meet: each starts at the node where the one before ends *)
Fixpoint connected (w : world) (ls : list lid) : Prop :=
  match ls with
  | a :: ((b :: _) as tl) => l_end (L w a) = l_start (L w b) /\ connected w tl
  | _ => True
  end.
(** the links of log_t_link, in order *)
Definition links_of (log : list (Q * place)) : list lid :=
  flat_map (fun e => match snd e with PLink l => [l] | _ => [] end) log.

(** ** Signals *)

(** how many timesteps of length [d] a phase with [g] seconds left is shown: floor(g/d)+1 *)
Definition green_steps (d g : Q) : nat := Z.to_nat (Qfloor (g / d) + 1).
(** the phase in which step [k] of a cycle falls, if phase [i] takes [nth i ds] steps *)
Fixpoint phase_at (ds : list nat) (k : nat) : nat :=
  match ds with
  | [] => 0
  | d :: tl => if k <? d then 0 else S (phase_at tl (k - d))
  end.
Definition total (ds : list nat) : nat := fold_right Nat.add 0 ds.
(** The phase shown in the [k]-th timestep from now (k = 0, 1, ...), if phase [ph] has now been
    active for [t] seconds: the rest of this phase, then the phases in cyclic order. *)
Definition signal_plan (d : Q) (sig : list Q) (ph : nat) (t : Q) (k : nat) : nat :=
  let ds := map (green_steps d) sig in
  let r := green_steps d (nth ph sig 0%Q - t) in
  if k <? r then ph
  else phase_at ds ((total (firstn (S ph) ds) + (k - r)) mod (total ds)).
(** seconds [x] after the start of a cycle with green times [sig]: [t] seconds into phase [i],
    after [m] whole cycles *)
Definition cycle_position (sig : list Q) (x : Q) (i : nat) (t : Q) : Prop :=
  i < List.length sig /\ (0 <= t < nth i sig 0)%Q /\
  exists m : nat, (x == inject_Z (Z.of_nat m) * qsum sig + qsum (firstn i sig) + t)%Q.

(** ** Running the simulation *)

(** the configuration with another random generator *)
Definition reseed (o : nat -> nat) (q : nat -> Q) (c : cfg) : cfg :=
  mkCfg (c_deltan c) (c_react c) (c_duo_time c) (c_duo_weight c) (c_duo_noise c) (c_princ c)
        (c_gradual c) (c_tti_interval c) (c_nocyclic c) (c_adjust c) (c_logint c) (c_delpref c)
        (c_det c) (c_eulardt c) o q (c_dijkstra c).
(** the state with another W.TIME and other trip requests *)
Definition retime (t : Q) (rq : rid -> request) (w : world) : world := sw_reqs rq (sw_TIME t w).

(** states that differ only in W.TIME and in the values of the time stamps of trip requests *)
Definition same_request (a b : request) : Prop :=
  r_orig a = r_orig b /\ r_dest a = r_dest b /\ r_depart a = r_depart b /\ r_taxi a = r_taxi b /\
  (r_geton a = None <-> r_geton b = None) /\ (r_arrived a = None <-> r_arrived b = None).
Definition same_state (w1 w2 : world) : Prop :=
  exists t rq, w2 = retime t rq w1 /\ forall r, same_request (R w1 r) (rq r).
Definition same_result (r1 r2 : result world) : Prop :=
  match r1, r2 with Ok a, Ok b => same_state a b | Err e, Err f => e = f | _, _ => False end.
(** The loop [while W.check_simulation_ongoing(): W.exec_simulation(duration_t2=d)] *)
Fixpoint run_loop (c : cfg) (d : Q) (fuel : nat) (w : world) : result world :=
  if check_ongoing w then
    match fuel with
    | O => Err Nontermination
    | S k => '(_, w1) <- exec_simulation c (DurationT2 d) w ;; run_loop c d k w1
    end
  else Ok w.


(** ** Demand *)
(** [fl] is the flow rate asked for: [volume/(t_end-t_start)] if a positive volume is given, else [flow] *)
Definition flow_asked (t0 t1 flow volume fl : Q) : Prop :=
  (0 < volume /\ fl * (t1 - t0) == volume)%Q \/ (volume <= 0 /\ fl == flow)%Q.

(** no vehicle has a name (decimal id) that a later vehicle would get automatically *)
Definition auto_names_free (w : world) : Prop := forall k, w_nv w <= k -> ~ In (dec k) (veh_names w).

(** ** Choice of the next link *)
(** [l] may be chosen by [a] from [outs]: it is one of them, it is preferred if one of them is, and it is not avoided *)
Definition admissible (a : vehicle) (outs : list lid) (l : lid) : Prop :=
  In l outs /\ ((exists k, In k outs /\ In k (v_prefer a)) -> In l (v_prefer a)) /\ ~ In l (v_avoid a).
(** [a] has left node [n] on one of its recorded links *)
Definition visited (w : world) (a : vehicle) (n : nid) : Prop :=
  exists l, In l (links_of (v_tlog a)) /\ l_start (L w l) = n.
Definition choice_ok (c : cfg) (w : world) (a : vehicle) (outs : list lid) (l : lid) : Prop :=
  admissible a outs l /\
  (c_nocyclic c = true -> v_mode a <> Taxi ->
   (exists k, admissible a outs k /\ ~ visited w a (l_end (L w k))) -> ~ visited w a (l_end (L w l))).

(** ** The fundamental diagram of a link (C34) *)
(** The flow of a density [k]: free flow branch and congested branch. *)
Definition fd_flow (a : link) (k : Q) : Q := qmin (l_u a * k) (l_w a * (l_kappa a - k)).
Record triangular (c : cfg) (a : link) : Prop := mkTri {
  tr_w : (l_w a * (c_react c * l_kappa a) == Qof_nat (l_lanes a))%Q;
  tr_cap : (l_cap a * (l_u a + l_w a) == l_u a * l_w a * l_kappa a)%Q;
  tr_spacing : (l_dpl a * l_kappa a == Qof_nat (l_lanes a))%Q;
  tr_speed : l_ffs a = l_u a }.

(** ** Node capacity (C37) *)
(** [q] is the largest capacity of the links [ls] *)
Definition largest_cap (w : world) (ls : list lid) (q : Q) : Prop :=
  (exists l, In l ls /\ q = l_cap (L w l)) /\ forall l, In l ls -> (l_cap (L w l) <= q)%Q.
(** [m] lanes of 0.8 veh/s are just enough for [q] *)
Definition lanes_for (q : Q) (m : nat) : Prop :=
  (q <= (8#10) * Qof_nat m)%Q /\ (forall k, (q <= (8#10) * Qof_nat k)%Q -> m <= k).

(** ** Origins (C36) *)
(** There is room for another vehicle at the start of link [l]: some lane is empty, or the last
    vehicle of the lane to be used has moved on by more than one jam spacing. *)
Definition room (c : cfg) (w : world) (l : lid) : Prop :=
  List.length (l_vehs (L w l)) < l_lanes (L w l) \/
  exists u, nth_error (l_vehs (L w l)) (List.length (l_vehs (L w l)) - l_lanes (L w l)) = Some u /\
            (l_dpl (L w l) * dN c < v_x (V w u))%Q.
(** [out] is a link vehicle [v] picks at its origin [n]: the outcome of the choice rule for the
    links offered to it, for some state [d] of the random generator *)
Definition picks (c : cfg) (w : world) (n : nid) (v : vid) (out : lid) : Prop :=
  exists outs ps d w1, gen_outlinks w (V w v) (n_out (N w n)) = Ok outs /\
    mapM (pref_of w (V w v)) outs = Ok ps /\ choose_pref c ps outs (sw_draw d w) = Ok (out, w1).
(** Why the vehicles left in the queue of [n] are still there, [k] having been released:
    there are none, all attempts were used, or the link picked by the first cannot take it. *)
Definition held_back (c : cfg) (w : world) (n : nid) (k : nat) : Prop :=
  n_queue (N w n) = [] \/
  k = fold_right Nat.add 0 (map (fun l => l_lanes (L w l)) (n_out (N w n))) \/
  exists v q out, n_queue (N w n) = v :: q /\ picks c w n v out /\
    (~ room c w out \/ (l_cinr (L w out) < dN c)%Q).

(** ** Merging (C38) *)
(** Vehicle [v] may now pass node [n] to link [out]: it waits at [n], it is the first on its link [l],
    it wants to go to [out], the signal is green for [l] and [l] has outflow capacity. *)
Definition merge_candidate (c : cfg) (w : world) (n : nid) (out : lid) (v : vid) (l : lid) : Prop :=
  In v (n_incoming (N w n)) /\ v_link (V w v) = Some l /\ List.hd_error (l_vehs (L w l)) = Some v /\
  v_next (V w v) = Some (Some out) /\
  (In (n_phase (N w n)) (l_group (L w l)) \/ List.length (n_signal (N w n)) <= 1) /\
  (dN c <= l_coutr (L w l))%Q.

(** ** Capacities (C07, C08) *)
(** The vehicles on link [l] that are transferred to another link in the timestep leading from [w] to
    [w']: their link_arrival_time is the present time afterwards. *)
Definition crossed (c : cfg) (w w' : world) (l : lid) : list vid :=
  filter (fun v => opt_eqb (v_link (V w v)) (Some l) && Qeq_bool (v_larr (V w' v)) (now c w)) (seq 0 (w_nv w)).
(** the same for all links that end at node [n] *)
Definition crossed_at (c : cfg) (w w' : world) (n : nid) : list vid :=
  filter (fun v => match v_link (V w v) with Some l => Nat.eqb (l_end (L w l)) n | None => false end &&
                   Qeq_bool (v_larr (V w' v)) (now c w)) (seq 0 (w_nv w)).
(** [k] things happened on the way from [w] to the second state, [f] telling how many happened in a timestep *)
Inductive tally (c : cfg) (P : op -> world -> Prop) (f : world -> world -> nat) (w : world) : world -> nat -> Prop :=
| ta_refl : tally c P f w w 0
| ta_op : forall w1 w2 k o, tally c P f w w1 k -> op_ok o w1 -> P o w1 -> (forall a, o <> OExec a) ->
    apply_op c o w1 = Ok w2 -> tally c P f w w2 k
| ta_time : forall w1 k, tally c P f w w1 k -> tally c P f w (sw_TIME (now c w1) w1) k
| ta_tick : forall w1 w2 k, tally c P f w w1 k -> w_final w1 = true -> tick c w1 = Ok w2 ->
    tally c P f w w2 (k + f w1 w2).
(** nobody assigns link[l].capacity_in / capacity_out *)
Definition keep_cin (l : lid) (o : op) (w : world) : Prop := match o with OSetCapIn k _ => k <> l | _ => True end.
Definition keep_cout (l : lid) (o : op) (w : world) : Prop := match o with OSetCapOut k _ => k <> l | _ => True end.

(** ** Motion (C04, C05, C06) *)
(** links are created with lengths and speeds that are not negative *)
Definition sound_links (o : op) (w : world) : Prop :=
  match o with OAddLink a => (0 <= la_len a)%Q /\ (0 <= la_ffs a)%Q | _ => True end.
(** in addition no free flow speed is changed *)
Definition keep_speed (o : op) (w : world) : Prop := sound_links o w /\ forall l q, o <> OChangeSpeed l q.
(** no taxis, and jam densities are not lowered *)
Definition keep_room (o : op) (w : world) : Prop :=
  sound_links o w /\
  match o with
  | OAddVehicle a => va_mode a = SingleTrip
  | OChangeJam l q => (q < 0 \/ 0 < l_kappa (L w l) <= q)%Q
  | _ => True
  end.
(** the distance between the fronts of a vehicle and its follower at jam density *)
Definition jam_gap (c : cfg) (k : link) : Q := (l_dpl k * dN c)%Q.

(** ** Totals over the links of a route *)
Definition no_loops (w : world) : Prop := forall l, exists_link w l -> l_start (L w l) <> l_end (L w l).
(** total length *)
Definition total_length (w : world) (ls : list lid) : Q := qsum (map (fun l => l_len (L w l)) ls).
(** free-flow travel time *)
Definition free_time (w : world) (ls : list lid) : Q := qsum (map (fun l => (l_len (L w l) / l_u (L w l))%Q) ls).
(** the distance covered in one timestep per link, at free flow speed *)
Definition step_length (c : cfg) (w : world) (ls : list lid) : Q := qsum (map (fun l => (l_u (L w l) * dt c)%Q) ls).
(** the links recorded for a vehicle *)
Definition route_of (a : vehicle) : list lid := links_of (v_tlog a).
(** every link has a positive free flow speed *)
Definition fast_links (w : world) : Prop := forall l, exists_link w l -> (0 < l_u (L w l))%Q.
