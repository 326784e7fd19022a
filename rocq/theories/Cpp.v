(** * Cpp: the compiled engine, uxsim/trafficpp/traffi.cpp (called through uxsim_cpp_wrapper.py when a World is
    built with [cpp=True]).

    The functions below transcribe the rules of the C++ classes on the records of Types.v.  The C++ members have
    the meaning of the Python attributes: [vmax] is [u], [delta_n] is DELTAN, [signal_intervals] is [signal],
    [route_preference[k]] is [ROUTECHOICE.route_pref[k]], [traveltime_real] is [traveltime_actual].  Simplifications:
    the doubles are exact rationals; the OpenMP loops are run in the order of the indices (the comments of the
    source argue that the bodies do not interfere); [Node::generate] and [Node::transfer] repeat the Python text and
    are taken from Sim.v; the random streams are not modelled (one stream here, one per node and link there). *)
From Coq Require Import Bool.
From Verif Require Import Base Types Sim Build.
Local Open Scope nat_scope.

(** [Vehicle::car_follow_newell], 799-827 *)
Definition cpp_follow (c : cfg) (v : vid) (w : world) : result world :=
  let a := V w v in
  l <- of_opt AttributeError (v_link a) ;;
  let k := L w l in
  let xn0 := (v_x a + l_u k * dt c)%Q in
  let xn1 := match v_leader a with
             | Some u =>
                 let gap0 := (v_x (V w u) - l_dpl k * dN c)%Q in
                 let gap := if qlt gap0 (v_x a) then v_x a else gap0 in
                 if qlt gap xn0 then gap else xn0
             | None => xn0
             end in
  let xn2 := if qlt xn1 (v_x a) then v_x a else xn1 in (* non-decreasing, 816-818 *)
  Ok (modv v (fun a =>
        if qlt (l_len k) xn2
        then sv_xnext (l_len k) (sv_remain (xn2 - l_len k)%Q a)
        else sv_xnext xn2 a) w).

(** The car-following pass of [World::main_loop], 1742-1748: link by link, front to back *)
Definition on_links (w : world) : list vid := List.concat (map (fun l => l_vehs (L w l)) (seq 0 (w_nl w))).
Definition cpp_phase_follow (c : cfg) (w : world) : result world := foldM (cpp_follow c) (on_links w) w.

(** [Node::signal_update], 193-206 *)
Definition cpp_signal_update (c : cfg) (nd : node) : result node :=
  nd2 <- (if 1 <? List.length (n_signal nd) then
            g <- of_opt IndexError (nth_error (n_signal nd) (n_phase nd)) ;;
            let nd1 :=
              if qlt g (n_sigt nd) then
                let p := S (n_phase nd) in
                sn_sigt 0%Q (sn_phase (if List.length (n_signal nd) <=? p then 0 else p) nd)
              else nd in
            Ok (sn_sigt (n_sigt nd1 + dt c)%Q nd1)
          else Ok nd) ;;
  Ok (sn_siglog (n_siglog nd2 ++ [n_phase nd2]) nd2).

(** [Node::flow_capacity_update], 226-234; a negative capacity stands for None *)
Definition cpp_flow_capacity_update (c : cfg) (nd : node) : node :=
  match n_fcap nd with
  | Some fc =>
      let m := match n_lanes nd with Some (S m) => S m | _ => 1 end in
      if qlt (n_fcapr nd) (dN c * Qof_nat m)%Q then sn_fcapr (n_fcapr nd + fc * dt c)%Q nd else nd
  | None => sn_fcapr (10e10)%Q nd
  end.

(** the capacity part of [Link::update], 553-569 *)
Definition cpp_caps (c : cfg) (k : link) : link :=
  let lim := (dN c * Qof_nat (l_lanes k))%Q in
  let k1 := if qlt (l_cout k) (10e9)%Q
            then (if qlt (l_coutr k) lim then sl_coutr (l_coutr k + l_cout k * dt c)%Q k else k)
            else sl_coutr (10e9)%Q k in
  match l_cin k1 with
  | Some cin =>
      if qlt cin (10e9)%Q
      then (if qlt (l_cinr k1) lim then sl_cinr (l_cinr k1 + cin * dt c)%Q k1 else k1)
      else sl_cinr (10e9)%Q k1
  | None => sl_cinr (10e9)%Q k1
  end.

(** [Link::set_travel_time], 606-632, the value stored at the current timestep; [prev] is the value of the
    timestep before (the array is initialised with zeros) *)
Definition cpp_travel_time (c : cfg) (w : world) (prev : Q) (k : link) : Q :=
  if negb (Nat.eqb (Nat.modulo (w_T w) (tti_interval c)) 0) then (if Nat.eqb (w_T w) 0 then 0%Q else prev)
  else match l_vehs k with
       | [] => (l_len k / l_u k)%Q
       | vs =>
           let avg := (qsum (map (fun v => v_v (V w v)) vs) / Qof_nat (List.length vs))%Q in
           if qlt 0 avg then (l_len k / avg)%Q else (l_len k / (l_u k / 100))%Q
       end.

(** ** The record of realised travel times *)

(** [traveltime_actual[s:] = tt] of Python at each departure; [traveltime_real_events.emplace_back(s, tt)] in C++ *)
Definition eager (evs : list (nat * Q)) (a : list Q) : list Q :=
  fold_left (fun a e => set_from a (fst e) (snd e)) evs a.

(** [for idx = s .. e-1: a[idx] = v] *)
Definition fill (s e : nat) (v : Q) (a : list Q) : list Q :=
  map (fun ix => if (s <=? fst ix) && (fst ix <? e) then v else snd ix) (combine (seq 0 (List.length a)) a).

(** [Link::ensure_traveltime_real], 641-660, for the events not yet applied *)
Fixpoint replay (evs : list (nat * Q)) (a : list Q) : list Q :=
  match evs with
  | [] => a
  | (s, x) :: rest =>
      let n := List.length a in
      let e := match rest with (s', _) :: _ => if s' <? n then s' else n | [] => n end in
      replay rest (fill s e x a)
  end.

(** reads of the array, each after some more events: every read replays the events recorded since the last one *)
Fixpoint reads (chunks : list (list (nat * Q))) (a : list Q) : list (list Q) :=
  match chunks with
  | [] => []
  | evs :: rest => replay evs a :: reads rest (replay evs a)
  end.
Fixpoint eager_reads (chunks : list (list (nat * Q))) (a : list Q) : list (list Q) :=
  match chunks with
  | [] => []
  | evs :: rest => eager evs a :: eager_reads rest (eager evs a)
  end.

(** ** Route preferences *)

(** [World::route_choice_duo] and [route_choice_duo_gradual], 1486-1553, for one destination: the preferences of the
    links, the flag [route_pref_active[k]], the weight, and the links on the shortest-path tree of this round *)
Definition cpp_duo (nl : nat) (wt : Q) (mask : lid -> bool) (s : (lid -> Q) * bool) : (lid -> Q) * bool :=
  let '(pref, act) := s in
  let x := if act then wt else 1%Q in
  (fun l => if mask l then ((1 - x) * pref l + x)%Q else ((1 - x) * pref l)%Q, act || existsb mask (seq 0 nl)).
(** the same round of [RouteChoice.homogeneous_DUO_update], uxsim.py 1629-1663, for one destination *)
Definition py_duo (nl : nat) (wt : Q) (mask : lid -> bool) (pref : lid -> Q) : lid -> Q :=
  let x := if qeq (qsum (map pref (seq 0 nl))) 0 then 1%Q else wt in
  fun l => ((1 - x) * pref l + (if mask l then x else 0))%Q.

(** ** Departures *)

(** [World::main_loop], 1667-1675: the first timestep of a vehicle with departure time [t]; [fuel] bounds the loop *)
Fixpoint cpp_up (fuel : nat) (c : cfg) (t : Q) (ts : Z) : option Z :=
  match fuel with
  | 0 => None
  | S fuel => if qlt (inject_Z ts * dt c)%Q t then cpp_up fuel c t (ts + 1)%Z else Some ts
  end.
Definition cpp_departure (c : cfg) (t : Q) : option Z := cpp_up 2 c t (qtrunc (t / dt c)%Q).
(** uxsim.py 1046: [int(departure_time/DELTAT)] *)
Definition py_departure (c : cfg) (t : Q) : Z := qtrunc (t / dt c)%Q.

(** ** A timestep *)

(** The RUN pass, 1764-1783 (each link's queue from a snapshot, front to back), the WAIT pass, 1791-1796, and the
    HOME pass, 1805-1809 *)
Definition cpp_phase_vehicles (c : cfg) (w : world) : result world :=
  w <- foldM (fun l w => foldM (veh_update c) (l_vehs (L w l)) w) (seq 0 (w_nl w)) w ;;
  w <- foldM (fun n w => foldM (veh_update c) (n_queue (N w n)) w) (seq 0 (w_nn w)) w ;;
  foldM (veh_update c) (filter (fun v => match v_state (V w v) with Home => Z.leb (v_dep (V w v)) (Z.of_nat (w_T w)) | _ => false end)
                               (w_living w)) w.

(** [std::sort] by the vehicle id at the start of [Node::transfer], 244-253 *)
Fixpoint insert_id (v : vid) (l : list vid) : list vid :=
  match l with [] => [v] | u :: r => if v <=? u then v :: l else u :: insert_id v r end.
Definition sort_ids (l : list vid) : list vid := fold_right insert_id [] l.
Definition cpp_transfer (c : cfg) (n : nid) (w : world) : result world :=
  transfer c n (modn n (fun nd => sn_incoming (sort_ids (n_incoming nd)) nd) w).

Definition cpp_link_update (c : cfg) (l : lid) (w : world) : result world :=
  let k0 := L w l in
  let k1 := cpp_caps c (sl_tti (l_tti k0 ++ [cpp_travel_time c w (last (l_tti k0) 0%Q) k0]) k0) in
  let k3 := sl_ca (l_ca k1 ++ [last0 (l_ca k1)]) k1 in
  Ok (modl l (fun _ => sl_cd (l_cd k3 ++ [last0 (l_cd k3)]) k3) w).
Definition cpp_node_step (c : cfg) (n : nid) (w : world) : result world :=
  w <- generate c n w ;;
  nd <- cpp_signal_update c (N w n) ;;
  Ok (modn n (fun _ => cpp_flow_capacity_update c nd) w).

(** one pass of the loop of [World::main_loop], 1681-1860 *)
Definition cpp_body (c : cfg) (w : world) : result world :=
  w <- foldM (cpp_link_update c) (seq 0 (w_nl w)) w ;;
  w <- foldM (cpp_node_step c) (seq 0 (w_nn w)) w ;;
  w <- foldM (cpp_transfer c) (seq 0 (w_nn w)) w ;;
  w <- cpp_phase_follow c w ;;
  w <- cpp_phase_vehicles c w ;;
  w <- route_phase c w ;;
  Ok (sw_TIME (now c w) w).
Definition cpp_tick (c : cfg) (w : world) : result world :=
  w <- cpp_body c w ;; Ok (sw_T (S (w_T w)) w).
