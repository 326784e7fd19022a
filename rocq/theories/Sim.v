(** * Sim: the simulation engine of uxsim.py, method by method.

    Line numbers refer to /repo/uxsim/uxsim.py unless another file is named.
    Throughout: Python floats are rationals; [print]s, user-defined callbacks
    ([user_function]) and plotting are left out; objects are identified by their
    creation number (names of nodes, links and vehicles are unique, see Registry.v). *)
From Verif Require Import Base Types.

(** ** Configuration: the arguments of [World.__init__] (1677-1846) that the
    engine reads, plus the sources of nondeterminism. *)
Record cfg : Type := mkCfg {
  c_deltan : Z;               (* DELTAN, platoon size *)
  c_react : Q;                (* REACTION_TIME *)
  c_duo_time : Q;             (* DUO_UPDATE_TIME *)
  c_duo_weight : Q;           (* DUO_UPDATE_WEIGHT *)
  c_duo_noise : Q;            (* DUO_NOISE *)
  c_princ : princ;            (* route_choice_principle *)
  c_gradual : bool;           (* route_choice_update_gradual *)
  c_tti_interval : nat;       (* instantaneous_TT_timestep_interval, before capping *)
  c_nocyclic : bool;          (* no_cyclic_routing *)
  c_adjust : bool;            (* adjust_node_capacity *)
  c_logint : Z;               (* vehicle_logging_timestep_interval; 0 is outside the model *)
  c_delpref : bool;           (* reduce_memory_delete_vehicle_route_pref *)
  c_det : bool;               (* hard_deterministic_mode *)
  c_eulardt : Q;              (* EULAR_DT *)
  (* the random generator W.rng: arbitrary sequences of outcomes *)
  c_orc : nat -> nat;
  c_orcq : nat -> Q;
  (* scipy.sparse.csgraph.dijkstra on the transposed cost matrix: from the number of
     nodes and the matrix (None = inf) to (distance, successor) matrices *)
  c_dijkstra : nat -> (nid -> nid -> option Q) ->
               (nid -> nid -> option Q) * (nid -> nid -> option nid)
}.

(** DELTAN as a float *)
Definition dN (c : cfg) : Q := inject_Z (c_deltan c).

(** [W.DELTAT = W.REACTION_TIME*W.DELTAN], 1778.  DELTAT = 0 makes 1779 raise, so it
    is never 0 in an existing World. *)
Definition dt (c : cfg) : Q := (c_react c * dN c)%Q.

(** [W.DELTAT_ROUTE], 1779-1781 *)
Definition route_steps (c : cfg) : nat :=
  match Z.to_nat (qtrunc (c_duo_time c / dt c)) with O => 1 | S k => S k end.

(** [W.instantaneous_TT_timestep_interval], 1801-1803 *)
Definition tti_interval (c : cfg) : nat :=
  if route_steps c <? c_tti_interval c then route_steps c else c_tti_interval c.

(** ** Heap access *)
Definition V (w : world) (v : vid) : vehicle := w_vehs w v.
Definition L (w : world) (l : lid) : link := w_links w l.
Definition N (w : world) (n : nid) : node := w_nodes w n.
Definition R (w : world) (r : rid) : request := w_reqs w r.

Definition modv (v : vid) (f : vehicle -> vehicle) (w : world) : world :=
  sw_vehs (upd (w_vehs w) v (f (w_vehs w v))) w.
Definition modl (l : lid) (f : link -> link) (w : world) : world :=
  sw_links (upd (w_links w) l (f (w_links w l))) w.
Definition modn (n : nid) (f : node -> node) (w : world) : world :=
  sw_nodes (upd (w_nodes w) n (f (w_nodes w n))) w.
Definition modr (r : rid) (f : request -> request) (w : world) : world :=
  sw_reqs (upd (w_reqs w) r (f (w_reqs w r))) w.

(** [W.T*W.DELTAT] *)
Definition now (c : cfg) (w : world) : Q := (Qof_nat (w_T w) * dt c)%Q.

(** ** Random choices *)

Definition draw (c : cfg) (w : world) : nat * world :=
  (c_orc c (w_draw w), sw_draw (S (w_draw w)) w).

(** [rng.choice(xs)]; an empty list raises ValueError *)
Definition choice_uniform (c : cfg) (xs : list nat) (w : world) : result (nat * world) :=
  let '(r, w1) := draw c w in
  match nth_error xs (Nat.modulo r (List.length xs)) with
  | Some x => Ok (x, w1)
  | None => Err ValueError
  end.

(** [rng.choice(xs, p=ps/sum(ps))]: any element of positive probability may be returned;
    numpy raises ValueError if a probability is negative (or NaN, for sum 0). *)
Definition choice_p (c : cfg) (ps : list Q) (xs : list nat) (w : world) : result (nat * world) :=
  let s := qsum ps in
  if qeq s 0 then Err ValueError
  else if existsb (fun p => qlt (p / s) 0) ps then Err ValueError
  else choice_uniform c (map snd (filter (fun px => qlt 0 (fst px / s)) (combine ps xs))) w.

(** [max(zip(ps, xs), key=lambda x:x[0])[1]]; max of nothing raises ValueError *)
Definition choice_max (ps : list Q) (xs : list nat) : result nat :=
  match combine ps xs with
  | [] => Err ValueError
  | p :: tl => Ok (max_first p tl)
  end.

(** The common pattern of 265-271 and 1347-1354. *)
Definition choose_pref (c : cfg) (ps : list Q) (xs : list nat) (w : world) : result (nat * world) :=
  if c_det c then (x <- choice_max ps xs ;; Ok (x, w))
  else if qlt 0 (qsum ps) then choice_p c ps xs w
  else choice_uniform c xs w.

(** ** Link *)

(** [Link.in_out_flow_constraint], 665-677 *)
Definition in_out_flow_constraint (c : cfg) (k : link) : link :=
  match l_cin k with
  | Some cin =>
      let lim := (dN c * Qof_nat (l_lanes k))%Q in
      let k1 := if qlt (l_coutr k) lim
                then sl_coutr (l_coutr k + l_cout k * dt c)%Q k else k in
      if qlt (l_cinr k1) lim then sl_cinr (l_cinr k1 + cin * dt c)%Q k1 else k1
  | None => sl_cinr (10e10)%Q (sl_coutr (10e10)%Q k)
  end.

(** [Link.speed], 901-907, without the cache (the cache is the subject of Cache.v) *)
Definition link_speed (w : world) (k : link) : Q :=
  match l_vehs k with
  | [] => l_u k
  | vs => (qsum (map (fun v => v_v (V w v)) vs) / Qof_nat (List.length vs))%Q
  end.

(** [Link.set_traveltime_instant], 679-689 *)
Definition set_traveltime_instant (c : cfg) (w : world) (k : link) : result link :=
  if Nat.eqb (tti_interval c) 0 then Err ZeroDivisionError
  else if Nat.eqb (Nat.modulo (w_T w) (tti_interval c)) 0 then
    let s := link_speed w k in
    if qlt 0 s then Ok (sl_tti (l_tti k ++ [(l_len k / s)%Q]) k)
    else d <- qdiv (l_len k) (l_u k / 100)%Q ;; Ok (sl_tti (l_tti k ++ [d]) k)
  else
    match last_opt (l_tti k) with
    | Some d => Ok (sl_tti (l_tti k ++ [d]) k)
    | None => Err IndexError
    end.

Definition last0 (l : list Z) : Z := match last_opt l with Some z => z | None => 0%Z end.

(** [Link.update], 642-663 (without user_function and the cache reset) *)
Definition link_update (c : cfg) (l : lid) (w : world) : result world :=
  let k1 := in_out_flow_constraint c (L w l) in
  k2 <- set_traveltime_instant c w k1 ;;
  let k3 := sl_ca (l_ca k2 ++ [last0 (l_ca k2)]) k2 in
  let k4 := sl_cd (l_cd k3 ++ [last0 (l_cd k3)]) k3 in
  Ok (modl l (fun _ => k4) w).

(** [Link.get_toll], 878-898 *)
Definition get_toll (k : link) (t : Q) : Q :=
  match l_toll k with
  | Some f => f t
  | None => if qeq (l_penalty k) 0 then 0%Q else l_penalty k
  end.

(** ** Vehicle: logging and end of trip *)

(** [Vehicle.record_log], 1507-1556 *)
Definition record_log (c : cfg) (v : vid) (enforce : bool) (w : world) : world :=
  let a := V w v in
  let w1 :=
    if negb (Z.eqb (c_logint c) (-1)) &&
       (Z.eqb (c_logint c) 1 || Z.eqb (Z.modulo (Z.of_nat (w_T w)) (c_logint c)) 0 || enforce)
    then
      match v_state a with
      | Run =>
          let s := match v_leader a with
                   | Some u => if opt_eqb (v_link a) (v_link (V w u))
                               then Some (v_x (V w u) - v_x a)%Q else None
                   | None => None
                   end in
          let row := mkLog (now c w) Run (v_link a) (Some (v_x a)) (Some (v_v a))
                           (Some (v_lane a)) s in
          let n := S (w_avgcnt w) in
          modv v (sv_log (v_log a ++ [row]))
            (* Qred only normalises the fraction *)
            (sw_avgspd (Qred (w_avgspd w + (v_v a - w_avgspd w) / Qof_nat n)) (sw_avgcnt n w))
      | st =>
          let row := mkLog (now c w) st None None None None None in
          let w0 := modv v (sv_log (v_log a ++ [row])) w in
          match st with
          | Wait => sw_avgcnt (S (w_avgcnt w0)) w0
          | _ => w0
          end
      end
    else w in
  if opt_eqb (v_link a) (v_linkold a) then w1
  else
    modv v (fun b => sv_linkold (v_link a)
      (match v_state a, v_link a with
       | Run, Some l => sv_tlog (v_tlog b ++ [(now c w, PLink l)]) b
       | End_, _ => sv_tlog (v_tlog b ++ [(now c w, PEnd)]) b
       | _, _ => b
       end)) w1.

(** [Vehicle.end_trip], 1221-1249 *)
Definition end_trip (c : cfg) (v : vid) (w : world) : result world :=
  let w := modv v (sv_state End_) w in
  l <- of_opt AttributeError (v_link (V w v)) ;;
  cd <- of_opt IndexError (add_last (l_cd (L w l)) (c_deltan c)) ;;
  let w := modl l (sl_cd cd) w in
  let la := v_larr (V w v) in
  let w := modl l (fun k => sl_tta (set_from (l_tta k) (Z.to_nat (qtrunc (la / dt c)))
                               (Qof_nat (S (w_T w)) * dt c - la)%Q) k) w in
  let w := match v_follower (V w v) with
           | Some f => modv f (sv_leader None) w
           | None => w
           end in
  match l_vehs (L w l) with
  | [] => Err IndexError
  | _ :: tl =>
      let w := modl l (sl_vehs tl) w in
      let tnow := Z.of_nat (w_T w) in
      let w := modv v (fun a =>
                 sv_tt (inject_Z (tnow - v_dep a) * dt c)%Q
                   (sv_arr tnow (sv_x 0%Q (sv_link None a)))) w in
      if negb (mem v (w_running w)) then Err KeyError else
      let w := sw_running (remove_first v (w_running w)) w in
      if negb (mem v (w_living w)) then Err KeyError else
      let w := sw_living (remove_first v (w_living w)) w in
      let w := if v_aborted (V w v)
               then modv v (fun a => sv_tt (-1)%Q (sv_arr (-1)%Z (sv_state Abort a))) w
               else w in
      let w := record_log c v true w in
      Ok (if c_delpref c then modv v (sv_pref PrefNone) w else w)
  end.

(** [Vehicle.carfollow], 1251-1265 *)
Definition carfollow (c : cfg) (v : vid) (w : world) : result world :=
  let a := V w v in
  l <- of_opt AttributeError (v_link a) ;;
  let k := L w l in
  let xn0 := (v_x a + l_u k * dt c)%Q in
  let xn1 := match v_leader a with
             | Some u =>
                 let xc0 := (v_x (V w u) - l_dpl k * dN c)%Q in
                 let xc := if qlt xc0 (v_x a) then v_x a else xc0 in
                 if qlt xc xn0 then xc else xn0
             | None => xn0
             end in
  Ok (modv v (fun a =>
        if qlt (l_len k) xn1
        then sv_xnext (l_len k) (sv_remain (xn1 - l_len k)%Q a)
        else sv_xnext xn1 a) w).

(** ** Vehicle: route choice *)

(** lookup [route_pref[l.id]] *)
Definition pref_of (w : world) (a : vehicle) (l : lid) : result Q :=
  match v_pref a with
  | PrefOwn d => of_opt KeyError (dget l d)
  | PrefShared k => if (k <? w_nn w) && (l <? w_nl w) then Ok (w_rcpref w k l) else Err IndexError
  | PrefNone => Err TypeError
  end.

Fixpoint mapM {A B} (f : A -> result B) (l : list A) : result (list B) :=
  match l with
  | [] => Ok []
  | x :: tl => y <- f x ;; ys <- mapM f tl ;; Ok (y :: ys)
  end.

(** [{l.id:0 for l in s.W.LINKS}] *)
Definition zero_pref (n : nat) : list (lid * Q) := map (fun l => (l, 0%Q)) (seq 0 n).

(** [Vehicle.route_pref_update], 1287-1324.  Before [finalize_scenario] the attribute
    ROUTECHOICE does not exist. *)
Definition route_pref_update (c : cfg) (v : vid) (weight : Q) (w : world) : result world :=
  let a := V w v in
  match v_princ a with
  | HomogeneousDUO =>
      match v_dest a with
      | Some k => if w_final w then Ok (modv v (sv_pref (PrefShared k)) w) else Err AttributeError
      | None => Ok (modv v (sv_pref (PrefOwn (zero_pref (w_nl w)))) w)
      end
  | HeterogeneousDUO =>
      match v_dest a with
      | None => Err AttributeError
      | Some k =>
          if negb (w_final w) then Err AttributeError else
          match v_pref a with
          | PrefOwn d =>
              let wt := if qeq (qsum (map snd d)) 0 then 1%Q else weight in
              let newp l := if opt_eqb (Some (l_end (L w l))) (w_rcnext w (l_start (L w l)) k)
                            then 1%Q else 0%Q in
              if forallb (fun lp => fst lp <? w_nl w) d then
                Ok (modv v (sv_pref (PrefOwn
                  (map (fun lp => (fst lp, ((1 - wt) * snd lp + wt * newp (fst lp))%Q)) d))) w)
              else Err KeyError
          | _ => Err AttributeError
          end
      end
  end.

(** [sorted(set(a) & set(b), key=name)] and [sorted(set(a) - set(b), key=name)];
    [a] has no duplicates (outlinks of a node). *)
Definition by_name (w : world) (ls : list lid) : list lid :=
  sort (fun a b => string_ltb (l_name (L w a)) (l_name (L w b))) ls.
Definition inter (a b : list lid) : list lid := filter (fun l => mem l b) a.
Definition diff (a b : list lid) : list lid := filter (fun l => negb (mem l b)) a.
Definition is_nil {A} (l : list A) : bool := match l with [] => true | _ => false end.

(** links_prefer / links_avoid filtering, 253-257 and 1336-1339 *)
Definition filter_links (w : world) (a : vehicle) (outs : list lid) : list lid :=
  let o1 := if is_nil (inter outs (v_prefer a)) then outs
            else by_name w (inter outs (v_prefer a)) in
  if is_nil (inter o1 (v_avoid a)) then o1 else by_name w (diff o1 (v_avoid a)).

(** [set([l[1].start_node for l in s.log_t_link[1:]])], 1342; an "end" entry has no
    start_node *)
Definition traveled_nodes (w : world) (a : vehicle) : result (list nid) :=
  mapM (fun tp => match snd tp with
                  | PLink l => Ok (l_start (L w l))
                  | _ => Err AttributeError
                  end) (tl (v_tlog a)).

(** [Vehicle.route_next_link_choice], 1326-1368 *)
Definition route_next_link_choice (c : cfg) (v : vid) (w : world) : result world :=
  let a := V w v in
  l <- of_opt AttributeError (v_link a) ;;
  let en := l_end (L w l) in
  let outs := n_out (N w en) in
  match v_spec a with
  | None =>
      if opt_eqb (v_dest a) (Some en) then Ok w
      else
        match outs with
        | [] => Ok (modv v (sv_next (Some None)) w)
        | _ =>
            let o1 := filter_links w a outs in
            o2 <- (if c_nocyclic c && match v_mode a with Taxi => false | SingleTrip => true end then
                     tn <- traveled_nodes w a ;;
                     let o' := filter (fun l' => negb (mem (l_end (L w l')) tn)) o1 in
                     Ok (if is_nil o' then o1 else o')
                   else Ok o1) ;;
            ps <- mapM (pref_of w a) o2 ;;
            '(nl, w1) <- choose_pref c ps o2 w ;;
            Ok (modv v (sv_next (Some (Some nl))) w1)
        end
  | Some sp =>
      match outs with
      | [] => Ok (modv v (sv_next (Some None)) w)
      | _ =>
          match nth_error sp (List.length (v_tlog a) - 1) with
          | None => Err IndexError
          | Some nl => if mem nl outs then Ok (modv v (sv_next (Some (Some nl))) w)
                       else Err ValueError
          end
      end
  end.

(** ** Node *)

(** [Node.signal_control], 207-219 *)
Definition signal_control (c : cfg) (nd : node) : result node :=
  g <- of_opt IndexError (nth_error (n_signal nd) (n_phase nd)) ;;
  let nd1 :=
    if qlt g (n_sigt nd) then
      let p := S (n_phase nd) in
      sn_sigt 0%Q (sn_phase (if List.length (n_signal nd) <=? p then 0 else p) nd)
    else nd in
  let nd2 := sn_sigt (n_sigt nd1 + dt c)%Q nd1 in
  let nd3 := sn_cycle (qsum (n_signal nd2)) nd2 in
  Ok (sn_siglog (n_siglog nd3 ++ [n_phase nd3]) nd3).

(** [Node.flow_capacity_update], 222-230; number_of_lanes is None only together with
    flow_capacity (a TypeError otherwise) *)
Definition flow_capacity_update (c : cfg) (nd : node) : result node :=
  match n_fcap nd with
  | Some fc =>
      m <- of_opt TypeError (n_lanes nd) ;;
      Ok (if qlt (n_fcapr nd) (dN c * Qof_nat m)%Q
          then sn_fcapr (n_fcapr nd + fc * dt c)%Q nd else nd)
  | None => Ok (sn_fcapr (10e10)%Q nd)
  end.

(** [Node.update], 414-421 *)
Definition node_update (c : cfg) (n : nid) (w : world) : result world :=
  nd1 <- signal_control c (N w n) ;;
  nd2 <- flow_capacity_update c nd1 ;;
  Ok (modn n (fun _ => nd2) w).

(** [len(outlink.vehicles) < lanes or outlink.vehicles[-lanes].x > delta_per_lane*DELTAN],
    273 and 331 *)
Definition has_space (c : cfg) (w : world) (k : link) : bool :=
  (List.length (l_vehs k) <? l_lanes k) ||
  match from_end (l_vehs k) (l_lanes k) with
  | Some u => qlt (l_dpl k * dN c)%Q (v_x (V w u))
  | None => false
  end.

(** The lane and leader assignment shared by 283-292 and 372-381: [v] joins the back of
    link [out] (the deque itself is extended by the caller). *)
Definition attach (v : vid) (out : lid) (w : world) : result world :=
  let k := L w out in
  let lane := match last_opt (l_vehs k) with
              | Some u => Nat.modulo (v_lane (V w u) + 1) (l_lanes k)
              | None => 0
              end in
  let w := modv v (fun a => sv_leader None (sv_lane lane a)) w in
  if l_lanes k <=? List.length (l_vehs k) then
    match from_end (l_vehs k) (l_lanes k) with
    | None => Err IndexError
    | Some u =>
        let w := modv v (sv_leader (Some u)) w in
        let w := modv u (sv_follower (Some v)) w in
        if Nat.eqb (v_lane (V w u)) (v_lane (V w v)) then Ok w else Err AssertionError
    end
  else Ok w.

(** The body of the acceptance branch of [Node.generate], 275-300 *)
Definition gen_enter (c : cfg) (n : nid) (v : vid) (out : lid) (w : world) : result world :=
  let w := modn n (fun nd => sn_queue (tl (n_queue nd)) nd) w in
  let w := modv v (fun a => sv_v (l_u (L w out)) (sv_x 0%Q (sv_link (Some out)
                              (sv_state Run a)))) w in
  let w := sw_running (w_running w ++ [v]) w in
  w <- attach v out w ;;
  let w := modl out (fun k => sl_enter (dset (w_T w) v (l_enter k))
                               (sl_vehs (l_vehs k ++ [v]) k)) w in
  ca <- of_opt IndexError (add_last (l_ca (L w out)) (c_deltan c)) ;;
  let w := modl out (sl_ca ca) w in
  let w := modv v (sv_larr (now c w)) w in
  Ok (modl out (fun k => sl_cinr (l_cinr k - dN c)%Q k) w).

(** The links offered to the head of the queue, 251-262 *)
Definition gen_outlinks (w : world) (a : vehicle) (outs : list lid) : result (list lid) :=
  match v_spec a with
  | None => Ok (filter_links w a outs)
  | Some sp =>
      l <- of_opt IndexError (nth_error sp 0) ;;
      if mem l outs then Ok [l] else Err ValueError
  end.

(** The loop of [Node.generate], 245-301, with [k] attempts left *)
Fixpoint gen_loop (c : cfg) (n : nid) (k : nat) (w : world) : result world :=
  match k with
  | O => Ok w
  | S k' =>
      match n_queue (N w n) with
      | [] => Ok w
      | v :: _ =>
          outs <- gen_outlinks w (V w v) (n_out (N w n)) ;;
          ps <- mapM (pref_of w (V w v)) outs ;;
          '(out, w1) <- choose_pref c ps outs w ;;
          if has_space c w1 (L w1 out) && qle (dN c) (l_cinr (L w1 out)) then
            w2 <- gen_enter c n v out w1 ;;
            gen_loop c n k' w2
          else Ok w1
      end
  end.

Definition nsum (l : list nat) : nat := fold_right Nat.add 0 l.

(** [Node.generate], 232-301 *)
Definition generate (c : cfg) (n : nid) (w : world) : result world :=
  gen_loop c n (nsum (map (fun l => l_lanes (L w l)) (n_out (N w n)))) w.

(** Candidate test of the list comprehension 333-339 *)
Definition candidate (c : cfg) (n : nid) (out : lid) (w : world) (v : vid) : result bool :=
  let a := V w v in
  l <- of_opt AttributeError (v_link a) ;;
  match l_vehs (L w l) with
  | [] => Err IndexError
  | u :: _ =>
      if Nat.eqb u v then
        nx <- of_opt AttributeError (v_next a) ;;
        Ok (opt_eqb nx (Some out) &&
            (mem (n_phase (N w n)) (l_group (L w l)) || (List.length (n_signal (N w n)) <=? 1)) &&
            qle (dN c) (l_coutr (L w l)))
      else Ok false
  end.

Fixpoint filterM {A} (f : A -> result bool) (l : list A) : result (list A) :=
  match l with
  | [] => Ok []
  | x :: tl => b <- f x ;; ys <- filterM f tl ;; Ok (if b then x :: ys else ys)
  end.

(** Choice among the candidates, 342-348 *)
Definition merge_choice (c : cfg) (w : world) (vs : list vid) : result (vid * world) :=
  ps <- mapM (fun v => l <- of_opt AttributeError (v_link (V w v)) ;; Ok (l_prio (L w l))) vs ;;
  let ps := if qeq (qsum ps) 0 then map (fun _ => 1%Q) ps else ps in
  if c_det c then (x <- choice_max ps vs ;; Ok (x, w)) else choice_p c ps vs w.

(** [if len(link.vehicles) and link.vehicles[0].flag_waiting_for_trip_end:
     link.vehicles[0].end_trip()], 400-401 and 408-409; tells whether a trip ended *)
Definition end_front (c : cfg) (l : lid) (w : world) : result (bool * world) :=
  match l_vehs (L w l) with
  | u :: _ => if v_flag (V w u) then (w1 <- end_trip c u w ;; Ok (true, w1)) else Ok (false, w)
  | [] => Ok (false, w)
  end.

(** The position after the left-over move, 384-394 *)
Definition leftover_x (c : cfg) (w : world) (v : vid) (out : lid) (q : Q) : Q :=
  let x1 := match v_leader (V w v) with
            | Some u =>
                let xc0 := (v_xold (V w u) - l_dpl (L w out) * dN c)%Q in
                let xc := if qlt xc0 (v_x (V w v)) then v_x (V w v) else xc0 in
                if qlt xc q then xc else q
            | None => q
            end in
  if qle (l_len (L w out)) x1 then l_len (L w out) else x1.

(** Execution of one transfer, 350-398: vehicle [v], standing first on its link, leaves it
    and takes a place on link [out] at node [n].  Returns also the link it leaves.  The
    deque of [out] is extended later, by [transfer_move]. *)
Definition transfer_shift (c : cfg) (n : nid) (out : lid) (v : vid) (w : world)
  : result (lid * world) :=
  inl <- of_opt AttributeError (v_link (V w v)) ;;
  cd <- of_opt IndexError (add_last (l_cd (L w inl)) (c_deltan c)) ;;
  let w := modl inl (sl_cd cd) w in
  ca <- of_opt IndexError (add_last (l_ca (L w out)) (c_deltan c)) ;;
  let w := modl out (sl_ca ca) w in
  let la := v_larr (V w v) in
  let w := modl inl (fun k => sl_tta (set_from (l_tta k) (Z.to_nat (qtrunc (la / dt c)))
                                        (now c w - la)%Q) k) w in
  let w := modv v (sv_larr (now c w)) w in
  let w := modl inl (fun k => sl_coutr (l_coutr k - dN c)%Q k) w in
  let w := modl out (fun k => sl_cinr (l_cinr k - dN c)%Q k) w in
  let w := match n_fcap (N w n) with
           | Some _ => modn n (fun nd => sn_fcapr (n_fcapr nd - dN c)%Q nd) w
           | None => w
           end in
  match l_vehs (L w inl) with
  | [] => Err IndexError
  | _ :: rest =>
      let w := modl inl (sl_vehs rest) w in
      let w := modl out (fun k => sl_enter (dset (w_T w) v (l_enter k)) k) w in
      let w := modv v (fun a => sv_x 0%Q (sv_link (Some out) a)) w in
      let w := match v_follower (V w v) with
               | Some f => modv v (sv_follower None) (modv f (sv_leader None) w)
               | None => w
               end in
      w <- attach v out w ;;
      q <- qdiv (v_remain (V w v) * l_u (L w out))%Q (l_u (L w inl)) ;;
      let xn := leftover_x c w v out q in
      Ok (inl, modv v (fun a => sv_remain 0%Q (sv_v (v_v a + xn / dt c)%Q (sv_x xn a))) w)
  end.

(** 350-404: the shift, then the end of trip of the next vehicle of the left link, then
    the deque of [out] and the waiting list of the node are updated. *)
Definition transfer_move (c : cfg) (n : nid) (out : lid) (v : vid) (w : world) : result world :=
  '(from, w) <- transfer_shift c n out v w ;;
  '(_, w) <- end_front c from w ;;
  let w := modl out (fun k => sl_vehs (l_vehs k ++ [v]) k) w in
  Ok (modn n (fun nd => sn_incoming (remove_first v (n_incoming nd)) nd) w).

(** One pass of the loop 330-404 *)
Definition transfer_trial (c : cfg) (n : nid) (out : lid) (w : world) : result world :=
  if has_space c w (L w out) && qle (dN c) (l_cinr (L w out)) && qle (dN c) (n_fcapr (N w n)) then
    vs <- filterM (candidate c n out w) (n_incoming (N w n)) ;;
    match vs with
    | [] => Ok w
    | _ => '(v, w1) <- merge_choice c w vs ;; transfer_move c n out v w1
    end
  else Ok w.

(** Keys of the dict [outlink_candidates], 318: distinct targets in order of appearance *)
Fixpoint nodup_keep (seen : list nat) (l : list nat) : list nat :=
  match l with
  | [] => []
  | x :: tl => if mem x seen then nodup_keep seen tl else x :: nodup_keep (x :: seen) tl
  end.

Definition out_candidates (w : world) (vs : list vid) : result (list lid) :=
  nx <- mapM (fun v => of_opt AttributeError (v_next (V w v))) vs ;;
  Ok (nodup_keep [] (flat_map (fun o => match o with Some l => [l] | None => [] end) nx)).

(** The final loop of [Node.transfer] for one inlink, 406-411 *)
Fixpoint end_fronts (c : cfg) (l : lid) (k : nat) (w : world) : result world :=
  match k with
  | O => Ok w
  | S k' => '(ended, w1) <- end_front c l w ;;
            if ended then end_fronts c l k' w1 else Ok w1
  end.

(** [Node.transfer], 303-412 *)
Definition transfer (c : cfg) (n : nid) (w : world) : result world :=
  cands <- out_candidates w (n_incoming (N w n)) ;;
  let outs := flat_map (fun l => repeat l (l_lanes (L w l))) cands in
  let '(outs, w1) :=
    if c_det c then (outs, w)
    else (shuffle_n (c_orc c) (w_draw w) (List.length outs) outs,
          sw_draw (w_draw w + List.length outs) w) in
  w2 <- foldM (transfer_trial c n) outs w1 ;;
  w3 <- foldM (fun l w => end_fronts c l (l_lanes (L w l)) w) (n_in (N w2 n)) w2 ;;
  Ok (modn n (sn_incoming []) w3).

(** ** Taxi events *)

(** [Vehicle.add_dest], 1371-1392; [order = None] is the default -1.  Node names as
    [dest] are resolved by the caller (a name given to a vacant taxi is stored unresolved
    and makes 1308 raise AttributeError). *)
Definition add_dest (c : cfg) (v : vid) (d : nid) (order : option nat) (w : world) : result world :=
  match v_mode (V w v) with
  | SingleTrip => Err ValueError
  | Taxi =>
      match v_dest (V w v) with
      | None => route_pref_update c v 1%Q (modv v (sv_dest (Some d)) w)
      | Some _ =>
          Ok (modv v (fun a => sv_dests (match order with
                        | None => v_dests a ++ [d]
                        | Some i => firstn i (v_dests a) ++ d :: skipn i (v_dests a)
                        end) a) w)
      end
  end.

(** [TripRequest.get_on_taxi] and [arrive_at_dest], TaxiHandler.py 49-68 *)
Definition run_event (c : cfg) (e : tevent) (w : world) : result world :=
  match e with
  | GetOn r =>
      v <- of_opt AttributeError (r_taxi (R w r)) ;;
      w <- add_dest c v (r_dest (R w r)) None w ;;
      let w := modv v (fun a => sv_events (dset (r_dest (R w r)) (Arrive r) (v_events a)) a) w in
      let w := modr r (sr_geton (Some (w_TIME w))) w in
      ev <- of_opt KeyError (ddel (r_orig (R w r)) (v_events (V w v))) ;;
      Ok (modv v (sv_events ev) w)
  | Arrive r =>
      let w := modr r (sr_arrived (Some (w_TIME w))) w in
      v <- of_opt AttributeError (r_taxi (R w r)) ;;
      ev <- of_opt KeyError (ddel (r_dest (R w r)) (v_events (V w v))) ;;
      Ok (modv v (sv_events ev) w)
  end.

(** ** Vehicle.update *)

Definition request_transfer (c : cfg) (v : vid) (en : nid) (w : world) : result world :=
  w <- route_next_link_choice c v w ;;
  Ok (modn en (fun nd => sn_incoming (n_incoming nd ++ [v]) nd) w).

(** "prepare for trip end", 1183-1185 and 1201-1203 *)
Definition prepare_end (c : cfg) (v : vid) (l : lid) (w : world) : result world :=
  let w := modv v (sv_flag true) w in
  match l_vehs (L w l) with
  | [] => Err IndexError
  | u :: _ => if Nat.eqb u v then end_trip c v w else Ok w
  end.

Definition maybe_pref_update (c : cfg) (v : vid) (w : world) : result world :=
  if c_gradual c then route_pref_update c v 1%Q w else Ok w.

(** Arrival at the end of the link, 1172-1209 *)
Definition at_link_end (c : cfg) (v : vid) (l : lid) (w : world) : result world :=
  let en := l_end (L w l) in
  w <- match dget en (v_events (V w v)) with
       | Some e => run_event c e w
       | None => Ok w
       end ;;
  w <- maybe_pref_update c v w ;;
  if opt_eqb (Some en) (v_dest (V w v)) then
    match v_mode (V w v) with
    | SingleTrip => prepare_end c v l w
    | Taxi =>
        let w := modv v (fun a => match v_dests a with
                                  | d :: tl => sv_dests tl (sv_dest (Some d) a)
                                  | [] => sv_dests [] (sv_dest None a)
                                  end) w in
        w <- route_pref_update c v 1%Q w ;;
        request_transfer c v en w
    end
  else if is_nil (n_out (N w en)) && v_abortopt (V w v) then
    prepare_end c v l (modv v (fun a => sv_next (Some None) (sv_aborted true a)) w)
  else request_transfer c v en w.

(** The "run" branch of [Vehicle.update], 1163-1209 *)
Definition drive (c : cfg) (v : vid) (w : world) : result world :=
  let w := modv v (fun a =>
             sv_dist (v_dist a + (v_xnext a - v_x a))%Q
               (sv_x (v_xnext a) (sv_xold (v_x a)
                 (sv_v ((v_xnext a - v_x a) / dt c)%Q a)))) w in
  l <- of_opt AttributeError (v_link (V w v)) ;;
  if qeq (v_x (V w v)) (l_len (L w l)) then at_link_end c v l w else Ok w.

(** [Vehicle.update], 1143-1219 *)
Definition veh_update (c : cfg) (v : vid) (w : world) : result world :=
  let w := record_log c v false w in
  let w := match v_state (V w v) with
           | Home =>
               if Z.leb (v_dep (V w v)) (Z.of_nat (w_T w)) then
                 modn (v_orig (V w v)) (fun nd => sn_queue (n_queue nd ++ [v]) nd)
                      (modv v (sv_state Wait) w)
               else w
           | _ => w
           end in
  match v_state (V w v) with
  | Wait => maybe_pref_update c v w
  | Run => drive c v w
  | _ => Ok w
  end.

(** ** RouteChoice *)

Definition upd2 {A} (m : nat -> nat -> A) (i j : nat) (a : A) : nat -> nat -> A :=
  fun i' j' => if Nat.eqb i' i && Nat.eqb j' j then a else m i' j'.

(** Accumulator of the loop 1604-1622: cost matrix, link counts.  ADJ_MAT[i,j] is 1 for
    every link (links cannot be added after finalize_scenario in the model), so the else
    branch 1621-1622 is unreachable and left out. *)
Definition adj_step (c : cfg) (w : world) (t : Q)
    (acc : (nid -> nid -> option Q) * (nid -> nid -> nat) * nat) (l : lid)
  : result ((nid -> nid -> option Q) * (nid -> nid -> nat) * nat) :=
  let '(m, cnt, dr) := acc in
  let k := L w l in
  let i := l_start k in
  let j := l_end k in
  itt <- of_opt IndexError (last_opt (l_tti k)) ;;
  let '(ntt, dr') :=
    if c_det c then ((itt + get_toll k t)%Q, dr)
    else ((itt * (1 + c_duo_noise c * qmax 0 (qmin 1 (c_orcq c dr))) + get_toll k t)%Q, S dr) in
  let n := Qof_nat (cnt i j) in
  let avg := match m i j with
             | Some q => Some (q * n / (n + 1) + ntt / (n + 1))%Q
             | None => None
             end in
  let avg := match l_cin k with
             | Some ci => if qeq ci 0 then None else avg
             | None => avg
             end in
  Ok (upd2 m i j avg, upd2 cnt i j (S (cnt i j)), dr').

(** [RouteChoice.route_search_all], 1589-1627 *)
Definition route_search_all (c : cfg) (w : world) : result world :=
  '(m, _, dr) <- foldM (fun l acc => adj_step c w (now c w) acc l) (seq 0 (w_nl w))
                   (fun _ _ => Some 0%Q, fun _ _ => 0, w_draw w) ;;
  let '(dist, next) := c_dijkstra c (w_nn w) m in
  Ok (sw_rcrec (w_rcrec w ++ [(w_T w, dist)])
        (sw_rcnext next (sw_rcdist dist (sw_draw dr w)))).

(** [RouteChoice.homogeneous_DUO_update], 1629-1663 *)
Definition duo_weight0 (c : cfg) : Q :=
  if c_gradual c then (c_duo_weight c * (dt c / c_duo_time c))%Q else c_duo_weight c.

Definition homogeneous_DUO_update (c : cfg) (w : world) : world :=
  let pref := w_rcpref w in
  let weight k := if qeq (qsum (map (pref k) (seq 0 (w_nl w)))) 0 then 1%Q else duo_weight0 c in
  let mask k l := opt_eqb (Some (l_end (L w l))) (w_rcnext w (l_start (L w l)) k) in
  sw_rcpref (fun k l => ((1 - weight k) * pref k l + (if mask k l then weight k else 0))%Q) w.

(** Lines 2468-2477 *)
Definition route_phase (c : cfg) (w : world) : result world :=
  let due := Nat.eqb (Nat.modulo (w_T w) (route_steps c)) 0 in
  if c_gradual c then
    w1 <- (if due then route_search_all c w else Ok w) ;;
    (* 1635 divides by DUO_UPDATE_TIME *)
    if qeq (c_duo_time c) 0 then Err ZeroDivisionError else Ok (homogeneous_DUO_update c w1)
  else if due then
    w1 <- route_search_all c w ;;
    let w2 := homogeneous_DUO_update c w1 in
    foldM (fun v w => route_pref_update c v (c_duo_weight c) w) (w_living w2) w2
  else Ok w.

(** ** One timestep: the body of the main loop, 2447-2479, at timestep [w_T w] *)

(** [W.VEHICLES_LIVING[name].update()] over a snapshot of the names, 2465-2466 *)
Definition update_living (c : cfg) (v : vid) (w : world) : result world :=
  if mem v (w_living w) then veh_update c v w else Err KeyError.

Definition phase_links (c : cfg) (w : world) : result world :=
  foldM (link_update c) (seq 0 (w_nl w)) w.
Definition phase_nodes (c : cfg) (w : world) : result world :=
  foldM (fun n w => w1 <- generate c n w ;; node_update c n w1) (seq 0 (w_nn w)) w.
Definition phase_transfer (c : cfg) (w : world) : result world :=
  foldM (transfer c) (seq 0 (w_nn w)) w.
Definition phase_follow (c : cfg) (w : world) : result world :=
  foldM (carfollow c) (w_running w) w.
Definition phase_vehicles (c : cfg) (w : world) : result world :=
  foldM (update_living c) (w_living w) w.

Definition body (c : cfg) (w : world) : result world :=
  w <- phase_links c w ;;
  w <- phase_nodes c w ;;
  w <- phase_transfer c w ;;
  w <- phase_follow c w ;;
  w <- phase_vehicles c w ;;
  w <- route_phase c w ;;
  Ok (sw_TIME (now c w) w).

(** One iteration of the [for W.T in range(...)] loop: the body, then T advances. *)
Definition tick (c : cfg) (w : world) : result world :=
  w <- body c w ;; Ok (sw_T (S (w_T w)) w).

(** [exec_simulation] from line 2424 on (2424-2509), for a finalized World, given the end
    timestep computed from the arguments.  The result value is (returned int, state).
    [simulation_terminated] only computes statistics (see Analyzer.v). *)
Definition exec_until (c : cfg) (end_ts0 : Z) (w : world) : result (Z * world) :=
  let start := Z.of_nat (w_T w) in
  let tsize := Z.of_nat (w_tsize w) in
  let end_ts := if Z.ltb tsize end_ts0 then tsize else end_ts0 in
  if Z.eqb start end_ts && Z.eqb end_ts tsize then Ok (1%Z, w)
  else if Z.ltb end_ts start then Err Exception_
  else
    (* timesteps start .. min end_ts (tsize-1); the loop body always runs once *)
    let last := if Z.leb (tsize - 1) end_ts && Z.leb start (tsize - 1) then (tsize - 1)%Z else end_ts in
    w1 <- iterM (tick c) (Z.to_nat (last - start + 1)) w ;;
    let w2 := sw_TIME (now c w1) w1 in
    Ok (if Z.eqb (Z.of_nat (w_T w2)) tsize then 1%Z else 0%Z, w2).

(** The four ways of calling [exec_simulation], 2427-2436 *)
Inductive exec_arg : Type :=
| UntilT (t : Q) | DurationT2 (t : Q) | DurationT (t : Q) | ToEnd.

Definition end_of_arg (c : cfg) (w : world) (a : exec_arg) : Z :=
  match a with
  | UntilT t => qtrunc (t / dt c)
  | DurationT2 t => Z.of_nat (w_T w) + qtrunc (t / dt c) - 1
  | DurationT t => Z.of_nat (w_T w) + qtrunc (t / dt c)
  | ToEnd => Z.of_nat (w_tsize w)
  end.

(** [World.check_simulation_ongoing], 2511-2522 *)
Definition check_ongoing (w : world) : bool :=
  if w_final w then Z.leb (Z.of_nat (w_T w)) (Z.of_nat (w_tsize w) - 1) else true.
