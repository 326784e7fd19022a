(** * Build: constructors, scenario preparation and the public operations.

    Line numbers refer to /repo/uxsim/uxsim.py unless another file is named.
    Simplifications: names given as strings are resolved by the caller (see Registry.v for
    the name tables), [auto_rename=False], attributes/user attributes/colors are left out.
    A failing call returns only the exception: partial side effects before a raise are
    not modelled. *)
From Verif Require Import Base Types Sim.
From Coq Require Import DecimalString.

(** ** The empty World, 1677-1846 *)

Definition node0 : node :=
  mkNode EmptyString 0 0 [0%Q] 0 0 0 0 [] None (10e10) None [] [] [] [].
Definition link0 : link :=
  mkLink EmptyString 0 0 0 1 0 0 0 0 0 0 0 0 0 None 1 [] [] [] None 0 [] [] [] [] 0 0 None 0 None None.
Definition veh0 : vehicle :=
  mkVeh EmptyString 0 None 0 0 (-1) (-1) (-1) Home None 0 0 0 0 0 None None false 0
        HomogeneousDUO SingleTrip [] [] PrefNone [] [] None true false None [] [] None 0.
Definition req0 : request := mkReq 0 0 0 None None None.

Definition empty_world (tmax : option Q) : world :=
  mkWorld 0 0 0 0 (fun _ => node0) (fun _ => link0) (fun _ => veh0) (fun _ => req0)
          [] [] [] 0 0 tmax 0 false None
          (fun _ _ => Some 0%Q) (fun _ _ => Some 0) (fun _ _ => 0%Q) [] 0 0 0.

(** ** Node.__init__, 25-142 *)

Record node_args : Type := mkNodeArgs {
  na_name : string; na_x : Q; na_y : Q;
  na_signal : list Q; na_offset : Q; na_offset_old : option Q;
  na_fcap : option Q; na_lanes : option nat }.

(** The [while 1] loop, 99-109.  [fuel] bounds the number of iterations; see
    [signal_fuel]. *)
Fixpoint signal_start (fuel : nat) (sig : list Q) (i : nat) (off : Q) : result (nat * Q) :=
  match fuel with
  | O => Err Nontermination
  | S f =>
      g <- of_opt IndexError (nth_error sig i) ;;
      if qlt off g then Ok (i, off)
      else signal_start f sig (if List.length sig <=? S i then 0 else S i) (off - g)%Q
  end.

(** Enough iterations whenever the cycle is positive: one pass per whole cycle contained
    in the offset, plus two. *)
Definition signal_fuel (sig : list Q) (off : Q) : nat :=
  List.length sig * (Z.to_nat (Qfloor (off / qsum sig)) + 2).

Definition is_no_signal (sig : list Q) : bool :=
  match sig with [g] => qeq g 0 | _ => false end.

Definition signal_init (sig : list Q) (offset : Q) : result (nat * Q) :=
  if is_no_signal sig then Ok (0, 0%Q)
  else let off := (qsum sig - offset)%Q in
       signal_start (signal_fuel sig off) sig 0 off.

(** lanes assumed for a node capacity, 126: ceil(flow_capacity/0.8) *)
Definition auto_lanes (fc : Q) : nat := Z.to_nat (qceil (fc / (8 # 10))).

Definition new_node (c : cfg) (a : node_args) : result node :=
  let sig := na_signal a in
  let cyc := qsum sig in
  let offset := match na_offset_old a with Some o => (cyc - o)%Q | None => na_offset a end in
  '(ph, t0) <- signal_init sig offset ;;
  Ok (mkNode (na_name a) (na_x a) (na_y a) sig ph t0 offset cyc []
        (na_fcap a)
        (match na_fcap a with Some fc => (fc * dt c)%Q | None => (10e10)%Q end)
        (match na_fcap a with
         | Some fc => match na_lanes a with Some m => Some m | None => Some (auto_lanes fc) end
         | None => None
         end)
        [] [] [] []).

Definition node_names (w : world) : list string := map (fun n => n_name (N w n)) (seq 0 (w_nn w)).
Definition link_names (w : world) : list string := map (fun l => l_name (L w l)) (seq 0 (w_nl w)).
Definition veh_names (w : world) : list string := map (fun v => v_name (V w v)) (seq 0 (w_nv w)).
Definition smem (s : string) (l : list string) : bool := existsb (String.eqb s) l.

Definition add_node (c : cfg) (a : node_args) (w : world) : result world :=
  nd <- new_node c a ;;
  if smem (na_name a) (node_names w) then Err ValueError
  else Ok (sw_nn (S (w_nn w)) (sw_nodes (upd (w_nodes w) (w_nn w) nd) w)).

(** ** Link.__init__, 428-618 *)

Record link_args : Type := mkLinkArgs {
  la_name : option string; la_start : nid; la_end : nid; la_len : Q;
  la_ffs : Q; la_jam : Q; la_jampl : option Q; la_lanes : nat; la_prio : Q;
  la_group : list nat; la_cout : option Q; la_cin : option Q;
  la_toll : option (Q -> Q); la_eulardx : option Q }.

(** flow-model parameters, 517-532; [kappa = 0], [lanes = 0], [u = 0] or [u + w = 0]
    raise ZeroDivisionError.  If jam_density is not the default 0.2 and jam_density_per_lane
    is given, line 524 formats the link before its name is set: AttributeError.  A number of
    lanes that is not an integer (line 514) is not expressible. *)
Definition new_link (c : cfg) (a : link_args) (name : string) : result link :=
  let m := Qof_nat (la_lanes a) in
  let u := la_ffs a in
  kappa <- (match la_jampl a with
            | Some kp => if qeq (la_jam a) (2 # 10) then Ok (kp * m)%Q else Err AttributeError
            | None => Ok (la_jam a)
            end) ;;
  tau <- qdiv (c_react c) m ;;
  it <- qdiv 1 tau ;;
  wsp <- qdiv it kappa ;;
  cap <- qdiv (u * wsp * kappa)%Q (u + wsp)%Q ;;
  delta <- qdiv 1 kappa ;;
  _ <- qdiv cap u ;;
  let cout := match la_cout a with Some q => q | None => (cap * 2)%Q end in
  let dx0 := (la_len a / 10)%Q in
  Ok (mkLink name (la_start a) (la_end a) (la_len a) (la_lanes a) u kappa tau wsp cap
        delta (delta * m)%Q (la_ffs a) (la_jam a) (la_jampl a) (la_prio a)
        [] [] [] (la_toll a) 0 [] [] [] (la_group a)
        cout (cout * dt c)%Q
        (match la_cin a with Some q => Some q | None => Some (cap * 2)%Q end)
        (match la_cin a with Some q => (q * dt c)%Q | None => (cap * 2)%Q end)
        (la_eulardx a)
        (match la_eulardx a with
         | None => Some (if qlt dx0 (u * dt c)%Q then (u * dt c)%Q else dx0)
         | Some _ => None
         end)).

Definition link_name_of (w : world) (a : link_args) : string :=
  match la_name a with
  | Some s => s
  | None => (n_name (N w (la_start a)) ++ "-" ++ n_name (N w (la_end a)))%string
  end.

Definition add_link (c : cfg) (a : link_args) (w : world) : result world :=
  if negb ((la_start a <? w_nn w) && (la_end a <? w_nn w)) then Err Exception_ else
  let nm := link_name_of w a in
  k <- new_link c a nm ;;
  if smem nm (link_names w) then Err ValueError
  else
    let l := w_nl w in
    let w := sw_nl (S l) (sw_links (upd (w_links w) l k) w) in
    let w := modn (la_start a) (fun nd => sn_out (n_out nd ++ [l]) nd) w in
    Ok (modn (la_end a) (fun nd => sn_in (n_in nd ++ [l]) nd) w).

(** [Link.change_free_flow_speed], 963-971 (negative values are ignored with a warning) *)
Definition change_free_flow_speed (l : lid) (q : Q) (w : world) : result world :=
  if qlt q 0 then Ok w else
  let k := L w l in
  it <- qdiv 1 (l_tau k) ;;
  wsp <- qdiv it (l_kappa k) ;;
  cap <- qdiv (q * wsp * l_kappa k)%Q (q + wsp)%Q ;;
  delta <- qdiv 1 (l_kappa k) ;;
  Ok (modl l (fun k => sl_delta delta (sl_cap cap (sl_w wsp (sl_u q (sl_ffs q k))))) w).

(** [Link.change_jam_density], 973-982 *)
Definition change_jam_density (l : lid) (q : Q) (w : world) : result world :=
  if qlt q 0 then Ok w else
  let k := L w l in
  it <- qdiv 1 (l_tau k) ;;
  wsp <- qdiv it q ;;
  cap <- qdiv (l_u k * wsp * q)%Q (l_u k + wsp)%Q ;;
  delta <- qdiv 1 q ;;
  Ok (modl l (fun k => sl_dpl (delta * Qof_nat (l_lanes k))%Q (sl_delta delta
                (sl_cap cap (sl_w wsp (sl_kappa q (sl_jam q k)))))) w).

(** ** Vehicle.__init__, 991-1138 *)

Inductive dep_arg : Type := DepStep (t : Z) | DepSec (t : Q).

Record veh_args : Type := mkVehArgs {
  va_name : option string; va_orig : nid; va_dest : option nid; va_dep : dep_arg;
  va_princ : option princ; va_mode : vmode; va_pref : option (list (lid * Q));
  va_prefer : list lid; va_avoid : list lid; va_abort : bool }.

Definition dec (n : nat) : string := NilZero.string_of_uint (Nat.to_uint n).

Definition dep_step (c : cfg) (d : dep_arg) : Z :=
  match d with DepStep t => t | DepSec t => qtrunc (t / dt c) end.

(** line 1049: the same formula for both units *)
Definition dep_second (c : cfg) (d : dep_arg) : Q :=
  match d with DepStep t => (inject_Z t * dt c)%Q | DepSec t => (t * dt c)%Q end.

Definition new_vehicle (c : cfg) (a : veh_args) (nl : nat) (name : string) : vehicle :=
  let dep := dep_step c (va_dep a) in
  mkVeh name (va_orig a) (va_dest a) dep (dep_second c (va_dep a)) (-1) (-1) (-1)
    Home None 0 0 0 0 0 None None false 0
    (match va_princ a with Some p => p | None => c_princ c end)
    (va_mode a) [] []
    (PrefOwn (match va_pref a with Some d => d | None => zero_pref nl end))
    (va_prefer a) (va_avoid a) None (va_abort a) false None []
    [(inject_Z (qtrunc (inject_Z dep * dt c)), PHome)] None 0.

Definition node_ok (w : world) (o : option nid) : bool :=
  match o with Some n => n <? w_nn w | None => true end.

Definition add_vehicle (c : cfg) (a : veh_args) (w : world) : result world :=
  if negb ((va_orig a <? w_nn w) && node_ok w (va_dest a) &&
           forallb (fun l => l <? w_nl w) (va_prefer a ++ va_avoid a))
  then Err Exception_ else
  let nl := match w_prefveh w with Some n => n | None => w_nl w end in
  let pv := match va_pref a with Some _ => w_prefveh w | None => Some nl end in
  let v := w_nv w in
  let nm := match va_name a with Some s => s | None => dec v end in
  if smem nm (veh_names w) then Err ValueError
  else Ok (sw_living (w_living w ++ [v]) (sw_prefveh pv
             (sw_nv (S v) (sw_vehs (upd (w_vehs w) v (new_vehicle c a nl nm)) w)))).

(** ** World.adddemand, 2022-2053 *)

(** the [while f >= W.DELTAN] loop; DELTAN <= 0 would loop for ever *)
Fixpoint emit (c : cfg) (a : veh_args) (fuel : nat) (f : Q) (w : world) : result (Q * world) :=
  if qle (dN c) f then
    match fuel with
    | O => Err Nontermination
    | S k => w1 <- add_vehicle c a w ;; emit c a k (f - dN c)%Q w1
    end
  else Ok (f, w).

Definition emit_fuel (c : cfg) (f : Q) : nat := Z.to_nat (Qfloor (f / dN c)).

Definition demand_vehicle (o d : nid) (t : Z) : veh_args :=
  mkVehArgs None o (Some d) (DepStep t) None SingleTrip None [] [] true.

Fixpoint demand_loop (c : cfg) (o d : nid) (flow : Q) (ts : list Z) (f : Q) (w : world)
  : result (Q * world) :=
  match ts with
  | [] => Ok (f, w)
  | t :: tl =>
      let f1 := (f + flow * dt c)%Q in
      '(f2, w1) <- emit c (demand_vehicle o d t) (emit_fuel c f1) f1 w ;;
      demand_loop c o d flow tl f2 w1
  end.

(** Python [range(a, b)] *)
Definition zrange (a b : Z) : list Z :=
  map (fun i => (a + Z.of_nat i)%Z) (seq 0 (Z.to_nat (b - a))).

Definition adddemand (c : cfg) (o d : nid) (t0 t1 flow volume : Q) (w : world) : result world :=
  fl <- (if qlt 0 volume then qdiv volume (t1 - t0)%Q else Ok flow) ;;
  '(_, w1) <- demand_loop c o d fl (zrange (qtrunc (t0 / dt c)) (qtrunc (t1 / dt c))) 0%Q w ;;
  Ok w1.

(** ** World.finalize_scenario, 2312-2374 *)

(** [Link.init_after_tmax_fix], 624-640 (the Euler matrices are only checked for
    existence of their sizes) *)
Definition init_after_tmax_fix (c : cfg) (tmax : Q) (tsize : nat) (l : lid) (w : world)
  : result world :=
  let k := L w l in
  dx <- of_opt AttributeError (l_ediedx k) ;;
  _ <- qdiv tmax (c_eulardt c) ;;
  _ <- qdiv (l_len k) dx ;;
  ff <- (if Nat.eqb tsize 0 then Ok 0%Q else qdiv (l_len k) (l_u k)) ;;
  Ok (modl l (sl_tta (repeat ff tsize)) w).

Definition qmax_list (x : Q) (l : list Q) : Q := fold_left (fun a b => if qlt a b then b else a) l x.

(** [Node.adjust_node_capacity], 192-204 *)
Definition adjust_node_capacity (c : cfg) (n : nid) (w : world) : world :=
  let nd := N w n in
  match n_fcap nd, map (fun l => l_cap (L w l)) (n_in nd), map (fun l => l_cap (L w l)) (n_out nd) with
  | None, i :: is_, o :: os =>
      let fc := ((qmax_list i is_ + qmax_list o os) / 2)%Q in
      modn n (fun nd =>
        sn_lanes (match n_lanes nd with Some m => Some m | None => Some (auto_lanes fc) end)
          (sn_fcapr (fc * dt c)%Q (sn_fcap (Some fc) nd))) w
  | _, _, _ => w
  end.

(** automatic TMAX, 2327-2335 *)
Definition last_departure (c : cfg) (w : world) : Q :=
  qmax_list 0%Q (map (fun v => (inject_Z (v_dep (V w v)) * dt c)%Q) (seq 0 (w_nv w))).
Definition auto_tmax (c : cfg) (w : world) : Q :=
  (inject_Z (Qfloor (last_departure c w / 1800) + 2) * 1800)%Q.

Definition finalize (c : cfg) (tmax : option Q) (w : world) : result world :=
  let tm := match w_tmax w with
            | Some t => t
            | None => match tmax with Some t => t | None => auto_tmax c w end
            end in
  let ts := Z.to_nat (qtrunc (tm / dt c)) in
  let w := sw_tsize ts (sw_TIME 0%Q (sw_T 0 (sw_tmax (Some tm) w))) in
  w <- foldM (init_after_tmax_fix c tm ts) (seq 0 (w_nl w)) w ;;
  (* a fresh RouteChoice object, 1564-1587 *)
  let w := sw_rcdist (fun _ _ => Some 0%Q) (sw_rcnext (fun _ _ => Some 0)
             (sw_rcpref (fun _ _ => 0%Q) (sw_rcrec [] w))) in
  let w := if c_adjust c
           then fold_left (fun w n => adjust_node_capacity c n w) (seq 0 (w_nn w)) w else w in
  (* a fresh Analyzer *)
  Ok (sw_final true (sw_avgcnt 0 (sw_avgspd 0%Q w))).

(** ** World.exec_simulation, 2399-2509 *)
Definition exec_simulation (c : cfg) (a : exec_arg) (w : world) : result (Z * world) :=
  w <- (if w_final w then Ok w else finalize c None w) ;;
  exec_until c (end_of_arg c w a) w.

(** ** Other public operations *)

(** [Vehicle.enforce_route], 1267-1285 *)
Definition enforce_route (v : vid) (route : list lid) (set_avoid : bool) (w : world) : result world :=
  if negb (forallb (fun l => l <? w_nl w) route) then Err Exception_ else
  Ok (modv v (fun a =>
        let a := sv_prefer route (sv_spec (Some route) a) in
        if set_avoid then sv_avoid (filter (fun l => negb (mem l route)) (seq 0 (w_nl w))) a
        else a) w).

(** [Node.override_signal], 147-190.  Groups are lists of link numbers. *)
Definition groups_of (l : lid) (groups : list (list lid)) : list nat :=
  flat_map (fun ig => filter (fun _ => true) (map (fun _ => fst ig) (filter (Nat.eqb l) (snd ig))))
           (combine (seq 0 (List.length groups)) groups).

Definition override_signal (n : nid) (sig : list Q) (groups : option (list (list lid)))
    (offset : Q) (reset : bool) (w : world) : result world :=
  let w := modn n (fun nd =>
             let nd := sn_offset offset (sn_cycle (qsum sig) (sn_signal sig nd)) in
             if reset then sn_sigt 0%Q (sn_phase 0 nd) else nd) w in
  match groups with
  | None => Ok w
  | Some gs =>
      if negb (Nat.eqb (List.length gs) (List.length sig)) then Err ValueError
      else if negb (forallb (forallb (fun l => mem l (n_in (N w n)))) gs) then Err ValueError
      else Ok (fold_left (fun w l => if existsb (mem l) gs
                                     then modl l (sl_group (groups_of l gs)) w else w)
                 (n_in (N w n)) w)
  end.

(** TaxiHandler.add_trip_request, TaxiHandler.py 88-108 *)
Definition add_trip_request (o d : nid) (t : Q) (w : world) : result world :=
  if negb ((o <? w_nn w) && (d <? w_nn w)) then Err Exception_ else
  let r := w_nr w in
  Ok (sw_pending (w_pending w ++ [r])
        (sw_nr (S r) (sw_reqs (upd (w_reqs w) r (mkReq o d t None None None)) w))).

(** TaxiHandler.assign_taxi, TaxiHandler.py 110-127 *)
Definition assign_taxi (c : cfg) (v : vid) (r : rid) (w : world) : result world :=
  if negb (mem r (w_pending w)) then Err ValueError else
  w <- add_dest c v (r_orig (R w r)) None w ;;
  let w := modv v (fun a => sv_events (dset (r_orig (R w r)) (GetOn r) (v_events a)) a) w in
  let w := modr r (sr_taxi (Some v)) w in
  Ok (sw_pending (remove_first r (w_pending w)) w).

(** ** The alphabet of public operations *)
Inductive op : Type :=
| OAddNode (a : node_args)
| OAddLink (a : link_args)
| OAddVehicle (a : veh_args)
| OAddDemand (o d : nid) (t0 t1 flow volume : Q)
| OFinalize (tmax : option Q)
| OExec (a : exec_arg)
| OAddDest (v : vid) (d : nid) (order : option nat)
| OEnforceRoute (v : vid) (route : list lid) (set_avoid : bool)
| OSetPrefer (v : vid) (ls : list lid)
| OSetAvoid (v : vid) (ls : list lid)
| OOverrideSignal (n : nid) (sig : list Q) (groups : option (list (list lid))) (offset : Q) (reset : bool)
| OChangeSpeed (l : lid) (q : Q)
| OChangeJam (l : lid) (q : Q)
| OSetCapIn (l : lid) (q : Q)
| OSetCapOut (l : lid) (q : Q)
| OSetToll (l : lid) (f : option (Q -> Q))
| OAddRequest (o d : nid) (t : Q)
| OAssignTaxi (v : vid) (r : rid).

Definition apply_op (c : cfg) (o : op) (w : world) : result world :=
  match o with
  | OAddNode a => add_node c a w
  | OAddLink a => add_link c a w
  | OAddVehicle a => add_vehicle c a w
  | OAddDemand o d t0 t1 fl vol => adddemand c o d t0 t1 fl vol w
  | OFinalize tm => finalize c tm w
  | OExec a => '(_, w1) <- exec_simulation c a w ;; Ok w1
  | OAddDest v d ord => add_dest c v d ord w
  | OEnforceRoute v r sa => enforce_route v r sa w
  | OSetPrefer v ls => Ok (modv v (sv_prefer ls) w)    (* 1394-1403 *)
  | OSetAvoid v ls => Ok (modv v (sv_avoid ls) w)      (* 1405-1414 *)
  | OOverrideSignal n s g off rs => override_signal n s g off rs w
  | OChangeSpeed l q => change_free_flow_speed l q w
  | OChangeJam l q => change_jam_density l q w
  | OSetCapIn l q => Ok (modl l (sl_cin (Some q)) w)   (* attribute assignment by users *)
  | OSetCapOut l q => Ok (modl l (sl_cout q) w)
  | OSetToll l f => Ok (modl l (sl_toll f) w)
  | OAddRequest o d t => add_trip_request o d t w
  | OAssignTaxi v r => assign_taxi c v r w
  end.

(** The references in an operation exist; the network is built before finalization;
    the scenario is finalized at most once (a second [finalize_scenario] would reset the
    clock under running vehicles, which UXsim does not support). *)
Definition op_ok (o : op) (w : world) : Prop :=
  match o with
  | OAddNode _ | OAddLink _ => w_final w = false
  | OAddVehicle a => True
  | OAddDemand o d _ _ _ _ => True
  | OFinalize _ => w_final w = false
  | OExec _ => True
  | OAddDest v d _ => v < w_nv w /\ d < w_nn w
  | OEnforceRoute v _ _ => v < w_nv w
  | OSetPrefer v ls | OSetAvoid v ls => v < w_nv w /\ Forall (fun l => l < w_nl w) ls
  | OOverrideSignal n _ _ _ _ => n < w_nn w
  | OChangeSpeed l _ | OChangeJam l _ | OSetCapIn l _ | OSetCapOut l _ | OSetToll l _ => l < w_nl w
  | OAddRequest _ _ _ => True
  | OAssignTaxi v r => v < w_nv w
  end.

(** States reachable from an empty World by successful public operations. *)
Inductive reachable (c : cfg) : world -> Prop :=
| reach_init : forall tmax, reachable c (empty_world tmax)
| reach_op : forall w o w', reachable c w -> op_ok o w -> apply_op c o w = Ok w' ->
    reachable c w'.
