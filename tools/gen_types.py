# Generates rocq/theories/Types.v: the state records of the model with one setter per field.
# run: python3 tools/gen_types.py > rocq/theories/Types.v
HEAD = '''(** * Types: the state of the simulator.

    GENERATED by tools/gen_types.py (records plus one setter [s<field>] per field).
    Objects are numbered in creation order, exactly as UXsim's [id] attributes. *)
From Verif Require Import Base.

Notation nid := nat (only parsing).
Notation lid := nat (only parsing).
Notation vid := nat (only parsing).
Notation rid := nat (only parsing).

(** [Vehicle.state], uxsim.py 1053-1054, 1231, 1246 *)
Inductive vstate : Set := Home | Wait | Run | End_ | Abort.

(** [Vehicle.mode], uxsim.py 1087, 1181, 1186 *)
Inductive vmode : Set := SingleTrip | Taxi.

(** [route_choice_principle], uxsim.py 1306, 1311 *)
Inductive princ : Set := HomogeneousDUO | HeterogeneousDUO.

(** [Vehicle.route_pref]: its own dict {link id: weight} (uxsim.py 1094-1099, 1310),
    an alias of row [k] of [ROUTECHOICE.route_pref] (1308), or [None] (1249). *)
Inductive rpref : Type :=
| PrefOwn (d : list (lid * Q))
| PrefShared (k : nid)
| PrefNone.

(** Second component of the entries of [Vehicle.log_t_link], uxsim.py 1121, 1552-1554 *)
Inductive place : Set := PHome | PLink (l : lid) | PEnd.

(** Values of [Vehicle.node_event]: bound methods of a TripRequest,
    TaxiHandler.py 55, 125 *)
Inductive tevent : Set := GetOn (r : rid) | Arrive (r : rid).

Definition vstate_eqb (a b : vstate) : bool :=
  match a, b with
  | Home, Home | Wait, Wait | Run, Run | End_, End_ | Abort, Abort => true
  | _, _ => false
  end.

Lemma vstate_eqb_eq : forall a b, vstate_eqb a b = true <-> a = b.
Proof. intros [] []; cbn; split; intro; congruence. Qed.

Definition opt_eqb (a b : option nat) : bool :=
  match a, b with
  | Some x, Some y => Nat.eqb x y
  | None, None => true
  | _, _ => false
  end.

Lemma opt_eqb_eq : forall a b, opt_eqb a b = true <-> a = b.
Proof.
  intros [x|] [y|]; cbn; split; intro H; try congruence.
  - apply Nat.eqb_eq in H. now subst.
  - inversion H. apply Nat.eqb_refl.
Qed.
'''
recs = []
def rec(name, ctor, cite, fields): recs.append((name, ctor, cite, fields))

rec("logrow","mkLog","one row of the columns log_t, log_state, log_link, log_x, log_v, log_lane, log_s (uxsim.py 1112-1118, 1518-1546); -1 entries are None", [
 ("g_t","Q",""),("g_state","vstate",""),("g_link","option lid",""),("g_x","option Q",""),("g_v","option Q",""),("g_lane","option nat",""),("g_s","option Q","")])

rec("vehicle","mkVeh","Vehicle.__init__, uxsim.py 991-1138", [
 ("v_name","string",""),
 ("v_orig","nid",""),
 ("v_dest","option nid",""),
 ("v_dep","Z","departure_time (timestep)"),
 ("v_depsec","Q","departure_time_in_second"),
 ("v_arr","Z","arrival_time (timestep), -1 before"),
 ("v_larr","Q","link_arrival_time"),
 ("v_tt","Q","travel_time, -1 before"),
 ("v_state","vstate",""),
 ("v_link","option lid",""),
 ("v_x","Q",""),
 ("v_xnext","Q",""),
 ("v_xold","Q",""),
 ("v_v","Q",""),
 ("v_lane","nat",""),
 ("v_leader","option vid",""),
 ("v_follower","option vid",""),
 ("v_flag","bool","flag_waiting_for_trip_end"),
 ("v_remain","Q","move_remain"),
 ("v_princ","princ",""),
 ("v_mode","vmode",""),
 ("v_dests","list nid","dest_list"),
 ("v_events","list (nid * tevent)","node_event"),
 ("v_pref","rpref",""),
 ("v_prefer","list lid","links_prefer"),
 ("v_avoid","list lid","links_avoid"),
 ("v_spec","option (list lid)","specified_route"),
 ("v_abortopt","bool","trip_abort"),
 ("v_aborted","bool","flag_trip_aborted"),
 ("v_next","option (option lid)","route_next_link; outer None: attribute not set yet"),
 ("v_log","list logrow",""),
 ("v_tlog","list (Q * place)","log_t_link"),
 ("v_linkold","option lid","link_old"),
 ("v_dist","Q","distance_traveled"),
])
rec("link","mkLink","Link.__init__, uxsim.py 428-618", [
 ("l_name","string",""),
 ("l_start","nid",""),
 ("l_end","nid",""),
 ("l_len","Q","length"),
 ("l_lanes","nat","number_of_lanes"),
 ("l_u","Q","free flow speed"),
 ("l_kappa","Q","jam density"),
 ("l_tau","Q",""),
 ("l_w","Q","backward wave speed"),
 ("l_cap","Q","capacity"),
 ("l_delta","Q",""),
 ("l_dpl","Q","delta_per_lane"),
 ("l_ffs","Q","attribute free_flow_speed"),
 ("l_jam","Q","attribute jam_density"),
 ("l_jampl","option Q","attribute jam_density_per_lane"),
 ("l_prio","Q","merge_priority"),
 ("l_vehs","list vid","vehicles, front first"),
 ("l_enter","list (nat * vid)","vehicles_enter_log, keyed by timestep"),
 ("l_tti","list Q","traveltime_instant"),
 ("l_toll","option (Q -> Q)","congestion_pricing"),
 ("l_penalty","Q","route_choice_penalty"),
 ("l_ca","list Z","cum_arrival"),
 ("l_cd","list Z","cum_departure"),
 ("l_tta","list Q","traveltime_actual"),
 ("l_group","list nat","signal_group"),
 ("l_cout","Q","capacity_out"),
 ("l_coutr","Q","capacity_out_remain"),
 ("l_cin","option Q","capacity_in"),
 ("l_cinr","Q","capacity_in_remain"),
 ("l_eulardx","option Q","eular_dx"),
 ("l_ediedx","option Q","edie_dx; None: attribute not set"),
])
rec("node","mkNode","Node.__init__, uxsim.py 25-142", [
 ("n_name","string",""),
 ("n_x","Q",""),
 ("n_y","Q",""),
 ("n_signal","list Q",""),
 ("n_phase","nat","signal_phase"),
 ("n_sigt","Q","signal_t"),
 ("n_offset","Q","signal_offset"),
 ("n_cycle","Q","cycle_length"),
 ("n_siglog","list nat","signal_log"),
 ("n_fcap","option Q","flow_capacity"),
 ("n_fcapr","Q","flow_capacity_remain"),
 ("n_lanes","option nat","number_of_lanes"),
 ("n_in","list lid","inlinks, insertion order"),
 ("n_out","list lid","outlinks, insertion order"),
 ("n_incoming","list vid","incoming_vehicles"),
 ("n_queue","list vid","generation_queue"),
])
rec("request","mkReq","TripRequest.__init__, TaxiHandler.py 12-44", [
 ("r_orig","nid",""),
 ("r_dest","nid",""),
 ("r_depart","Q","depart_time"),
 ("r_geton","option Q","get_taxi_time"),
 ("r_arrived","option Q","arrival_time"),
 ("r_taxi","option vid",""),
])
rec("world","mkWorld","World.__init__, uxsim.py 1677-1846, and the attributes set by finalize_scenario 2327-2362", [
 ("w_nn","nat","len(NODES)"),
 ("w_nl","nat","len(LINKS)"),
 ("w_nv","nat","len(VEHICLES)"),
 ("w_nr","nat","len(trip_requests_all)"),
 ("w_nodes","nid -> node",""),
 ("w_links","lid -> link",""),
 ("w_vehs","vid -> vehicle",""),
 ("w_reqs","rid -> request",""),
 ("w_pending","list rid","trip_requests"),
 ("w_living","list vid","VEHICLES_LIVING, insertion order"),
 ("w_running","list vid","VEHICLES_RUNNING, insertion order"),
 ("w_T","nat",""),
 ("w_TIME","Q",""),
 ("w_tmax","option Q","TMAX"),
 ("w_tsize","nat","TSIZE"),
 ("w_final","bool","finalized"),
 ("w_prefveh","option nat","route_pref_for_vehs: number of link keys 0..n-1 of the cached all-zero dict"),
 ("w_rcdist","nid -> nid -> option Q","ROUTECHOICE.dist, None = inf"),
 ("w_rcnext","nid -> nid -> option nid","ROUTECHOICE.next, None = no successor (-9999)"),
 ("w_rcpref","nid -> lid -> Q","ROUTECHOICE.route_pref"),
 ("w_rcrec","list (nat * (nid -> nid -> option Q))","ROUTECHOICE.dist_record"),
 ("w_avgspd","Q","analyzer.average_speed"),
 ("w_avgcnt","nat","analyzer.average_speed_count"),
 ("w_draw","nat","number of random draws so far"),
])
print(HEAD)
allf=[]
for name,ctor,cite,fields in recs:
    print(f"(** {cite} *)\nRecord {name} : Type := {ctor} {{")
    print(";\n".join(f"  {f} : {t}" + (f" (* {c} *)" if c else "") for f,t,c in fields))
    print("}.\n")
    for f,t,c in fields:
        args=" ".join("a_" if g==f else f"({g} r_)" for g,_,_ in fields)
        print(f"Definition s{f} (a_ : {t}) (r_ : {name}) : {name} := {ctor} {args}.")
        allf += [f, "s"+f]
    print()
print("(** Simplify projections of setters. *)")
print("Ltac rs := cbn ["+" ".join(allf)+"].")
print('Tactic Notation "rs" "in" hyp(H) := cbn ['+" ".join(allf)+"] in H.")
print('Tactic Notation "rs" "in" "*" := cbn ['+" ".join(allf)+"] in *.")
