(** * Types: the state of the simulator.

    GENERATED by tools/gen_types.py (records plus one setter [s<field>] per field).
    Objects are numbered in creation order, exactly as UXsim's [id] attributes. *)
From Verif Require Import Base.

Notation nid := nat (only parsing).
Notation lid := nat (only parsing).
Notation vid := nat (only parsing).
Notation rid := nat (only parsing).

(** [Vehicle.state], uxsim.py 1053-1054, 1231, 1246 *)
Inductive vstate : Set := Home | Wait | Run | End_ | Abort.

(** [Vehicle.mode], uxsim.py 1087, 1181, 1186 *)
Inductive vmode : Set := SingleTrip | Taxi.

(** [route_choice_principle], uxsim.py 1306, 1311 *)
Inductive princ : Set := HomogeneousDUO | HeterogeneousDUO.

(** [Vehicle.route_pref]: its own dict {link id: weight} (uxsim.py 1094-1099, 1310),
    an alias of row [k] of [ROUTECHOICE.route_pref] (1308), or [None] (1249). *)
Inductive rpref : Type :=
| PrefOwn (d : list (lid * Q))
| PrefShared (k : nid)
| PrefNone.

(** Second component of the entries of [Vehicle.log_t_link], uxsim.py 1121, 1552-1554 *)
Inductive place : Set := PHome | PLink (l : lid) | PEnd.

(** Values of [Vehicle.node_event]: bound methods of a TripRequest,
    TaxiHandler.py 55, 125 *)
Inductive tevent : Set := GetOn (r : rid) | Arrive (r : rid).

Definition vstate_eqb (a b : vstate) : bool :=
  match a, b with
  | Home, Home | Wait, Wait | Run, Run | End_, End_ | Abort, Abort => true
  | _, _ => false
  end.

Lemma vstate_eqb_eq : forall a b, vstate_eqb a b = true <-> a = b.
Proof. intros [] []; cbn; split; intro; congruence. Qed.

Definition opt_eqb (a b : option nat) : bool :=
  match a, b with
  | Some x, Some y => Nat.eqb x y
  | None, None => true
  | _, _ => false
  end.

Lemma opt_eqb_eq : forall a b, opt_eqb a b = true <-> a = b.
Proof.
  intros [x|] [y|]; cbn; split; intro H; try congruence.
  - apply Nat.eqb_eq in H. now subst.
  - inversion H. apply Nat.eqb_refl.
Qed.

(** one row of the columns log_t, log_state, log_link, log_x, log_v, log_lane, log_s (uxsim.py 1112-1118, 1518-1546); -1 entries are None *)
Record logrow : Type := mkLog {
  g_t : Q;
  g_state : vstate;
  g_link : option lid;
  g_x : option Q;
  g_v : option Q;
  g_lane : option nat;
  g_s : option Q
}.

Definition sg_t (a_ : Q) (r_ : logrow) : logrow := mkLog a_ (g_state r_) (g_link r_) (g_x r_) (g_v r_) (g_lane r_) (g_s r_).
Definition sg_state (a_ : vstate) (r_ : logrow) : logrow := mkLog (g_t r_) a_ (g_link r_) (g_x r_) (g_v r_) (g_lane r_) (g_s r_).
Definition sg_link (a_ : option lid) (r_ : logrow) : logrow := mkLog (g_t r_) (g_state r_) a_ (g_x r_) (g_v r_) (g_lane r_) (g_s r_).
Definition sg_x (a_ : option Q) (r_ : logrow) : logrow := mkLog (g_t r_) (g_state r_) (g_link r_) a_ (g_v r_) (g_lane r_) (g_s r_).
Definition sg_v (a_ : option Q) (r_ : logrow) : logrow := mkLog (g_t r_) (g_state r_) (g_link r_) (g_x r_) a_ (g_lane r_) (g_s r_).
Definition sg_lane (a_ : option nat) (r_ : logrow) : logrow := mkLog (g_t r_) (g_state r_) (g_link r_) (g_x r_) (g_v r_) a_ (g_s r_).
Definition sg_s (a_ : option Q) (r_ : logrow) : logrow := mkLog (g_t r_) (g_state r_) (g_link r_) (g_x r_) (g_v r_) (g_lane r_) a_.

(** Vehicle.__init__, uxsim.py 991-1138 *)
Record vehicle : Type := mkVeh {
  v_name : string;
  v_orig : nid;
  v_dest : option nid;
  v_dep : Z (* departure_time (timestep) *);
  v_depsec : Q (* departure_time_in_second *);
  v_arr : Z (* arrival_time (timestep), -1 before *);
  v_larr : Q (* link_arrival_time *);
  v_tt : Q (* travel_time, -1 before *);
  v_state : vstate;
  v_link : option lid;
  v_x : Q;
  v_xnext : Q;
  v_xold : Q;
  v_v : Q;
  v_lane : nat;
  v_leader : option vid;
  v_follower : option vid;
  v_flag : bool (* flag_waiting_for_trip_end *);
  v_remain : Q (* move_remain *);
  v_princ : princ;
  v_mode : vmode;
  v_dests : list nid (* dest_list *);
  v_events : list (nid * tevent) (* node_event *);
  v_pref : rpref;
  v_prefer : list lid (* links_prefer *);
  v_avoid : list lid (* links_avoid *);
  v_spec : option (list lid) (* specified_route *);
  v_abortopt : bool (* trip_abort *);
  v_aborted : bool (* flag_trip_aborted *);
  v_next : option (option lid) (* route_next_link; outer None: attribute not set yet *);
  v_log : list logrow;
  v_tlog : list (Q * place) (* log_t_link *);
  v_linkold : option lid (* link_old *);
  v_dist : Q (* distance_traveled *)
}.

Definition sv_name (a_ : string) (r_ : vehicle) : vehicle := mkVeh a_ (v_orig r_) (v_dest r_) (v_dep r_) (v_depsec r_) (v_arr r_) (v_larr r_) (v_tt r_) (v_state r_) (v_link r_) (v_x r_) (v_xnext r_) (v_xold r_) (v_v r_) (v_lane r_) (v_leader r_) (v_follower r_) (v_flag r_) (v_remain r_) (v_princ r_) (v_mode r_) (v_dests r_) (v_events r_) (v_pref r_) (v_prefer r_) (v_avoid r_) (v_spec r_) (v_abortopt r_) (v_aborted r_) (v_next r_) (v_log r_) (v_tlog r_) (v_linkold r_) (v_dist r_).
Definition sv_orig (a_ : nid) (r_ : vehicle) : vehicle := mkVeh (v_name r_) a_ (v_dest r_) (v_dep r_) (v_depsec r_) (v_arr r_) (v_larr r_) (v_tt r_) (v_state r_) (v_link r_) (v_x r_) (v_xnext r_) (v_xold r_) (v_v r_) (v_lane r_) (v_leader r_) (v_follower r_) (v_flag r_) (v_remain r_) (v_princ r_) (v_mode r_) (v_dests r_) (v_events r_) (v_pref r_) (v_prefer r_) (v_avoid r_) (v_spec r_) (v_abortopt r_) (v_aborted r_) (v_next r_) (v_log r_) (v_tlog r_) (v_linkold r_) (v_dist r_).
Definition sv_dest (a_ : option nid) (r_ : vehicle) : vehicle := mkVeh (v_name r_) (v_orig r_) a_ (v_dep r_) (v_depsec r_) (v_arr r_) (v_larr r_) (v_tt r_) (v_state r_) (v_link r_) (v_x r_) (v_xnext r_) (v_xold r_) (v_v r_) (v_lane r_) (v_leader r_) (v_follower r_) (v_flag r_) (v_remain r_) (v_princ r_) (v_mode r_) (v_dests r_) (v_events r_) (v_pref r_) (v_prefer r_) (v_avoid r_) (v_spec r_) (v_abortopt r_) (v_aborted r_) (v_next r_) (v_log r_) (v_tlog r_) (v_linkold r_) (v_dist r_).
Definition sv_dep (a_ : Z) (r_ : vehicle) : vehicle := mkVeh (v_name r_) (v_orig r_) (v_dest r_) a_ (v_depsec r_) (v_arr r_) (v_larr r_) (v_tt r_) (v_state r_) (v_link r_) (v_x r_) (v_xnext r_) (v_xold r_) (v_v r_) (v_lane r_) (v_leader r_) (v_follower r_) (v_flag r_) (v_remain r_) (v_princ r_) (v_mode r_) (v_dests r_) (v_events r_) (v_pref r_) (v_prefer r_) (v_avoid r_) (v_spec r_) (v_abortopt r_) (v_aborted r_) (v_next r_) (v_log r_) (v_tlog r_) (v_linkold r_) (v_dist r_).
Definition sv_depsec (a_ : Q) (r_ : vehicle) : vehicle := mkVeh (v_name r_) (v_orig r_) (v_dest r_) (v_dep r_) a_ (v_arr r_) (v_larr r_) (v_tt r_) (v_state r_) (v_link r_) (v_x r_) (v_xnext r_) (v_xold r_) (v_v r_) (v_lane r_) (v_leader r_) (v_follower r_) (v_flag r_) (v_remain r_) (v_princ r_) (v_mode r_) (v_dests r_) (v_events r_) (v_pref r_) (v_prefer r_) (v_avoid r_) (v_spec r_) (v_abortopt r_) (v_aborted r_) (v_next r_) (v_log r_) (v_tlog r_) (v_linkold r_) (v_dist r_).
Definition sv_arr (a_ : Z) (r_ : vehicle) : vehicle := mkVeh (v_name r_) (v_orig r_) (v_dest r_) (v_dep r_) (v_depsec r_) a_ (v_larr r_) (v_tt r_) (v_state r_) (v_link r_) (v_x r_) (v_xnext r_) (v_xold r_) (v_v r_) (v_lane r_) (v_leader r_) (v_follower r_) (v_flag r_) (v_remain r_) (v_princ r_) (v_mode r_) (v_dests r_) (v_events r_) (v_pref r_) (v_prefer r_) (v_avoid r_) (v_spec r_) (v_abortopt r_) (v_aborted r_) (v_next r_) (v_log r_) (v_tlog r_) (v_linkold r_) (v_dist r_).
Definition sv_larr (a_ : Q) (r_ : vehicle) : vehicle := mkVeh (v_name r_) (v_orig r_) (v_dest r_) (v_dep r_) (v_depsec r_) (v_arr r_) a_ (v_tt r_) (v_state r_) (v_link r_) (v_x r_) (v_xnext r_) (v_xold r_) (v_v r_) (v_lane r_) (v_leader r_) (v_follower r_) (v_flag r_) (v_remain r_) (v_princ r_) (v_mode r_) (v_dests r_) (v_events r_) (v_pref r_) (v_prefer r_) (v_avoid r_) (v_spec r_) (v_abortopt r_) (v_aborted r_) (v_next r_) (v_log r_) (v_tlog r_) (v_linkold r_) (v_dist r_).
Definition sv_tt (a_ : Q) (r_ : vehicle) : vehicle := mkVeh (v_name r_) (v_orig r_) (v_dest r_) (v_dep r_) (v_depsec r_) (v_arr r_) (v_larr r_) a_ (v_state r_) (v_link r_) (v_x r_) (v_xnext r_) (v_xold r_) (v_v r_) (v_lane r_) (v_leader r_) (v_follower r_) (v_flag r_) (v_remain r_) (v_princ r_) (v_mode r_) (v_dests r_) (v_events r_) (v_pref r_) (v_prefer r_) (v_avoid r_) (v_spec r_) (v_abortopt r_) (v_aborted r_) (v_next r_) (v_log r_) (v_tlog r_) (v_linkold r_) (v_dist r_).
Definition sv_state (a_ : vstate) (r_ : vehicle) : vehicle := mkVeh (v_name r_) (v_orig r_) (v_dest r_) (v_dep r_) (v_depsec r_) (v_arr r_) (v_larr r_) (v_tt r_) a_ (v_link r_) (v_x r_) (v_xnext r_) (v_xold r_) (v_v r_) (v_lane r_) (v_leader r_) (v_follower r_) (v_flag r_) (v_remain r_) (v_princ r_) (v_mode r_) (v_dests r_) (v_events r_) (v_pref r_) (v_prefer r_) (v_avoid r_) (v_spec r_) (v_abortopt r_) (v_aborted r_) (v_next r_) (v_log r_) (v_tlog r_) (v_linkold r_) (v_dist r_).
Definition sv_link (a_ : option lid) (r_ : vehicle) : vehicle := mkVeh (v_name r_) (v_orig r_) (v_dest r_) (v_dep r_) (v_depsec r_) (v_arr r_) (v_larr r_) (v_tt r_) (v_state r_) a_ (v_x r_) (v_xnext r_) (v_xold r_) (v_v r_) (v_lane r_) (v_leader r_) (v_follower r_) (v_flag r_) (v_remain r_) (v_princ r_) (v_mode r_) (v_dests r_) (v_events r_) (v_pref r_) (v_prefer r_) (v_avoid r_) (v_spec r_) (v_abortopt r_) (v_aborted r_) (v_next r_) (v_log r_) (v_tlog r_) (v_linkold r_) (v_dist r_).
Definition sv_x (a_ : Q) (r_ : vehicle) : vehicle := mkVeh (v_name r_) (v_orig r_) (v_dest r_) (v_dep r_) (v_depsec r_) (v_arr r_) (v_larr r_) (v_tt r_) (v_state r_) (v_link r_) a_ (v_xnext r_) (v_xold r_) (v_v r_) (v_lane r_) (v_leader r_) (v_follower r_) (v_flag r_) (v_remain r_) (v_princ r_) (v_mode r_) (v_dests r_) (v_events r_) (v_pref r_) (v_prefer r_) (v_avoid r_) (v_spec r_) (v_abortopt r_) (v_aborted r_) (v_next r_) (v_log r_) (v_tlog r_) (v_linkold r_) (v_dist r_).
Definition sv_xnext (a_ : Q) (r_ : vehicle) : vehicle := mkVeh (v_name r_) (v_orig r_) (v_dest r_) (v_dep r_) (v_depsec r_) (v_arr r_) (v_larr r_) (v_tt r_) (v_state r_) (v_link r_) (v_x r_) a_ (v_xold r_) (v_v r_) (v_lane r_) (v_leader r_) (v_follower r_) (v_flag r_) (v_remain r_) (v_princ r_) (v_mode r_) (v_dests r_) (v_events r_) (v_pref r_) (v_prefer r_) (v_avoid r_) (v_spec r_) (v_abortopt r_) (v_aborted r_) (v_next r_) (v_log r_) (v_tlog r_) (v_linkold r_) (v_dist r_).
Definition sv_xold (a_ : Q) (r_ : vehicle) : vehicle := mkVeh (v_name r_) (v_orig r_) (v_dest r_) (v_dep r_) (v_depsec r_) (v_arr r_) (v_larr r_) (v_tt r_) (v_state r_) (v_link r_) (v_x r_) (v_xnext r_) a_ (v_v r_) (v_lane r_) (v_leader r_) (v_follower r_) (v_flag r_) (v_remain r_) (v_princ r_) (v_mode r_) (v_dests r_) (v_events r_) (v_pref r_) (v_prefer r_) (v_avoid r_) (v_spec r_) (v_abortopt r_) (v_aborted r_) (v_next r_) (v_log r_) (v_tlog r_) (v_linkold r_) (v_dist r_).
Definition sv_v (a_ : Q) (r_ : vehicle) : vehicle := mkVeh (v_name r_) (v_orig r_) (v_dest r_) (v_dep r_) (v_depsec r_) (v_arr r_) (v_larr r_) (v_tt r_) (v_state r_) (v_link r_) (v_x r_) (v_xnext r_) (v_xold r_) a_ (v_lane r_) (v_leader r_) (v_follower r_) (v_flag r_) (v_remain r_) (v_princ r_) (v_mode r_) (v_dests r_) (v_events r_) (v_pref r_) (v_prefer r_) (v_avoid r_) (v_spec r_) (v_abortopt r_) (v_aborted r_) (v_next r_) (v_log r_) (v_tlog r_) (v_linkold r_) (v_dist r_).
Definition sv_lane (a_ : nat) (r_ : vehicle) : vehicle := mkVeh (v_name r_) (v_orig r_) (v_dest r_) (v_dep r_) (v_depsec r_) (v_arr r_) (v_larr r_) (v_tt r_) (v_state r_) (v_link r_) (v_x r_) (v_xnext r_) (v_xold r_) (v_v r_) a_ (v_leader r_) (v_follower r_) (v_flag r_) (v_remain r_) (v_princ r_) (v_mode r_) (v_dests r_) (v_events r_) (v_pref r_) (v_prefer r_) (v_avoid r_) (v_spec r_) (v_abortopt r_) (v_aborted r_) (v_next r_) (v_log r_) (v_tlog r_) (v_linkold r_) (v_dist r_).
Definition sv_leader (a_ : option vid) (r_ : vehicle) : vehicle := mkVeh (v_name r_) (v_orig r_) (v_dest r_) (v_dep r_) (v_depsec r_) (v_arr r_) (v_larr r_) (v_tt r_) (v_state r_) (v_link r_) (v_x r_) (v_xnext r_) (v_xold r_) (v_v r_) (v_lane r_) a_ (v_follower r_) (v_flag r_) (v_remain r_) (v_princ r_) (v_mode r_) (v_dests r_) (v_events r_) (v_pref r_) (v_prefer r_) (v_avoid r_) (v_spec r_) (v_abortopt r_) (v_aborted r_) (v_next r_) (v_log r_) (v_tlog r_) (v_linkold r_) (v_dist r_).
Definition sv_follower (a_ : option vid) (r_ : vehicle) : vehicle := mkVeh (v_name r_) (v_orig r_) (v_dest r_) (v_dep r_) (v_depsec r_) (v_arr r_) (v_larr r_) (v_tt r_) (v_state r_) (v_link r_) (v_x r_) (v_xnext r_) (v_xold r_) (v_v r_) (v_lane r_) (v_leader r_) a_ (v_flag r_) (v_remain r_) (v_princ r_) (v_mode r_) (v_dests r_) (v_events r_) (v_pref r_) (v_prefer r_) (v_avoid r_) (v_spec r_) (v_abortopt r_) (v_aborted r_) (v_next r_) (v_log r_) (v_tlog r_) (v_linkold r_) (v_dist r_).
Definition sv_flag (a_ : bool) (r_ : vehicle) : vehicle := mkVeh (v_name r_) (v_orig r_) (v_dest r_) (v_dep r_) (v_depsec r_) (v_arr r_) (v_larr r_) (v_tt r_) (v_state r_) (v_link r_) (v_x r_) (v_xnext r_) (v_xold r_) (v_v r_) (v_lane r_) (v_leader r_) (v_follower r_) a_ (v_remain r_) (v_princ r_) (v_mode r_) (v_dests r_) (v_events r_) (v_pref r_) (v_prefer r_) (v_avoid r_) (v_spec r_) (v_abortopt r_) (v_aborted r_) (v_next r_) (v_log r_) (v_tlog r_) (v_linkold r_) (v_dist r_).
Definition sv_remain (a_ : Q) (r_ : vehicle) : vehicle := mkVeh (v_name r_) (v_orig r_) (v_dest r_) (v_dep r_) (v_depsec r_) (v_arr r_) (v_larr r_) (v_tt r_) (v_state r_) (v_link r_) (v_x r_) (v_xnext r_) (v_xold r_) (v_v r_) (v_lane r_) (v_leader r_) (v_follower r_) (v_flag r_) a_ (v_princ r_) (v_mode r_) (v_dests r_) (v_events r_) (v_pref r_) (v_prefer r_) (v_avoid r_) (v_spec r_) (v_abortopt r_) (v_aborted r_) (v_next r_) (v_log r_) (v_tlog r_) (v_linkold r_) (v_dist r_).
Definition sv_princ (a_ : princ) (r_ : vehicle) : vehicle := mkVeh (v_name r_) (v_orig r_) (v_dest r_) (v_dep r_) (v_depsec r_) (v_arr r_) (v_larr r_) (v_tt r_) (v_state r_) (v_link r_) (v_x r_) (v_xnext r_) (v_xold r_) (v_v r_) (v_lane r_) (v_leader r_) (v_follower r_) (v_flag r_) (v_remain r_) a_ (v_mode r_) (v_dests r_) (v_events r_) (v_pref r_) (v_prefer r_) (v_avoid r_) (v_spec r_) (v_abortopt r_) (v_aborted r_) (v_next r_) (v_log r_) (v_tlog r_) (v_linkold r_) (v_dist r_).
Definition sv_mode (a_ : vmode) (r_ : vehicle) : vehicle := mkVeh (v_name r_) (v_orig r_) (v_dest r_) (v_dep r_) (v_depsec r_) (v_arr r_) (v_larr r_) (v_tt r_) (v_state r_) (v_link r_) (v_x r_) (v_xnext r_) (v_xold r_) (v_v r_) (v_lane r_) (v_leader r_) (v_follower r_) (v_flag r_) (v_remain r_) (v_princ r_) a_ (v_dests r_) (v_events r_) (v_pref r_) (v_prefer r_) (v_avoid r_) (v_spec r_) (v_abortopt r_) (v_aborted r_) (v_next r_) (v_log r_) (v_tlog r_) (v_linkold r_) (v_dist r_).
Definition sv_dests (a_ : list nid) (r_ : vehicle) : vehicle := mkVeh (v_name r_) (v_orig r_) (v_dest r_) (v_dep r_) (v_depsec r_) (v_arr r_) (v_larr r_) (v_tt r_) (v_state r_) (v_link r_) (v_x r_) (v_xnext r_) (v_xold r_) (v_v r_) (v_lane r_) (v_leader r_) (v_follower r_) (v_flag r_) (v_remain r_) (v_princ r_) (v_mode r_) a_ (v_events r_) (v_pref r_) (v_prefer r_) (v_avoid r_) (v_spec r_) (v_abortopt r_) (v_aborted r_) (v_next r_) (v_log r_) (v_tlog r_) (v_linkold r_) (v_dist r_).
Definition sv_events (a_ : list (nid * tevent)) (r_ : vehicle) : vehicle := mkVeh (v_name r_) (v_orig r_) (v_dest r_) (v_dep r_) (v_depsec r_) (v_arr r_) (v_larr r_) (v_tt r_) (v_state r_) (v_link r_) (v_x r_) (v_xnext r_) (v_xold r_) (v_v r_) (v_lane r_) (v_leader r_) (v_follower r_) (v_flag r_) (v_remain r_) (v_princ r_) (v_mode r_) (v_dests r_) a_ (v_pref r_) (v_prefer r_) (v_avoid r_) (v_spec r_) (v_abortopt r_) (v_aborted r_) (v_next r_) (v_log r_) (v_tlog r_) (v_linkold r_) (v_dist r_).
Definition sv_pref (a_ : rpref) (r_ : vehicle) : vehicle := mkVeh (v_name r_) (v_orig r_) (v_dest r_) (v_dep r_) (v_depsec r_) (v_arr r_) (v_larr r_) (v_tt r_) (v_state r_) (v_link r_) (v_x r_) (v_xnext r_) (v_xold r_) (v_v r_) (v_lane r_) (v_leader r_) (v_follower r_) (v_flag r_) (v_remain r_) (v_princ r_) (v_mode r_) (v_dests r_) (v_events r_) a_ (v_prefer r_) (v_avoid r_) (v_spec r_) (v_abortopt r_) (v_aborted r_) (v_next r_) (v_log r_) (v_tlog r_) (v_linkold r_) (v_dist r_).
Definition sv_prefer (a_ : list lid) (r_ : vehicle) : vehicle := mkVeh (v_name r_) (v_orig r_) (v_dest r_) (v_dep r_) (v_depsec r_) (v_arr r_) (v_larr r_) (v_tt r_) (v_state r_) (v_link r_) (v_x r_) (v_xnext r_) (v_xold r_) (v_v r_) (v_lane r_) (v_leader r_) (v_follower r_) (v_flag r_) (v_remain r_) (v_princ r_) (v_mode r_) (v_dests r_) (v_events r_) (v_pref r_) a_ (v_avoid r_) (v_spec r_) (v_abortopt r_) (v_aborted r_) (v_next r_) (v_log r_) (v_tlog r_) (v_linkold r_) (v_dist r_).
Definition sv_avoid (a_ : list lid) (r_ : vehicle) : vehicle := mkVeh (v_name r_) (v_orig r_) (v_dest r_) (v_dep r_) (v_depsec r_) (v_arr r_) (v_larr r_) (v_tt r_) (v_state r_) (v_link r_) (v_x r_) (v_xnext r_) (v_xold r_) (v_v r_) (v_lane r_) (v_leader r_) (v_follower r_) (v_flag r_) (v_remain r_) (v_princ r_) (v_mode r_) (v_dests r_) (v_events r_) (v_pref r_) (v_prefer r_) a_ (v_spec r_) (v_abortopt r_) (v_aborted r_) (v_next r_) (v_log r_) (v_tlog r_) (v_linkold r_) (v_dist r_).
Definition sv_spec (a_ : option (list lid)) (r_ : vehicle) : vehicle := mkVeh (v_name r_) (v_orig r_) (v_dest r_) (v_dep r_) (v_depsec r_) (v_arr r_) (v_larr r_) (v_tt r_) (v_state r_) (v_link r_) (v_x r_) (v_xnext r_) (v_xold r_) (v_v r_) (v_lane r_) (v_leader r_) (v_follower r_) (v_flag r_) (v_remain r_) (v_princ r_) (v_mode r_) (v_dests r_) (v_events r_) (v_pref r_) (v_prefer r_) (v_avoid r_) a_ (v_abortopt r_) (v_aborted r_) (v_next r_) (v_log r_) (v_tlog r_) (v_linkold r_) (v_dist r_).
Definition sv_abortopt (a_ : bool) (r_ : vehicle) : vehicle := mkVeh (v_name r_) (v_orig r_) (v_dest r_) (v_dep r_) (v_depsec r_) (v_arr r_) (v_larr r_) (v_tt r_) (v_state r_) (v_link r_) (v_x r_) (v_xnext r_) (v_xold r_) (v_v r_) (v_lane r_) (v_leader r_) (v_follower r_) (v_flag r_) (v_remain r_) (v_princ r_) (v_mode r_) (v_dests r_) (v_events r_) (v_pref r_) (v_prefer r_) (v_avoid r_) (v_spec r_) a_ (v_aborted r_) (v_next r_) (v_log r_) (v_tlog r_) (v_linkold r_) (v_dist r_).
Definition sv_aborted (a_ : bool) (r_ : vehicle) : vehicle := mkVeh (v_name r_) (v_orig r_) (v_dest r_) (v_dep r_) (v_depsec r_) (v_arr r_) (v_larr r_) (v_tt r_) (v_state r_) (v_link r_) (v_x r_) (v_xnext r_) (v_xold r_) (v_v r_) (v_lane r_) (v_leader r_) (v_follower r_) (v_flag r_) (v_remain r_) (v_princ r_) (v_mode r_) (v_dests r_) (v_events r_) (v_pref r_) (v_prefer r_) (v_avoid r_) (v_spec r_) (v_abortopt r_) a_ (v_next r_) (v_log r_) (v_tlog r_) (v_linkold r_) (v_dist r_).
Definition sv_next (a_ : option (option lid)) (r_ : vehicle) : vehicle := mkVeh (v_name r_) (v_orig r_) (v_dest r_) (v_dep r_) (v_depsec r_) (v_arr r_) (v_larr r_) (v_tt r_) (v_state r_) (v_link r_) (v_x r_) (v_xnext r_) (v_xold r_) (v_v r_) (v_lane r_) (v_leader r_) (v_follower r_) (v_flag r_) (v_remain r_) (v_princ r_) (v_mode r_) (v_dests r_) (v_events r_) (v_pref r_) (v_prefer r_) (v_avoid r_) (v_spec r_) (v_abortopt r_) (v_aborted r_) a_ (v_log r_) (v_tlog r_) (v_linkold r_) (v_dist r_).
Definition sv_log (a_ : list logrow) (r_ : vehicle) : vehicle := mkVeh (v_name r_) (v_orig r_) (v_dest r_) (v_dep r_) (v_depsec r_) (v_arr r_) (v_larr r_) (v_tt r_) (v_state r_) (v_link r_) (v_x r_) (v_xnext r_) (v_xold r_) (v_v r_) (v_lane r_) (v_leader r_) (v_follower r_) (v_flag r_) (v_remain r_) (v_princ r_) (v_mode r_) (v_dests r_) (v_events r_) (v_pref r_) (v_prefer r_) (v_avoid r_) (v_spec r_) (v_abortopt r_) (v_aborted r_) (v_next r_) a_ (v_tlog r_) (v_linkold r_) (v_dist r_).
Definition sv_tlog (a_ : list (Q * place)) (r_ : vehicle) : vehicle := mkVeh (v_name r_) (v_orig r_) (v_dest r_) (v_dep r_) (v_depsec r_) (v_arr r_) (v_larr r_) (v_tt r_) (v_state r_) (v_link r_) (v_x r_) (v_xnext r_) (v_xold r_) (v_v r_) (v_lane r_) (v_leader r_) (v_follower r_) (v_flag r_) (v_remain r_) (v_princ r_) (v_mode r_) (v_dests r_) (v_events r_) (v_pref r_) (v_prefer r_) (v_avoid r_) (v_spec r_) (v_abortopt r_) (v_aborted r_) (v_next r_) (v_log r_) a_ (v_linkold r_) (v_dist r_).
Definition sv_linkold (a_ : option lid) (r_ : vehicle) : vehicle := mkVeh (v_name r_) (v_orig r_) (v_dest r_) (v_dep r_) (v_depsec r_) (v_arr r_) (v_larr r_) (v_tt r_) (v_state r_) (v_link r_) (v_x r_) (v_xnext r_) (v_xold r_) (v_v r_) (v_lane r_) (v_leader r_) (v_follower r_) (v_flag r_) (v_remain r_) (v_princ r_) (v_mode r_) (v_dests r_) (v_events r_) (v_pref r_) (v_prefer r_) (v_avoid r_) (v_spec r_) (v_abortopt r_) (v_aborted r_) (v_next r_) (v_log r_) (v_tlog r_) a_ (v_dist r_).
Definition sv_dist (a_ : Q) (r_ : vehicle) : vehicle := mkVeh (v_name r_) (v_orig r_) (v_dest r_) (v_dep r_) (v_depsec r_) (v_arr r_) (v_larr r_) (v_tt r_) (v_state r_) (v_link r_) (v_x r_) (v_xnext r_) (v_xold r_) (v_v r_) (v_lane r_) (v_leader r_) (v_follower r_) (v_flag r_) (v_remain r_) (v_princ r_) (v_mode r_) (v_dests r_) (v_events r_) (v_pref r_) (v_prefer r_) (v_avoid r_) (v_spec r_) (v_abortopt r_) (v_aborted r_) (v_next r_) (v_log r_) (v_tlog r_) (v_linkold r_) a_.

(** Link.__init__, uxsim.py 428-618 *)
Record link : Type := mkLink {
  l_name : string;
  l_start : nid;
  l_end : nid;
  l_len : Q (* length *);
  l_lanes : nat (* number_of_lanes *);
  l_u : Q (* free flow speed *);
  l_kappa : Q (* jam density *);
  l_tau : Q;
  l_w : Q (* backward wave speed *);
  l_cap : Q (* capacity *);
  l_delta : Q;
  l_dpl : Q (* delta_per_lane *);
  l_ffs : Q (* attribute free_flow_speed *);
  l_jam : Q (* attribute jam_density *);
  l_jampl : option Q (* attribute jam_density_per_lane *);
  l_prio : Q (* merge_priority *);
  l_vehs : list vid (* vehicles, front first *);
  l_enter : list (nat * vid) (* vehicles_enter_log, keyed by timestep *);
  l_tti : list Q (* traveltime_instant *);
  l_toll : option (Q -> Q) (* congestion_pricing *);
  l_penalty : Q (* route_choice_penalty *);
  l_ca : list Z (* cum_arrival *);
  l_cd : list Z (* cum_departure *);
  l_tta : list Q (* traveltime_actual *);
  l_group : list nat (* signal_group *);
  l_cout : Q (* capacity_out *);
  l_coutr : Q (* capacity_out_remain *);
  l_cin : option Q (* capacity_in *);
  l_cinr : Q (* capacity_in_remain *);
  l_eulardx : option Q (* eular_dx *);
  l_ediedx : option Q (* edie_dx; None: attribute not set *)
}.

Definition sl_name (a_ : string) (r_ : link) : link := mkLink a_ (l_start r_) (l_end r_) (l_len r_) (l_lanes r_) (l_u r_) (l_kappa r_) (l_tau r_) (l_w r_) (l_cap r_) (l_delta r_) (l_dpl r_) (l_ffs r_) (l_jam r_) (l_jampl r_) (l_prio r_) (l_vehs r_) (l_enter r_) (l_tti r_) (l_toll r_) (l_penalty r_) (l_ca r_) (l_cd r_) (l_tta r_) (l_group r_) (l_cout r_) (l_coutr r_) (l_cin r_) (l_cinr r_) (l_eulardx r_) (l_ediedx r_).
Definition sl_start (a_ : nid) (r_ : link) : link := mkLink (l_name r_) a_ (l_end r_) (l_len r_) (l_lanes r_) (l_u r_) (l_kappa r_) (l_tau r_) (l_w r_) (l_cap r_) (l_delta r_) (l_dpl r_) (l_ffs r_) (l_jam r_) (l_jampl r_) (l_prio r_) (l_vehs r_) (l_enter r_) (l_tti r_) (l_toll r_) (l_penalty r_) (l_ca r_) (l_cd r_) (l_tta r_) (l_group r_) (l_cout r_) (l_coutr r_) (l_cin r_) (l_cinr r_) (l_eulardx r_) (l_ediedx r_).
Definition sl_end (a_ : nid) (r_ : link) : link := mkLink (l_name r_) (l_start r_) a_ (l_len r_) (l_lanes r_) (l_u r_) (l_kappa r_) (l_tau r_) (l_w r_) (l_cap r_) (l_delta r_) (l_dpl r_) (l_ffs r_) (l_jam r_) (l_jampl r_) (l_prio r_) (l_vehs r_) (l_enter r_) (l_tti r_) (l_toll r_) (l_penalty r_) (l_ca r_) (l_cd r_) (l_tta r_) (l_group r_) (l_cout r_) (l_coutr r_) (l_cin r_) (l_cinr r_) (l_eulardx r_) (l_ediedx r_).
Definition sl_len (a_ : Q) (r_ : link) : link := mkLink (l_name r_) (l_start r_) (l_end r_) a_ (l_lanes r_) (l_u r_) (l_kappa r_) (l_tau r_) (l_w r_) (l_cap r_) (l_delta r_) (l_dpl r_) (l_ffs r_) (l_jam r_) (l_jampl r_) (l_prio r_) (l_vehs r_) (l_enter r_) (l_tti r_) (l_toll r_) (l_penalty r_) (l_ca r_) (l_cd r_) (l_tta r_) (l_group r_) (l_cout r_) (l_coutr r_) (l_cin r_) (l_cinr r_) (l_eulardx r_) (l_ediedx r_).
Definition sl_lanes (a_ : nat) (r_ : link) : link := mkLink (l_name r_) (l_start r_) (l_end r_) (l_len r_) a_ (l_u r_) (l_kappa r_) (l_tau r_) (l_w r_) (l_cap r_) (l_delta r_) (l_dpl r_) (l_ffs r_) (l_jam r_) (l_jampl r_) (l_prio r_) (l_vehs r_) (l_enter r_) (l_tti r_) (l_toll r_) (l_penalty r_) (l_ca r_) (l_cd r_) (l_tta r_) (l_group r_) (l_cout r_) (l_coutr r_) (l_cin r_) (l_cinr r_) (l_eulardx r_) (l_ediedx r_).
Definition sl_u (a_ : Q) (r_ : link) : link := mkLink (l_name r_) (l_start r_) (l_end r_) (l_len r_) (l_lanes r_) a_ (l_kappa r_) (l_tau r_) (l_w r_) (l_cap r_) (l_delta r_) (l_dpl r_) (l_ffs r_) (l_jam r_) (l_jampl r_) (l_prio r_) (l_vehs r_) (l_enter r_) (l_tti r_) (l_toll r_) (l_penalty r_) (l_ca r_) (l_cd r_) (l_tta r_) (l_group r_) (l_cout r_) (l_coutr r_) (l_cin r_) (l_cinr r_) (l_eulardx r_) (l_ediedx r_).
Definition sl_kappa (a_ : Q) (r_ : link) : link := mkLink (l_name r_) (l_start r_) (l_end r_) (l_len r_) (l_lanes r_) (l_u r_) a_ (l_tau r_) (l_w r_) (l_cap r_) (l_delta r_) (l_dpl r_) (l_ffs r_) (l_jam r_) (l_jampl r_) (l_prio r_) (l_vehs r_) (l_enter r_) (l_tti r_) (l_toll r_) (l_penalty r_) (l_ca r_) (l_cd r_) (l_tta r_) (l_group r_) (l_cout r_) (l_coutr r_) (l_cin r_) (l_cinr r_) (l_eulardx r_) (l_ediedx r_).
Definition sl_tau (a_ : Q) (r_ : link) : link := mkLink (l_name r_) (l_start r_) (l_end r_) (l_len r_) (l_lanes r_) (l_u r_) (l_kappa r_) a_ (l_w r_) (l_cap r_) (l_delta r_) (l_dpl r_) (l_ffs r_) (l_jam r_) (l_jampl r_) (l_prio r_) (l_vehs r_) (l_enter r_) (l_tti r_) (l_toll r_) (l_penalty r_) (l_ca r_) (l_cd r_) (l_tta r_) (l_group r_) (l_cout r_) (l_coutr r_) (l_cin r_) (l_cinr r_) (l_eulardx r_) (l_ediedx r_).
Definition sl_w (a_ : Q) (r_ : link) : link := mkLink (l_name r_) (l_start r_) (l_end r_) (l_len r_) (l_lanes r_) (l_u r_) (l_kappa r_) (l_tau r_) a_ (l_cap r_) (l_delta r_) (l_dpl r_) (l_ffs r_) (l_jam r_) (l_jampl r_) (l_prio r_) (l_vehs r_) (l_enter r_) (l_tti r_) (l_toll r_) (l_penalty r_) (l_ca r_) (l_cd r_) (l_tta r_) (l_group r_) (l_cout r_) (l_coutr r_) (l_cin r_) (l_cinr r_) (l_eulardx r_) (l_ediedx r_).
Definition sl_cap (a_ : Q) (r_ : link) : link := mkLink (l_name r_) (l_start r_) (l_end r_) (l_len r_) (l_lanes r_) (l_u r_) (l_kappa r_) (l_tau r_) (l_w r_) a_ (l_delta r_) (l_dpl r_) (l_ffs r_) (l_jam r_) (l_jampl r_) (l_prio r_) (l_vehs r_) (l_enter r_) (l_tti r_) (l_toll r_) (l_penalty r_) (l_ca r_) (l_cd r_) (l_tta r_) (l_group r_) (l_cout r_) (l_coutr r_) (l_cin r_) (l_cinr r_) (l_eulardx r_) (l_ediedx r_).
Definition sl_delta (a_ : Q) (r_ : link) : link := mkLink (l_name r_) (l_start r_) (l_end r_) (l_len r_) (l_lanes r_) (l_u r_) (l_kappa r_) (l_tau r_) (l_w r_) (l_cap r_) a_ (l_dpl r_) (l_ffs r_) (l_jam r_) (l_jampl r_) (l_prio r_) (l_vehs r_) (l_enter r_) (l_tti r_) (l_toll r_) (l_penalty r_) (l_ca r_) (l_cd r_) (l_tta r_) (l_group r_) (l_cout r_) (l_coutr r_) (l_cin r_) (l_cinr r_) (l_eulardx r_) (l_ediedx r_).
Definition sl_dpl (a_ : Q) (r_ : link) : link := mkLink (l_name r_) (l_start r_) (l_end r_) (l_len r_) (l_lanes r_) (l_u r_) (l_kappa r_) (l_tau r_) (l_w r_) (l_cap r_) (l_delta r_) a_ (l_ffs r_) (l_jam r_) (l_jampl r_) (l_prio r_) (l_vehs r_) (l_enter r_) (l_tti r_) (l_toll r_) (l_penalty r_) (l_ca r_) (l_cd r_) (l_tta r_) (l_group r_) (l_cout r_) (l_coutr r_) (l_cin r_) (l_cinr r_) (l_eulardx r_) (l_ediedx r_).
Definition sl_ffs (a_ : Q) (r_ : link) : link := mkLink (l_name r_) (l_start r_) (l_end r_) (l_len r_) (l_lanes r_) (l_u r_) (l_kappa r_) (l_tau r_) (l_w r_) (l_cap r_) (l_delta r_) (l_dpl r_) a_ (l_jam r_) (l_jampl r_) (l_prio r_) (l_vehs r_) (l_enter r_) (l_tti r_) (l_toll r_) (l_penalty r_) (l_ca r_) (l_cd r_) (l_tta r_) (l_group r_) (l_cout r_) (l_coutr r_) (l_cin r_) (l_cinr r_) (l_eulardx r_) (l_ediedx r_).
Definition sl_jam (a_ : Q) (r_ : link) : link := mkLink (l_name r_) (l_start r_) (l_end r_) (l_len r_) (l_lanes r_) (l_u r_) (l_kappa r_) (l_tau r_) (l_w r_) (l_cap r_) (l_delta r_) (l_dpl r_) (l_ffs r_) a_ (l_jampl r_) (l_prio r_) (l_vehs r_) (l_enter r_) (l_tti r_) (l_toll r_) (l_penalty r_) (l_ca r_) (l_cd r_) (l_tta r_) (l_group r_) (l_cout r_) (l_coutr r_) (l_cin r_) (l_cinr r_) (l_eulardx r_) (l_ediedx r_).
Definition sl_jampl (a_ : option Q) (r_ : link) : link := mkLink (l_name r_) (l_start r_) (l_end r_) (l_len r_) (l_lanes r_) (l_u r_) (l_kappa r_) (l_tau r_) (l_w r_) (l_cap r_) (l_delta r_) (l_dpl r_) (l_ffs r_) (l_jam r_) a_ (l_prio r_) (l_vehs r_) (l_enter r_) (l_tti r_) (l_toll r_) (l_penalty r_) (l_ca r_) (l_cd r_) (l_tta r_) (l_group r_) (l_cout r_) (l_coutr r_) (l_cin r_) (l_cinr r_) (l_eulardx r_) (l_ediedx r_).
Definition sl_prio (a_ : Q) (r_ : link) : link := mkLink (l_name r_) (l_start r_) (l_end r_) (l_len r_) (l_lanes r_) (l_u r_) (l_kappa r_) (l_tau r_) (l_w r_) (l_cap r_) (l_delta r_) (l_dpl r_) (l_ffs r_) (l_jam r_) (l_jampl r_) a_ (l_vehs r_) (l_enter r_) (l_tti r_) (l_toll r_) (l_penalty r_) (l_ca r_) (l_cd r_) (l_tta r_) (l_group r_) (l_cout r_) (l_coutr r_) (l_cin r_) (l_cinr r_) (l_eulardx r_) (l_ediedx r_).
Definition sl_vehs (a_ : list vid) (r_ : link) : link := mkLink (l_name r_) (l_start r_) (l_end r_) (l_len r_) (l_lanes r_) (l_u r_) (l_kappa r_) (l_tau r_) (l_w r_) (l_cap r_) (l_delta r_) (l_dpl r_) (l_ffs r_) (l_jam r_) (l_jampl r_) (l_prio r_) a_ (l_enter r_) (l_tti r_) (l_toll r_) (l_penalty r_) (l_ca r_) (l_cd r_) (l_tta r_) (l_group r_) (l_cout r_) (l_coutr r_) (l_cin r_) (l_cinr r_) (l_eulardx r_) (l_ediedx r_).
Definition sl_enter (a_ : list (nat * vid)) (r_ : link) : link := mkLink (l_name r_) (l_start r_) (l_end r_) (l_len r_) (l_lanes r_) (l_u r_) (l_kappa r_) (l_tau r_) (l_w r_) (l_cap r_) (l_delta r_) (l_dpl r_) (l_ffs r_) (l_jam r_) (l_jampl r_) (l_prio r_) (l_vehs r_) a_ (l_tti r_) (l_toll r_) (l_penalty r_) (l_ca r_) (l_cd r_) (l_tta r_) (l_group r_) (l_cout r_) (l_coutr r_) (l_cin r_) (l_cinr r_) (l_eulardx r_) (l_ediedx r_).
Definition sl_tti (a_ : list Q) (r_ : link) : link := mkLink (l_name r_) (l_start r_) (l_end r_) (l_len r_) (l_lanes r_) (l_u r_) (l_kappa r_) (l_tau r_) (l_w r_) (l_cap r_) (l_delta r_) (l_dpl r_) (l_ffs r_) (l_jam r_) (l_jampl r_) (l_prio r_) (l_vehs r_) (l_enter r_) a_ (l_toll r_) (l_penalty r_) (l_ca r_) (l_cd r_) (l_tta r_) (l_group r_) (l_cout r_) (l_coutr r_) (l_cin r_) (l_cinr r_) (l_eulardx r_) (l_ediedx r_).
Definition sl_toll (a_ : option (Q -> Q)) (r_ : link) : link := mkLink (l_name r_) (l_start r_) (l_end r_) (l_len r_) (l_lanes r_) (l_u r_) (l_kappa r_) (l_tau r_) (l_w r_) (l_cap r_) (l_delta r_) (l_dpl r_) (l_ffs r_) (l_jam r_) (l_jampl r_) (l_prio r_) (l_vehs r_) (l_enter r_) (l_tti r_) a_ (l_penalty r_) (l_ca r_) (l_cd r_) (l_tta r_) (l_group r_) (l_cout r_) (l_coutr r_) (l_cin r_) (l_cinr r_) (l_eulardx r_) (l_ediedx r_).
Definition sl_penalty (a_ : Q) (r_ : link) : link := mkLink (l_name r_) (l_start r_) (l_end r_) (l_len r_) (l_lanes r_) (l_u r_) (l_kappa r_) (l_tau r_) (l_w r_) (l_cap r_) (l_delta r_) (l_dpl r_) (l_ffs r_) (l_jam r_) (l_jampl r_) (l_prio r_) (l_vehs r_) (l_enter r_) (l_tti r_) (l_toll r_) a_ (l_ca r_) (l_cd r_) (l_tta r_) (l_group r_) (l_cout r_) (l_coutr r_) (l_cin r_) (l_cinr r_) (l_eulardx r_) (l_ediedx r_).
Definition sl_ca (a_ : list Z) (r_ : link) : link := mkLink (l_name r_) (l_start r_) (l_end r_) (l_len r_) (l_lanes r_) (l_u r_) (l_kappa r_) (l_tau r_) (l_w r_) (l_cap r_) (l_delta r_) (l_dpl r_) (l_ffs r_) (l_jam r_) (l_jampl r_) (l_prio r_) (l_vehs r_) (l_enter r_) (l_tti r_) (l_toll r_) (l_penalty r_) a_ (l_cd r_) (l_tta r_) (l_group r_) (l_cout r_) (l_coutr r_) (l_cin r_) (l_cinr r_) (l_eulardx r_) (l_ediedx r_).
Definition sl_cd (a_ : list Z) (r_ : link) : link := mkLink (l_name r_) (l_start r_) (l_end r_) (l_len r_) (l_lanes r_) (l_u r_) (l_kappa r_) (l_tau r_) (l_w r_) (l_cap r_) (l_delta r_) (l_dpl r_) (l_ffs r_) (l_jam r_) (l_jampl r_) (l_prio r_) (l_vehs r_) (l_enter r_) (l_tti r_) (l_toll r_) (l_penalty r_) (l_ca r_) a_ (l_tta r_) (l_group r_) (l_cout r_) (l_coutr r_) (l_cin r_) (l_cinr r_) (l_eulardx r_) (l_ediedx r_).
Definition sl_tta (a_ : list Q) (r_ : link) : link := mkLink (l_name r_) (l_start r_) (l_end r_) (l_len r_) (l_lanes r_) (l_u r_) (l_kappa r_) (l_tau r_) (l_w r_) (l_cap r_) (l_delta r_) (l_dpl r_) (l_ffs r_) (l_jam r_) (l_jampl r_) (l_prio r_) (l_vehs r_) (l_enter r_) (l_tti r_) (l_toll r_) (l_penalty r_) (l_ca r_) (l_cd r_) a_ (l_group r_) (l_cout r_) (l_coutr r_) (l_cin r_) (l_cinr r_) (l_eulardx r_) (l_ediedx r_).
Definition sl_group (a_ : list nat) (r_ : link) : link := mkLink (l_name r_) (l_start r_) (l_end r_) (l_len r_) (l_lanes r_) (l_u r_) (l_kappa r_) (l_tau r_) (l_w r_) (l_cap r_) (l_delta r_) (l_dpl r_) (l_ffs r_) (l_jam r_) (l_jampl r_) (l_prio r_) (l_vehs r_) (l_enter r_) (l_tti r_) (l_toll r_) (l_penalty r_) (l_ca r_) (l_cd r_) (l_tta r_) a_ (l_cout r_) (l_coutr r_) (l_cin r_) (l_cinr r_) (l_eulardx r_) (l_ediedx r_).
Definition sl_cout (a_ : Q) (r_ : link) : link := mkLink (l_name r_) (l_start r_) (l_end r_) (l_len r_) (l_lanes r_) (l_u r_) (l_kappa r_) (l_tau r_) (l_w r_) (l_cap r_) (l_delta r_) (l_dpl r_) (l_ffs r_) (l_jam r_) (l_jampl r_) (l_prio r_) (l_vehs r_) (l_enter r_) (l_tti r_) (l_toll r_) (l_penalty r_) (l_ca r_) (l_cd r_) (l_tta r_) (l_group r_) a_ (l_coutr r_) (l_cin r_) (l_cinr r_) (l_eulardx r_) (l_ediedx r_).
Definition sl_coutr (a_ : Q) (r_ : link) : link := mkLink (l_name r_) (l_start r_) (l_end r_) (l_len r_) (l_lanes r_) (l_u r_) (l_kappa r_) (l_tau r_) (l_w r_) (l_cap r_) (l_delta r_) (l_dpl r_) (l_ffs r_) (l_jam r_) (l_jampl r_) (l_prio r_) (l_vehs r_) (l_enter r_) (l_tti r_) (l_toll r_) (l_penalty r_) (l_ca r_) (l_cd r_) (l_tta r_) (l_group r_) (l_cout r_) a_ (l_cin r_) (l_cinr r_) (l_eulardx r_) (l_ediedx r_).
Definition sl_cin (a_ : option Q) (r_ : link) : link := mkLink (l_name r_) (l_start r_) (l_end r_) (l_len r_) (l_lanes r_) (l_u r_) (l_kappa r_) (l_tau r_) (l_w r_) (l_cap r_) (l_delta r_) (l_dpl r_) (l_ffs r_) (l_jam r_) (l_jampl r_) (l_prio r_) (l_vehs r_) (l_enter r_) (l_tti r_) (l_toll r_) (l_penalty r_) (l_ca r_) (l_cd r_) (l_tta r_) (l_group r_) (l_cout r_) (l_coutr r_) a_ (l_cinr r_) (l_eulardx r_) (l_ediedx r_).
Definition sl_cinr (a_ : Q) (r_ : link) : link := mkLink (l_name r_) (l_start r_) (l_end r_) (l_len r_) (l_lanes r_) (l_u r_) (l_kappa r_) (l_tau r_) (l_w r_) (l_cap r_) (l_delta r_) (l_dpl r_) (l_ffs r_) (l_jam r_) (l_jampl r_) (l_prio r_) (l_vehs r_) (l_enter r_) (l_tti r_) (l_toll r_) (l_penalty r_) (l_ca r_) (l_cd r_) (l_tta r_) (l_group r_) (l_cout r_) (l_coutr r_) (l_cin r_) a_ (l_eulardx r_) (l_ediedx r_).
Definition sl_eulardx (a_ : option Q) (r_ : link) : link := mkLink (l_name r_) (l_start r_) (l_end r_) (l_len r_) (l_lanes r_) (l_u r_) (l_kappa r_) (l_tau r_) (l_w r_) (l_cap r_) (l_delta r_) (l_dpl r_) (l_ffs r_) (l_jam r_) (l_jampl r_) (l_prio r_) (l_vehs r_) (l_enter r_) (l_tti r_) (l_toll r_) (l_penalty r_) (l_ca r_) (l_cd r_) (l_tta r_) (l_group r_) (l_cout r_) (l_coutr r_) (l_cin r_) (l_cinr r_) a_ (l_ediedx r_).
Definition sl_ediedx (a_ : option Q) (r_ : link) : link := mkLink (l_name r_) (l_start r_) (l_end r_) (l_len r_) (l_lanes r_) (l_u r_) (l_kappa r_) (l_tau r_) (l_w r_) (l_cap r_) (l_delta r_) (l_dpl r_) (l_ffs r_) (l_jam r_) (l_jampl r_) (l_prio r_) (l_vehs r_) (l_enter r_) (l_tti r_) (l_toll r_) (l_penalty r_) (l_ca r_) (l_cd r_) (l_tta r_) (l_group r_) (l_cout r_) (l_coutr r_) (l_cin r_) (l_cinr r_) (l_eulardx r_) a_.

(** Node.__init__, uxsim.py 25-142 *)
Record node : Type := mkNode {
  n_name : string;
  n_x : Q;
  n_y : Q;
  n_signal : list Q;
  n_phase : nat (* signal_phase *);
  n_sigt : Q (* signal_t *);
  n_offset : Q (* signal_offset *);
  n_cycle : Q (* cycle_length *);
  n_siglog : list nat (* signal_log *);
  n_fcap : option Q (* flow_capacity *);
  n_fcapr : Q (* flow_capacity_remain *);
  n_lanes : option nat (* number_of_lanes *);
  n_in : list lid (* inlinks, insertion order *);
  n_out : list lid (* outlinks, insertion order *);
  n_incoming : list vid (* incoming_vehicles *);
  n_queue : list vid (* generation_queue *)
}.

Definition sn_name (a_ : string) (r_ : node) : node := mkNode a_ (n_x r_) (n_y r_) (n_signal r_) (n_phase r_) (n_sigt r_) (n_offset r_) (n_cycle r_) (n_siglog r_) (n_fcap r_) (n_fcapr r_) (n_lanes r_) (n_in r_) (n_out r_) (n_incoming r_) (n_queue r_).
Definition sn_x (a_ : Q) (r_ : node) : node := mkNode (n_name r_) a_ (n_y r_) (n_signal r_) (n_phase r_) (n_sigt r_) (n_offset r_) (n_cycle r_) (n_siglog r_) (n_fcap r_) (n_fcapr r_) (n_lanes r_) (n_in r_) (n_out r_) (n_incoming r_) (n_queue r_).
Definition sn_y (a_ : Q) (r_ : node) : node := mkNode (n_name r_) (n_x r_) a_ (n_signal r_) (n_phase r_) (n_sigt r_) (n_offset r_) (n_cycle r_) (n_siglog r_) (n_fcap r_) (n_fcapr r_) (n_lanes r_) (n_in r_) (n_out r_) (n_incoming r_) (n_queue r_).
Definition sn_signal (a_ : list Q) (r_ : node) : node := mkNode (n_name r_) (n_x r_) (n_y r_) a_ (n_phase r_) (n_sigt r_) (n_offset r_) (n_cycle r_) (n_siglog r_) (n_fcap r_) (n_fcapr r_) (n_lanes r_) (n_in r_) (n_out r_) (n_incoming r_) (n_queue r_).
Definition sn_phase (a_ : nat) (r_ : node) : node := mkNode (n_name r_) (n_x r_) (n_y r_) (n_signal r_) a_ (n_sigt r_) (n_offset r_) (n_cycle r_) (n_siglog r_) (n_fcap r_) (n_fcapr r_) (n_lanes r_) (n_in r_) (n_out r_) (n_incoming r_) (n_queue r_).
Definition sn_sigt (a_ : Q) (r_ : node) : node := mkNode (n_name r_) (n_x r_) (n_y r_) (n_signal r_) (n_phase r_) a_ (n_offset r_) (n_cycle r_) (n_siglog r_) (n_fcap r_) (n_fcapr r_) (n_lanes r_) (n_in r_) (n_out r_) (n_incoming r_) (n_queue r_).
Definition sn_offset (a_ : Q) (r_ : node) : node := mkNode (n_name r_) (n_x r_) (n_y r_) (n_signal r_) (n_phase r_) (n_sigt r_) a_ (n_cycle r_) (n_siglog r_) (n_fcap r_) (n_fcapr r_) (n_lanes r_) (n_in r_) (n_out r_) (n_incoming r_) (n_queue r_).
Definition sn_cycle (a_ : Q) (r_ : node) : node := mkNode (n_name r_) (n_x r_) (n_y r_) (n_signal r_) (n_phase r_) (n_sigt r_) (n_offset r_) a_ (n_siglog r_) (n_fcap r_) (n_fcapr r_) (n_lanes r_) (n_in r_) (n_out r_) (n_incoming r_) (n_queue r_).
Definition sn_siglog (a_ : list nat) (r_ : node) : node := mkNode (n_name r_) (n_x r_) (n_y r_) (n_signal r_) (n_phase r_) (n_sigt r_) (n_offset r_) (n_cycle r_) a_ (n_fcap r_) (n_fcapr r_) (n_lanes r_) (n_in r_) (n_out r_) (n_incoming r_) (n_queue r_).
Definition sn_fcap (a_ : option Q) (r_ : node) : node := mkNode (n_name r_) (n_x r_) (n_y r_) (n_signal r_) (n_phase r_) (n_sigt r_) (n_offset r_) (n_cycle r_) (n_siglog r_) a_ (n_fcapr r_) (n_lanes r_) (n_in r_) (n_out r_) (n_incoming r_) (n_queue r_).
Definition sn_fcapr (a_ : Q) (r_ : node) : node := mkNode (n_name r_) (n_x r_) (n_y r_) (n_signal r_) (n_phase r_) (n_sigt r_) (n_offset r_) (n_cycle r_) (n_siglog r_) (n_fcap r_) a_ (n_lanes r_) (n_in r_) (n_out r_) (n_incoming r_) (n_queue r_).
Definition sn_lanes (a_ : option nat) (r_ : node) : node := mkNode (n_name r_) (n_x r_) (n_y r_) (n_signal r_) (n_phase r_) (n_sigt r_) (n_offset r_) (n_cycle r_) (n_siglog r_) (n_fcap r_) (n_fcapr r_) a_ (n_in r_) (n_out r_) (n_incoming r_) (n_queue r_).
Definition sn_in (a_ : list lid) (r_ : node) : node := mkNode (n_name r_) (n_x r_) (n_y r_) (n_signal r_) (n_phase r_) (n_sigt r_) (n_offset r_) (n_cycle r_) (n_siglog r_) (n_fcap r_) (n_fcapr r_) (n_lanes r_) a_ (n_out r_) (n_incoming r_) (n_queue r_).
Definition sn_out (a_ : list lid) (r_ : node) : node := mkNode (n_name r_) (n_x r_) (n_y r_) (n_signal r_) (n_phase r_) (n_sigt r_) (n_offset r_) (n_cycle r_) (n_siglog r_) (n_fcap r_) (n_fcapr r_) (n_lanes r_) (n_in r_) a_ (n_incoming r_) (n_queue r_).
Definition sn_incoming (a_ : list vid) (r_ : node) : node := mkNode (n_name r_) (n_x r_) (n_y r_) (n_signal r_) (n_phase r_) (n_sigt r_) (n_offset r_) (n_cycle r_) (n_siglog r_) (n_fcap r_) (n_fcapr r_) (n_lanes r_) (n_in r_) (n_out r_) a_ (n_queue r_).
Definition sn_queue (a_ : list vid) (r_ : node) : node := mkNode (n_name r_) (n_x r_) (n_y r_) (n_signal r_) (n_phase r_) (n_sigt r_) (n_offset r_) (n_cycle r_) (n_siglog r_) (n_fcap r_) (n_fcapr r_) (n_lanes r_) (n_in r_) (n_out r_) (n_incoming r_) a_.

(** TripRequest.__init__, TaxiHandler.py 12-44 *)
Record request : Type := mkReq {
  r_orig : nid;
  r_dest : nid;
  r_depart : Q (* depart_time *);
  r_geton : option Q (* get_taxi_time *);
  r_arrived : option Q (* arrival_time *);
  r_taxi : option vid
}.

Definition sr_orig (a_ : nid) (r_ : request) : request := mkReq a_ (r_dest r_) (r_depart r_) (r_geton r_) (r_arrived r_) (r_taxi r_).
Definition sr_dest (a_ : nid) (r_ : request) : request := mkReq (r_orig r_) a_ (r_depart r_) (r_geton r_) (r_arrived r_) (r_taxi r_).
Definition sr_depart (a_ : Q) (r_ : request) : request := mkReq (r_orig r_) (r_dest r_) a_ (r_geton r_) (r_arrived r_) (r_taxi r_).
Definition sr_geton (a_ : option Q) (r_ : request) : request := mkReq (r_orig r_) (r_dest r_) (r_depart r_) a_ (r_arrived r_) (r_taxi r_).
Definition sr_arrived (a_ : option Q) (r_ : request) : request := mkReq (r_orig r_) (r_dest r_) (r_depart r_) (r_geton r_) a_ (r_taxi r_).
Definition sr_taxi (a_ : option vid) (r_ : request) : request := mkReq (r_orig r_) (r_dest r_) (r_depart r_) (r_geton r_) (r_arrived r_) a_.

(** World.__init__, uxsim.py 1677-1846, and the attributes set by finalize_scenario 2327-2362 *)
Record world : Type := mkWorld {
  w_nn : nat (* len(NODES) *);
  w_nl : nat (* len(LINKS) *);
  w_nv : nat (* len(VEHICLES) *);
  w_nr : nat (* len(trip_requests_all) *);
  w_nodes : nid -> node;
  w_links : lid -> link;
  w_vehs : vid -> vehicle;
  w_reqs : rid -> request;
  w_pending : list rid (* trip_requests *);
  w_living : list vid (* VEHICLES_LIVING, insertion order *);
  w_running : list vid (* VEHICLES_RUNNING, insertion order *);
  w_T : nat;
  w_TIME : Q;
  w_tmax : option Q (* TMAX *);
  w_tsize : nat (* TSIZE *);
  w_final : bool (* finalized *);
  w_prefveh : option nat (* route_pref_for_vehs: number of link keys 0..n-1 of the cached all-zero dict *);
  w_rcdist : nid -> nid -> option Q (* ROUTECHOICE.dist, None = inf *);
  w_rcnext : nid -> nid -> option nid (* ROUTECHOICE.next, None = no successor (-9999) *);
  w_rcpref : nid -> lid -> Q (* ROUTECHOICE.route_pref *);
  w_rcrec : list (nat * (nid -> nid -> option Q)) (* ROUTECHOICE.dist_record *);
  w_avgspd : Q (* analyzer.average_speed *);
  w_avgcnt : nat (* analyzer.average_speed_count *);
  w_draw : nat (* number of random draws so far *)
}.

Definition sw_nn (a_ : nat) (r_ : world) : world := mkWorld a_ (w_nl r_) (w_nv r_) (w_nr r_) (w_nodes r_) (w_links r_) (w_vehs r_) (w_reqs r_) (w_pending r_) (w_living r_) (w_running r_) (w_T r_) (w_TIME r_) (w_tmax r_) (w_tsize r_) (w_final r_) (w_prefveh r_) (w_rcdist r_) (w_rcnext r_) (w_rcpref r_) (w_rcrec r_) (w_avgspd r_) (w_avgcnt r_) (w_draw r_).
Definition sw_nl (a_ : nat) (r_ : world) : world := mkWorld (w_nn r_) a_ (w_nv r_) (w_nr r_) (w_nodes r_) (w_links r_) (w_vehs r_) (w_reqs r_) (w_pending r_) (w_living r_) (w_running r_) (w_T r_) (w_TIME r_) (w_tmax r_) (w_tsize r_) (w_final r_) (w_prefveh r_) (w_rcdist r_) (w_rcnext r_) (w_rcpref r_) (w_rcrec r_) (w_avgspd r_) (w_avgcnt r_) (w_draw r_).
Definition sw_nv (a_ : nat) (r_ : world) : world := mkWorld (w_nn r_) (w_nl r_) a_ (w_nr r_) (w_nodes r_) (w_links r_) (w_vehs r_) (w_reqs r_) (w_pending r_) (w_living r_) (w_running r_) (w_T r_) (w_TIME r_) (w_tmax r_) (w_tsize r_) (w_final r_) (w_prefveh r_) (w_rcdist r_) (w_rcnext r_) (w_rcpref r_) (w_rcrec r_) (w_avgspd r_) (w_avgcnt r_) (w_draw r_).
Definition sw_nr (a_ : nat) (r_ : world) : world := mkWorld (w_nn r_) (w_nl r_) (w_nv r_) a_ (w_nodes r_) (w_links r_) (w_vehs r_) (w_reqs r_) (w_pending r_) (w_living r_) (w_running r_) (w_T r_) (w_TIME r_) (w_tmax r_) (w_tsize r_) (w_final r_) (w_prefveh r_) (w_rcdist r_) (w_rcnext r_) (w_rcpref r_) (w_rcrec r_) (w_avgspd r_) (w_avgcnt r_) (w_draw r_).
Definition sw_nodes (a_ : nid -> node) (r_ : world) : world := mkWorld (w_nn r_) (w_nl r_) (w_nv r_) (w_nr r_) a_ (w_links r_) (w_vehs r_) (w_reqs r_) (w_pending r_) (w_living r_) (w_running r_) (w_T r_) (w_TIME r_) (w_tmax r_) (w_tsize r_) (w_final r_) (w_prefveh r_) (w_rcdist r_) (w_rcnext r_) (w_rcpref r_) (w_rcrec r_) (w_avgspd r_) (w_avgcnt r_) (w_draw r_).
Definition sw_links (a_ : lid -> link) (r_ : world) : world := mkWorld (w_nn r_) (w_nl r_) (w_nv r_) (w_nr r_) (w_nodes r_) a_ (w_vehs r_) (w_reqs r_) (w_pending r_) (w_living r_) (w_running r_) (w_T r_) (w_TIME r_) (w_tmax r_) (w_tsize r_) (w_final r_) (w_prefveh r_) (w_rcdist r_) (w_rcnext r_) (w_rcpref r_) (w_rcrec r_) (w_avgspd r_) (w_avgcnt r_) (w_draw r_).
Definition sw_vehs (a_ : vid -> vehicle) (r_ : world) : world := mkWorld (w_nn r_) (w_nl r_) (w_nv r_) (w_nr r_) (w_nodes r_) (w_links r_) a_ (w_reqs r_) (w_pending r_) (w_living r_) (w_running r_) (w_T r_) (w_TIME r_) (w_tmax r_) (w_tsize r_) (w_final r_) (w_prefveh r_) (w_rcdist r_) (w_rcnext r_) (w_rcpref r_) (w_rcrec r_) (w_avgspd r_) (w_avgcnt r_) (w_draw r_).
Definition sw_reqs (a_ : rid -> request) (r_ : world) : world := mkWorld (w_nn r_) (w_nl r_) (w_nv r_) (w_nr r_) (w_nodes r_) (w_links r_) (w_vehs r_) a_ (w_pending r_) (w_living r_) (w_running r_) (w_T r_) (w_TIME r_) (w_tmax r_) (w_tsize r_) (w_final r_) (w_prefveh r_) (w_rcdist r_) (w_rcnext r_) (w_rcpref r_) (w_rcrec r_) (w_avgspd r_) (w_avgcnt r_) (w_draw r_).
Definition sw_pending (a_ : list rid) (r_ : world) : world := mkWorld (w_nn r_) (w_nl r_) (w_nv r_) (w_nr r_) (w_nodes r_) (w_links r_) (w_vehs r_) (w_reqs r_) a_ (w_living r_) (w_running r_) (w_T r_) (w_TIME r_) (w_tmax r_) (w_tsize r_) (w_final r_) (w_prefveh r_) (w_rcdist r_) (w_rcnext r_) (w_rcpref r_) (w_rcrec r_) (w_avgspd r_) (w_avgcnt r_) (w_draw r_).
Definition sw_living (a_ : list vid) (r_ : world) : world := mkWorld (w_nn r_) (w_nl r_) (w_nv r_) (w_nr r_) (w_nodes r_) (w_links r_) (w_vehs r_) (w_reqs r_) (w_pending r_) a_ (w_running r_) (w_T r_) (w_TIME r_) (w_tmax r_) (w_tsize r_) (w_final r_) (w_prefveh r_) (w_rcdist r_) (w_rcnext r_) (w_rcpref r_) (w_rcrec r_) (w_avgspd r_) (w_avgcnt r_) (w_draw r_).
Definition sw_running (a_ : list vid) (r_ : world) : world := mkWorld (w_nn r_) (w_nl r_) (w_nv r_) (w_nr r_) (w_nodes r_) (w_links r_) (w_vehs r_) (w_reqs r_) (w_pending r_) (w_living r_) a_ (w_T r_) (w_TIME r_) (w_tmax r_) (w_tsize r_) (w_final r_) (w_prefveh r_) (w_rcdist r_) (w_rcnext r_) (w_rcpref r_) (w_rcrec r_) (w_avgspd r_) (w_avgcnt r_) (w_draw r_).
Definition sw_T (a_ : nat) (r_ : world) : world := mkWorld (w_nn r_) (w_nl r_) (w_nv r_) (w_nr r_) (w_nodes r_) (w_links r_) (w_vehs r_) (w_reqs r_) (w_pending r_) (w_living r_) (w_running r_) a_ (w_TIME r_) (w_tmax r_) (w_tsize r_) (w_final r_) (w_prefveh r_) (w_rcdist r_) (w_rcnext r_) (w_rcpref r_) (w_rcrec r_) (w_avgspd r_) (w_avgcnt r_) (w_draw r_).
Definition sw_TIME (a_ : Q) (r_ : world) : world := mkWorld (w_nn r_) (w_nl r_) (w_nv r_) (w_nr r_) (w_nodes r_) (w_links r_) (w_vehs r_) (w_reqs r_) (w_pending r_) (w_living r_) (w_running r_) (w_T r_) a_ (w_tmax r_) (w_tsize r_) (w_final r_) (w_prefveh r_) (w_rcdist r_) (w_rcnext r_) (w_rcpref r_) (w_rcrec r_) (w_avgspd r_) (w_avgcnt r_) (w_draw r_).
Definition sw_tmax (a_ : option Q) (r_ : world) : world := mkWorld (w_nn r_) (w_nl r_) (w_nv r_) (w_nr r_) (w_nodes r_) (w_links r_) (w_vehs r_) (w_reqs r_) (w_pending r_) (w_living r_) (w_running r_) (w_T r_) (w_TIME r_) a_ (w_tsize r_) (w_final r_) (w_prefveh r_) (w_rcdist r_) (w_rcnext r_) (w_rcpref r_) (w_rcrec r_) (w_avgspd r_) (w_avgcnt r_) (w_draw r_).
Definition sw_tsize (a_ : nat) (r_ : world) : world := mkWorld (w_nn r_) (w_nl r_) (w_nv r_) (w_nr r_) (w_nodes r_) (w_links r_) (w_vehs r_) (w_reqs r_) (w_pending r_) (w_living r_) (w_running r_) (w_T r_) (w_TIME r_) (w_tmax r_) a_ (w_final r_) (w_prefveh r_) (w_rcdist r_) (w_rcnext r_) (w_rcpref r_) (w_rcrec r_) (w_avgspd r_) (w_avgcnt r_) (w_draw r_).
Definition sw_final (a_ : bool) (r_ : world) : world := mkWorld (w_nn r_) (w_nl r_) (w_nv r_) (w_nr r_) (w_nodes r_) (w_links r_) (w_vehs r_) (w_reqs r_) (w_pending r_) (w_living r_) (w_running r_) (w_T r_) (w_TIME r_) (w_tmax r_) (w_tsize r_) a_ (w_prefveh r_) (w_rcdist r_) (w_rcnext r_) (w_rcpref r_) (w_rcrec r_) (w_avgspd r_) (w_avgcnt r_) (w_draw r_).
Definition sw_prefveh (a_ : option nat) (r_ : world) : world := mkWorld (w_nn r_) (w_nl r_) (w_nv r_) (w_nr r_) (w_nodes r_) (w_links r_) (w_vehs r_) (w_reqs r_) (w_pending r_) (w_living r_) (w_running r_) (w_T r_) (w_TIME r_) (w_tmax r_) (w_tsize r_) (w_final r_) a_ (w_rcdist r_) (w_rcnext r_) (w_rcpref r_) (w_rcrec r_) (w_avgspd r_) (w_avgcnt r_) (w_draw r_).
Definition sw_rcdist (a_ : nid -> nid -> option Q) (r_ : world) : world := mkWorld (w_nn r_) (w_nl r_) (w_nv r_) (w_nr r_) (w_nodes r_) (w_links r_) (w_vehs r_) (w_reqs r_) (w_pending r_) (w_living r_) (w_running r_) (w_T r_) (w_TIME r_) (w_tmax r_) (w_tsize r_) (w_final r_) (w_prefveh r_) a_ (w_rcnext r_) (w_rcpref r_) (w_rcrec r_) (w_avgspd r_) (w_avgcnt r_) (w_draw r_).
Definition sw_rcnext (a_ : nid -> nid -> option nid) (r_ : world) : world := mkWorld (w_nn r_) (w_nl r_) (w_nv r_) (w_nr r_) (w_nodes r_) (w_links r_) (w_vehs r_) (w_reqs r_) (w_pending r_) (w_living r_) (w_running r_) (w_T r_) (w_TIME r_) (w_tmax r_) (w_tsize r_) (w_final r_) (w_prefveh r_) (w_rcdist r_) a_ (w_rcpref r_) (w_rcrec r_) (w_avgspd r_) (w_avgcnt r_) (w_draw r_).
Definition sw_rcpref (a_ : nid -> lid -> Q) (r_ : world) : world := mkWorld (w_nn r_) (w_nl r_) (w_nv r_) (w_nr r_) (w_nodes r_) (w_links r_) (w_vehs r_) (w_reqs r_) (w_pending r_) (w_living r_) (w_running r_) (w_T r_) (w_TIME r_) (w_tmax r_) (w_tsize r_) (w_final r_) (w_prefveh r_) (w_rcdist r_) (w_rcnext r_) a_ (w_rcrec r_) (w_avgspd r_) (w_avgcnt r_) (w_draw r_).
Definition sw_rcrec (a_ : list (nat * (nid -> nid -> option Q))) (r_ : world) : world := mkWorld (w_nn r_) (w_nl r_) (w_nv r_) (w_nr r_) (w_nodes r_) (w_links r_) (w_vehs r_) (w_reqs r_) (w_pending r_) (w_living r_) (w_running r_) (w_T r_) (w_TIME r_) (w_tmax r_) (w_tsize r_) (w_final r_) (w_prefveh r_) (w_rcdist r_) (w_rcnext r_) (w_rcpref r_) a_ (w_avgspd r_) (w_avgcnt r_) (w_draw r_).
Definition sw_avgspd (a_ : Q) (r_ : world) : world := mkWorld (w_nn r_) (w_nl r_) (w_nv r_) (w_nr r_) (w_nodes r_) (w_links r_) (w_vehs r_) (w_reqs r_) (w_pending r_) (w_living r_) (w_running r_) (w_T r_) (w_TIME r_) (w_tmax r_) (w_tsize r_) (w_final r_) (w_prefveh r_) (w_rcdist r_) (w_rcnext r_) (w_rcpref r_) (w_rcrec r_) a_ (w_avgcnt r_) (w_draw r_).
Definition sw_avgcnt (a_ : nat) (r_ : world) : world := mkWorld (w_nn r_) (w_nl r_) (w_nv r_) (w_nr r_) (w_nodes r_) (w_links r_) (w_vehs r_) (w_reqs r_) (w_pending r_) (w_living r_) (w_running r_) (w_T r_) (w_TIME r_) (w_tmax r_) (w_tsize r_) (w_final r_) (w_prefveh r_) (w_rcdist r_) (w_rcnext r_) (w_rcpref r_) (w_rcrec r_) (w_avgspd r_) a_ (w_draw r_).
Definition sw_draw (a_ : nat) (r_ : world) : world := mkWorld (w_nn r_) (w_nl r_) (w_nv r_) (w_nr r_) (w_nodes r_) (w_links r_) (w_vehs r_) (w_reqs r_) (w_pending r_) (w_living r_) (w_running r_) (w_T r_) (w_TIME r_) (w_tmax r_) (w_tsize r_) (w_final r_) (w_prefveh r_) (w_rcdist r_) (w_rcnext r_) (w_rcpref r_) (w_rcrec r_) (w_avgspd r_) (w_avgcnt r_) a_.

(** Simplify projections of setters. *)
Ltac rs := cbn [g_t sg_t g_state sg_state g_link sg_link g_x sg_x g_v sg_v g_lane sg_lane g_s sg_s v_name sv_name v_orig sv_orig v_dest sv_dest v_dep sv_dep v_depsec sv_depsec v_arr sv_arr v_larr sv_larr v_tt sv_tt v_state sv_state v_link sv_link v_x sv_x v_xnext sv_xnext v_xold sv_xold v_v sv_v v_lane sv_lane v_leader sv_leader v_follower sv_follower v_flag sv_flag v_remain sv_remain v_princ sv_princ v_mode sv_mode v_dests sv_dests v_events sv_events v_pref sv_pref v_prefer sv_prefer v_avoid sv_avoid v_spec sv_spec v_abortopt sv_abortopt v_aborted sv_aborted v_next sv_next v_log sv_log v_tlog sv_tlog v_linkold sv_linkold v_dist sv_dist l_name sl_name l_start sl_start l_end sl_end l_len sl_len l_lanes sl_lanes l_u sl_u l_kappa sl_kappa l_tau sl_tau l_w sl_w l_cap sl_cap l_delta sl_delta l_dpl sl_dpl l_ffs sl_ffs l_jam sl_jam l_jampl sl_jampl l_prio sl_prio l_vehs sl_vehs l_enter sl_enter l_tti sl_tti l_toll sl_toll l_penalty sl_penalty l_ca sl_ca l_cd sl_cd l_tta sl_tta l_group sl_group l_cout sl_cout l_coutr sl_coutr l_cin sl_cin l_cinr sl_cinr l_eulardx sl_eulardx l_ediedx sl_ediedx n_name sn_name n_x sn_x n_y sn_y n_signal sn_signal n_phase sn_phase n_sigt sn_sigt n_offset sn_offset n_cycle sn_cycle n_siglog sn_siglog n_fcap sn_fcap n_fcapr sn_fcapr n_lanes sn_lanes n_in sn_in n_out sn_out n_incoming sn_incoming n_queue sn_queue r_orig sr_orig r_dest sr_dest r_depart sr_depart r_geton sr_geton r_arrived sr_arrived r_taxi sr_taxi w_nn sw_nn w_nl sw_nl w_nv sw_nv w_nr sw_nr w_nodes sw_nodes w_links sw_links w_vehs sw_vehs w_reqs sw_reqs w_pending sw_pending w_living sw_living w_running sw_running w_T sw_T w_TIME sw_TIME w_tmax sw_tmax w_tsize sw_tsize w_final sw_final w_prefveh sw_prefveh w_rcdist sw_rcdist w_rcnext sw_rcnext w_rcpref sw_rcpref w_rcrec sw_rcrec w_avgspd sw_avgspd w_avgcnt sw_avgcnt w_draw sw_draw].
Tactic Notation "rs" "in" hyp(H) := cbn [g_t sg_t g_state sg_state g_link sg_link g_x sg_x g_v sg_v g_lane sg_lane g_s sg_s v_name sv_name v_orig sv_orig v_dest sv_dest v_dep sv_dep v_depsec sv_depsec v_arr sv_arr v_larr sv_larr v_tt sv_tt v_state sv_state v_link sv_link v_x sv_x v_xnext sv_xnext v_xold sv_xold v_v sv_v v_lane sv_lane v_leader sv_leader v_follower sv_follower v_flag sv_flag v_remain sv_remain v_princ sv_princ v_mode sv_mode v_dests sv_dests v_events sv_events v_pref sv_pref v_prefer sv_prefer v_avoid sv_avoid v_spec sv_spec v_abortopt sv_abortopt v_aborted sv_aborted v_next sv_next v_log sv_log v_tlog sv_tlog v_linkold sv_linkold v_dist sv_dist l_name sl_name l_start sl_start l_end sl_end l_len sl_len l_lanes sl_lanes l_u sl_u l_kappa sl_kappa l_tau sl_tau l_w sl_w l_cap sl_cap l_delta sl_delta l_dpl sl_dpl l_ffs sl_ffs l_jam sl_jam l_jampl sl_jampl l_prio sl_prio l_vehs sl_vehs l_enter sl_enter l_tti sl_tti l_toll sl_toll l_penalty sl_penalty l_ca sl_ca l_cd sl_cd l_tta sl_tta l_group sl_group l_cout sl_cout l_coutr sl_coutr l_cin sl_cin l_cinr sl_cinr l_eulardx sl_eulardx l_ediedx sl_ediedx n_name sn_name n_x sn_x n_y sn_y n_signal sn_signal n_phase sn_phase n_sigt sn_sigt n_offset sn_offset n_cycle sn_cycle n_siglog sn_siglog n_fcap sn_fcap n_fcapr sn_fcapr n_lanes sn_lanes n_in sn_in n_out sn_out n_incoming sn_incoming n_queue sn_queue r_orig sr_orig r_dest sr_dest r_depart sr_depart r_geton sr_geton r_arrived sr_arrived r_taxi sr_taxi w_nn sw_nn w_nl sw_nl w_nv sw_nv w_nr sw_nr w_nodes sw_nodes w_links sw_links w_vehs sw_vehs w_reqs sw_reqs w_pending sw_pending w_living sw_living w_running sw_running w_T sw_T w_TIME sw_TIME w_tmax sw_tmax w_tsize sw_tsize w_final sw_final w_prefveh sw_prefveh w_rcdist sw_rcdist w_rcnext sw_rcnext w_rcpref sw_rcpref w_rcrec sw_rcrec w_avgspd sw_avgspd w_avgcnt sw_avgcnt w_draw sw_draw] in H.
Tactic Notation "rs" "in" "*" := cbn [g_t sg_t g_state sg_state g_link sg_link g_x sg_x g_v sg_v g_lane sg_lane g_s sg_s v_name sv_name v_orig sv_orig v_dest sv_dest v_dep sv_dep v_depsec sv_depsec v_arr sv_arr v_larr sv_larr v_tt sv_tt v_state sv_state v_link sv_link v_x sv_x v_xnext sv_xnext v_xold sv_xold v_v sv_v v_lane sv_lane v_leader sv_leader v_follower sv_follower v_flag sv_flag v_remain sv_remain v_princ sv_princ v_mode sv_mode v_dests sv_dests v_events sv_events v_pref sv_pref v_prefer sv_prefer v_avoid sv_avoid v_spec sv_spec v_abortopt sv_abortopt v_aborted sv_aborted v_next sv_next v_log sv_log v_tlog sv_tlog v_linkold sv_linkold v_dist sv_dist l_name sl_name l_start sl_start l_end sl_end l_len sl_len l_lanes sl_lanes l_u sl_u l_kappa sl_kappa l_tau sl_tau l_w sl_w l_cap sl_cap l_delta sl_delta l_dpl sl_dpl l_ffs sl_ffs l_jam sl_jam l_jampl sl_jampl l_prio sl_prio l_vehs sl_vehs l_enter sl_enter l_tti sl_tti l_toll sl_toll l_penalty sl_penalty l_ca sl_ca l_cd sl_cd l_tta sl_tta l_group sl_group l_cout sl_cout l_coutr sl_coutr l_cin sl_cin l_cinr sl_cinr l_eulardx sl_eulardx l_ediedx sl_ediedx n_name sn_name n_x sn_x n_y sn_y n_signal sn_signal n_phase sn_phase n_sigt sn_sigt n_offset sn_offset n_cycle sn_cycle n_siglog sn_siglog n_fcap sn_fcap n_fcapr sn_fcapr n_lanes sn_lanes n_in sn_in n_out sn_out n_incoming sn_incoming n_queue sn_queue r_orig sr_orig r_dest sr_dest r_depart sr_depart r_geton sr_geton r_arrived sr_arrived r_taxi sr_taxi w_nn sw_nn w_nl sw_nl w_nv sw_nv w_nr sw_nr w_nodes sw_nodes w_links sw_links w_vehs sw_vehs w_reqs sw_reqs w_pending sw_pending w_living sw_living w_running sw_running w_T sw_T w_TIME sw_TIME w_tmax sw_tmax w_tsize sw_tsize w_final sw_final w_prefveh sw_prefveh w_rcdist sw_rcdist w_rcnext sw_rcnext w_rcpref sw_rcpref w_rcrec sw_rcrec w_avgspd sw_avgspd w_avgcnt sw_avgcnt w_draw sw_draw] in *.
