(** * SpecSafe: well-formed scenarios and the documented errors (C20). *)
From Verif Require Import Base Types Sim Build Steps Spec SpecDuo.
Local Open Scope nat_scope.

(** parameters of World(): positive timestep, an interval for the instantaneous travel times, weights between 0 and 1,
    and a positive update interval if the preferences are updated gradually *)
Definition sane (c : cfg) : Prop :=
  (0 < dt c)%Q /\ tti_interval c <> 0 /\ (c_gradual c = true -> ~ (c_duo_time c == 0)%Q) /\ good_weights c.

(** preferences for exactly the existing links, between 0 and 1 *)
Definition full_prefs (nl : nat) (d : list (lid * Q)) : Prop :=
  unit_prefs d /\ (forall l, l < nl -> exists q, dget l d = Some q) /\ Forall (fun lp => fst lp < nl) d.

(** the calls of a well-formed scenario *)
Definition well_formed (o : op) (w : world) : Prop :=
  match o with
  (* the network is complete before the first vehicle; speeds are positive, merge priorities not negative *)
  | OAddLink a => w_nv w = 0 /\ (0 < la_ffs a)%Q /\ (0 <= la_prio a)%Q
  | OChangeSpeed _ q => (0 < q)%Q
  (* single trips with a destination *)
  | OAddVehicle a => va_mode a = SingleTrip /\ va_dest a <> None /\
                     match va_pref a with Some d => full_prefs (w_nl w) d | None => True end
  (* a route is given before the departure and ends at the destination *)
  | OEnforceRoute v r _ => (v_state (V w v) = Home \/ v_state (V w v) = Wait) /\
                     exists l r', r = r' ++ [l] /\ v_dest (V w v) = Some (l_end (L w l))
  (* the running phase exists in the new signal setting *)
  | OOverrideSignal n sig _ _ reset => 0 < List.length sig /\ (reset = true \/ n_phase (N w n) < List.length sig)
  | _ => True
  end.

(** vehicle [v] is about to choose its link number [i] at node [n]: it waits at its origin or is at the end of a link *)
Definition chooses (w : world) (v : vid) (n : nid) (i : nat) : Prop :=
  v < w_nv w /\
  ((v_state (V w v) = Wait /\ v_orig (V w v) = n /\ i = 0) \/
   (v_state (V w v) = Run /\ i = List.length (v_tlog (V w v)) - 1 /\
    exists l, v_link (V w v) = Some l /\ l_end (L w l) = n /\ (v_x (V w v) == l_len (L w l))%Q)).

(** the documented errors of route choice *)
Inductive route_fault (w : world) : Prop :=
| rf_specified : forall v n i sp l, chooses w v n i -> v_spec (V w v) = Some sp -> nth_error sp i = Some l ->
    ~ In l (n_out (N w n)) -> route_fault w                    (* the next link of the specified route does not start here *)
| rf_no_link : forall v n i, chooses w v n i -> v_spec (V w v) = None ->
    (forall l, In l (n_out (N w n)) -> In l (v_avoid (V w v)) \/
       (~ In l (v_prefer (V w v)) /\ exists k, In k (n_out (N w n)) /\ In k (v_prefer (V w v)))) ->
    route_fault w.                                             (* every link is avoided, or not preferred while another one is *)
