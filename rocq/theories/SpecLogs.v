(** * SpecLogs: what the log of a vehicle has to contain when every timestep is logged (property C43). *)
From Verif Require Import Base Types Sim Build Inv Steps.
Local Open Scope nat_scope.

(** time of timestep [k] *)
Definition at_step (c : cfg) (k : nat) : Q := (Qof_nat k * dt c)%Q.
(** times of the [n] timesteps from [b] on *)
Definition times (c : cfg) (b n : nat) : list Q := map (at_step c) (seq b n).
Definition empty_row (t : Q) (s : vstate) : logrow := mkLog t s None None None None None.

(** The log of [v] in [w] when [v] was created in timestep [b]: one row per timestep lived; after the trip a final row.  A trip
    ends either while vehicles are transferred ([e] is then not a timestep of its own update, hence [e - b] rows) or in the
    vehicle's own update, after the row of that timestep ([S e - b] rows). *)
Record log_ok (c : cfg) (b : nat) (w : world) (v : vid) : Prop := mkLogOK {
  lo_born : b <= w_T w;
  lo_alive : alive (v_state (V w v)) ->
    map g_t (v_log (V w v)) = times c b (w_T w - b) /\ Forall (fun r => alive (g_state r)) (v_log (V w v));
  lo_ended : ~ alive (v_state (V w v)) -> exists e rows, b <= e /\ e < w_T w /\
    v_log (V w v) = rows ++ [empty_row (at_step c e) (v_state (V w v))] /\
    (map g_t rows = times c b (e - b) \/ map g_t rows = times c b (S e - b)) /\ Forall (fun r => alive (g_state r)) rows
}.

(** The row [r] describes vehicle [v] in the timestep that starts in [w]: as it stands in [w], or just having entered a link. *)
Inductive row_of (c : cfg) (w : world) (v : vid) (r : logrow) : Prop :=
| ro_still : v_state (V w v) <> Run -> r = empty_row (now c w) (v_state (V w v)) -> row_of c w v r
| ro_stays : forall l, v_state (V w v) = Run -> v_link (V w v) = Some l ->
    g_t r = now c w -> g_state r = Run -> g_link r = Some l -> g_x r = Some (v_x (V w v)) -> row_of c w v r
| ro_enters : forall out, v_state (V w v) = Wait -> In out (n_out (N w (v_orig (V w v)))) ->
    g_t r = now c w -> g_state r = Run -> g_link r = Some out -> g_x r = Some 0%Q -> row_of c w v r
| ro_crosses : forall il out x, v_state (V w v) = Run -> v_link (V w v) = Some il -> (v_x (V w v) == l_len (L w il))%Q ->
    v_next (V w v) = Some (Some out) -> (v_mode (V w v) = SingleTrip -> In out (n_out (N w (l_end (L w il))))) ->
    g_t r = now c w -> g_state r = Run -> g_link r = Some out -> g_x r = Some x -> row_of c w v r.

(** what one timestep from [w] to [w'] appends to the log of [v] *)
Inductive log_step (c : cfg) (w w' : world) (v : vid) : Prop :=
| ls_on : forall r, alive (v_state (V w v)) -> alive (v_state (V w' v)) -> row_of c w v r ->
    v_log (V w' v) = v_log (V w v) ++ [r] ->
    (g_state r <> Run -> v_state (V w' v) = g_state r \/ g_state r = Home /\ v_state (V w' v) = Wait) ->
    (g_state r = Run -> v_state (V w' v) = Run /\ v_link (V w' v) = g_link r /\ g_x r = Some (v_xold (V w' v)) /\
       v_v (V w' v) = ((v_x (V w' v) - v_xold (V w' v)) / dt c)%Q) -> log_step c w w' v
| ls_end : forall rows, v_state (V w v) = Run \/ v_state (V w v) = Wait -> ~ alive (v_state (V w' v)) ->
    (rows = [] \/ exists r, rows = [r] /\ g_state r = Run /\ row_of c w v r) ->
    v_log (V w' v) = v_log (V w v) ++ rows ++ [empty_row (now c w) (v_state (V w' v))] -> log_step c w w' v
| ls_over : ~ alive (v_state (V w v)) -> v_state (V w' v) = v_state (V w v) -> v_log (V w' v) = v_log (V w v) -> log_step c w w' v.
