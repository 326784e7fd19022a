(** * Rounds: the assignment rounds of the taxi handlers, uxsim/TaxiHandler/TaxiHandler.py 205-299.
    The Euclidean distance is compared by its square (rationals instead of floats); names and attributes of requests are left out. *)
From Verif Require Import Base Types Sim Build.
Local Open Scope nat_scope.

(** TaxiHandler_random 205-225, TaxiHandler_nearest 228-259, TaxiHandler_nearest_matching_radious 262-294 *)
Inductive handler := HRandom | HNearest | HRadius (r : Q).

(** the list of vacant taxis, 216, 239, 275 *)
Definition is_vacant_b (w : world) (v : vid) : bool :=
  match v_mode (V w v), v_state (V w v), v_dest (V w v) with Taxi, Run, None => true | _, _, _ => false end.
Definition vacant (w : world) : list vid := filter (is_vacant_b w) (seq 0 (w_nv w)).

(** Vehicle.get_xy_coords for the current position, uxsim.py 1481-1505 *)
Definition xy (w : world) (v : vid) : result (Q * Q) :=
  match v_link (V w v) with
  | None => Err Exception_
  | Some l =>
      let k := L w l in
      let a := N w (l_start k) in
      let b := N w (l_end k) in
      px <- qdiv ((n_x b - n_x a) * v_x (V w v)) (l_len k) ;;
      py <- qdiv ((n_y b - n_y a) * v_x (V w v)) (l_len k) ;;
      Ok (n_x a + px, n_y a + py)%Q
  end.
(** the square of the distance of taxi [v] from the origin of request [r] *)
Definition dist2 (w : world) (v : vid) (r : rid) : result Q :=
  p <- xy w v ;;
  let o := N w (r_orig (R w r)) in
  Ok ((fst p - n_x o) * (fst p - n_x o) + (snd p - n_y o) * (snd p - n_y o))%Q.

(** the loops 246-254 and 282-290; [lim]: the distance is within the matching radius *)
Definition nearer (w : world) (r : rid) (lim : Q -> bool) (v : vid) (best : option (Q * vid)) : result (option (Q * vid)) :=
  d <- dist2 w v r ;;
  if lim d && (match best with None => true | Some (b, _) => qle d b end) then Ok (Some (d, v)) else Ok best.
Definition pick_near (w : world) (r : rid) (lim : Q -> bool) (vac : list vid) : result (option vid) :=
  b <- foldM (nearer w r lim) vac None ;;
  Ok (match b with Some (_, v) => Some v | None => None end).

(** the choice of a taxi for request [r] *)
Definition pick (h : handler) (w : world) (r : rid) (vac : list vid) : result (option vid) :=
  match h with
  | HRandom => Ok (last_opt vac)
  | HNearest => pick_near w r (fun _ => true) vac
  | HRadius q => pick_near w r (fun d => qle 0 q && qle d (q * q)) vac
  end.
(** [vacant_taxis.pop()] 223 or [vacant_taxis.remove] 256, 292 *)
Definition drop (h : handler) (v : vid) (vac : list vid) : list vid :=
  match h with HRandom => removelast vac | _ => remove_first v vac end.

(** the loop over a copy of the pending requests *)
Fixpoint round_loop (c : cfg) (h : handler) (rs : list rid) (vac : list vid) (w : world) : result world :=
  match rs with
  | [] => Ok w
  | r :: rs =>
      match vac with
      | [] => Ok w
      | _ =>
          if qle (r_depart (R w r)) (w_TIME w) then
            t <- pick h w r vac ;;
            match t with
            | None => round_loop c h rs vac w
            | Some v => w <- assign_taxi c v r w ;; round_loop c h rs (drop h v vac) w
            end
          else round_loop c h rs vac w
      end
  end.
(** [assign_trip_request_to_taxi]; [vac] is the list of vacant taxis, shuffled by the random handler *)
Definition round (c : cfg) (h : handler) (vac : list vid) (w : world) : result world := round_loop c h (w_pending w) vac w.
