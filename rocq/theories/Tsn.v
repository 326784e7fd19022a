(** * Tsn: the time-space network (property C61), Utilities.py 339-409 construct_time_space_network.

    Simplifications: nodes are numbers instead of names, [None] is the time "end"; the attribute [pos] (for plotting) and the
    printed warnings are left out; a negative [dt] gives an empty graph; [nx.single_source_dijkstra] is not computed: theorems
    are about any function that gives the least costs ([least_costs] in SpecTsn.v). *)
From Verif Require Import Base Types Sim Build.
Local Open Scope nat_scope.

Definition gnode : Type := (nid * option Z)%type.
Definition gedge : Type := (gnode * gnode * Q)%type.
Definition oz_eqb (a b : option Z) : bool := match a, b with Some x, Some y => Z.eqb x y | None, None => true | _, _ => false end.
Definition gn_eqb (a b : gnode) : bool := Nat.eqb (fst a) (fst b) && oz_eqb (snd a) (snd b).

(** 359-361; [dt == None] means int(DELTAT) *)
Definition tsn_dt (c : cfg) (d : option Z) : Z := match d with Some z => z | None => qtrunc (dt c) end.
(** [range(0, tmax, dt)] *)
Definition tsn_times (tmax d : Z) : list Z :=
  if Z.ltb 0 d then map (fun i => (Z.of_nat i * d)%Z) (seq 0 (Z.to_nat ((tmax + d - 1) / d))) else [].

(** [G.add_edge] of a DiGraph: a second edge between the same nodes replaces the first *)
Fixpoint eset (e : gedge) (es : list gedge) : list gedge :=
  match es with
  | [] => [e]
  | x :: tl => if gn_eqb (fst (fst x)) (fst (fst e)) && gn_eqb (snd (fst x)) (snd (fst e)) then e :: tl else x :: eset e tl
  end.

(** 372-380 *)
Definition add_move (c : cfg) (w : world) (d : Z) (tm : Q) (ts : list Z) (n : nid) (t : Z) (l : lid) (es : list gedge) : result (list gedge) :=
  tt <- of_opt IndexError (nth_error (l_tta (L w l)) (Z.to_nat (qtrunc (inject_Z t / dt c)))) ;;
  let ta := (qtrunc ((inject_Z t + tt) / inject_Z d) * d)%Z in
  Ok (if qlt (inject_Z ta) tm && existsb (Z.eqb ta) ts then eset ((n, Some t), (l_end (L w l), Some ta), tt) es else es).

(** 369-392 *)
Definition tsn (c : cfg) (w : world) (darg : option Z) : result (list gedge) :=
  let d := tsn_dt c darg in
  tm <- of_opt TypeError (w_tmax w) ;;
  if Z.eqb d 0 then Err ValueError else
  let ts := tsn_times (qtrunc tm) d in
  es <- foldM (fun t es => foldM (fun n es => foldM (add_move c w d tm ts n t) (n_out (N w n)) es) (seq 0 (w_nn w)) es) ts [] ;;
  Ok (es ++ flat_map (fun t => map (fun n => ((n, Some t), (n, None), 0%Q)) (seq 0 (w_nn w))) ts).

(** 398-404: the nodes from which shortest paths are computed *)
Definition tsn_sources (c : cfg) (w : world) (darg : option Z) : result (list gnode) :=
  let d := tsn_dt c darg in
  tm <- of_opt TypeError (w_tmax w) ;;
  if Z.eqb d 0 then Err ValueError else
  let ts := tsn_times (qtrunc tm) d in
  Ok (flat_map (fun v => let t := (qtrunc (v_depsec (V w v) / inject_Z d) * d)%Z in if existsb (Z.eqb t) ts then [(v_orig (V w v), Some t)] else []) (seq 0 (w_nv w))).
