(** * Edie: the traffic state of the cells of a link (analyzer.py,
    Analyzer.compute_edie_state 248-321) and the trajectories it is computed
    from (compute_accurate_traj 205-246).

    A trajectory is a list of points (x, t).  Simplifications: floats are
    exact rationals, so [a // b] is the exact floor and [a % b] the exact
    remainder; the dictionaries of a cell, whose keys are vehicle names, are
    represented by the sum of their values, the only thing that is read; the
    list repetition [list(values) * DELTAN] is a product with DELTAN; numpy's
    0/0 = nan, replaced by u, is the case k = 0 of [speed_of]. *)
From Verif Require Import Base Types Sim.
Local Open Scope nat_scope.

Definition point : Type := (Q * Q)%type.
Definition px (p : point) : Q := fst p.
Definition pt (p : point) : Q := snd p.

(** [a // b] and [a % b] for b > 0 *)
Definition qidiv (a b : Q) : Z := Qfloor (a / b).
Definition qmod (a b : Q) : Q := (a - inject_Z (qidiv a b) * b)%Q.

(** an increment of dn[row][col] and tn[row][col] *)
Definition entry : Type := (Z * Z * (Q * Q))%type.

(** the increments for one segment (analyzer.py 274-308) *)
Definition seg_entries (dx dt : Q) (nt nx : Z) (p q : point) : list entry :=
  let x0 := px p in let x1 := px q in let t0 := pt p in let t1 := pt q in
  let v0 := (if qeq (t1 - t0) 0 then 0 else (x1 - x0) / (t1 - t0))%Q in
  let tt := qidiv t0 dt in
  let xx := qidiv x0 dx in
  if qlt 0 v0 then
    let xl0 := (dx - qmod x0 dx)%Q in
    let xl1 := qmod x1 dx in
    let tl0 := (xl0 / v0)%Q in
    let tl1 := (xl1 / v0)%Q in
    if ((tt <? nt) && (xx <? nx))%Z then
      if (xx =? qidiv x1 dx)%Z then [(tt, xx, ((x1 - x0)%Q, (t1 - t0)%Q))]
      else
        let jj := (qidiv x1 dx - xx + 1)%Z in
        flat_map (fun k => let j := Z.of_nat k in
          if (xx + j <? nx)%Z then
            [(tt, (xx + j)%Z,
              if (j =? 0)%Z then (xl0, tl0)
              else if (j =? jj - 1)%Z then (xl1, tl1)
              else (dx, (dx / v0)%Q))]
          else []) (seq 0 (Z.to_nat jj))
    else []
  else if ((tt <? nt) && (xx <? nx))%Z then [(tt, xx, (0%Q, (t1 - t0)%Q))] else [].

(** Python list indices: negative ones count from the end *)
Definition py_index (n i : Z) : result Z :=
  let k := if (i <? 0)%Z then (i + n)%Z else i in
  if ((0 <=? k) && (k <? n))%Z then Ok k else Err IndexError.

(** dn and tn together *)
Definition cells : Type := Z -> Z -> (Q * Q)%type.
Definition cadd (r k : Z) (d : Q * Q) (m : cells) : cells :=
  fun i j => if ((i =? r) && (j =? k))%Z then (fst (m i j) + fst d, snd (m i j) + snd d)%Q else m i j.
Definition add_entry (nt nx : Z) (e : entry) (m : cells) : result cells :=
  r <- py_index nt (fst (fst e)) ;;
  k <- py_index nx (snd (fst e)) ;;
  Ok (cadd r k (snd e) m).

Fixpoint segs (tr : list point) : list (point * point) :=
  match tr with
  | p :: tl => match tl with q :: _ => (p, q) :: segs tl | [] => [] end
  | [] => []
  end.

Definition add_seg (dx dt : Q) (nt nx : Z) (s : point * point) (m : cells) : result cells :=
  foldM (add_entry nt nx) (seg_entries dx dt nt nx (fst s) (snd s)) m.
Definition add_traj (dx dt : Q) (nt nx : Z) (tr : list point) (m : cells) : result cells :=
  foldM (add_seg dx dt nt nx) (segs tr) m.

(** the number of cells [int(a / d)] *)
Definition ncells (a d : Q) : result Z := q <- qdiv a d ;; Ok (qtrunc q).

(** compute_edie_state for one link: the matrices (dn_mat, tn_mat) *)
Definition edie (dx dt len tmax dn : Q) (trs : list (list point)) : result cells :=
  nx <- ncells len dx ;;
  nt <- ncells tmax dt ;;
  m <- foldM (add_traj dx dt nt nx) trs (fun _ _ => (0, 0)%Q) ;;
  Ok (fun i j => (dn * fst (m i j), dn * snd (m i j))%Q).

(** k_mat, q_mat and v_mat of a cell (analyzer.py 310-320) *)
Definition density (dx dt : Q) (d : Q * Q) : Q := (snd d / dt / dx)%Q.
Definition flow (dx dt : Q) (d : Q * Q) : Q := (fst d / dt / dx)%Q.
Definition speed_of (u dx dt : Q) (d : Q * Q) : Q :=
  if qeq (density dx dt d) 0 then u else (flow dx dt d / density dx dt d)%Q.

(** ** The trajectories *)

(** the visits in one vehicle log (analyzer.py 218-230): consecutive rows on
    the same link, rows without a link do not separate visits *)
Definition visit : Type := (lid * list point)%type.
Definition visits_step (r : logrow) (s : option lid * list visit) : option lid * list visit :=
  match g_link r, g_x r with
  | Some l, Some x =>
      match fst s, snd s with
      | Some l', (k, ps) :: tl => if Nat.eqb l l' then (Some l, (k, (ps ++ [(x, g_t r)])%list) :: tl)
                                  else (Some l, (l, [(x, g_t r)]) :: snd s)
      | _, _ => (Some l, (l, [(x, g_t r)]) :: snd s)
      end
  | _, _ => s
  end.
Definition visits (rows : list logrow) : list visit :=
  rev (snd (fold_left (fun s r => visits_step r s) rows (None, []))).
(** the recorded trajectories of a link, tss and xss zipped, before the extrapolation *)
Definition recorded (w : world) (l : lid) : list (list point) :=
  flat_map (fun v => map snd (filter (fun z => Nat.eqb (fst z) l) (visits (v_log (V w v))))) (seq 0 (w_nv w)).

(** the extrapolation to both ends (analyzer.py 232-246) *)
Definition extend_front (u dt : Q) (tr : list point) : list point :=
  match tr with
  | p :: _ => if (negb (qeq (px p) 0) && qlt (dt * (1 # 100)) (px p / u))%bool then (0%Q, (pt p - px p / u)%Q) :: tr else tr
  | [] => tr
  end.
Definition extend_back (u len dt : Q) (tr : list point) : list point :=
  match last_opt tr with
  | Some p => if (qle (len - u * dt) (px p) && qlt (px p) len && qlt (dt * (1 # 100)) ((len - px p) / u))%bool
              then (tr ++ [(len, (pt p + (len - px p) / u)%Q)])%list else tr
  | None => tr
  end.
Definition extend (u len dt : Q) (tr : list point) : list point := extend_back u len dt (extend_front u dt tr).
