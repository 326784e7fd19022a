(** * Osm: postprocessing of an imported road network (property C60).

    /repo/uxsim/OSMImporter/OSMImporter.py [osm_network_postprocessing], 181-301.
    Simplifications: node numbers are natural numbers; [math.sqrt] of the sum of squares is a parameter [dist]
    (coordinates and lengths are rationals); the printed numbers are left out. *)
From Verif Require Import Base Types Sim.
Local Open Scope nat_scope.
Local Open Scope string_scope.

(** [node_id, x, y] and [name, from, to, lanes, maxspeed(, length)], 187-190 *)
Record onode : Type := mkON { on_id : nat; on_x : Q; on_y : Q }.
Record olink : Type := mkOL { ol_name : string; ol_from : nat; ol_to : nat; ol_lanes : nat; ol_speed : Q; ol_len : option Q }.

Section Dist.
Variable dist : Q * Q -> Q * Q -> Q.   (* 207-208 *)

(** 212 *)
Definition positions (ns : list onode) : list (nat * (Q * Q)) :=
  fold_left (fun d n => dset (on_id n) (on_x n, on_y n) d) ns [].

(** 219-233: the map of deleted nodes *)
Definition register (th : Q) (pos : list (nat * (Q * Q))) (l : olink) (m : list (nat * nat)) : result (list (nat * nat)) :=
  p <- of_opt KeyError (dget (ol_from l) pos) ;;
  q <- of_opt KeyError (dget (ol_to l) pos) ;;
  if qle (dist p q) th then
    let m1 := if negb (mem (ol_to l) (map snd m)) && negb (mem (ol_from l) (map fst m)) then dset (ol_to l) (ol_from l) m else m in
    Ok (if negb (mem (ol_from l) (map snd m1)) && negb (mem (ol_to l) (map fst m1)) then dset (ol_from l) (ol_to l) m1 else m1)
  else Ok m.

Definition target (m : list (nat * nat)) (n : nat) : nat := match dget n m with Some k => k | None => n end.

(** [new_links[start_node, end_node] = ...]: a dict in order of first insertion *)
Fixpoint lset (l : olink) (acc : list olink) : list olink :=
  match acc with
  | [] => [l]
  | k :: tl => if Nat.eqb (ol_from k) (ol_from l) && Nat.eqb (ol_to k) (ol_to l) then l :: tl else k :: lset l tl
  end.
Definition has_link (s e : nat) (acc : list olink) : bool := existsb (fun k => Nat.eqb (ol_from k) s && Nat.eqb (ol_to k) e) acc.

(** 253-267 *)
Definition relink (pos : list (nat * (Q * Q))) (m : list (nat * nat)) (l : olink) (acc : list olink) : result (list olink) :=
  let s := target m (ol_from l) in
  let e := target m (ol_to l) in
  p <- of_opt KeyError (dget s pos) ;;
  q <- of_opt KeyError (dget e pos) ;;
  Ok (if Nat.eqb s e then acc else lset (mkOL (ol_name l) s e (ol_lanes l) (ol_speed l) (Some (dist p q))) acc).

(** 269-278 *)
Definition add_reverse (acc : list olink) (l : olink) : list olink :=
  if has_link (ol_to l) (ol_from l) acc then acc
  else lset (mkOL (ol_name l ++ "-reverse") (ol_to l) (ol_from l) (ol_lanes l) (ol_speed l) (ol_len l)) acc.

(** 283-292 *)
Definition ends (ls : list olink) : list nat := flat_map (fun l => [ol_from l; ol_to l]) ls.

(** one iteration, 210-295 *)
Definition merge_step (th : Q) (bid : bool) (st : list onode * list olink) : result (list onode * list olink) :=
  let '(ns, ls) := st in
  let pos := positions ns in
  m <- foldM (register th pos) ls [] ;;
  let ns1 := filter (fun n => negb (mem (on_id n) (map fst m))) ns in
  ls1 <- foldM (relink pos m) ls [] ;;
  let ls2 := if bid then fold_left add_reverse ls1 ls1 else ls1 in
  Ok (filter (fun n => mem (on_id n) (ends ls2)) ns1, ls2).

Fixpoint postprocess (k : nat) (th : Q) (bid : bool) (st : list onode * list olink) : result (list onode * list olink) :=
  match k with
  | O => Ok st
  | S k => st1 <- merge_step th bid st ;; postprocess k th bid st1
  end.
End Dist.
