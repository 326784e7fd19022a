(** * SpecOsm: what the postprocessing of an imported road network has to achieve (property C60). *)
From Verif Require Import Base Osm.
Local Open Scope nat_scope.

Definition ids (ns : list onode) : list nat := map on_id ns.
Definition pair_of (l : olink) : nat * nat := (ol_from l, ol_to l).

(** node numbers are unique and the ends of all links are nodes *)
Definition network (ns : list onode) (ls : list olink) : Prop :=
  NoDup (ids ns) /\ forall l, In l ls -> In (ol_from l) (ids ns) /\ In (ol_to l) (ids ns).
Definition no_loops (ls : list olink) : Prop := forall l, In l ls -> ol_from l <> ol_to l.
(** at most one link per direction and pair of nodes *)
Definition single_links (ls : list olink) : Prop := NoDup (map pair_of ls).
(** every node is the end of a link *)
Definition no_isolated (ns : list onode) (ls : list olink) : Prop :=
  forall n, In n (ids ns) -> exists l, In l ls /\ (ol_from l = n \/ ol_to l = n).

(** the position of a node *)
Definition at_pos (ns : list onode) (i : nat) (p : Q * Q) : Prop := exists n, In n ns /\ on_id n = i /\ p = (on_x n, on_y n).
Definition measured (dist : Q * Q -> Q * Q -> Q) (ns : list onode) (ls : list olink) : Prop :=
  forall l, In l ls -> exists p q, at_pos ns (ol_from l) p /\ at_pos ns (ol_to l) q /\ ol_len l = Some (dist p q).

(** a link of at most the threshold *)
Definition close (dist : Q * Q -> Q * Q -> Q) (th : Q) (ns : list onode) (i j : nat) : Prop :=
  exists p q, at_pos ns i p /\ at_pos ns j q /\ (dist p q <= th)%Q.
Definition short (dist : Q * Q -> Q * Q -> Q) (th : Q) (ns : list onode) (l : olink) : Prop := close dist th ns (ol_from l) (ol_to l).

(** [v] is reached from [u] along links *)
Inductive walk (ls : list olink) : nat -> nat -> Prop :=
| wk_here : forall u, walk ls u u
| wk_link : forall l v, In l ls -> walk ls (ol_to l) v -> walk ls (ol_from l) v.

(** [v] is reached from [u] in at most [k] hops of at most the threshold *)
Inductive hops (dist : Q * Q -> Q * Q -> Q) (th : Q) (ns : list onode) : nat -> nat -> nat -> Prop :=
| hp_here : forall k u, hops dist th ns k u u
| hp_hop : forall k u v w, close dist th ns u v \/ close dist th ns v u -> hops dist th ns k v w -> hops dist th ns (S k) u w.

(** distances do not depend on the direction *)
Definition sym (dist : Q * Q -> Q * Q -> Q) : Prop := forall p q, (dist p q == dist q p)%Q.

(** lanes and speed of [l] are those of [o]; also the name, unless reverse links are added *)
Definition like (bid : bool) (l o : olink) : Prop := ol_lanes l = ol_lanes o /\ ol_speed l = ol_speed o /\ (bid = false -> ol_name l = ol_name o).
