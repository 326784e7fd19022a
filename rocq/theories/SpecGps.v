(** * SpecGps: places of vehicles on the map (property C58). *)
From Verif Require Import Base Types Sim Build Inv Steps Spec.
Local Open Scope nat_scope.

(** the point at distance [x] from the start of link [l], on the straight line between its nodes *)
Definition place (w : world) (l : lid) (x : Q) : Q * Q :=
  ((n_x (N w (l_start (L w l))) + (n_x (N w (l_end (L w l))) - n_x (N w (l_start (L w l)))) * x / l_len (L w l))%Q,
   (n_y (N w (l_start (L w l))) + (n_y (N w (l_end (L w l))) - n_y (N w (l_start (L w l)))) * x / l_len (L w l))%Q).

(** [p] divides the line between the nodes of [l] in the ratio [a] to [1 - a] *)
Definition divides (w : world) (l : lid) (p : Q * Q) (a : Q) : Prop :=
  (fst p == (1 - a) * n_x (N w (l_start (L w l))) + a * n_x (N w (l_end (L w l))))%Q /\
  (snd p == (1 - a) * n_y (N w (l_start (L w l))) + a * n_y (N w (l_end (L w l))))%Q.

(** all links have positive lengths *)
Definition long_links (w : world) : Prop := forall l, exists_link w l -> (0 < l_len (L w l))%Q.
(** the point which the code uses to say "nowhere" *)
Definition nowhere : Q * Q := (-1, -1)%Q.
Definition is_nowhere (p : Q * Q) : bool := qeq (fst p) (-1) && qeq (snd p) (-1).
