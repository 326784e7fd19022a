(** * SpecCache: the current state of a link, in terms of the vehicles that are on it. *)
From Verif Require Import Base Types Sim.
Local Open Scope nat_scope.

(** the speeds of the vehicles (platoons) on link [l] *)
Definition speeds_on (w : world) (l : lid) : list Q := map (fun v => v_v (V w v)) (l_vehs (L w l)).
(** their mean, or the free flow speed of an empty link *)
Definition speed_now (w : world) (l : lid) : Q :=
  match speeds_on w l with
  | [] => l_u (L w l)
  | vs => (qsum vs / Qof_nat (List.length vs))%Q
  end.
(** number of vehicles: DELTAN for each platoon *)
Definition num_now (c : cfg) (w : world) (l : lid) : Q := (Qof_nat (List.length (l_vehs (L w l))) * inject_Z (c_deltan c))%Q.
(** number of vehicles slower than the free flow speed *)
Definition queue_now (c : cfg) (w : world) (l : lid) : Q :=
  (Qof_nat (List.length (filter (fun s => qlt s (l_u (L w l))) (speeds_on w l))) * inject_Z (c_deltan c))%Q.
Definition density_now (c : cfg) (w : world) (l : lid) : Q := (num_now c w l / l_len (L w l))%Q.
Definition flow_now (c : cfg) (w : world) (l : lid) : Q := (density_now c w l * speed_now w l)%Q.

(** the five queries *)
Inductive query : Type := QSpeed | QDensity | QFlow | QNum | QQueue.
Definition truth (c : cfg) (w : world) (q : query) (l : lid) : Q :=
  match q with
  | QSpeed => speed_now w l
  | QDensity => density_now c w l
  | QFlow => flow_now c w l
  | QNum => num_now c w l
  | QQueue => queue_now c w l
  end.
