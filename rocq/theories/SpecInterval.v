(** * SpecInterval: runs that differ only in the logging interval of vehicles (property C59). *)
From Verif Require Import Base Types Sim Build Inv Steps.
Local Open Scope nat_scope.

(** the configuration with logging interval [j] (World(vehicle_logging_timestep_interval=j)) *)
Definition logging (j : Z) (c : cfg) : cfg :=
  mkCfg (c_deltan c) (c_react c) (c_duo_time c) (c_duo_weight c) (c_duo_noise c) (c_princ c)
        (c_gradual c) (c_tti_interval c) (c_nocyclic c) (c_adjust c) j (c_delpref c)
        (c_det c) (c_eulardt c) (c_orc c) (c_orcq c) (c_dijkstra c).

(** the same world: all fields except for the logs of the vehicles and the running average of the logged speeds *)
Definition same_traffic (a b : world) : Prop :=
  (exists vs q n, b = sw_vehs vs (sw_avgspd q (sw_avgcnt n a))) /\
  forall v, exists log, V b v = sv_log log (V a v).

(** rows that a run with interval [j] keeps: none for -1; otherwise those of the timesteps divisible by [j], and the last rows of trips *)
Definition kept (c : cfg) (j : Z) (r : logrow) : Prop :=
  j <> (-1)%Z /\ ((exists k, g_t r == inject_Z (j * k) * dt c)%Q \/ ~ alive (g_state r)).

(** [b] is [a] without the rows that are not [kept] *)
Inductive thinned (P : logrow -> Prop) : list logrow -> list logrow -> Prop :=
| th_nil : thinned P [] []
| th_keep : forall r a b, P r -> thinned P a b -> thinned P (r :: a) (r :: b)
| th_drop : forall r a b, ~ P r -> thinned P a b -> thinned P (r :: a) b.
