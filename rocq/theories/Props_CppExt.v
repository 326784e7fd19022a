(** * Props_CppExt: congestion externalities in the compiled engine (C66). *)
From Verif Require Import Base Types Sim Build Steps Reach Spec LinkQueries Due SpecDso Dso Demo DueDemo DsoDemo CppExt CppExtDemo.
Local Open Scope nat_scope.

(** C66: the estimate never reads outside of the records and is never negative *)
Theorem C66_safe : forall c k ts, (0 < dt c)%Q -> complete k -> nondecreasing (l_ca k) -> (0 <= ts)%Z -> exists x, cpp_ext c k ts = Ok x /\ (0 <= x)%Q.
Proof. exact cpp_ext_safe. Qed.
Print Assumptions C66_safe.

(** a negative time is read before the first entry *)
Theorem C66_safe_refuted : exists w e x, reachable cfg_det w /\ complete (L w 1) /\ cpp_ext cfg_det (L w 1) (-1) = Err e /\ ext_try cfg_det (L w 1) (-5) = Ok x.
Proof. exact ext_safe_refuted. Qed.
Print Assumptions C66_safe_refuted.

(** C66: the value of the Python code whenever that raises no exception *)
Theorem C66_agrees : forall c k t x, (0 < dt c)%Q -> ~ (l_u k == 0)%Q -> complete k -> (0 <= t)%Q -> ext_try c k t = Ok x -> cpp_ext c k (qtrunc (t / dt c)) = Ok x.
Proof. exact cpp_ext_agrees. Qed.
Print Assumptions C66_agrees.

(** 50 vehicle-seconds in both *)
Example C66_agrees_example : exists w x y, reachable cfg_det w /\ complete (L w 1) /\
  ext_try cfg_det (L w 1) 10 = Ok x /\ cpp_ext cfg_det (L w 1) 2 = Ok y /\ (x == 50)%Q /\ (y == 50)%Q.
Proof. exact ext_same_example. Qed.

(** when no exception is raised: the queue ends, and the vehicle is out, before the end of the simulation *)
Theorem C66_no_exception : forall c k t j, (0 < dt c)%Q -> ~ (l_u k == 0)%Q -> complete k -> (0 <= t)%Q ->
  let i := Z.to_nat (qtrunc (t / dt c)) in let lands := fun s => exists x, nth_error (l_tta k) s = Some x /\ s + Z.to_nat (qtrunc (x / dt c)) + 1 < List.length (l_tta k) in
  i <= j -> (forall s, i <= s <= j -> lands s) -> ~ queued c k j -> exists x, ext_try c k t = Ok x.
Proof. exact ext_try_ok. Qed.
Print Assumptions C66_no_exception.

(** C66: otherwise the Python code takes 0, and the compiled engine at least that *)
Theorem C66_above : forall c k t, (0 < dt c)%Q -> ~ (l_u k == 0)%Q -> complete k -> nondecreasing (l_ca k) -> (0 <= t)%Q ->
  exists x, cpp_ext c k (qtrunc (t / dt c)) = Ok x /\ (ext_link c k t <= x)%Q /\ (x == ext_link c k t \/ exists e, ext_try c k t = Err e)%Q.
Proof. exact cpp_ext_above. Qed.
Print Assumptions C66_above.

(** C66 fails for a queue that is still there at the end of the simulation: 100 vehicle-seconds against 0 *)
Theorem C66_agrees_refuted : exists w e y, reachable cfg_det w /\ complete (L w 1) /\ w_T w = w_tsize w /\
  ext_try cfg_det (L w 1) 10 = Err e /\ ext_link cfg_det (L w 1) 10 = 0%Q /\ cpp_ext cfg_det (L w 1) 2 = Ok y /\ (y == 100)%Q.
Proof. exact ext_same_refuted. Qed.
Print Assumptions C66_agrees_refuted.

(** C66: what the compiled engine estimates: the vehicles behind in the queue times the headway at the exit *)
Theorem C66_value : forall c k i x, (0 < dt c)%Q -> complete k -> nondecreasing (l_cd k) -> nth_error (l_tta k) i = Some x ->
  exists y n h, cpp_ext c k (Z.of_nat i) = Ok y /\ (behind c k i n \/ ~ queued c k i /\ n = 0%Z) /\
    headway k (Nat.min (i + Z.to_nat (qtrunc (x / dt c)) + 1) (List.length (l_tta k) - 1)) h /\ (y == Qof_nat h * dt c * inject_Z n)%Q.
Proof. exact cpp_ext_value. Qed.
Print Assumptions C66_value.

(** C66: both are 0 after the end of the simulation *)
Theorem C66_after : forall c k t, (0 < dt c)%Q -> complete k -> (Qof_nat (List.length (l_tta k)) * dt c <= t)%Q ->
  (exists x, cpp_ext c k (qtrunc (t / dt c)) = Ok x /\ (x == 0)%Q) /\ ext_link c k t = 0%Q.
Proof. exact cpp_ext_after. Qed.
Print Assumptions C66_after.

(** C66: the estimate of a route is at least that of the Python code, and the same unless an exception is turned into 0 *)
Theorem C66_route : forall c w n ls t x, (0 < dt c)%Q -> records w n ls -> (0 <= t)%Q -> ext_route c w ls t = Ok x ->
  exists y, cpp_ext_route c w ls t = Ok y /\ (x <= y)%Q /\ ((x == y)%Q \/ exists tts, details c w ls t = Ok tts /\ raised c w ls tts t).
Proof. exact cpp_ext_route_ok. Qed.
Print Assumptions C66_route.

(** a route of two links *)
Example C66_route_example : exists w x y, reachable cfg_det w /\ ext_route cfg_det w [1; 2] 10 = Ok x /\ cpp_ext_route cfg_det w [1; 2] 10 = Ok y /\ (x == 50)%Q /\ (y == 50)%Q.
Proof. exact ext_route_example. Qed.

(** C66 fails for routes as for links *)
Theorem C66_route_refuted : exists w x y, reachable cfg_det w /\ w_T w = w_tsize w /\ ext_route cfg_det w [1; 2] 10 = Ok x /\ cpp_ext_route cfg_det w [1; 2] 10 = Ok y /\ (x == 0)%Q /\ (y == 100)%Q.
Proof. exact ext_route_refuted. Qed.
Print Assumptions C66_route_refuted.

(** the records of the links after the last timestep of a simulation are complete *)
Theorem C66_records : forall c P tm w0 w1 w l, (0 < dt c)%Q -> (0 <= c_deltan c)%Z -> reach c w0 -> w_final w0 = false -> (0 < l_u (L w0 l))%Q -> (0 <= l_len (L w0 l))%Q -> l < w_nl w0 ->
  finalize c tm w0 = Ok w1 -> later c P w1 w -> w_T w = w_tsize w1 -> complete (L w l) /\ nondecreasing (l_ca (L w l)) /\ List.length (l_tta (L w l)) = w_T w.
Proof. exact records_ok. Qed.
Print Assumptions C66_records.
