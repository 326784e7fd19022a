(** * LogFree: the logging interval does not influence the traffic (property C59).

    [rel a b]: the worlds agree except for the logs of the vehicles and the average of the logged speeds, and the logs are
    related by [Lr].  Every method of the engine and every public call preserves [rel] when the second one is run with
    another logging interval. *)
From Verif Require Import Base Types Sim Build Heap Lists Inv FrameBase Tac Frame Eff Eff2 Trace InvStep Reach Steps SpecInterval.
Local Open Scope nat_scope.
#[local] Transparent attach record_log.

Definition relog (h : vid -> vehicle) (q : Q) (n : nat) (w : world) : world := sw_vehs h (sw_avgspd q (sw_avgcnt n w)).

Definition rres {A} (P : A -> A -> Prop) (r1 r2 : result A) : Prop :=
  match r1, r2 with Ok x, Ok y => P x y | Err e, Err f => e = f | _, _ => False end.

Lemma bindR : forall A B (Q : A -> A -> Prop) (P : B -> B -> Prop) r1 r2 f1 f2,
  rres Q r1 r2 -> (forall x y, Q x y -> rres P (f1 x) (f2 y)) -> rres P (bind r1 f1) (bind r2 f2).
Proof. intros A B Q P [x|e] [y|f] f1 f2 H K; cbn in *; auto; contradiction. Qed.
Lemma bindE : forall A B (P : B -> B -> Prop) (r1 r2 : result A) f1 f2,
  r2 = r1 -> (forall x, rres P (f1 x) (f2 x)) -> rres P (bind r1 f1) (bind r2 f2).
Proof. intros A B P [x|e] r2 f1 f2 -> K; cbn in *; auto. Qed.
Lemma letR : forall A B (Q : A -> A -> Prop) (P : B -> B -> Prop) x y f1 f2,
  Q x y -> (forall x y, Q x y -> rres P (f1 x) (f2 y)) -> rres P (let z := x in f1 z) (let z := y in f2 z).
Proof. intros A B Q P x y f1 f2 H K. apply K. exact H. Qed.
Lemma rresM : forall A (P Q : A -> A -> Prop) r1 r2, (forall x y, P x y -> Q x y) -> rres P r1 r2 -> rres Q r1 r2.
Proof. intros A P Q [x|e] [y|f] H; cbn; auto. Qed.
Lemma foldR : forall A (P : world -> world -> Prop) (f1 f2 : A -> world -> result world) l a b,
  P a b -> (forall x a b, P a b -> rres P (f1 x a) (f2 x b)) -> rres P (foldM f1 l a) (foldM f2 l b).
Proof.
  intros A P f1 f2 l; induction l as [|x l IH]; intros a b H K; cbn [foldM]; [exact H|].
  apply (bindR _ _ P); auto.
Qed.

Lemma gl_name : forall l a, v_name (sv_log l a) = v_name a. Proof. reflexivity. Qed.
Lemma gl_orig : forall l a, v_orig (sv_log l a) = v_orig a. Proof. reflexivity. Qed.
Lemma gl_dest : forall l a, v_dest (sv_log l a) = v_dest a. Proof. reflexivity. Qed.
Lemma gl_dep : forall l a, v_dep (sv_log l a) = v_dep a. Proof. reflexivity. Qed.
Lemma gl_depsec : forall l a, v_depsec (sv_log l a) = v_depsec a. Proof. reflexivity. Qed.
Lemma gl_arr : forall l a, v_arr (sv_log l a) = v_arr a. Proof. reflexivity. Qed.
Lemma gl_larr : forall l a, v_larr (sv_log l a) = v_larr a. Proof. reflexivity. Qed.
Lemma gl_tt : forall l a, v_tt (sv_log l a) = v_tt a. Proof. reflexivity. Qed.
Lemma gl_state : forall l a, v_state (sv_log l a) = v_state a. Proof. reflexivity. Qed.
Lemma gl_link : forall l a, v_link (sv_log l a) = v_link a. Proof. reflexivity. Qed.
Lemma gl_x : forall l a, v_x (sv_log l a) = v_x a. Proof. reflexivity. Qed.
Lemma gl_xnext : forall l a, v_xnext (sv_log l a) = v_xnext a. Proof. reflexivity. Qed.
Lemma gl_xold : forall l a, v_xold (sv_log l a) = v_xold a. Proof. reflexivity. Qed.
Lemma gl_v : forall l a, v_v (sv_log l a) = v_v a. Proof. reflexivity. Qed.
Lemma gl_lane : forall l a, v_lane (sv_log l a) = v_lane a. Proof. reflexivity. Qed.
Lemma gl_leader : forall l a, v_leader (sv_log l a) = v_leader a. Proof. reflexivity. Qed.
Lemma gl_follower : forall l a, v_follower (sv_log l a) = v_follower a. Proof. reflexivity. Qed.
Lemma gl_flag : forall l a, v_flag (sv_log l a) = v_flag a. Proof. reflexivity. Qed.
Lemma gl_remain : forall l a, v_remain (sv_log l a) = v_remain a. Proof. reflexivity. Qed.
Lemma gl_princ : forall l a, v_princ (sv_log l a) = v_princ a. Proof. reflexivity. Qed.
Lemma gl_mode : forall l a, v_mode (sv_log l a) = v_mode a. Proof. reflexivity. Qed.
Lemma gl_dests : forall l a, v_dests (sv_log l a) = v_dests a. Proof. reflexivity. Qed.
Lemma gl_events : forall l a, v_events (sv_log l a) = v_events a. Proof. reflexivity. Qed.
Lemma gl_pref : forall l a, v_pref (sv_log l a) = v_pref a. Proof. reflexivity. Qed.
Lemma gl_prefer : forall l a, v_prefer (sv_log l a) = v_prefer a. Proof. reflexivity. Qed.
Lemma gl_avoid : forall l a, v_avoid (sv_log l a) = v_avoid a. Proof. reflexivity. Qed.
Lemma gl_spec : forall l a, v_spec (sv_log l a) = v_spec a. Proof. reflexivity. Qed.
Lemma gl_abortopt : forall l a, v_abortopt (sv_log l a) = v_abortopt a. Proof. reflexivity. Qed.
Lemma gl_aborted : forall l a, v_aborted (sv_log l a) = v_aborted a. Proof. reflexivity. Qed.
Lemma gl_next : forall l a, v_next (sv_log l a) = v_next a. Proof. reflexivity. Qed.
Lemma gl_tlog : forall l a, v_tlog (sv_log l a) = v_tlog a. Proof. reflexivity. Qed.
Lemma gl_linkold : forall l a, v_linkold (sv_log l a) = v_linkold a. Proof. reflexivity. Qed.
Lemma gl_dist : forall l a, v_dist (sv_log l a) = v_dist a. Proof. reflexivity. Qed.
#[local] Hint Rewrite gl_name gl_orig gl_dest gl_dep gl_depsec gl_arr gl_larr gl_tt gl_state gl_link gl_x gl_xnext gl_xold gl_v gl_lane gl_leader gl_follower gl_flag gl_remain gl_princ gl_mode gl_dests gl_events gl_pref gl_prefer gl_avoid gl_spec gl_abortopt gl_aborted gl_next gl_tlog gl_linkold gl_dist : vlog.

Section Free.
Variables (c : cfg) (j : Z).
Let C := logging j c.
Variable Lr : list logrow -> list logrow -> Prop.
(** does [record_log] write a row in timestep [T]? *)
Definition writes (cc : cfg) (T : nat) (e : bool) : bool :=
  negb (Z.eqb (c_logint cc) (-1)) && (Z.eqb (c_logint cc) 1 || Z.eqb (Z.modulo (Z.of_nat T) (c_logint cc)) 0 || e).
Hypothesis Lr_nil : Lr [] [].
Hypothesis Lr_step : forall T r e la lb, g_t r = (Qof_nat T * dt c)%Q -> (e = false -> alive (g_state r)) -> (e = true -> ~ alive (g_state r)) ->
  Lr la lb -> Lr (if writes c T e then la ++ [r] else la) (if writes C T e then lb ++ [r] else lb).

Definition logs_rel (h : vid -> vehicle) (a : world) : Prop :=
  forall v, h v = sv_log (v_log (h v)) (V a v) /\ Lr (v_log (V a v)) (v_log (h v)).
Definition rel (a b : world) : Prop := exists h q n, b = relog h q n a /\ logs_rel h a.

Lemma HV : forall h q n a, logs_rel h a -> forall v, V (relog h q n a) v = sv_log (v_log (h v)) (V a v).
Proof. intros h q n a H v. apply H. Qed.

(** ** Elementary changes *)
Lemma rel_modv : forall a b v f g, rel a b ->
  (forall l, g (sv_log l (V a v)) = sv_log l (f (V a v))) -> v_log (f (V a v)) = v_log (V a v) ->
  rel (modv v f a) (modv v g b).
Proof.
  intros a b v f g (h & q & n & -> & H) F G. exists (upd h v (g (h v))), q, n. split; [reflexivity|]. intro u.
  unfold V, modv; cbn [w_vehs sw_vehs]. unfold upd. destruct (Nat.eqb u v) eqn:E; [|apply H].
  apply Nat.eqb_eq in E. subst u. destruct (H v) as (H1 & H2). rewrite H1. rewrite F.
  assert (K : forall l x, v_log (sv_log l x) = l) by reflexivity. rewrite K. split; [reflexivity|].
  change (w_vehs a v) with (V a v). rewrite G. exact H2.
Qed.
Lemma rel_logs : forall a b v la lb, rel a b -> Lr la lb -> rel (modv v (sv_log la) a) (modv v (sv_log lb) b).
Proof.
  intros a b v la lb (h & q & n & -> & H) K. exists (upd h v (sv_log lb (h v))), q, n. split; [reflexivity|]. intro u.
  unfold V, modv; cbn [w_vehs sw_vehs]. unfold upd. destruct (Nat.eqb u v) eqn:E; [|apply H].
  apply Nat.eqb_eq in E. subst u. destruct (H v) as (H1 & H2). rewrite H1. split; [reflexivity|exact K].
Qed.
Lemma rel_logL : forall a b v la, rel a b -> Lr la (v_log (V b v)) -> rel (modv v (sv_log la) a) b.
Proof.
  intros a b v la (h & q & n & -> & H) K. exists h, q, n. split; [reflexivity|]. intro u.
  unfold V, modv; cbn [w_vehs sw_vehs]. unfold upd. destruct (Nat.eqb u v) eqn:E; [|apply H].
  apply Nat.eqb_eq in E. subst u. destruct (H v) as (H1 & H2). split; [rewrite H1 at 1; reflexivity|exact K].
Qed.
Lemma rel_logR : forall a b v lb, rel a b -> Lr (v_log (V a v)) lb -> rel a (modv v (sv_log lb) b).
Proof.
  intros a b v lb (h & q & n & -> & H) K. exists (upd h v (sv_log lb (h v))), q, n. split; [reflexivity|]. intro u.
  unfold upd. destruct (Nat.eqb u v) eqn:E; [|apply H].
  apply Nat.eqb_eq in E. subst u. destruct (H v) as (H1 & H2). rewrite H1. split; [reflexivity|exact K].
Qed.
(** changes of other parts of the world *)
Lemma rel_other : forall (F G : world -> world) a b, rel a b ->
  (forall h q n, G (relog h q n a) = relog h q n (F a)) -> (forall v, V (F a) v = V a v) -> rel (F a) (G b).
Proof.
  intros F G a b (h & q & n & -> & H) K Q. exists h, q, n. split; [apply K|]. intro v. rewrite Q. apply H.
Qed.
Lemma rel_spdL : forall a b q, rel a b -> rel (sw_avgspd q a) b.
Proof. intros a b x (h & q & n & -> & H). exists h, q, n. split; [reflexivity|exact H]. Qed.
Lemma rel_cntL : forall a b q, rel a b -> rel (sw_avgcnt q a) b.
Proof. intros a b x (h & q & n & -> & H). exists h, q, n. split; [reflexivity|exact H]. Qed.
Lemma rel_spdR : forall a b q, rel a b -> rel a (sw_avgspd q b).
Proof. intros a b x (h & q & n & -> & H). exists h, x, n. split; [reflexivity|exact H]. Qed.
Lemma rel_cntR : forall a b q, rel a b -> rel a (sw_avgcnt q b).
Proof. intros a b x (h & q & n & -> & H). exists h, q, x. split; [reflexivity|exact H]. Qed.

Lemma rel_V : forall a b, rel a b -> forall v, exists l, V b v = sv_log l (V a v) /\ Lr (v_log (V a v)) l.
Proof. intros a b (h & q & n & -> & H) v. destruct (H v) as (H1 & H2). exists (v_log (h v)). split; auto. Qed.
Lemma rel_rest : forall a b, rel a b -> w_nn b = w_nn a /\ w_nl b = w_nl a /\ w_nv b = w_nv a /\ w_nr b = w_nr a /\ w_nodes b = w_nodes a /\ w_links b = w_links a /\
  w_reqs b = w_reqs a /\ w_pending b = w_pending a /\ w_living b = w_living a /\ w_running b = w_running a /\ w_T b = w_T a /\ w_TIME b = w_TIME a /\
  w_tmax b = w_tmax a /\ w_tsize b = w_tsize a /\ w_final b = w_final a /\ w_draw b = w_draw a.
Proof. intros a b (h & q & n & -> & H). repeat (split; [reflexivity|]). reflexivity. Qed.

(** ** The log itself *)
Definition row_now (cc : cfg) (w : world) (v : vid) : logrow :=
  match v_state (V w v) with
  | Run => mkLog (now cc w) Run (v_link (V w v)) (Some (v_x (V w v))) (Some (v_v (V w v))) (Some (v_lane (V w v)))
             (match v_leader (V w v) with
              | Some u => if opt_eqb (v_link (V w v)) (v_link (V w u)) then Some (v_x (V w u) - v_x (V w v))%Q else None
              | None => None end)
  | st => mkLog (now cc w) st None None None None None
  end.
Definition log_step1 (cc : cfg) (v : vid) (e : bool) (w : world) : world :=
  if writes cc (w_T w) e then
    match v_state (V w v) with
    | Run => modv v (sv_log (v_log (V w v) ++ [row_now cc w v]))
               (sw_avgspd (Qred (w_avgspd w + (v_v (V w v) - w_avgspd w) / Qof_nat (S (w_avgcnt w)))) (sw_avgcnt (S (w_avgcnt w)) w))
    | Wait => sw_avgcnt (S (w_avgcnt (modv v (sv_log (v_log (V w v) ++ [row_now cc w v])) w))) (modv v (sv_log (v_log (V w v) ++ [row_now cc w v])) w)
    | _ => modv v (sv_log (v_log (V w v) ++ [row_now cc w v])) w
    end
  else w.
Definition log_step2 (cc : cfg) (v : vid) (w0 w1 : world) : world :=
  if opt_eqb (v_link (V w0 v)) (v_linkold (V w0 v)) then w1
  else modv v (fun b => sv_linkold (v_link (V w0 v))
      (match v_state (V w0 v), v_link (V w0 v) with
       | Run, Some l => sv_tlog (v_tlog b ++ [(now cc w0, PLink l)]) b
       | End_, _ => sv_tlog (v_tlog b ++ [(now cc w0, PEnd)]) b
       | _, _ => b
       end)) w1.
Lemma record_log_steps : forall cc v e w, record_log cc v e w = log_step2 cc v w (log_step1 cc v e w).
Proof.
  intros cc v e w. unfold record_log, log_step2, log_step1, writes, row_now. cbv zeta.
  destruct (v_state (V w v)); reflexivity.
Qed.

Lemma row_now_C : forall a b v, rel a b -> row_now C b v = row_now c a v.
Proof.
  intros a b v S. destruct (rel_V a b S v) as (l & El & _). unfold row_now. rewrite El.
  assert (En : now C b = now c a) by (unfold now; replace (w_T b) with (w_T a) by (symmetry; apply rel_rest in S; tauto); reflexivity). rewrite En.
  change (v_state (sv_log l (V a v))) with (v_state (V a v)).
  destruct (v_state (V a v)); try reflexivity.
  change (v_leader (sv_log l (V a v))) with (v_leader (V a v)).
  destruct (v_leader (V a v)) as [u|]; [|reflexivity]. destruct (rel_V a b S u) as (l' & El' & _). rewrite El'. reflexivity.
Qed.
Lemma row_now_t : forall cc w v, g_t (row_now cc w v) = now cc w /\ g_state (row_now cc w v) = v_state (V w v).
Proof. intros. unfold row_now. destruct (v_state (V w v)); auto. Qed.

Lemma log_step1_rel : forall v e a b, rel a b -> (e = false -> alive (v_state (V a v))) -> (e = true -> ~ alive (v_state (V a v))) ->
  rel (log_step1 c v e a) (log_step1 C v e b).
Proof.
  intros v e a b S A B. pose proof (row_now_C a b v S) as Er. destruct (row_now_t c a v) as (Rt & Rs).
  destruct (rel_V a b S v) as (l & El & Hl).
  pose proof (Lr_step (w_T a) (row_now c a v) e (v_log (V a v)) l Rt) as K. rewrite Rs in K. specialize (K A B Hl).
  unfold log_step1. rewrite Er. assert (ET : w_T b = w_T a) by (apply rel_rest in S; tauto). rewrite ET.
  assert (Es : v_state (V b v) = v_state (V a v)) by (rewrite El; reflexivity). rewrite Es.
  assert (Eg : v_log (V b v) = l) by (rewrite El; reflexivity). rewrite Eg.
  assert (Ev : v_v (V b v) = v_v (V a v)) by (rewrite El; reflexivity). rewrite Ev.
  clear Es Ev Er Rt Rs A B El.
  destruct (writes c (w_T a) e); destruct (writes C (w_T a) e); destruct (v_state (V a v)).
  all: try exact S.
  all: try exact (rel_logs _ _ v _ _ S K).
  all: try exact (rel_logL _ _ v _ S (eq_ind_r (Lr _) K Eg)).
  all: try exact (rel_logR _ _ v _ S K).
  - apply rel_cntL, rel_cntR. exact (rel_logs _ _ v _ _ S K).
  - refine (rel_logs _ _ v _ _ _ K). apply rel_spdL, rel_cntL, rel_spdR, rel_cntR. exact S.
  - apply rel_cntR. exact (rel_logR _ _ v _ S K).
  - refine (rel_logR _ _ v _ _ K). apply rel_spdR, rel_cntR. exact S.
Qed.

Lemma record_log_rel : forall v e a b, rel a b -> (e = false -> alive (v_state (V a v))) -> (e = true -> ~ alive (v_state (V a v))) ->
  rel (record_log c v e a) (record_log C v e b).
Proof.
  intros v e a b S A B. rewrite !record_log_steps. unfold log_step2.
  destruct (rel_V a b S v) as (l & El & _). rewrite El.
  change (v_link (sv_log l (V a v))) with (v_link (V a v)). change (v_linkold (sv_log l (V a v))) with (v_linkold (V a v)).
  change (v_state (sv_log l (V a v))) with (v_state (V a v)).
  assert (En : now C b = now c a) by (unfold now; replace (w_T b) with (w_T a) by (symmetry; apply rel_rest in S; tauto); reflexivity). rewrite En.
  pose proof (log_step1_rel v e a b S A B) as S1. revert S1. generalize (log_step1 c v e a). generalize (log_step1 C v e b). intros b1 a1 S1.
  destruct (opt_eqb _ _); [exact S1|]. apply rel_modv; [exact S1| |].
  - intro l1. destruct (v_state (V a v)); try reflexivity. destruct (v_link (V a v)); reflexivity.
  - destruct (v_state (V a v)); try reflexivity. destruct (v_link (V a v)); reflexivity.
Qed.

(** ** Reading *)
Lemma rel_L : forall a b, rel a b -> forall l, L b l = L a l.
Proof. intros a b (h & q & n & -> & H) l. reflexivity. Qed.
Lemma rel_N : forall a b, rel a b -> forall l, N b l = N a l.
Proof. intros a b (h & q & n & -> & H) l. reflexivity. Qed.
Lemma rel_R : forall a b, rel a b -> forall l, R b l = R a l.
Proof. intros a b (h & q & n & -> & H) l. reflexivity. Qed.
Lemma rel_now : forall a b, rel a b -> now C b = now c a.
Proof. intros a b (h & q & n & -> & H). reflexivity. Qed.
Lemma rel_T : forall a b, rel a b -> w_T b = w_T a.
Proof. intros a b (h & q & n & -> & H). reflexivity. Qed.
Lemma rel_nn : forall a b, rel a b -> w_nn b = w_nn a.
Proof. intros a b (h & q & n & -> & H). reflexivity. Qed.
Lemma rel_nl : forall a b, rel a b -> w_nl b = w_nl a.
Proof. intros a b (h & q & n & -> & H). reflexivity. Qed.
Lemma rel_nv : forall a b, rel a b -> w_nv b = w_nv a.
Proof. intros a b (h & q & n & -> & H). reflexivity. Qed.
Lemma rel_final : forall a b, rel a b -> w_final b = w_final a.
Proof. intros a b (h & q & n & -> & H). reflexivity. Qed.
Lemma rel_living : forall a b, rel a b -> w_living b = w_living a.
Proof. intros a b (h & q & n & -> & H). reflexivity. Qed.
Lemma rel_running : forall a b, rel a b -> w_running b = w_running a.
Proof. intros a b (h & q & n & -> & H). reflexivity. Qed.
Lemma rel_TIME : forall a b, rel a b -> w_TIME b = w_TIME a.
Proof. intros a b (h & q & n & -> & H). reflexivity. Qed.
Lemma rel_draw : forall a b, rel a b -> w_draw b = w_draw a.
Proof. intros a b (h & q & n & -> & H). reflexivity. Qed.

(** ** Writing *)
Lemma rel_modl : forall a b l f g, rel a b -> g (L a l) = f (L a l) -> rel (modl l f a) (modl l g b).
Proof.
  intros a b l f g (h & q & n & -> & H) E. exists h, q, n. split; [|exact H].
  unfold modl, relog. cbn [w_links sw_vehs sw_avgspd sw_avgcnt]. change (w_links a l) with (L a l). rewrite E. reflexivity.
Qed.
Lemma rel_modn : forall a b l f g, rel a b -> g (N a l) = f (N a l) -> rel (modn l f a) (modn l g b).
Proof.
  intros a b l f g (h & q & n & -> & H) E. exists h, q, n. split; [|exact H].
  unfold modn, relog. cbn [w_nodes sw_vehs sw_avgspd sw_avgcnt]. change (w_nodes a l) with (N a l). rewrite E. reflexivity.
Qed.
Lemma rel_modr : forall a b l f g, rel a b -> g (R a l) = f (R a l) -> rel (modr l f a) (modr l g b).
Proof.
  intros a b l f g (h & q & n & -> & H) E. exists h, q, n. split; [|exact H].
  unfold modr, relog. cbn [w_reqs sw_vehs sw_avgspd sw_avgcnt]. change (w_reqs a l) with (R a l). rewrite E. reflexivity.
Qed.
Lemma rel_swrunning : forall a b x, rel a b -> rel (sw_running x a) (sw_running x b).
Proof. intros a b x (h & q & n & -> & H). exists h, q, n. split; [reflexivity|exact H]. Qed.
Lemma rel_swliving : forall a b x, rel a b -> rel (sw_living x a) (sw_living x b).
Proof. intros a b x (h & q & n & -> & H). exists h, q, n. split; [reflexivity|exact H]. Qed.
Lemma rel_swdraw : forall a b x, rel a b -> rel (sw_draw x a) (sw_draw x b).
Proof. intros a b x (h & q & n & -> & H). exists h, q, n. split; [reflexivity|exact H]. Qed.
Lemma rel_swTIME : forall a b x, rel a b -> rel (sw_TIME x a) (sw_TIME x b).
Proof. intros a b x (h & q & n & -> & H). exists h, q, n. split; [reflexivity|exact H]. Qed.
Lemma rel_swT : forall a b x, rel a b -> rel (sw_T x a) (sw_T x b).
Proof. intros a b x (h & q & n & -> & H). exists h, q, n. split; [reflexivity|exact H]. Qed.

Ltac rw S := match type of S with rel ?a ?b =>
  repeat match goal with
  | |- context [V b ?v] => let l := fresh "lg" in let E := fresh in destruct (rel_V a b S v) as (l & E & _); rewrite E; clear E
  | |- context [L b ?l] => rewrite (rel_L a b S l)
  | |- context [N b ?l] => rewrite (rel_N a b S l)
  | |- context [R b ?l] => rewrite (rel_R a b S l)
  | |- context [now C b] => rewrite (rel_now a b S)
  | |- context [w_T b] => rewrite (rel_T a b S)
  | |- context [w_nn b] => rewrite (rel_nn a b S)
  | |- context [w_nl b] => rewrite (rel_nl a b S)
  | |- context [w_nv b] => rewrite (rel_nv a b S)
  | |- context [w_final b] => rewrite (rel_final a b S)
  | |- context [w_living b] => rewrite (rel_living a b S)
  | |- context [w_running b] => rewrite (rel_running a b S)
  | |- context [w_TIME b] => rewrite (rel_TIME a b S)
  | |- context [w_draw b] => rewrite (rel_draw a b S)
  end; autorewrite with vlog end.
(** one [let w := modify … in …] *)
Ltac lm S := match goal with |- rres _ (let w := ?x in @?f w) (let w' := ?y in @?g w') =>
    let a' := fresh "a" in let b' := fresh "b" in let S' := fresh "S" in
    apply (letR _ _ rel _ x y f g); [|clear S; cbv beta; intros a' b' S'] end.
Ltac mv S := apply rel_modv; [exact S|intro; reflexivity|reflexivity].

(** ** Links and nodes *)
Lemma link_speed_rel : forall a b k, rel a b -> link_speed b k = link_speed a k.
Proof.
  intros a b k S. unfold link_speed. destruct (l_vehs k) as [|v vs]; [reflexivity|].
  assert (E : forall u, v_v (V b u) = v_v (V a u)) by (intro u; rw S; reflexivity).
  rewrite (map_ext _ _ E). reflexivity.
Qed.
Lemma link_update_rel : forall l a b, rel a b -> rres rel (link_update c l a) (link_update C l b).
Proof.
  intros l a b S. unfold link_update. cbv zeta. rw S. apply bindE.
  - unfold set_traveltime_instant. rw S. rewrite (link_speed_rel a b _ S). reflexivity.
  - intro k. cbn. apply rel_modl; [exact S|reflexivity].
Qed.
Lemma node_update_rel : forall l a b, rel a b -> rres rel (node_update c l a) (node_update C l b).
Proof.
  intros l a b S. unfold node_update. rw S. apply bindE; [reflexivity|]. intro k. apply bindE; [reflexivity|]. intro k2. cbn.
  apply rel_modn; [exact S|reflexivity].
Qed.

(** ** Random choices *)
Definition rel2 {A} (x y : A * world) : Prop := fst x = fst y /\ rel (snd x) (snd y).
Lemma choice_uniform_rel : forall xs a b, rel a b -> rres rel2 (choice_uniform c xs a) (choice_uniform C xs b).
Proof.
  intros xs a b S. unfold choice_uniform, draw. rw S. change (c_orc C) with (c_orc c).
  destruct (nth_error _ _); [|reflexivity]. split; [reflexivity|]. apply rel_swdraw. exact S.
Qed.
Lemma choice_p_rel : forall ps xs a b, rel a b -> rres rel2 (choice_p c ps xs a) (choice_p C ps xs b).
Proof.
  intros ps xs a b S. unfold choice_p. cbv zeta. destruct (qeq _ _); [reflexivity|]. destruct (existsb _ _); [reflexivity|].
  apply choice_uniform_rel. exact S.
Qed.
Lemma choose_pref_rel : forall ps xs a b, rel a b -> rres rel2 (choose_pref c ps xs a) (choose_pref C ps xs b).
Proof.
  intros ps xs a b S. unfold choose_pref. change (c_det C) with (c_det c). destruct (c_det c).
  - apply bindE; [reflexivity|]. intro x. split; [reflexivity|exact S].
  - destruct (qlt _ _); [apply choice_p_rel|apply choice_uniform_rel]; exact S.
Qed.

Ltac le := match goal with |- rres _ (let w := ?x in @?f w) (let w' := ?y in @?g w') =>
    let z := fresh "z" in let y' := fresh "y" in
    apply (letR _ _ (fun p q => p = q) _ x y f g); [|cbv beta; intros z y' <-] end.

Lemma end_trip_rel : forall v a b, rel a b -> rres rel (end_trip c v a) (end_trip C v b).
Proof.
  intros v a b S. cbv beta delta [end_trip].
  match goal with |- rres _ (let w := ?x in @?f w) (let w' := ?y in @?g w') =>
    apply (letR _ _ (fun p q => rel p q /\ v_state (V p v) = End_) _ x y f g);
    [split; [mv S|unfold V, modv; cbn [w_vehs sw_vehs]; rewrite upd_same; reflexivity]|clear a b S; cbv beta; intros a b (S & St)] end.
  apply bindE; [rw S; reflexivity|]. intro l.
  apply bindE; [rw S; reflexivity|]. intro cd.
  match goal with |- rres _ (let w := ?x in @?f w) (let w' := ?y in @?g w') =>
    apply (letR _ _ (fun p q => rel p q /\ v_state (V p v) = End_) _ x y f g);
    [split; [apply rel_modl; [exact S|reflexivity]|exact St]|clear a b S St; cbv beta; intros a b (S & St)] end.
  le; [rw S; reflexivity|].
  match goal with |- rres _ (let w := ?x in @?f w) (let w' := ?y in @?g w') =>
    apply (letR _ _ (fun p q => rel p q /\ v_state (V p v) = End_) _ x y f g);
    [split; [apply rel_modl; [exact S|rw S; reflexivity]|exact St]|clear a b S St; cbv beta; intros a b (S & St)] end.
  match goal with |- rres _ (let w := ?x in @?f w) (let w' := ?y in @?g w') =>
    apply (letR _ _ (fun p q => rel p q /\ v_state (V p v) = End_) _ x y f g);
    [rw S; destruct (v_follower (V a v)) as [u|]; split; [mv S| |exact S|exact St]; unfold V, modv; cbn [w_vehs sw_vehs]; unfold upd;
      destruct (Nat.eqb v u) eqn:E; [apply Nat.eqb_eq in E; subst u|]; exact St
    |clear a b S St; cbv beta; intros a b (S & St)] end.
  rw S. destruct (l_vehs (L a l)) as [|u tl]; [reflexivity|].
  match goal with |- rres _ (let w := ?x in @?f w) (let w' := ?y in @?g w') =>
    apply (letR _ _ (fun p q => rel p q /\ v_state (V p v) = End_) _ x y f g);
    [split; [apply rel_modl; [exact S|reflexivity]|exact St]|clear a b S St; cbv beta; intros a b (S & St)] end.
  le; [rw S; reflexivity|].
  match goal with |- rres _ (let w := ?x in @?f w) (let w' := ?y in @?g w') =>
    apply (letR _ _ (fun p q => rel p q /\ v_state (V p v) = End_) _ x y f g);
    [split; [mv S|unfold V, modv; cbn [w_vehs sw_vehs]; rewrite upd_same; exact St]|clear a b S St; cbv beta; intros a b (S & St)] end.
  rw S. destruct (negb (mem v (w_running a))); [reflexivity|].
  match goal with |- rres _ (let w := ?x in @?f w) (let w' := ?y in @?g w') =>
    apply (letR _ _ (fun p q => rel p q /\ v_state (V p v) = End_) _ x y f g);
    [split; [apply rel_swrunning; exact S|exact St]|clear a b S St; cbv beta; intros a b (S & St)] end.
  rw S. destruct (negb (mem v (w_living a))); [reflexivity|].
  match goal with |- rres _ (let w := ?x in @?f w) (let w' := ?y in @?g w') =>
    apply (letR _ _ (fun p q => rel p q /\ v_state (V p v) = End_) _ x y f g);
    [split; [apply rel_swliving; exact S|exact St]|clear a b S St; cbv beta; intros a b (S & St)] end.
  match goal with |- rres _ (let w := ?x in @?f w) (let w' := ?y in @?g w') =>
    apply (letR _ _ (fun p q => rel p q /\ ~ alive (v_state (V p v))) _ x y f g);
    [rw S; destruct (v_aborted (V a v)); split; [mv S| |exact S|rewrite St; unfold alive; intuition discriminate];
      unfold V, modv; cbn [w_vehs sw_vehs]; rewrite upd_same; unfold alive; cbn; intuition discriminate
    |clear a b S St; cbv beta; intros a b (S & St)] end.
  lm S; [apply record_log_rel; [exact S|discriminate|intros _; exact St]|].
  change (c_delpref C) with (c_delpref c). cbn. destruct (c_delpref c); [mv S0|exact S0].
Qed.

Lemma carfollow_rel : forall v a b, rel a b -> rres rel (carfollow c v a) (carfollow C v b).
Proof.
  intros v a b S. unfold carfollow. cbv zeta. rw S. apply bindE; [reflexivity|]. intro l. rw S.
  change (dt C) with (dt c). change (dN C) with (dN c). cbn. apply rel_modv; [exact S| |].
  - intro lg0. destruct (v_leader (V a v)) as [u|]; [rw S|]; destruct (qlt (l_len (L a l)) _); reflexivity.
  - destruct (qlt (l_len (L a l)) _); reflexivity.
Qed.

Lemma route_pref_update_rel : forall v q a b, rel a b -> rres rel (route_pref_update c v q a) (route_pref_update C v q b).
Proof.
  intros v q a b S. unfold route_pref_update. cbv zeta. rw S.
  destruct (v_princ (V a v)); destruct (v_dest (V a v)) as [k|]; try reflexivity.
  - destruct (w_final a); [cbn; mv S|reflexivity].
  - cbn. mv S.
  - destruct (negb (w_final a)); [reflexivity|]. destruct (v_pref (V a v)) as [d| |]; try reflexivity.
    destruct (forallb _ d); [|reflexivity]. cbn. apply rel_modv; [exact S| |reflexivity]. intro l0.
    match goal with |- sv_pref ?p _ = sv_log _ (sv_pref ?q _) => assert (E : p = q); [|rewrite E; reflexivity] end.
    f_equal. apply map_ext. intro lp. rw S. destruct S as (h & q0 & n & -> & _). reflexivity.
Qed.
Lemma maybe_pref_update_rel : forall v a b, rel a b -> rres rel (maybe_pref_update c v a) (maybe_pref_update C v b).
Proof. intros v a b S. unfold maybe_pref_update. change (c_gradual C) with (c_gradual c). destruct (c_gradual c); [apply route_pref_update_rel|]; exact S. Qed.

Lemma filter_links_rel : forall a b x l outs, rel a b -> filter_links b (sv_log l x) outs = filter_links a x outs.
Proof. intros a b x l outs (h & q & n & -> & H). reflexivity. Qed.
Lemma pref_of_rel : forall a b x l k, rel a b -> pref_of b (sv_log l x) k = pref_of a x k.
Proof. intros a b x l k (h & q & n & -> & H). reflexivity. Qed.
Lemma traveled_nodes_rel : forall a b x l, rel a b -> traveled_nodes b (sv_log l x) = traveled_nodes a x.
Proof. intros a b x l (h & q & n & -> & H). reflexivity. Qed.
Lemma gen_outlinks_rel : forall a b x l outs, rel a b -> gen_outlinks b (sv_log l x) outs = gen_outlinks a x outs.
Proof. intros a b x l outs (h & q & n & -> & H). reflexivity. Qed.
Lemma mapM_ext : forall A B (f g : A -> result B) l, (forall x, f x = g x) -> mapM f l = mapM g l.
Proof. intros A B f g l H. induction l as [|x l IH]; cbn; [reflexivity|]. rewrite H, IH. reflexivity. Qed.
Lemma filterM_ext : forall A (f g : A -> result bool) l, (forall x, f x = g x) -> filterM f l = filterM g l.
Proof. intros A f g l H. induction l as [|x l IH]; cbn; [reflexivity|]. rewrite H, IH. reflexivity. Qed.
Lemma bindP : forall A B (P : B -> B -> Prop) (r1 r2 : result (A * world)) f1 f2,
  rres rel2 r1 r2 -> (forall x a b, rel a b -> rres P (f1 (x, a)) (f2 (x, b))) -> rres P (bind r1 f1) (bind r2 f2).
Proof. intros A B P r1 r2 f1 f2 H K. eapply bindR; [exact H|]. intros [x a] [y b] [E S]. cbn in E, S. subst y. apply K. exact S. Qed.

Lemma route_next_link_choice_rel : forall v a b, rel a b -> rres rel (route_next_link_choice c v a) (route_next_link_choice C v b).
Proof.
  intros v a b S. unfold route_next_link_choice. cbv zeta. rw S. apply bindE; [reflexivity|]. intro l. rw S.
  destruct (v_spec (V a v)) as [sp|].
  - destruct (n_out (N a (l_end (L a l)))) as [|o1 os]; [cbn; mv S|]. destruct (nth_error sp _) as [nl|]; [|reflexivity].
    destruct (mem nl _); [cbn; mv S|reflexivity].
  - destruct (opt_eqb (v_dest (V a v)) _); [exact S|]. destruct (n_out (N a (l_end (L a l)))) as [|o1 os]; [cbn; mv S|].
    change (c_nocyclic C) with (c_nocyclic c). rewrite (filter_links_rel a b _ _ _ S). rewrite (traveled_nodes_rel a b _ _ S). apply bindE.
    + destruct (_ && _); [|reflexivity]. destruct (traveled_nodes a (V a v)) as [tn|]; [|reflexivity]. cbn [bind].
      assert (E : forall ls, filter (fun l' => negb (mem (l_end (L b l')) tn)) ls = filter (fun l' => negb (mem (l_end (L a l')) tn)) ls).
      { intro ls. apply filter_ext. intro x. rw S. reflexivity. }
      rewrite E. reflexivity.
    + intro o2. apply bindE; [apply mapM_ext; intro k; apply pref_of_rel; exact S|]. intro ps.
      apply bindP; [apply choose_pref_rel; exact S|]. intros nl a' b' S'. cbn. mv S'.
Qed.

Lemma attach_rel : forall v out a b, rel a b -> rres rel (attach v out a) (attach v out b).
Proof.
  intros v out a b S. unfold attach. cbv zeta. rw S.
  assert (El : match last_opt (l_vehs (L a out)) with Some u => (v_lane (V b u) + 1) mod l_lanes (L a out) | None => 0 end =
               match last_opt (l_vehs (L a out)) with Some u => (v_lane (V a u) + 1) mod l_lanes (L a out) | None => 0 end).
  { destruct (last_opt _) as [u|]; [rw S|]; reflexivity. }
  rewrite El. clear El. match goal with |- context [modv v (fun x => sv_leader None (sv_lane ?ln x)) a] => generalize ln end. intro ln.
  assert (S1 : rel (modv v (fun x => sv_leader None (sv_lane ln x)) a) (modv v (fun x => sv_leader None (sv_lane ln x)) b)) by mv S.
  destruct (_ <=? _); [|exact S1]. destruct (from_end _ _) as [u|]; [|reflexivity].
  assert (S2 : rel (modv u (sv_follower (Some v)) (modv v (sv_leader (Some u)) (modv v (fun x => sv_leader None (sv_lane ln x)) a)))
                   (modv u (sv_follower (Some v)) (modv v (sv_leader (Some u)) (modv v (fun x => sv_leader None (sv_lane ln x)) b)))).
  { apply rel_modv; [|intro; reflexivity|reflexivity]. mv S1. }
  revert S2. generalize (modv u (sv_follower (Some v)) (modv v (sv_leader (Some u)) (modv v (fun x => sv_leader None (sv_lane ln x)) a))).
  generalize (modv u (sv_follower (Some v)) (modv v (sv_leader (Some u)) (modv v (fun x => sv_leader None (sv_lane ln x)) b))).
  intros b2 a2 S2. rw S2. destruct (Nat.eqb _ _); [exact S2|reflexivity].
Qed.

Ltac rwx := match goal with S : rel _ _ |- _ => rw S end.
Ltac lmx := match goal with S : rel _ _ |- _ => lm S end.
Ltac mvx := match goal with S : rel _ _ |- _ => mv S end.
Ltac exx := match goal with S : rel _ _ |- _ => exact S end.
Lemma gen_enter_rel : forall n v out a b, rel a b -> rres rel (gen_enter c n v out a) (gen_enter C n v out b).
Proof.
  intros n v out a b S. cbv beta delta [gen_enter]. lmx; [apply rel_modn; [exx|reflexivity]|].
  lmx; [rwx; mvx|]. lmx; [rwx; apply rel_swrunning; exx|].
  apply (bindR _ _ rel); [apply attach_rel; exx|]. let a9 := fresh "a" in let b9 := fresh "b" in let S9 := fresh "S" in intros a9 b9 S9.
  lmx; [rwx; apply rel_modl; [exx|reflexivity]|]. rwx. apply bindE; [reflexivity|]. intro ca.
  lmx; [apply rel_modl; [exx|reflexivity]|]. lmx; [rwx; mvx|]. cbn. apply rel_modl; [exx|reflexivity].
Qed.

Lemma has_space_rel : forall a b k, rel a b -> has_space C b k = has_space c a k.
Proof.
  intros a b k S. unfold has_space. change (dN C) with (dN c). destruct (from_end _ _) as [u|]; [rwx|]; reflexivity.
Qed.

Lemma gen_loop_rel : forall n k a b, rel a b -> rres rel (gen_loop c n k a) (gen_loop C n k b).
Proof.
  intros n k; induction k as [|k IH]; intros a b S; cbn [gen_loop]; [exx|]. rwx.
  destruct (n_queue (N a n)) as [|v q]; [exx|]. rwx. rewrite (gen_outlinks_rel a b _ _ _ S).
  apply bindE; [reflexivity|]. intro outs. apply bindE; [apply mapM_ext; intro; apply pref_of_rel; exx|]. intro ps.
  apply bindP; [apply choose_pref_rel; exx|]. intros out a1 b1 S1. rwx. rewrite (has_space_rel a1 b1 _ S1). change (dN C) with (dN c).
  destruct (_ && _); [|exx]. apply (bindR _ _ rel); [apply gen_enter_rel; exx|]. exact IH.
Qed.
Lemma generate_rel : forall n a b, rel a b -> rres rel (generate c n a) (generate C n b).
Proof.
  intros n a b S. unfold generate. rwx. replace (map (fun l => l_lanes (L b l)) (n_out (N a n))) with (map (fun l => l_lanes (L a l)) (n_out (N a n))).
  - apply gen_loop_rel. exx.
  - apply map_ext. intro l. rwx. reflexivity.
Qed.

Lemma candidate_rel : forall n out a b v, rel a b -> candidate C n out b v = candidate c n out a v.
Proof.
  intros n out a b v S. unfold candidate. cbv zeta. rwx. destruct (v_link (V a v)) as [l|]; [|reflexivity]. cbn [of_opt bind]. rwx. reflexivity.
Qed.
Lemma merge_choice_rel : forall vs a b, rel a b -> rres rel2 (merge_choice c a vs) (merge_choice C b vs).
Proof.
  intros vs a b S. unfold merge_choice. apply bindE.
  - apply mapM_ext. intro v. rwx. destruct (v_link (V a v)) as [l|]; [|reflexivity]. cbn [of_opt bind]. rwx. reflexivity.
  - intro ps. cbv zeta. change (c_det C) with (c_det c). destruct (c_det c); [|apply choice_p_rel; exx].
    apply bindE; [reflexivity|]. intro x. split; [reflexivity|exx].
Qed.
Lemma end_front_rel : forall l a b, rel a b -> rres rel2 (end_front c l a) (end_front C l b).
Proof.
  intros l a b S. unfold end_front. rwx. destruct (l_vehs (L a l)) as [|u us]; [split; [reflexivity|exx]|]. rwx.
  destruct (v_flag (V a u)); [|split; [reflexivity|exx]]. apply (bindR _ _ rel); [apply end_trip_rel; exx|].
  intros x y Sx. split; [reflexivity|exact Sx].
Qed.
Lemma end_fronts_rel : forall l k a b, rel a b -> rres rel (end_fronts c l k a) (end_fronts C l k b).
Proof.
  intros l k; induction k as [|k IH]; intros a b S; cbn [end_fronts]; [exx|].
  apply bindP; [apply end_front_rel; exx|]. intros [] a1 b1 S1; [apply IH|]; exx.
Qed.

Lemma leftover_x_rel : forall a b v out q, rel a b -> leftover_x C b v out q = leftover_x c a v out q.
Proof.
  intros a b v out q S. unfold leftover_x. cbv zeta. rwx. change (dN C) with (dN c).
  destruct (v_leader (V a v)) as [u|]; [rwx|]; reflexivity.
Qed.

Lemma transfer_shift_rel : forall n out v a b, rel a b -> rres rel2 (transfer_shift c n out v a) (transfer_shift C n out v b).
Proof.
  intros n out v a b S. cbv beta delta [transfer_shift]. rwx. apply bindE; [reflexivity|]. intro il. rwx. apply bindE; [reflexivity|]. intro cd.
  lmx; [apply rel_modl; [exx|reflexivity]|]. rwx. apply bindE; [reflexivity|]. intro ca.
  lmx; [apply rel_modl; [exx|reflexivity]|]. le; [rwx; reflexivity|].
  lmx; [rwx; apply rel_modl; [exx|reflexivity]|].
  lmx; [rwx; mvx|].
  lmx; [apply rel_modl; [exx|reflexivity]|].
  lmx; [apply rel_modl; [exx|reflexivity]|].
  lmx; [rwx; match goal with |- context [n_fcap ?x] => destruct (n_fcap x) end; [apply rel_modn; [exx|reflexivity]|exx]|].
  rwx. match goal with |- context [l_vehs ?x] => destruct (l_vehs x) as [|u rest] end; [reflexivity|].
  lmx; [apply rel_modl; [exx|reflexivity]|].
  lmx; [rwx; apply rel_modl; [exx|reflexivity]|].
  lmx; [mvx|].
  lmx; [rwx; match goal with |- context [v_follower ?x] => destruct (v_follower x) as [f|] end; [|exx]; apply rel_modv; [mvx|intro; reflexivity|reflexivity]|].
  apply (bindR _ _ rel); [apply attach_rel; exx|]. let a9 := fresh "a" in let b9 := fresh "b" in let S9 := fresh "S" in intros a9 b9 S9. rwx. apply bindE; [reflexivity|]. intro q.
  le; [symmetry; apply leftover_x_rel; exx|]. split; [reflexivity|]. cbn [snd]. change (dt C) with (dt c). mvx.
Qed.

Lemma transfer_move_rel : forall n out v a b, rel a b -> rres rel (transfer_move c n out v a) (transfer_move C n out v b).
Proof.
  intros n out v a b S. unfold transfer_move. apply bindP; [apply transfer_shift_rel; exx|]. intros from a1 b1 S1.
  apply bindP; [apply end_front_rel; exx|]. intros _ a2 b2 S2. cbn. apply rel_modn; [|reflexivity]. apply rel_modl; [exx|reflexivity].
Qed.
Lemma transfer_trial_rel : forall n out a b, rel a b -> rres rel (transfer_trial c n out a) (transfer_trial C n out b).
Proof.
  intros n out a b S. unfold transfer_trial. rwx. rewrite (has_space_rel a b _ S). change (dN C) with (dN c). destruct (_ && _ && _); [|exx].
  apply bindE; [apply filterM_ext; intro; apply candidate_rel; exx|]. intros [|v vs]; [exx|].
  apply bindP; [apply merge_choice_rel; exx|]. intros u a1 b1 S1. apply transfer_move_rel. exx.
Qed.
Lemma transfer_rel : forall n a b, rel a b -> rres rel (transfer c n a) (transfer C n b).
Proof.
  intros n a b S. unfold transfer. rwx. apply bindE.
  - unfold out_candidates. assert (E : forall v, of_opt AttributeError (v_next (V b v)) = of_opt AttributeError (v_next (V a v))) by (intro v; rwx; reflexivity).
    rewrite (mapM_ext _ _ _ _ _ E). reflexivity.
  - intro cands. cbv zeta.
    assert (E : flat_map (fun l => repeat l (l_lanes (L b l))) cands = flat_map (fun l => repeat l (l_lanes (L a l))) cands).
    { rewrite !flat_map_concat_map. f_equal. apply map_ext. intro l. rwx. reflexivity. }
    rewrite E. clear E. set (outs := flat_map _ _). clearbody outs. change (c_det C) with (c_det c). change (c_orc C) with (c_orc c). rwx.
    assert (E : exists os a1 b1, rel a1 b1 /\
      (if c_det c then (outs, a) else (shuffle_n (c_orc c) (w_draw a) (List.length outs) outs, sw_draw (w_draw a + List.length outs) a)) = (os, a1) /\
      (if c_det c then (outs, b) else (shuffle_n (c_orc c) (w_draw a) (List.length outs) outs, sw_draw (w_draw a + List.length outs) b)) = (os, b1)).
    { destruct (c_det c); [exists outs, a, b; auto|]. eexists _, _, _. split; [|split; reflexivity]. apply rel_swdraw. exx. }
    destruct E as (os & a1 & b1 & S1 & E1 & E2). rewrite E1, E2. clear E1 E2.
    apply (bindR _ _ rel); [apply foldR; [exx|intros x p q Sx; apply transfer_trial_rel; exact Sx]|]. intros a2 b2 S2. rwx.
    apply (bindR _ _ rel); [apply foldR; [exx|intros x p q Sx; rw Sx; apply end_fronts_rel; exact Sx]|]. intros a3 b3 S3. cbn. apply rel_modn; [exx|reflexivity].
Qed.

(** ** Vehicles *)
Lemma request_transfer_rel : forall v en a b, rel a b -> rres rel (request_transfer c v en a) (request_transfer C v en b).
Proof.
  intros v en a b S. unfold request_transfer. apply (bindR _ _ rel); [apply route_next_link_choice_rel; exx|]. intros a1 b1 S1. cbn.
  apply rel_modn; [exx|reflexivity].
Qed.
Lemma prepare_end_rel : forall v l a b, rel a b -> rres rel (prepare_end c v l a) (prepare_end C v l b).
Proof.
  intros v l a b S. cbv beta delta [prepare_end]. lmx; [mvx|]. rwx. destruct (l_vehs _) as [|u us]; [reflexivity|].
  destruct (Nat.eqb u v); [apply end_trip_rel|]; exx.
Qed.
Lemma add_dest_rel : forall v d o a b, rel a b -> rres rel (add_dest c v d o a) (add_dest C v d o b).
Proof.
  intros v d o a b S. unfold add_dest. rwx. destruct (v_mode (V a v)); [reflexivity|]. destruct (v_dest (V a v)).
  - cbn. mvx.
  - apply route_pref_update_rel. mvx.
Qed.
Lemma run_event_rel : forall e a b, rel a b -> rres rel (run_event c e a) (run_event C e b).
Proof.
  intros [r|r] a b S; cbv beta delta [run_event] iota.
  - rwx. apply bindE; [reflexivity|]. intro v. apply (bindR _ _ rel); [rwx; apply add_dest_rel; exx|]. clear a b S. intros a b S.
    lmx; [rwx; mvx|]. lmx; [rwx; apply rel_modr; [exx|reflexivity]|]. rwx. apply bindE; [reflexivity|]. intro ev. cbn. mvx.
  - lmx; [rwx; apply rel_modr; [exx|reflexivity]|]. rwx. apply bindE; [reflexivity|]. intro v. rwx. apply bindE; [reflexivity|]. intro ev. cbn. mvx.
Qed.
Lemma at_link_end_rel : forall v l a b, rel a b -> rres rel (at_link_end c v l a) (at_link_end C v l b).
Proof.
  intros v l a b S. cbv beta delta [at_link_end]. le; [rwx; reflexivity|]. apply (bindR _ _ rel).
  { rwx. destruct (dget _ _) as [e|]; [apply run_event_rel|]; exx. }
  clear a b S. intros a b S. apply (bindR _ _ rel); [apply maybe_pref_update_rel; exx|]. clear a b S. intros a b S. rwx.
  destruct (opt_eqb _ _).
  - destruct (v_mode (V a v)); [apply prepare_end_rel; exx|]. lmx; [apply rel_modv; [exx| |]; [intro; rewrite gl_dests|]; destruct (v_dests (V a v)); reflexivity|].
    apply (bindR _ _ rel); [apply route_pref_update_rel; exx|]. intros p q Sp. apply request_transfer_rel. exact Sp.
  - destruct (_ && _); [apply prepare_end_rel; mvx|apply request_transfer_rel; exx].
Qed.
Lemma drive_rel : forall v a b, rel a b -> rres rel (drive c v a) (drive C v b).
Proof.
  intros v a b S. cbv beta delta [drive]. lmx; [change (dt C) with (dt c); mvx|]. rwx. apply bindE; [reflexivity|]. intro l. rwx.
  destruct (qeq _ _); [apply at_link_end_rel|]; exx.
Qed.
Lemma veh_update_rel : forall v a b, rel a b -> alive (v_state (V a v)) -> rres rel (veh_update c v a) (veh_update C v b).
Proof.
  intros v a b S A. cbv beta delta [veh_update]. lmx; [apply record_log_rel; [exx|intros _; exact A|discriminate]|].
  lmx; [rwx; match goal with |- context [v_state ?x] => destruct (v_state x) end; try exx; destruct (Z.leb _ _); [|exx];
          apply rel_modn; [mvx|reflexivity]|].
  rwx. match goal with |- context [v_state ?x] => destruct (v_state x) end; try exx; [apply maybe_pref_update_rel|apply drive_rel]; exx.
Qed.

(** ** Route search *)
Lemma route_search_all_rel : forall a b, rel a b -> rres rel (route_search_all c a) (route_search_all C b).
Proof.
  intros a b (h & q & n & -> & H). unfold route_search_all.
  change (foldM (fun l acc => adj_step C (relog h q n a) (now C (relog h q n a)) acc l) (seq 0 (w_nl (relog h q n a))) (fun _ _ => Some 0%Q, fun _ _ => 0, w_draw (relog h q n a)))
    with (foldM (fun l acc => adj_step c a (now c a) acc l) (seq 0 (w_nl a)) (fun _ _ => Some 0%Q, fun _ _ => 0, w_draw a)).
  apply bindE; [reflexivity|]. intros [[m cnt] dr]. change (c_dijkstra C) with (c_dijkstra c). change (w_nn (relog h q n a)) with (w_nn a).
  destruct (c_dijkstra c (w_nn a) m) as [dist next]. cbn. exists h, q, n. split; [reflexivity|exact H].
Qed.
Lemma duo_rel : forall a b, rel a b -> rel (homogeneous_DUO_update c a) (homogeneous_DUO_update C b).
Proof. intros a b (h & q & n & -> & H). exists h, q, n. split; [reflexivity|exact H]. Qed.
Lemma route_phase_rel : forall a b, rel a b -> rres rel (route_phase c a) (route_phase C b).
Proof.
  intros a b S. unfold route_phase. cbv zeta. rwx. change (c_gradual C) with (c_gradual c). change (c_duo_time C) with (c_duo_time c).
  change (route_steps C) with (route_steps c). change (c_duo_weight C) with (c_duo_weight c). destruct (c_gradual c).
  - apply (bindR _ _ rel); [destruct (_ =? _); [apply route_search_all_rel|]; exx|]. intros a1 b1 S1. destruct (qeq _ _); [reflexivity|]. apply duo_rel. exx.
  - destruct (_ =? _); [|exx]. apply (bindR _ _ rel); [apply route_search_all_rel; exx|]. intros a1 b1 S1.
    pose proof (duo_rel a1 b1 S1) as S2. rewrite (rel_living _ _ S2). apply foldR; [exx|]. intros x p q Sp. apply route_pref_update_rel. exact Sp.
Qed.

(** ** A timestep *)
Definition relI (a b : world) : Prop := rel a b /\ Inv2 a None.
Lemma with_inv : forall r1 r2, rres rel r1 r2 -> (forall w', r1 = Ok w' -> Inv2 w' None) -> rres relI r1 r2.
Proof. intros [x|e] [y|f] H K; cbn in *; auto. split; auto. Qed.
Lemma tick_rel : forall a b, relI a b -> rres relI (tick c a) (tick C b).
Proof.
  intros a b [S Iv]. apply with_inv; [|intros w' E; eapply tick_Inv2; eauto]. unfold tick. apply (bindR _ _ rel).
  2:{ intros a1 b1 S1. rwx. apply rel_swT. exx. }
  unfold body. apply (bindR _ _ relI).
  { apply with_inv; [|intros w' E; exact (run_Inv2 _ _ _ _ (phase_links_run _ _ E) Iv)].
    unfold phase_links. rwx. apply foldR; [exx|]. intros x p q Sp. apply link_update_rel. exact Sp. }
  clear a b S Iv. intros a b [S Iv]. apply (bindR _ _ relI).
  { apply with_inv; [|intros w' E; exact (run_Inv2 _ _ _ _ (phase_nodes_run _ _ E) Iv)].
    unfold phase_nodes. rwx. apply foldR; [exx|]. intros x p q Sp. apply (bindR _ _ rel); [apply generate_rel; exact Sp|]. intros; apply node_update_rel; auto. }
  clear a b S Iv. intros a b [S Iv]. apply (bindR _ _ relI).
  { apply with_inv; [|intros w' E; exact (run_Inv2 _ _ _ _ (phase_transfer_run _ _ E) Iv)].
    unfold phase_transfer. rwx. apply foldR; [exx|]. intros x p q Sp. apply transfer_rel. exact Sp. }
  clear a b S Iv. intros a b [S Iv]. apply (bindR _ _ relI).
  { apply with_inv; [|intros w' E; exact (run_Inv2 _ _ _ _ (phase_follow_run _ _ E) Iv)].
    unfold phase_follow. rwx. apply foldR; [exx|]. intros x p q Sp. apply carfollow_rel. exact Sp. }
  clear a b S Iv. intros a b [S Iv]. apply (bindR _ _ rel).
  { apply (rresM _ relI); [intros x y [Sx _]; exact Sx|].
    unfold phase_vehicles. rwx. apply foldR; [split; assumption|]. intros v p q [Sp Ip]. unfold update_living. rw Sp.
    destruct (mem v (w_living p)) eqn:Em; [|reflexivity]. apply mem_iff in Em.
    assert (Al : alive (v_state (V p v))) by (destruct Ip as [[T J] _]; apply (s_living J) in Em; tauto).
    apply with_inv; [apply veh_update_rel; [exact Sp|exact Al]|]. intros w' E. exact (run_Inv2 _ _ _ _ (veh_update_run _ _ _ Em E) Ip). }
  clear a b S Iv. intros a b S. apply (bindR _ _ rel); [apply route_phase_rel; exx|]. intros a1 b1 S1. cbn. rewrite (rel_now a1 b1 S1). apply rel_swTIME. exx.
Qed.

Lemma iterM_rel : forall k a b, relI a b -> rres relI (iterM (tick c) k a) (iterM (tick C) k b).
Proof.
  induction k as [|k IH]; intros a b S; cbn [iterM]; [exact S|]. apply (bindR _ _ relI); [apply tick_rel; exact S|exact IH].
Qed.

(** ** Public calls *)
Lemma rel_of : forall a b h q n a' , b = relog h q n a -> logs_rel h a' -> forall b' q' n', b' = relog h q' n' a' -> rel a' b'.
Proof. intros a b h q n a' _ H b' q' n' ->. exists h, q', n'. split; [reflexivity|exact H]. Qed.
Lemma init_tmax_rel : forall tm ts l a b, rel a b -> rres rel (init_after_tmax_fix c tm ts l a) (init_after_tmax_fix C tm ts l b).
Proof.
  intros tm ts l a b S. unfold init_after_tmax_fix. cbv zeta. rw S. change (c_eulardt C) with (c_eulardt c).
  apply bindE; [reflexivity|]. intro dx. apply bindE; [reflexivity|]. intro q1. apply bindE; [reflexivity|]. intro q2. apply bindE; [reflexivity|]. intro ff.
  cbn. apply rel_modl; [exact S|reflexivity].
Qed.
Lemma adjust_rel : forall n a b, rel a b -> rel (adjust_node_capacity c n a) (adjust_node_capacity C n b).
Proof.
  intros n a b S. unfold adjust_node_capacity. cbv zeta. rw S.
  assert (E : forall ls, map (fun l => l_cap (L b l)) ls = map (fun l => l_cap (L a l)) ls) by (intro ls; apply map_ext; intro l; rw S; reflexivity).
  rewrite !E. destruct (n_fcap (N a n)); [exact S|]. destruct (map _ _); [exact S|]. destruct (map _ _); [exact S|].
  change (dt C) with (dt c). apply rel_modn; [exact S|reflexivity].
Qed.
Lemma adjusts_rel : forall l a b, rel a b ->
  rel (fold_left (fun w n => adjust_node_capacity c n w) l a) (fold_left (fun w n => adjust_node_capacity C n w) l b).
Proof. induction l as [|x l IH]; intros a b S; cbn [fold_left]; [exact S|]. apply IH. apply adjust_rel. exact S. Qed.
Lemma auto_tmax_rel : forall a b, rel a b -> auto_tmax C b = auto_tmax c a.
Proof.
  intros a b S. unfold auto_tmax, last_departure. rw S. change (dt C) with (dt c). 
  assert (E : forall vs, map (fun v => (inject_Z (v_dep (V b v)) * dt c)%Q) vs = map (fun v => (inject_Z (v_dep (V a v)) * dt c)%Q) vs) by (intro vs; apply map_ext; intro v; rw S; reflexivity).
  rewrite E. reflexivity.
Qed.
Lemma finalize_rel : forall tm a b, rel a b -> rres rel (finalize c tm a) (finalize C tm b).
Proof.
  intros tm a b S. cbv beta delta [finalize]. rewrite (auto_tmax_rel a b S).
  le; [destruct S as (h & q & n & -> & H); reflexivity|]. le; [reflexivity|].
  lm S; [destruct S as (h & q & n & -> & H); exists h, q, n; split; [reflexivity|exact H]|].
  apply (bindR _ _ rel); [rwx; apply foldR; [exx|intros x p q Sp; apply init_tmax_rel; exact Sp]|]. clear. intros a b S.
  lm S; [destruct S as (h & q & n & -> & H); exists h, q, n; split; [reflexivity|exact H]|].
  lm S0; [change (c_adjust C) with (c_adjust c); rw S0; destruct (c_adjust c); [apply adjusts_rel|]; exact S0|].
  cbn. destruct S as (h & q & n & -> & H). exists h, 0%Q, 0. split; [reflexivity|exact H].
Qed.
Lemma finalize_relI : forall tm a b, relI a b -> rres relI (finalize c tm a) (finalize C tm b).
Proof.
  intros tm a b [S Iv]. apply with_inv; [apply finalize_rel; exact S|]. intros w' E.
  apply (op_Inv2 c (OFinalize tm) a w' Iv); [discriminate|exact E].
Qed.
Lemma exec_until_rel : forall z a b, relI a b -> rres (fun p q => fst q = fst p /\ relI (snd p) (snd q)) (exec_until c z a) (exec_until C z b).
Proof.
  intros z a b [S Iv]. unfold exec_until. cbv zeta. rw S. assert (Es : w_tsize b = w_tsize a) by (apply rel_rest in S; tauto). rewrite Es.
  destruct (_ && _); [split; [reflexivity|split; assumption]|]. destruct (Z.ltb _ _); [reflexivity|].
  apply (bindR _ _ relI); [apply iterM_rel; split; assumption|]. intros a1 b1 [S1 I1].
  assert (S2 : rel (sw_TIME (now c a1) a1) (sw_TIME (now C b1) b1)) by (rw S1; apply rel_swTIME; exact S1).
  split; cbn [fst snd].
  - rewrite (rel_T _ _ S2). reflexivity.
  - split; [exact S2|]. eapply Inv2_same; try exact I1; reflexivity.
Qed.
Lemma exec_rel : forall x a b, relI a b -> rres (fun p q => fst q = fst p /\ relI (snd p) (snd q)) (exec_simulation c x a) (exec_simulation C x b).
Proof.
  intros x a b [S Iv]. unfold exec_simulation. rw S. apply (bindR _ _ relI).
  - destruct (w_final a); [split; assumption|]. apply finalize_relI. split; assumption.
  - intros a1 b1 [S1 I1]. assert (E : end_of_arg C b1 x = end_of_arg c a1 x).
    { unfold end_of_arg. change (dt C) with (dt c). destruct S1 as (h & q & n & -> & H). reflexivity. }
    rewrite E. apply exec_until_rel. split; assumption.
Qed.

Lemma add_node_rel : forall x a b, rel a b -> rres rel (add_node c x a) (add_node C x b).
Proof.
  intros x a b (h & q & n & -> & H). unfold add_node. change (new_node C x) with (new_node c x). apply bindE; [reflexivity|]. intro nd.
  change (node_names (relog h q n a)) with (node_names a). destruct (smem _ _); [reflexivity|]. cbn. exists h, q, n. split; [reflexivity|exact H].
Qed.
Lemma add_link_rel : forall x a b, rel a b -> rres rel (add_link c x a) (add_link C x b).
Proof.
  intros x a b (h & q & n & -> & H). unfold add_link. change (w_nn (relog h q n a)) with (w_nn a). destruct (negb _); [reflexivity|]. cbv zeta.
  change (link_name_of (relog h q n a) x) with (link_name_of a x). change (new_link C x) with (new_link c x). apply bindE; [reflexivity|]. intro k.
  change (link_names (relog h q n a)) with (link_names a). destruct (smem _ _); [reflexivity|].
  unfold rres. apply rel_modn; [|reflexivity]. apply rel_modn; [|reflexivity]. exists h, q, n. split; [reflexivity|exact H].
Qed.
Lemma veh_names_rel : forall a b, rel a b -> veh_names b = veh_names a.
Proof. intros a b S. unfold veh_names. rw S. apply map_ext. intro v. rw S. reflexivity. Qed.
Lemma add_vehicle_rel : forall x a b, rel a b -> rres rel (add_vehicle c x a) (add_vehicle C x b).
Proof.
  intros x a b S. unfold add_vehicle. cbv zeta. rewrite (veh_names_rel a b S). destruct S as (h & q & n & -> & H).
  change (w_nn (relog h q n a)) with (w_nn a). change (w_nl (relog h q n a)) with (w_nl a). change (w_nv (relog h q n a)) with (w_nv a).
  change (w_prefveh (relog h q n a)) with (w_prefveh a). change (node_ok (relog h q n a)) with (node_ok a).
  destruct (negb _); [reflexivity|]. destruct (smem _ _); [reflexivity|]. unfold rres.
  match goal with |- context [new_vehicle c x ?m ?s] => change (new_vehicle C x m s) with (new_vehicle c x m s); remember (new_vehicle c x m s) as nv eqn:En end.
  exists (upd h (w_nv a) nv), q, n. split; [reflexivity|]. intro u. unfold V. cbn [w_vehs sw_living sw_prefveh sw_nv sw_vehs]. unfold upd.
  destruct (Nat.eqb u (w_nv a)); [|apply H]. assert (E0 : v_log nv = []) by (rewrite En; reflexivity). rewrite E0. split; [|exact Lr_nil].
  rewrite En. reflexivity.
Qed.
Definition rel3 (p q : Q * world) : Prop := fst q = fst p /\ rel (snd p) (snd q).
Lemma emit_rel : forall x k f a b, rel a b -> rres rel3 (emit c x k f a) (emit C x k f b).
Proof.
  intros x k; induction k as [|k IH]; intros f a b S; cbn [emit]; change (dN C) with (dN c); destruct (qle (dN c) f).
  - reflexivity.
  - split; [reflexivity|exact S].
  - apply (bindR _ _ rel); [apply add_vehicle_rel; exact S|]. intros a1 b1 S1. apply IH. exact S1.
  - split; [reflexivity|exact S].
Qed.
Lemma demand_loop_rel : forall o d fl ts f a b, rel a b -> rres rel3 (demand_loop c o d fl ts f a) (demand_loop C o d fl ts f b).
Proof.
  intros o d fl ts; induction ts as [|t ts IH]; intros f a b S; cbn [demand_loop]; [split; [reflexivity|exact S]|].
  apply (bindR _ _ rel3); [apply emit_rel; exact S|]. intros [f1 a1] [f2 b1] [E S1]. cbn in E, S1. subst f2. apply IH. exact S1.
Qed.
Lemma adddemand_rel : forall o d t0 t1 fl vo a b, rel a b -> rres rel (adddemand c o d t0 t1 fl vo a) (adddemand C o d t0 t1 fl vo b).
Proof.
  intros o d t0 t1 fl vo a b S. unfold adddemand. apply bindE; [reflexivity|]. intro f. change (dt C) with (dt c).
  apply (bindR _ _ rel3); [apply demand_loop_rel; exact S|]. intros [f1 a1] [f2 b1] [E S1]. exact S1.
Qed.
Lemma override_rel : forall n sg gs off rs a b, rel a b -> rres rel (override_signal n sg gs off rs a) (override_signal n sg gs off rs b).
Proof.
  intros n sg gs off rs a b S. cbv beta delta [override_signal]. lm S; [apply rel_modn; [exact S|reflexivity]|].
  destruct gs as [gs|]; [|exact S0]. rw S0. destruct (negb _); [reflexivity|]. destruct (negb _); [reflexivity|]. unfold rres.
  generalize (n_in (N a0 n)). intro ls. clear -S0. revert a0 b0 S0. induction ls as [|l ls IH]; intros p q Sp; cbn [fold_left]; [exact Sp|].
  apply IH. destruct (existsb _ _); [apply rel_modl; [exact Sp|reflexivity]|exact Sp].
Qed.
Lemma speed_rel : forall l x a b, rel a b -> rres rel (change_free_flow_speed l x a) (change_free_flow_speed l x b).
Proof.
  intros l x a b S. unfold change_free_flow_speed. destruct (qlt x 0); [exact S|]. cbv zeta. rw S.
  do 4 (apply bindE; [reflexivity|]; intro). cbn. apply rel_modl; [exact S|reflexivity].
Qed.
Lemma jam_rel : forall l x a b, rel a b -> rres rel (change_jam_density l x a) (change_jam_density l x b).
Proof.
  intros l x a b S. unfold change_jam_density. destruct (qlt x 0); [exact S|]. cbv zeta. rw S.
  do 4 (apply bindE; [reflexivity|]; intro). cbn. apply rel_modl; [exact S|reflexivity].
Qed.
Lemma request_rel : forall o d t a b, rel a b -> rres rel (add_trip_request o d t a) (add_trip_request o d t b).
Proof.
  intros o d t a b (h & q & n & -> & H). unfold add_trip_request. change (w_nn (relog h q n a)) with (w_nn a). destruct (negb _); [reflexivity|].
  cbn. exists h, q, n. split; [reflexivity|exact H].
Qed.
Lemma assign_rel : forall v r a b, rel a b -> rres rel (assign_taxi c v r a) (assign_taxi C v r b).
Proof.
  intros v r a b S. cbv beta delta [assign_taxi]. assert (Ep : w_pending b = w_pending a) by (apply rel_rest in S; tauto). rewrite Ep. destruct (negb _); [reflexivity|].
  apply (bindR _ _ rel); [rw S; apply add_dest_rel; exact S|]. clear. intros a b S. lm S; [rw S; mv S|]. lm S0; [apply rel_modr; [exact S0|reflexivity]|].
  cbn. destruct S as (h & q & n & -> & H). exists h, q, n. split; [reflexivity|exact H].
Qed.
Lemma enforce_rel : forall v ls f a b, rel a b -> rres rel (enforce_route v ls f a) (enforce_route v ls f b).
Proof.
  intros v ls f a b S. unfold enforce_route. rw S. destruct (negb _); [reflexivity|]. cbn. apply rel_modv; [exact S| |]; [intro|]; destruct f; reflexivity.
Qed.

Theorem op_rel : forall o a b, relI a b -> rres relI (apply_op c o a) (apply_op C o b).
Proof.
  intros o a b [S Iv].
  assert (W : (forall x, o <> OExec x) -> rres rel (apply_op c o a) (apply_op C o b) -> rres relI (apply_op c o a) (apply_op C o b)).
  { intros X Y. apply with_inv; [exact Y|]. intros w' E. exact (op_Inv2 c o a w' Iv X E). }
  destruct o; try (apply W; [discriminate|]); cbn [apply_op].
  - apply add_node_rel; exact S.
  - apply add_link_rel; exact S.
  - apply add_vehicle_rel; exact S.
  - apply adddemand_rel; exact S.
  - apply finalize_rel; exact S.
  - eapply bindR; [apply exec_rel; split; assumption|]. intros [p x] [q y] [_ R]. exact R.
  - apply add_dest_rel; exact S.
  - apply enforce_rel; exact S.
  - cbn. mv S.
  - cbn. mv S.
  - apply override_rel; exact S.
  - apply speed_rel; exact S.
  - apply jam_rel; exact S.
  - cbn. apply rel_modl; [exact S|reflexivity].
  - cbn. apply rel_modl; [exact S|reflexivity].
  - cbn. apply rel_modl; [exact S|reflexivity].
  - apply request_rel; exact S.
  - apply assign_rel; exact S.
Qed.
Theorem calls_rel : forall os a b, relI a b -> rres relI (calls c os a) (calls C os b).
Proof.
  induction os as [|o os IH]; intros a b S; cbn [calls]; [exact S|]. apply (bindR _ _ relI); [apply op_rel; exact S|exact IH].
Qed.
Lemma empty_rel : forall tm, relI (empty_world tm) (empty_world tm).
Proof.
  intro tm. split; [|apply empty_Inv2]. exists (fun _ => veh0), 0%Q, 0. split; [reflexivity|]. intro v. split; [reflexivity|exact Lr_nil].
Qed.
End Free.

(** ** The theorem *)
Lemma thin_app : forall P r la lb, thinned P la lb -> (P r -> thinned P (la ++ [r]) (lb ++ [r])) /\ (~ P r -> thinned P (la ++ [r]) lb).
Proof.
  intros P r la lb H. induction H as [|x la lb Hx H [IH1 IH2]|x la lb Hx H [IH1 IH2]]; cbn [app]; split; intro K.
  - apply th_keep; [exact K|constructor].
  - apply th_drop; [exact K|constructor].
  - apply th_keep; auto.
  - apply th_keep; auto.
  - apply th_drop; auto.
  - apply th_drop; auto.
Qed.

Lemma kept_iff : forall c j T r (e : bool), (0 < dt c)%Q -> j <> 0%Z -> g_t r = (Qof_nat T * dt c)%Q ->
  (e = false -> alive (g_state r)) -> (e = true -> ~ alive (g_state r)) -> (kept c j r <-> writes (logging j c) T e = true).
Proof.
  intros c j T r e Hd Hj Et A B. unfold kept, writes, logging. cbn [c_logint].
  rewrite andb_true_iff, negb_true_iff, Z.eqb_neq, !orb_true_iff, !Z.eqb_eq.
  assert (E : (exists k, g_t r == inject_Z (j * k) * dt c)%Q <-> (Z.of_nat T mod j = 0)%Z).
  { rewrite Et. split.
    - intros (k & K). assert (E : (Qof_nat T == inject_Z (j * k))%Q).
      { apply (Qmult_inj_r _ _ (dt c)); [intro Z; rewrite Z in Hd; discriminate Hd|exact K]. }
      unfold Qof_nat in E. assert (E' : Z.of_nat T = (j * k)%Z) by (unfold Qeq, inject_Z in E; cbn in E; lia); clear E; rename E' into E. rewrite E. rewrite (Z.mul_comm j k). apply Z.mod_mul. exact Hj.
    - intro M. apply Z.mod_divide in M; [|exact Hj]. destruct M as (k & M). exists k. unfold Qof_nat. rewrite M. rewrite (Z.mul_comm j k). reflexivity. }
  rewrite E. split; intros (H1 & H2); split; auto.
  - destruct H2 as [H2|H2]; [left; right; exact H2|]. right. destruct e; [reflexivity|]. exfalso. apply H2, A. reflexivity.
  - destruct H2 as [[H2|H2]|H2].
    + left. subst j. apply Z.mod_1_r.
    + left. exact H2.
    + right. apply B. exact H2.
Qed.

Theorem interval_free : forall c j tm os, c_logint c = 1%Z -> j <> 0%Z -> (0 < dt c)%Q ->
  match calls c os (empty_world tm), calls (logging j c) os (empty_world tm) with
  | Ok a, Ok b => same_traffic a b /\ forall v, thinned (kept c j) (v_log (V a v)) (v_log (V b v))
  | Err e, Err f => f = e
  | _, _ => False
  end.
Proof.
  intros c j tm os H1 Hj Hd.
  assert (K : rres (relI (thinned (kept c j))) (calls c os (empty_world tm)) (calls (logging j c) os (empty_world tm))).
  { apply calls_rel; [constructor| |apply empty_rel; constructor]. intros T r e la lb Et A B Ht.
    assert (W : writes c T e = true) by (unfold writes; rewrite H1; reflexivity). rewrite W.
    destruct (thin_app (kept c j) r la lb Ht) as (T1 & T2). pose proof (kept_iff c j T r e Hd Hj Et A B) as K.
    destruct (writes (logging j c) T e); [apply T1, K; reflexivity|]. apply T2. intro X. apply K in X. discriminate X. }
  destruct (calls c os _) as [a|e]; destruct (calls (logging j c) os _) as [b|f]; cbn in K; auto.
  destruct K as [(h & q & n & -> & H) _]. split.
  - split; [exists h, q, n; reflexivity|]. intro v. exists (v_log (h v)). apply H.
  - intro v. apply H.
Qed.

(** two intervals *)
Theorem intervals_agree : forall c i j tm os, i <> 0%Z -> j <> 0%Z -> (0 < dt c)%Q ->
  match calls (logging i c) os (empty_world tm), calls (logging j c) os (empty_world tm) with
  | Ok a, Ok b => same_traffic a b
  | Err e, Err f => f = e
  | _, _ => False
  end.
Proof.
  intros c i j tm os Hi Hj Hd.
  pose proof (interval_free (logging 1 c) i tm os eq_refl Hi Hd) as Ki.
  pose proof (interval_free (logging 1 c) j tm os eq_refl Hj Hd) as Kj.
  change (logging i (logging 1 c)) with (logging i c) in Ki. change (logging j (logging 1 c)) with (logging j c) in Kj.
  destruct (calls (logging 1 c) os _) as [z|e]; destruct (calls (logging i c) os _) as [a|f]; try contradiction;
    destruct (calls (logging j c) os _) as [b|g]; try contradiction.
  - destruct Ki as [[(h & q & n & Ea) Va] _]. destruct Kj as [[(h' & q' & n' & Eb) Vb] _]. split.
    + exists h', q', n'. rewrite Ea, Eb. reflexivity.
    + intro v. destruct (Va v) as (la & E1). destruct (Vb v) as (lb & E2). exists lb. rewrite E1, E2. reflexivity.
  - congruence.
Qed.

(** no logging *)
Lemma thinned_none : forall (P : logrow -> Prop) a b, (forall r, ~ P r) -> thinned P a b -> b = [].
Proof. intros P a b H K. induction K as [|r a b Hr K IH|r a b Hr K IH]; [reflexivity|destruct (H r Hr)|exact IH]. Qed.
Theorem no_logging : forall c tm os w, (0 < dt c)%Q -> calls (logging (-1) c) os (empty_world tm) = Ok w -> forall v, v_log (V w v) = [].
Proof.
  intros c tm os w Hd E v. pose proof (interval_free (logging 1 c) (-1) tm os eq_refl ltac:(discriminate) Hd) as K.
  change (logging (-1) (logging 1 c)) with (logging (-1) c) in K. rewrite E in K.
  destruct (calls (logging 1 c) os _) as [z|e]; [|contradiction]. destruct K as [_ K].
  apply (thinned_none _ _ _ (fun r (k : kept (logging 1 c) (-1) r) => proj1 k eq_refl) (K v)).
Qed.

(** trips whose log ends with a row of the end keep it *)
Lemma thinned_in : forall (P : logrow -> Prop) a b, thinned P a b -> forall r, In r b <-> In r a /\ P r.
Proof.
  intros P a b K. induction K as [|x a b Hx K IH|x a b Hx K IH]; intro r; cbn [In].
  - tauto.
  - rewrite IH. split; [intros [<-|[H1 H2]]; auto|intros [[<-|H1] H2]; auto].
  - rewrite IH. split; [intros [H1 H2]; auto|intros [[<-|H1] H2]; [contradiction|auto]].
Qed.
Theorem rows_kept : forall c j tm os a b, c_logint c = 1%Z -> j <> 0%Z -> (0 < dt c)%Q ->
  calls c os (empty_world tm) = Ok a -> calls (logging j c) os (empty_world tm) = Ok b ->
  forall v r, In r (v_log (V b v)) <-> In r (v_log (V a v)) /\ kept c j r.
Proof.
  intros c j tm os a b H1 Hj Hd Ea Eb v r. pose proof (interval_free c j tm os H1 Hj Hd) as K. rewrite Ea, Eb in K.
  apply thinned_in. apply K.
Qed.
