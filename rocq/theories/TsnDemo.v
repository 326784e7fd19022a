(** * TsnDemo: scenarios for the time-space network (property C61). *)
From Verif Require Import Base Types Sim Build Inv Tac LogsDemo Life Reach Steps Lists Spec Registry Route Trials Paths Demo MotionDemo DuoDemo NetDemo LinkQueries SpecDuo SpecRoutes Tsn SpecTsn TsnOK.
Local Open Scope string_scope.
Local Open Scope nat_scope.

(** ** Least costs, computed *)
Fixpoint get (st : list (gnode * Q)) (u : gnode) : option Q := match st with [] => None | (v, q) :: tl => if gn_eqb v u then Some q else get tl u end.
Definition relax (st : list (gnode * Q)) (e : gedge) : list (gnode * Q) :=
  let '(u, v, q) := e in
  match get st u with
  | None => st
  | Some a => match get st v with Some b => if qlt (a + q) b then (v, (a + q)%Q) :: st else st | None => (v, (a + q)%Q) :: st end
  end.
Fixpoint rounds (k : nat) (es : list gedge) (st : list (gnode * Q)) : list (gnode * Q) := match k with O => st | S k => rounds k es (fold_left relax es st) end.
Definition closed_b (es : list gedge) (st : list (gnode * Q)) : bool :=
  forallb (fun e => let '(u, v, q) := e in match get st u with None => true | Some a => match get st v with Some b => qle b (a + q) | None => false end end) es.
Lemma walk_snoc : forall es u v x q r, twalk es u v q -> In (v, x, r) es -> exists y, twalk es u x y /\ (y == q + r)%Q.
Proof.
  intros es u v x q r H K. induction H as [u|u v z q r0 Hi Hw IH]; [exists (r + 0)%Q; split; [eapply tw_edge; [exact K|constructor]|ring]|].
  destruct (IH K) as (y & Y1 & Y2). exists (q + y)%Q. split; [eapply tw_edge; eassumption|rewrite Y2; ring].
Qed.
Definition attained (es : list gedge) (s : gnode) (st : list (gnode * Q)) : Prop := forall u a, get st u = Some a -> exists y, twalk es s u y /\ (y == a)%Q.
Lemma relax_attained : forall es s e st, In e es -> attained es s st -> attained es s (relax st e).
Proof.
  intros es s [[u v] q] st He A x a H. unfold relax in H. destruct (get st u) as [b|] eqn:Eu; [|apply A; exact H].
  assert (G : forall z, get ((v, (b + q)%Q) :: st) x = Some z -> exists y, twalk es s x y /\ (y == z)%Q).
  { intros z Hz. cbn [get] in Hz. destruct (gn_eqb v x) eqn:Ev; [|apply A; exact Hz]. apply gn_eqb_eq in Ev. subst x. injection Hz as <-.
    destruct (A u b Eu) as (y & Y1 & Y2). destruct (walk_snoc es s u v y q Y1 He) as (y2 & Z1 & Z2). exists y2. split; [exact Z1|]. rewrite Z2, Y2. reflexivity. }
  destruct (get st v) as [b2|]; [destruct (qlt (b + q) b2); [apply G; exact H|apply A; exact H]|apply G; exact H].
Qed.
Lemma rounds_attained : forall es s k st, attained es s st -> attained es s (rounds k es st).
Proof.
  intros es s k. induction k as [|k IH]; intros st A; [exact A|]. cbn [rounds]. apply IH.
  assert (G : forall xs st, incl xs es -> attained es s st -> attained es s (fold_left relax xs st)).
  { induction xs as [|e xs IHx]; intros st1 I1 A1; [exact A1|]. cbn [fold_left]. apply IHx; [intros z Hz; apply I1; right; exact Hz|]. apply relax_attained; [apply I1; left; reflexivity|exact A1]. }
  apply G; [apply incl_refl|exact A].
Qed.
Lemma closed_least : forall es st u v y, closed_b es st = true -> twalk es u v y -> forall a, get st u = Some a -> exists b, get st v = Some b /\ (b <= a + y)%Q.
Proof.
  intros es st u v y C H. induction H as [u|u v z q r Hi Hw IH]; intros a Ha; [exists a; split; [exact Ha|lra]|].
  unfold closed_b in C. rewrite forallb_forall in C. specialize (C _ Hi). cbn beta iota in C. rewrite Ha in C. destruct (get st v) as [b|] eqn:Ev; [|discriminate C].
  apply qle_iff in C. destruct (IH b eq_refl) as (b2 & B1 & B2). exists b2. split; [exact B1|]. lra.
Qed.
Definition costs_from (k : nat) (es : list gedge) (s : gnode) : list (gnode * Q) := rounds k es [(s, 0%Q)].
Lemma costs_from_ok : forall k es s, closed_b es (costs_from k es s) = true ->
  match get (costs_from k es s) s with Some q => qeq q 0 | None => false end = true -> least_costs es s (get (costs_from k es s)).
Proof.
  intros k es s C S0. assert (A : attained es s (costs_from k es s)).
  { apply rounds_attained. intros u a H. cbn [get] in H. destruct (gn_eqb s u) eqn:E; [|discriminate H]. apply gn_eqb_eq in E. subst u. injection H as <-. exists 0%Q. split; [constructor|reflexivity]. }
  destruct (get (costs_from k es s) s) as [q0|] eqn:E0; [|discriminate S0]. apply qeq_iff in S0.
  intro v. destruct (get (costs_from k es s) v) as [q|] eqn:Ev.
  - split; [apply A; exact Ev|]. intros y W. destruct (closed_least es _ s v y C W q0 E0) as (b & B1 & B2). rewrite Ev in B1. injection B1 as <-. lra.
  - intros y W. destruct (closed_least es _ s v y C W q0 E0) as (b & B1 & _). congruence.
Qed.

Definition tsn_b (c : cfg) (w : world) (d : option Z) (p : list gedge -> bool) : bool := match tsn c w d with Ok es => p es | Err _ => false end.
Definition cost_is (es : list gedge) (s v : gnode) (q : Q) : bool :=
  let st := costs_from 6 es s in
  closed_b es st && match get st s with Some x => qeq x 0 | None => false end && match get st v with Some x => qeq x q | None => false end.
Lemma cost_is_ok : forall es s v q, cost_is es s v q = true -> exists f x, least_costs es s f /\ f v = Some x /\ (x == q)%Q.
Proof.
  intros es s v q H. unfold cost_is in H. cbv zeta in H. apply andb_true_iff in H. destruct H as [H H3]. apply andb_true_iff in H. destruct H as [H1 H2].
  destruct (get (costs_from 6 es s) v) as [x|] eqn:Ev; [|discriminate H3]. exists (get (costs_from 6 es s)), x. split; [apply costs_from_ok; assumption|]. split; [exact Ev|apply qeq_iff; exact H3].
Qed.
Definition leads_b (w : world) : list lid -> nid -> nid -> bool := fix go (r : list lid) (s t : nid) : bool :=
  match r with [] => Nat.eqb s t | l :: tl => (l <? w_nl w) && Nat.eqb (l_start (L w l)) s && go tl (l_end (L w l)) t end.
Lemma leads_b_ok : forall w r s t, leads_b w r s t = true -> leads w s t r.
Proof.
  intros w r. induction r as [|l r IH]; intros s t H; cbn in H; [apply Nat.eqb_eq; exact H|]. apply andb_true_iff in H. destruct H as [H H3]. apply andb_true_iff in H. destruct H as [H1 H2].
  split; [apply Nat.ltb_lt; exact H1|]. split; [apply Nat.eqb_eq; exact H2|]. apply IH. exact H3.
Qed.
Fixpoint in_time_b (c : cfg) (w : world) (r : list lid) (t tm : Q) : bool :=
  match r with
  | [] => true
  | l :: tl => match actual_travel_time c (L w l) t with Ok x => qlt (t + x) tm && in_time_b c w tl (t + x)%Q tm | Err _ => false end
  end.
Lemma in_time_b_ok : forall c w r t tm, in_time_b c w r t tm = true -> in_time c w r t tm.
Proof.
  intros c w r. induction r as [|l r IH]; intros t tm H; [exact I|]. cbn [in_time_b] in H. cbn [in_time]. destruct (actual_travel_time c (L w l) t) as [x|]; [|discriminate H].
  apply andb_true_iff in H. destruct H as [H1 H2]. exists x. split; [reflexivity|]. split; [apply qlt_iff; exact H1|apply IH; exact H2].
Qed.
Definition route_b (c : cfg) (w : world) (r : list lid) (t q : Q) : bool := match route_time c w r t with Ok x => qeq x q | Err _ => false end.
Lemma route_b_ok : forall c w r t q, route_b c w r t q = true -> exists x, route_time c w r t = Ok x /\ (x == q)%Q.
Proof. intros c w r t q H. unfold route_b in H. destruct (route_time c w r t) as [x|]; [|discriminate H]. exists x. split; [reflexivity|apply qeq_iff; exact H]. Qed.
Lemma tsn_b_ok : forall c w d p, tsn_b c w d p = true -> exists es, tsn c w d = Ok es /\ p es = true.
Proof. intros c w d p H. unfold tsn_b in H. destruct (tsn c w d) as [es|]; [|discriminate H]. exists es. auto. Qed.

Ltac bools H := repeat (apply andb_true_iff in H; let H2 := fresh "B" in destruct H as [H H2]).

(** Two links in a row of 100 m (5 s) are better than one of 300 m (15 s). *)
Definition tri : list op := [ node_ "a"; node_ "b"; node_ "c"; link_ "ab" 0 1 100; link_ "bc" 1 2 100; link_ "ac" 0 2 300; veh_ 0 1 0; veh_ 1 2 0; veh_ 1 2 1; veh_ 1 2 1 ].
Lemma tsn_example : exists w es f x r y, reachable cfg_det w /\ w_final w = true /\ tsn cfg_det w None = Ok es /\ least_costs es (0, Some 0%Z) f /\
  f (2, None) = Some x /\ (x == 10)%Q /\ leads w 0 2 r /\ List.length r = 2 /\ route_time cfg_det w r 0 = Ok y /\ (y == x)%Q.
Proof.
  destruct (play_witness cfg_det (tri ++ [OExec (UntilT 20)]) (Some 25%Q) (fun w => w_final w && tsn_b cfg_det w None (fun es => cost_is es (0, Some 0%Z) (2, None) 10) &&
    leads_b w [0; 1] 0 2 && route_b cfg_det w [0; 1] 0 10)%bool) as (w & R & H). { vm_compute. reflexivity. }
  bools H. destruct (tsn_b_ok _ _ _ _ B1) as (es & E & C). destruct (cost_is_ok _ _ _ _ C) as (f & x & F1 & F2 & F3). destruct (route_b_ok _ _ _ _ _ B) as (y & Y1 & Y2).
  exists w, es, f, x, [0; 1], y. split; [exact R|]. split; [exact H|]. split; [exact E|]. split; [exact F1|]. split; [exact F2|]. split; [exact F3|]. split; [apply leads_b_ok; exact B0|].
  split; [reflexivity|]. split; [exact Y1|]. rewrite Y2, F3. reflexivity.
Qed.

(** Four links of 140 m (7 s) in a row, a vehicle on the last one that needs two timesteps: the time of the network is rounded
    down at every node, so that it uses the travel time of the last link for 15 s instead of 21 s. The cost is 28 s, but the only
    route takes 31 s. *)
Definition chain4 : list op := [ node_ "a"; node_ "b"; node_ "c"; node_ "d"; node_ "e"; link_ "ab" 0 1 140; link_ "bc" 1 2 140; link_ "cd" 2 3 140; link_ "de" 3 4 140; veh_ 3 4 3 ].
Lemma rounding_refuted : exists w es f x r y, reachable cfg_det w /\ w_final w = true /\ (dt cfg_det == 5)%Q /\ tsn cfg_det w None = Ok es /\ least_costs es (0, Some 0%Z) f /\
  f (4, None) = Some x /\ (x == 28)%Q /\ leads w 0 4 r /\ in_time cfg_det w r 0 40 /\ route_time cfg_det w r 0 = Ok y /\ (y == 31)%Q /\
  (forall r', leads w 0 4 r' -> r' = r).
Proof.
  destruct (play_witness cfg_det (chain4 ++ [OExec (UntilT 40)]) (Some 40%Q) (fun w => w_final w && tsn_b cfg_det w None (fun es => cost_is es (0, Some 0%Z) (4, None) 28) &&
    leads_b w [0; 1; 2; 3] 0 4 && in_time_b cfg_det w [0; 1; 2; 3] 0 40 && route_b cfg_det w [0; 1; 2; 3] 0 31 && Nat.eqb (w_nl w) 4 &&
    forallb (fun l => Nat.eqb (l_start (L w l)) l && Nat.eqb (l_end (L w l)) (S l)) (seq 0 4))%bool) as (w & R & H). { vm_compute. reflexivity. }
  bools H. destruct (tsn_b_ok _ _ _ _ B4) as (es & E & C). destruct (cost_is_ok _ _ _ _ C) as (f & x & F1 & F2 & F3). destruct (route_b_ok _ _ _ _ _ B1) as (y & Y1 & Y2).
  exists w, es, f, x, [0; 1; 2; 3], y. split; [exact R|]. split; [exact H|]. split; [reflexivity|]. split; [exact E|]. split; [exact F1|]. split; [exact F2|]. split; [exact F3|].
  split; [apply leads_b_ok; exact B3|]. split; [apply in_time_b_ok; exact B2|]. split; [exact Y1|]. split; [exact Y2|].
  apply Nat.eqb_eq in B0. rewrite forallb_forall in B.
  assert (G : forall l, exists_link w l -> l_start (L w l) = l /\ l_end (L w l) = S l).
  { intros l Hl. unfold exists_link in Hl. rewrite B0 in Hl. specialize (B l ltac:(apply in_seq; lia)). apply andb_true_iff in B. destruct B as [B5 B6]. split; apply Nat.eqb_eq; assumption. }
  assert (K : forall k r' s, leads w s 4 r' -> s = 4 - k -> k <= 4 -> r' = seq s k).
  { intro k. induction k as [|k IH]; intros r' s Hr Es Hk.
    - destruct r' as [|l r']; [reflexivity|]. destruct Hr as (Hl & Hs & _). destruct (G l Hl) as (G1 & _). unfold exists_link in Hl. lia.
    - destruct r' as [|l r']; [cbn in Hr; lia|]. destruct Hr as (Hl & Hs & Hr). destruct (G l Hl) as (G1 & G2). assert (l = s) by congruence. subst l. cbn [seq]. f_equal.
      apply IH; [rewrite <- G2; exact Hr|lia|lia]. }
  intros r' Hr. exact (K 4 r' 0 Hr eq_refl (le_n 4)).
Qed.

(** Of parallel links only one is in the network, not the better one: the second of two links, which takes 9 s instead of 7 s. *)
Definition twin : list op := [ node_ "a"; node_ "b"; link_ "fast" 0 1 140; link_ "slow" 0 1 180 ].
Lemma parallel_refuted : exists w es f x y, reachable cfg_det w /\ w_final w = true /\ tsn cfg_det w None = Ok es /\ least_costs es (0, Some 0%Z) f /\
  f (1, None) = Some x /\ (x == 9)%Q /\ leads w 0 1 [0] /\ in_time cfg_det w [0] 0 20 /\ route_time cfg_det w [0] 0 = Ok y /\ (y == 7)%Q.
Proof.
  destruct (play_witness cfg_det (twin ++ [OExec (UntilT 20)]) (Some 20%Q) (fun w => w_final w && tsn_b cfg_det w None (fun es => cost_is es (0, Some 0%Z) (1, None) 9) &&
    leads_b w [0] 0 1 && in_time_b cfg_det w [0] 0 20 && route_b cfg_det w [0] 0 7)%bool) as (w & R & H). { vm_compute. reflexivity. }
  bools H. destruct (tsn_b_ok _ _ _ _ B2) as (es & E & C). destruct (cost_is_ok _ _ _ _ C) as (f & x & F1 & F2 & F3). destruct (route_b_ok _ _ _ _ _ B) as (y & Y1 & Y2).
  exists w, es, f, x, y. split; [exact R|]. split; [exact H|]. split; [exact E|]. split; [exact F1|]. split; [exact F2|]. split; [exact F3|]. split; [apply leads_b_ok; exact B1|].
  split; [apply in_time_b_ok; exact B0|]. split; [exact Y1|exact Y2].
Qed.

(** If TMAX is no multiple of the timestep, the construction fails: there is a time of the network after the last recorded travel time. *)
Lemma tmax_refuted : exists w, reachable cfg_det w /\ w_final w = true /\ w_tmax w = Some 12%Q /\ tsn cfg_det w None = Err IndexError.
Proof.
  destruct (play_witness cfg_det (twin ++ [OExec (UntilT 10)]) (Some 12%Q) (fun w => w_final w && match w_tmax w with Some (12 # 1)%Q => true | _ => false end &&
    match tsn cfg_det w None with Err IndexError => true | _ => false end)%bool) as (w & R & H). { vm_compute. reflexivity. }
  bools H. exists w. split; [exact R|]. split; [exact H|]. split.
  - destruct (w_tmax w) as [[[|p|p] q]|]; try discriminate B0. destruct p as [[[[]|[]|]|[[]|[]|]|]|[[[]|[]|]|[[]|[]|]|]|]; try discriminate B0. destruct q; try discriminate B0. reflexivity.
  - destruct (tsn cfg_det w None) as [es|e]; [discriminate B|]. destruct e; try discriminate B. reflexivity.
Qed.

(** A vehicle whose departure time was given in seconds, 10 s: its source is 50 s. *)
Lemma source_refuted : exists w, reachable cfg_det w /\ w_final w = true /\ w_nv w = 1 /\ v_dep (V w 0) = 2%Z /\ (dt cfg_det == 5)%Q /\ tsn_sources cfg_det w None = Ok [(0, Some 50%Z)].
Proof.
  destruct (play_witness cfg_det (twin ++ [OAddVehicle (mkVehArgs None 0 (Some 1) (DepSec 10) None SingleTrip None [] [] true); OExec (UntilT 20)]) (Some 100%Q)
    (fun w => w_final w && Nat.eqb (w_nv w) 1 && Z.eqb (v_dep (V w 0)) 2 && match tsn_sources cfg_det w None with Ok [(0, Some t)] => Z.eqb t 50 | _ => false end)%bool) as (w & R & H). { vm_compute. reflexivity. }
  bools H. exists w. split; [exact R|]. split; [exact H|]. split; [apply Nat.eqb_eq; exact B1|]. split; [apply Z.eqb_eq; exact B0|]. split; [reflexivity|].
  destruct (tsn_sources cfg_det w None) as [[|[[|n] [t|]] [|z tl]]|e]; try discriminate B. apply Z.eqb_eq in B. subst t. reflexivity.
Qed.
