(** * Cache: the cached queries [speed], [density], [flow], [num_vehicles] and
    [num_vehicles_queue] of Link, uxsim.py 600-605 and 900-932, and a timestep that uses them. *)
From Verif Require Import Base Types Sim Build Heap Lists Inv FrameBase Tac Frame Eff Eff2 Trace InvStep Reach Steps Effects Phases Attr Enforce Counts LinkQueries FD Totals SpecCache.
Local Open Scope nat_scope.

(** The attributes [_speed], [_density], [_flow], [_num_vehicles], [_num_vehicles_queue] of every
    link; -1 means "not computed", as in the code (600-605). *)
Record cache := mkCache { k_speed : lid -> Q; k_dens : lid -> Q; k_flow : lid -> Q; k_num : lid -> Q; k_queue : lid -> Q }.
Definition none_yet : Q := (-1)%Q.
Definition empty_cache : cache := mkCache (fun _ => none_yet) (fun _ => none_yet) (fun _ => none_yet) (fun _ => none_yet) (fun _ => none_yet).
Definition is_none (q : Q) : bool := qeq q none_yet.

Definition set_speed l q k := mkCache (upd (k_speed k) l q) (k_dens k) (k_flow k) (k_num k) (k_queue k).
Definition set_dens l q k := mkCache (k_speed k) (upd (k_dens k) l q) (k_flow k) (k_num k) (k_queue k).
Definition set_flow l q k := mkCache (k_speed k) (k_dens k) (upd (k_flow k) l q) (k_num k) (k_queue k).
Definition set_num l q k := mkCache (k_speed k) (k_dens k) (k_flow k) (upd (k_num k) l q) (k_queue k).
Definition set_queue l q k := mkCache (k_speed k) (k_dens k) (k_flow k) (k_num k) (upd (k_queue k) l q).
(** 659-663 *)
Definition clear (l : lid) (k : cache) : cache :=
  set_queue l none_yet (set_num l none_yet (set_flow l none_yet (set_dens l none_yet (set_speed l none_yet k)))).

(** [Link.speed], 901-907 *)
Definition rd_speed (w : world) (l : lid) (k : cache) : Q * cache :=
  if is_none (k_speed k l) then let q := link_speed w (L w l) in (q, set_speed l q k) else (k_speed k l, k).
(** [Link.num_vehicles], 921-925 *)
Definition rd_num (c : cfg) (w : world) (l : lid) (k : cache) : Q * cache :=
  if is_none (k_num k l) then let q := (Qof_nat (List.length (l_vehs (L w l))) * dN c)%Q in (q, set_num l q k) else (k_num k l, k).
(** [Link.density], 909-913; a failing division leaves [_num_vehicles] set *)
Definition rd_dens (c : cfg) (w : world) (l : lid) (k : cache) : result Q * cache :=
  if is_none (k_dens k l) then
    let '(n, k1) := rd_num c w l k in
    match qdiv n (l_len (L w l)) with
    | Ok q => (Ok q, set_dens l q k1)
    | Err e => (Err e, k1)
    end
  else (Ok (k_dens k l), k).
(** [Link.flow], 915-919 *)
Definition rd_flow (c : cfg) (w : world) (l : lid) (k : cache) : result Q * cache :=
  if is_none (k_flow k l) then
    match rd_dens c w l k with
    | (Ok d, k1) => let '(s, k2) := rd_speed w l k1 in (Ok (d * s)%Q, set_flow l (d * s)%Q k2)
    | (Err e, k1) => (Err e, k1)
    end
  else (Ok (k_flow k l), k).
(** [Link.num_vehicles_queue], 927-931 *)
Definition rd_queue (c : cfg) (w : world) (l : lid) (k : cache) : Q * cache :=
  if is_none (k_queue k l) then
    let q := (Qof_nat (List.length (filter (fun v => qlt (v_v (V w v)) (l_u (L w l))) (l_vehs (L w l)))) * dN c)%Q in
    (q, set_queue l q k)
  else (k_queue k l, k).

Definition ask (c : cfg) (w : world) (q : query) (l : lid) (k : cache) : result Q * cache :=
  match q with
  | QSpeed => let '(x, k1) := rd_speed w l k in (Ok x, k1)
  | QDensity => rd_dens c w l k
  | QFlow => rd_flow c w l k
  | QNum => let '(x, k1) := rd_num c w l k in (Ok x, k1)
  | QQueue => let '(x, k1) := rd_queue c w l k in (Ok x, k1)
  end.

(** [Link.set_traveltime_instant], 679-689, with [s.speed] read through the cache: [s] is the value
    that both reads return. *)
Definition set_tti_cached (c : cfg) (w : world) (s : Q) (k : link) : result link :=
  if Nat.eqb (tti_interval c) 0 then Err ZeroDivisionError
  else if Nat.eqb (Nat.modulo (w_T w) (tti_interval c)) 0 then
    if qlt 0 s then Ok (sl_tti (l_tti k ++ [(l_len k / s)%Q]) k)
    else d <- qdiv (l_len k) (l_u k / 100)%Q ;; Ok (sl_tti (l_tti k ++ [d]) k)
  else
    match last_opt (l_tti k) with
    | Some d => Ok (sl_tti (l_tti k ++ [d]) k)
    | None => Err IndexError
    end.

(** [Link.update], 642-663, with the cache and its reset *)
Definition link_update_c (c : cfg) (l : lid) (s : world * cache) : result (world * cache) :=
  let '(w, k) := s in
  let k1 := in_out_flow_constraint c (L w l) in
  k2 <- set_tti_cached c w (fst (rd_speed w l k)) k1 ;;
  let k3 := sl_ca (l_ca k2 ++ [last0 (l_ca k2)]) k2 in
  let k4 := sl_cd (l_cd k3 ++ [last0 (l_cd k3)]) k3 in
  Ok (modl l (fun _ => k4) w, clear l k).

(** The timestep. The phases after the links neither read nor write the cache. [mid] is what user
    functions called in between (e.g. [Node.user_function], 200-201) do to the cache. *)
Definition after_links (c : cfg) (w : world) : result world :=
  w <- phase_nodes c w ;;
  w <- phase_transfer c w ;;
  w <- phase_follow c w ;;
  w <- phase_vehicles c w ;;
  w <- route_phase c w ;;
  Ok (sw_TIME (now c w) w).
Definition ctick_with (c : cfg) (mid : world -> cache -> cache) (s : world * cache) : result (world * cache) :=
  s1 <- foldM (link_update_c c) (seq 0 (w_nl (fst s))) s ;;
  let k1 := mid (fst s1) (snd s1) in
  w <- after_links c (fst s1) ;;
  Ok (sw_T (S (w_T w)) w, k1).
Definition ctick (c : cfg) := ctick_with c (fun _ k => k).

(** ** Histories with reads *)
Definition unread (k : cache) (l : lid) : Prop :=
  is_none (k_speed k l) = true /\ is_none (k_dens k l) = true /\ is_none (k_flow k l) = true /\ is_none (k_num k l) = true /\ is_none (k_queue k l) = true.

(** a change of the free flow speed of a link that was read since its last update *)
Definition late_change (o : op) (k : cache) : Prop := exists l q, o = OChangeSpeed l q /\ ~ unread k l.

Inductive cstep (c : cfg) (P : op -> world -> Prop) : world * cache -> world * cache -> Prop :=
| cs_read : forall w k q l, l < w_nl w -> cstep c P (w, k) (w, snd (ask c w q l k))
| cs_op : forall w k o w', op_ok o w -> P o w -> (forall a, o <> OExec a) -> ~ late_change o k -> apply_op c o w = Ok w' ->
    cstep c P (w, k) (w', k)
| cs_tick : forall w k s', w_final w = true -> ctick c (w, k) = Ok s' -> cstep c P (w, k) s'
| cs_time : forall w k, cstep c P (w, k) (sw_TIME (now c w) w, k).
Inductive clater (c : cfg) (P : op -> world -> Prop) (s : world * cache) : world * cache -> Prop :=
| cl_refl : clater c P s s
| cl_step : forall s1 s2, clater c P s s1 -> cstep c P s1 s2 -> clater c P s s2.

(** a cached value is missing or right *)
Definition right (x : Q) (y : Q) : Prop := is_none x = true \/ x = y.
Definition good (c : cfg) (w : world) (k : cache) (l : lid) : Prop :=
  right (k_speed k l) (link_speed w (L w l)) /\
  right (k_num k l) (Qof_nat (List.length (l_vehs (L w l))) * dN c)%Q /\
  (is_none (k_dens k l) = true \/ qdiv (Qof_nat (List.length (l_vehs (L w l))) * dN c) (l_len (L w l)) = Ok (k_dens k l)) /\
  (is_none (k_flow k l) = true \/ exists d, qdiv (Qof_nat (List.length (l_vehs (L w l))) * dN c) (l_len (L w l)) = Ok d /\ k_flow k l = (d * link_speed w (L w l))%Q) /\
  right (k_queue k l) (Qof_nat (List.length (filter (fun v => qlt (v_v (V w v)) (l_u (L w l))) (l_vehs (L w l)))) * dN c)%Q.
Definition coherent (c : cfg) (w : world) (k : cache) : Prop :=
  (forall l, l < w_nl w -> good c w k l) /\ (forall l, w_nl w <= l -> unread k l).

Lemma unread_good : forall c w k l, unread k l -> good c w k l.
Proof. intros c w k l (A & B & C & D & E). unfold good, right. auto 10. Qed.

Lemma rd_speed_value : forall w l k, right (k_speed k l) (link_speed w (L w l)) -> fst (rd_speed w l k) = link_speed w (L w l).
Proof. intros w l k [H|H]; unfold rd_speed; [rewrite H; reflexivity|]. destruct (is_none _); [reflexivity|exact H]. Qed.
Lemma rd_num_value : forall c w l k, right (k_num k l) (Qof_nat (List.length (l_vehs (L w l))) * dN c)%Q ->
  fst (rd_num c w l k) = (Qof_nat (List.length (l_vehs (L w l))) * dN c)%Q.
Proof. intros c w l k [H|H]; unfold rd_num; [rewrite H; reflexivity|]. destruct (is_none _); [reflexivity|exact H]. Qed.

Lemma rd_speed_other : forall w l k, k_num (snd (rd_speed w l k)) = k_num k /\ k_dens (snd (rd_speed w l k)) = k_dens k /\
  k_flow (snd (rd_speed w l k)) = k_flow k /\ k_queue (snd (rd_speed w l k)) = k_queue k /\
  forall j, k_speed (snd (rd_speed w l k)) j = k_speed k j \/ j = l /\ k_speed (snd (rd_speed w l k)) j = link_speed w (L w l).
Proof.
  intros w l k. unfold rd_speed. destruct (is_none _); cbn; repeat split; auto.
  intro j. destruct (Nat.eq_dec j l) as [-> |Hn]; [rewrite upd_same; auto|rewrite upd_other by auto; auto].
Qed.
Lemma rd_num_other : forall c w l k, k_speed (snd (rd_num c w l k)) = k_speed k /\ k_dens (snd (rd_num c w l k)) = k_dens k /\
  k_flow (snd (rd_num c w l k)) = k_flow k /\ k_queue (snd (rd_num c w l k)) = k_queue k /\
  forall j, k_num (snd (rd_num c w l k)) j = k_num k j \/ j = l /\ k_num (snd (rd_num c w l k)) j = (Qof_nat (List.length (l_vehs (L w l))) * dN c)%Q.
Proof.
  intros c w l k. unfold rd_num. destruct (is_none _); cbn; repeat split; auto.
  intro j. destruct (Nat.eq_dec j l) as [-> |Hn]; [rewrite upd_same; auto|rewrite upd_other by auto; auto].
Qed.

Lemma rd_speed_good : forall c w l k j, good c w k j -> good c w (snd (rd_speed w l k)) j.
Proof.
  intros c w l k j (A & B & C & D & E). destruct (rd_speed_other w l k) as (E1 & E2 & E3 & E4 & E5).
  unfold good. rewrite E1, E2, E3, E4. split; [|auto]. destruct (E5 j) as [-> |(-> & ->)]; [auto|right; reflexivity].
Qed.
Lemma rd_num_good : forall c w l k j, good c w k j -> good c w (snd (rd_num c w l k)) j.
Proof.
  intros c w l k j (A & B & C & D & E). destruct (rd_num_other c w l k) as (E1 & E2 & E3 & E4 & E5).
  unfold good. rewrite E1, E2, E3, E4. split; [auto|]. split; [|auto]. destruct (E5 j) as [-> |(-> & ->)]; [auto|right; reflexivity].
Qed.

Lemma rd_dens_good : forall c w l k, good c w k l ->
  fst (rd_dens c w l k) = qdiv (Qof_nat (List.length (l_vehs (L w l))) * dN c) (l_len (L w l)) /\
  (forall j, good c w k j -> good c w (snd (rd_dens c w l k)) j).
Proof.
  intros c w l k G. unfold rd_dens. destruct (is_none (k_dens k l)) eqn:En.
  - pose proof (rd_num_value c w l k (proj1 (proj2 G))) as Ev. pose proof (rd_num_good c w l k) as Gn.
    destruct (rd_num c w l k) as [n k1]. cbn [fst snd] in *. subst n.
    destruct (qdiv _ _) as [q|e] eqn:Eq; cbn [fst snd]; (split; [reflexivity|]); intros j Gj; [|auto].
    specialize (Gn j Gj). destruct Gn as (A & B & C & D & E). unfold good. cbn. split; [auto|]. split; [auto|]. split; [|auto].
    destruct (Nat.eq_dec j l) as [-> |Hn]; [rewrite upd_same; auto|rewrite upd_other by auto; auto].
  - cbn [fst snd]. split; [|auto]. destruct G as (_ & _ & [C|C] & _); congruence.
Qed.

Lemma rd_flow_good : forall c w l k, good c w k l ->
  fst (rd_flow c w l k) = (d <- qdiv (Qof_nat (List.length (l_vehs (L w l))) * dN c) (l_len (L w l)) ;; Ok (d * link_speed w (L w l))%Q) /\
  (forall j, good c w k j -> good c w (snd (rd_flow c w l k)) j).
Proof.
  intros c w l k G. unfold rd_flow. destruct (is_none (k_flow k l)) eqn:En.
  - destruct (rd_dens_good c w l k G) as (Ev & Gd). destruct (rd_dens c w l k) as [d k1]. cbn [fst snd] in *. subst d.
    destruct (qdiv _ _) as [d|e] eqn:Eq; cbn [bind fst snd]; [|auto].
    pose proof (rd_speed_value w l k1 (proj1 (Gd l G))) as Es. pose proof (rd_speed_good c w l k1) as Gs.
    destruct (rd_speed w l k1) as [s k2]. cbn [fst snd] in *. subst s. split; [reflexivity|]. intros j Gj.
    specialize (Gs j (Gd j Gj)). destruct Gs as (A & B & C & D & E). unfold good. cbn. split; [auto|]. split; [auto|]. split; [auto|]. split; [|auto].
    destruct (Nat.eq_dec j l) as [-> |Hn]; [rewrite upd_same; right; exists d; auto|rewrite upd_other by auto; auto].
  - cbn [fst snd]. split; [|auto]. destruct G as (_ & _ & _ & [C|(d & C1 & C2)] & _); [congruence|]. rewrite C1, C2. reflexivity.
Qed.

Lemma rd_queue_good : forall c w l k, good c w k l ->
  fst (rd_queue c w l k) = (Qof_nat (List.length (filter (fun v => qlt (v_v (V w v)) (l_u (L w l))) (l_vehs (L w l)))) * dN c)%Q /\
  (forall j, good c w k j -> good c w (snd (rd_queue c w l k)) j).
Proof.
  intros c w l k G. unfold rd_queue. destruct (is_none (k_queue k l)) eqn:En; cbn [fst snd].
  - split; [reflexivity|]. intros j (A & B & C & D & E). unfold good. cbn. split; [auto|]. split; [auto|]. split; [auto|]. split; [auto|].
    destruct (Nat.eq_dec j l) as [-> |Hn]; [rewrite upd_same; right; reflexivity|rewrite upd_other by auto; auto].
  - split; [|auto]. destruct G as (_ & _ & _ & _ & [E|E]); congruence.
Qed.

(** the value without the cache *)
Definition direct (c : cfg) (w : world) (q : query) (l : lid) : result Q :=
  match q with
  | QSpeed => Ok (link_speed w (L w l))
  | QDensity => qdiv (Qof_nat (List.length (l_vehs (L w l))) * dN c) (l_len (L w l))
  | QFlow => d <- qdiv (Qof_nat (List.length (l_vehs (L w l))) * dN c) (l_len (L w l)) ;; Ok (d * link_speed w (L w l))%Q
  | QNum => Ok (Qof_nat (List.length (l_vehs (L w l))) * dN c)%Q
  | QQueue => Ok (Qof_nat (List.length (filter (fun v => qlt (v_v (V w v)) (l_u (L w l))) (l_vehs (L w l)))) * dN c)%Q
  end.

Lemma ask_good : forall c w q l k, good c w k l ->
  fst (ask c w q l k) = direct c w q l /\ (forall j, good c w k j -> good c w (snd (ask c w q l k)) j).
Proof.
  intros c w q l k G. destruct q; cbn [ask direct].
  - pose proof (rd_speed_value w l k (proj1 G)) as E. pose proof (rd_speed_good c w l k) as K. destruct (rd_speed w l k). cbn [fst snd] in *. split; [congruence|auto].
  - apply rd_dens_good; auto.
  - apply rd_flow_good; auto.
  - pose proof (rd_num_value c w l k (proj1 (proj2 G))) as E. pose proof (rd_num_good c w l k) as K. destruct (rd_num c w l k). cbn [fst snd] in *. split; [congruence|auto].
  - destruct (rd_queue_good c w l k G) as (E & K). destruct (rd_queue c w l k). cbn [fst snd] in *. split; [congruence|auto].
Qed.

Lemma ask_unread : forall c w q l k j, j <> l -> unread k j -> unread (snd (ask c w q l k)) j.
Proof.
  assert (S : forall w l k j, j <> l -> unread k j -> unread (snd (rd_speed w l k)) j).
  { intros w l k j Hn U. unfold rd_speed. destruct (is_none (k_speed k l)); cbn [snd]; [|exact U]. unfold unread in *. cbn. rewrite upd_other by auto. exact U. }
  assert (M : forall c w l k j, j <> l -> unread k j -> unread (snd (rd_num c w l k)) j).
  { intros c w l k j Hn U. unfold rd_num. destruct (is_none (k_num k l)); cbn [snd]; [|exact U]. unfold unread in *. cbn. rewrite upd_other by auto. exact U. }
  assert (D : forall c w l k j, j <> l -> unread k j -> unread (snd (rd_dens c w l k)) j).
  { intros c w l k j Hn U. unfold rd_dens. destruct (is_none (k_dens k l)); cbn [snd]; [|exact U]. specialize (M c w l k j Hn U).
    destruct (rd_num c w l k) as [n k1]. cbn [snd] in M. destruct (qdiv _ _); cbn [snd]; [|exact M]. unfold unread in *. cbn. rewrite upd_other by auto. exact M. }
  intros c w q l k j Hn U. destruct q; cbn [ask].
  - specialize (S w l k j Hn U). destruct (rd_speed w l k). exact S.
  - apply D; auto.
  - unfold rd_flow. destruct (is_none (k_flow k l)); cbn [snd]; [|exact U]. specialize (D c w l k j Hn U). destruct (rd_dens c w l k) as [[d|e] k1]; [|exact D].
    cbn [snd] in D. specialize (S w l k1 j Hn D). destruct (rd_speed w l k1) as [s k2]. cbn [snd] in *. unfold unread in *. cbn. rewrite upd_other by auto. exact S.
  - specialize (M c w l k j Hn U). destruct (rd_num c w l k). exact M.
  - unfold rd_queue. destruct (is_none (k_queue k l)); cbn [snd]; [|exact U]. unfold unread in *. cbn. rewrite upd_other by auto. exact U.
Qed.

Lemma ask_coherent : forall c w q l k, l < w_nl w -> coherent c w k -> coherent c w (snd (ask c w q l k)).
Proof.
  intros c w q l k Hl (G & U). split.
  - intros j Hj. apply (proj2 (ask_good c w q l k (G l Hl))). auto.
  - intros j Hj. apply ask_unread; [lia|auto].
Qed.

(** ** The timestep *)
Lemma clear_unread : forall l k, unread (clear l k) l.
Proof. intros. unfold unread, clear. cbn. rewrite !upd_same. repeat split; reflexivity. Qed.
Lemma clear_other : forall l k j, j <> l -> unread k j -> unread (clear l k) j.
Proof. intros l k j H U. unfold unread, clear in *. cbn. rewrite !upd_other by auto. exact U. Qed.
Lemma clear_good : forall c w l k j, j <> l -> good c w k j -> good c w (clear l k) j.
Proof. intros c w l k j H U. unfold good, clear in *. cbn. rewrite !upd_other by auto. exact U. Qed.

Lemma io_speed : forall c w k, link_speed w (in_out_flow_constraint c k) = link_speed w k.
Proof. intros. unfold link_speed, in_out_flow_constraint. destruct (l_cin k); [|reflexivity]. destruct (qlt _ _); cbn; destruct (qlt _ _); reflexivity. Qed.

Lemma set_tti_same : forall c w k, set_tti_cached c w (link_speed w k) (in_out_flow_constraint c k) = set_traveltime_instant c w (in_out_flow_constraint c k).
Proof. intros. unfold set_tti_cached, set_traveltime_instant. rewrite io_speed. reflexivity. Qed.

Lemma link_update_same : forall c l w k, good c w k l ->
  link_update_c c l (w, k) = (w' <- link_update c l w ;; Ok (w', clear l k)).
Proof.
  intros c l w k G. unfold link_update_c, link_update. rewrite rd_speed_value by exact (proj1 G). rewrite set_tti_same.
  cbn zeta. destruct (set_traveltime_instant c w _) as [k2|e]; reflexivity.
Qed.

(** what the cached values of link [j] depend on *)
Definition lview (w : world) (j : lid) := (l_vehs (L w j), l_u (L w j), l_len (L w j), map (fun v => v_v (V w v)) (l_vehs (L w j))).

Lemma filter_map_length : forall (A B : Type) (f : A -> B) (p : B -> bool) l,
  List.length (filter (fun x => p (f x)) l) = List.length (filter p (map f l)).
Proof. intros A B f p l. induction l as [|a l IH]; [reflexivity|]. cbn. destruct (p (f a)); cbn; congruence. Qed.

Lemma view_good : forall c w w' k j, lview w' j = lview w j -> good c w k j -> good c w' k j.
Proof.
  intros c w w' k j E G. unfold lview in E. injection E as E1 E2 E3 E4.
  assert (Es : link_speed w' (L w' j) = link_speed w (L w j)).
  { unfold link_speed. rewrite E1, E2 in *. destruct (l_vehs (L w j)); [reflexivity|]. rewrite E4. reflexivity. }
  assert (Eq : List.length (filter (fun v => qlt (v_v (V w' v)) (l_u (L w' j))) (l_vehs (L w' j))) = List.length (filter (fun v => qlt (v_v (V w v)) (l_u (L w j))) (l_vehs (L w j)))).
  { rewrite (filter_map_length _ _ (fun v => v_v (V w' v)) (fun s => qlt s (l_u (L w' j)))), (filter_map_length _ _ (fun v => v_v (V w v)) (fun s => qlt s (l_u (L w j)))). rewrite E4, E2. reflexivity. }
  unfold good in *. rewrite Es, Eq, E1, E3. exact G.
Qed.

Lemma link_update_view : forall c l w w' j, link_update c l w = Ok w' -> lview w' j = lview w j /\ w_nl w' = w_nl w.
Proof.
  intros c l w w' j H. unfold link_update in H. cbn zeta in H. apply bind_ok in H. destruct H as (k2 & E & H). injection H as <-.
  split; [|reflexivity].
  assert (K : l_vehs k2 = l_vehs (L w l) /\ l_u k2 = l_u (L w l) /\ l_len k2 = l_len (L w l)).
  { unfold set_traveltime_instant in E.
    assert (Io : l_vehs (in_out_flow_constraint c (L w l)) = l_vehs (L w l) /\ l_u (in_out_flow_constraint c (L w l)) = l_u (L w l) /\ l_len (in_out_flow_constraint c (L w l)) = l_len (L w l)).
    { unfold in_out_flow_constraint. destruct (l_cin (L w l)) as [ci|]; [|cbn; auto]. repeat match goal with |- context [if ?b then _ else _] => destruct b end; cbn; auto. }
    set (k1 := in_out_flow_constraint c (L w l)) in *. destruct (Nat.eqb (tti_interval c) 0); [discriminate|]. cbn zeta in E.
    destruct (Nat.eqb _ 0).
    - destruct (qlt _ _); [injection E as <-; exact Io|]. apply bind_ok in E. destruct E as (d & _ & E). injection E as <-. exact Io.
    - destruct (last_opt _); [injection E as <-; exact Io|discriminate]. }
  unfold lview. change (V (modl l (fun _ => sl_cd (l_cd (sl_ca (l_ca k2 ++ [last0 (l_ca k2)]) k2) ++ [last0 (l_cd (sl_ca (l_ca k2 ++ [last0 (l_ca k2)]) k2))]) (sl_ca (l_ca k2 ++ [last0 (l_ca k2)]) k2)) w)) with (V w).
  rewrite L_at. destruct (Nat.eqb j l) eqn:Ej; [|reflexivity]. apply Nat.eqb_eq in Ej. subst j. cbn. destruct K as (-> & -> & ->). reflexivity.
Qed.

Lemma links_same : forall c ls w k, NoDup ls -> (forall l, In l ls -> good c w k l) ->
  match foldM (link_update c) ls w with
  | Ok w' => exists k', foldM (link_update_c c) ls (w, k) = Ok (w', k') /\ (forall l, In l ls -> unread k' l) /\ (forall l, unread k l -> unread k' l)
  | Err e => foldM (link_update_c c) ls (w, k) = Err e
  end.
Proof.
  intros c ls. induction ls as [|l ls IH]; intros w k Nd G; cbn [foldM].
  - exists k. split; [reflexivity|]. split; [intros l []|auto].
  - rewrite (link_update_same c l w k (G l (or_introl eq_refl))).
    destruct (link_update c l w) as [w1|e] eqn:E; cbn [bind]; [|reflexivity].
    inversion Nd as [|? ? Nl Nd']; subst.
    assert (G1 : forall j, In j ls -> good c w1 (clear l k) j).
    { intros j Hj. apply clear_good; [intros ->; contradiction|]. apply (view_good c w); [apply (link_update_view c l w w1 j E)|]. apply G. right; exact Hj. }
    specialize (IH w1 (clear l k) Nd' G1). destruct (foldM (link_update c) ls w1) as [w'|e]; [|exact IH].
    destruct IH as (k' & E' & U1 & U2). exists k'. split; [exact E'|]. split.
    + intros j [<-|Hj]; [apply U2, clear_unread|apply U1, Hj].
    + intros j U. apply U2. destruct (Nat.eq_dec j l) as [-> |Hn]; [apply clear_unread|apply clear_other; auto].
Qed.

Lemma body_split : forall c w, body c w = (w1 <- phase_links c w ;; after_links c w1).
Proof. reflexivity. Qed.

(** A timestep with a coherent cache is the timestep, and leaves an empty cache. *)
Theorem ctick_same : forall c w k, coherent c w k ->
  match tick c w with
  | Ok w' => exists k', ctick c (w, k) = Ok (w', k') /\ forall l, unread k' l
  | Err e => ctick c (w, k) = Err e
  end.
Proof.
  intros c w k (G & U). unfold ctick, ctick_with, tick. rewrite body_split. cbn [fst snd].
  pose proof (links_same c (seq 0 (w_nl w)) w k (seq_NoDup _ _)) as K.
  assert (G' : forall l, In l (seq 0 (w_nl w)) -> good c w k l) by (intros l Hl; apply in_seq in Hl; apply G; lia).
  specialize (K G'). unfold phase_links. destruct (foldM (link_update c) (seq 0 (w_nl w)) w) as [w1|e]; [|rewrite K; reflexivity].
  destruct K as (k' & -> & U1 & U2). cbn [bind fst snd]. destruct (after_links c w1) as [w2|e]; cbn [bind]; [|reflexivity].
  exists k'. split; [reflexivity|]. intro l. destruct (Nat.lt_ge_cases l (w_nl w)) as [Hl|Hl]; [apply U1, in_seq; lia|apply U2, U, Hl].
Qed.

(** ** Operations *)
Lemma op_vehs : forall c o w w' l, op_ok o w -> (forall a, o <> OExec a) -> apply_op c o w = Ok w' -> l < w_nl w ->
  (forall v, In v (l_vehs (L w l)) -> v < w_nv w) ->
  l_vehs (L w' l) = l_vehs (L w l) /\ l_len (L w' l) = l_len (L w l) /\ (forall v, In v (l_vehs (L w l)) -> v_v (V w' v) = v_v (V w v)).
Proof.
  intros c o w w' l Ho Hx H Hl Hv. pose proof (apply_op_osteps _ _ _ _ Ho Hx H) as O.
  assert (A : forall v, In v (l_vehs (L w l)) -> v_v (V w' v) = v_v (V w v)).
  { intros v Iv. pose proof (proj1 (osteps_keep c w w' v O (Hv v Iv))) as K. unfold vkeep in K. congruence. }
  clear - O Hl A. cut (l_vehs (L w' l) = l_vehs (L w l) /\ l_len (L w' l) = l_len (L w l)); [tauto|]. clear A.
  induction O as [w|a b d O1 O IH]; [auto|].
  assert (K : w_nl a <= w_nl b /\ l_vehs (L b l) = l_vehs (L a l) /\ l_len (L b l) = l_len (L a l)).
  { destruct O1; unfold wkeep in *.
    - cbn. auto.
    - cbn. split; [lia|]. unfold L; cbn. rewrite !upd_other by lia. auto.
    - cbn. auto.
    - pose proof (finalize_ok _ _ _ _ H0) as Z. pose proof (fz_cnt _ _ _ Z) as Zc. split; [injection Zc; intros; lia|].
      destruct (fz_L _ _ _ Z l) as (q & ->). auto.
    - unfold L. rewrite H0. split; [injection H2; intros; lia|auto].
    - split; [injection H2; intros; lia|]. specialize (H0 l). unfold lkeep in H0. split; congruence. }
  destruct K as (K1 & K2 & K3). destruct IH as (I1 & I2); [lia|]. split; congruence.
Qed.

Lemma op_u : forall c o w w' l, op_ok o w -> (forall a, o <> OExec a) -> apply_op c o w = Ok w' -> l < w_nl w -> (forall q, o <> OChangeSpeed l q) ->
  l_u (L w' l) = l_u (L w l).
Proof.
  intros c o w w' l Ho Hx H Hl Hs. pose proof (op_nl c o w w' Hx H Ho) as (N1 & _).
  destruct (op_link c o w w' l Ho Hx H ltac:(lia)) as [A B C D|a nm E1 E2 E3|q E1 E2|q E1 E2|q E1 E2|q E1 E2].
  - unfold lpar in B. congruence.
  - lia.
  - elim (Hs q E1).
  - unfold change_jam_density in E2. cbn zeta in E2. binv E2; rewrite ?L_at, ?Nat.eqb_refl; reflexivity.
  - rewrite E2. reflexivity.
  - rewrite E2. reflexivity.
Qed.

Lemma op_coherent : forall c o w w' k, reach c w -> op_ok o w -> (forall a, o <> OExec a) -> ~ late_change o k -> apply_op c o w = Ok w' ->
  coherent c w k -> coherent c w' k.
Proof.
  intros c o w w' k R Ho Hx Hc H (G & U). pose proof (op_nl c o w w' Hx H Ho) as (N1 & _).
  split; [|intros l Hl; apply U; lia].
  intros l Hl'. destruct (Nat.lt_ge_cases l (w_nl w)) as [Hl|Hl]; [|apply unread_good, U, Hl].
  assert (Hv : forall v, In v (l_vehs (L w l)) -> v < w_nv w).
  { intros v Hv. destruct (reach_Inv2 c w R) as [[T I] _]. rewrite <- Dq_none in Hv. apply (s_D I) in Hv. tauto. }
  destruct (op_vehs c o w w' l Ho Hx H Hl Hv) as (E1 & E2 & E3).
  assert (K : (forall q, o <> OChangeSpeed l q) \/ unread k l).
  { destruct o; try (left; intros ? ?; discriminate). destruct (Nat.eq_dec l0 l) as [-> |Hn]; [|left; congruence]. right.
    assert (Dc : forall b, b = true \/ b <> true) by (intros []; [auto|right; discriminate]).
    unfold late_change in Hc.
    destruct (Dc (is_none (k_speed k l))) as [D1|D1]; [|exfalso; apply Hc; eexists l, _; split; [reflexivity|]; intros (Z & _); auto].
    destruct (Dc (is_none (k_dens k l))) as [D2|D2]; [|exfalso; apply Hc; eexists l, _; split; [reflexivity|]; intros (_ & Z & _); auto].
    destruct (Dc (is_none (k_flow k l))) as [D3|D3]; [|exfalso; apply Hc; eexists l, _; split; [reflexivity|]; intros (_ & _ & Z & _); auto].
    destruct (Dc (is_none (k_num k l))) as [D4|D4]; [|exfalso; apply Hc; eexists l, _; split; [reflexivity|]; intros (_ & _ & _ & Z & _); auto].
    destruct (Dc (is_none (k_queue k l))) as [D5|D5]; [|exfalso; apply Hc; eexists l, _; split; [reflexivity|]; intros (_ & _ & _ & _ & Z); auto].
    unfold unread. auto. }
  destruct K as [K|K]; [|apply unread_good, K].
  apply (view_good c w); [|apply G, Hl]. unfold lview. rewrite E1, E2, (op_u c o w w' l Ho Hx H Hl K).
  f_equal. apply map_ext_in. exact E3.
Qed.

(** ** Histories *)
Theorem clater_coherent : forall c P tm w k, clater c P (empty_world tm, empty_cache) (w, k) -> later c P (empty_world tm) w /\ coherent c w k.
Proof.
  intros c P tm w k H. change (later c P (empty_world tm) (fst (w, k)) /\ coherent c (fst (w, k)) (snd (w, k))).
  induction H as [|s1 s2 H IH S].
  - cbn [fst snd]. split; [constructor|]. split; intros l Hl; [cbn in Hl; lia|]. unfold unread. cbn. repeat split; reflexivity.
  - destruct IH as (IL & IC).
    assert (R : reach c (fst s1)) by (eapply reachP_reach; exists tm; exact IL).
    destruct S as [w1 k1 q l Hl|w1 k1 o w2 Ho Hp Hx Hc E|w1 k1 s' Hf E|w1 k1]; cbn [fst snd] in *.
    + split; [exact IL|]. apply ask_coherent; auto.
    + split; [econstructor; [exact IL|]; eapply st_op; eauto|]. eapply op_coherent; eauto.
    + pose proof (ctick_same c w1 k1 IC) as K. destruct (tick c w1) as [w2|e] eqn:Et; [|congruence].
      destruct K as (k2 & K & U). rewrite E in K. injection K as ->. cbn [fst snd].
      split; [econstructor; [exact IL|]; eapply st_tick; eauto|]. split; intros; [apply unread_good|]; apply U.
    + split; [econstructor; [exact IL|]; apply st_time|].
      destruct IC as (G & U). split; [|exact U]. intros l Hl. apply (view_good c w1); [reflexivity|apply G, Hl].
Qed.

(** every history without reads is also a history with reads *)
Theorem later_clater : forall c P tm w, later c P (empty_world tm) w -> (forall o x l q, P o x -> o <> OChangeSpeed l q) ->
  exists k, clater c P (empty_world tm, empty_cache) (w, k) /\ forall l, unread k l.
Proof.
  intros c P tm w H HP. induction H as [|w1 w2 H IH S].
  - exists empty_cache. split; [constructor|]. intro l. unfold unread. repeat split; reflexivity.
  - destruct IH as (k & IH & U). destruct S as [w1 o w2 Ho Hp Hx E|w1 w2 Hf E|w1].
    + exists k. split; [|exact U]. econstructor; [exact IH|]. eapply cs_op; eauto. intros (l & q & -> & _). eapply HP; eauto.
    + pose proof (ctick_same c w1 k (proj2 (clater_coherent _ _ _ _ _ IH))) as K. rewrite E in K. destruct K as (k' & K & U').
      exists k'. split; [|exact U']. econstructor; [exact IH|]. eapply cs_tick; eauto.
    + exists k. split; [|exact U]. econstructor; [exact IH|]. apply cs_time.
Qed.

(** ** The value returned *)
Lemma direct_truth : forall c w q l x, direct c w q l = Ok x -> x = truth c w q l \/ (x == truth c w q l)%Q.
Proof.
  intros c w q l x H. right. destruct q; cbn [direct truth] in *.
  - injection H as <-. unfold link_speed, speed_now, speeds_on. destruct (l_vehs (L w l)); [reflexivity|]. cbn [map List.length]. rewrite map_length. reflexivity.
  - unfold qdiv in H. destruct (qeq _ _); [discriminate|]. injection H as <-. reflexivity.
  - apply bind_ok in H. destruct H as (d & E & H). injection H as <-. unfold qdiv in E. destruct (qeq _ _); [discriminate|]. injection E as <-.
    unfold flow_now, density_now, num_now, dN.
    assert (K : link_speed w (L w l) = speed_now w l).
    { unfold link_speed, speed_now, speeds_on. destruct (l_vehs (L w l)); [reflexivity|]. cbn [map List.length]. rewrite map_length. reflexivity. }
    rewrite K. reflexivity.
  - injection H as <-. reflexivity.
  - injection H as <-. unfold queue_now, speeds_on. rewrite (filter_map_length _ _ (fun v => v_v (V w v)) (fun s => qlt s (l_u (L w l)))). reflexivity.
Qed.

Theorem ask_value : forall c P tm w k q l, clater c P (empty_world tm, empty_cache) (w, k) -> l < w_nl w ->
  match fst (ask c w q l k) with
  | Ok x => (x == truth c w q l)%Q
  | Err e => e = ZeroDivisionError /\ (l_len (L w l) == 0)%Q /\ (q = QDensity \/ q = QFlow)
  end.
Proof.
  intros c P tm w k q l H Hl. destruct (clater_coherent _ _ _ _ _ H) as (_ & G & _).
  rewrite (proj1 (ask_good c w q l k (G l Hl))). destruct (direct c w q l) as [x|e] eqn:E.
  - destruct (direct_truth c w q l x E) as [-> |K]; [reflexivity|exact K].
  - destruct q; cbn [direct] in E; try discriminate.
    + unfold qdiv in E. destruct (qeq _ _) eqn:Eq; [|discriminate]. injection E as <-. apply qeq_iff in Eq. auto.
    + unfold qdiv in E. destruct (qeq _ _) eqn:Eq; [|discriminate]. injection E as <-. apply qeq_iff in Eq. auto.
Qed.
