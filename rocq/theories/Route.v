(** * Route: Route objects and Vehicle.traveled_route. *)
From Verif Require Import Base Types Sim Build Heap Lists Inv FrameBase Tac Frame Eff Eff2 Trace InvStep Reach Steps Effects Phases Life Incoming Vev Ride TripLog LinkQueries Registry Spec.
From Coq Require Import Sorting.Sorted.
Local Open Scope nat_scope.

(** [Route.__init__], 2904-2931, with trust_input=False: the loop over consecutive pairs.  [l1] is
    None when the key is None: [l1.end_node] raises AttributeError; a missing [l2] is not in the list of outgoing links. *)
Fixpoint route_pairs (w : world) (ks : list key) : result (list lid) :=
  match ks with
  | k1 :: ((k2 :: _) as tl) =>
      o1 <- get_link w k1 ;; o2 <- get_link w k2 ;;
      l1 <- of_opt AttributeError o1 ;;
      match o2 with
      | Some l2 => if mem l2 (n_out (N w (l_end (L w l1)))) then ls <- route_pairs w tl ;; Ok (l1 :: ls) else Err Exception_
      | None => Err Exception_
      end
  | [k] => Ok []
  | [] => Ok []
  end.
(** ... then the last link is appended (2919-2924), and [l.name] is read for every link (2928). *)
Definition route_new (w : world) (ks : list key) : result (list lid) :=
  ls <- route_pairs w ks ;;
  match rev ks with
  | [] => Ok ls
  | k :: _ => o <- get_link w k ;; l <- of_opt AttributeError o ;; Ok (ls ++ [l])
  end.
(** [Route.__eq__], 2947-2953 *)
Definition route_eqb (w : world) (a b : list lid) : bool :=
  if list_eq_dec String.string_dec (map (fun l => l_name (L w l)) a) (map (fun l => l_name (L w l)) b) then true else false.

(** [Route.actual_travel_time], 2955-2986 *)
Fixpoint route_time_from (c : cfg) (w : world) (ls : list lid) (t tt : Q) : result Q :=
  match ls with
  | [] => Ok tt
  | l :: tl => x <- actual_travel_time c (L w l) t ;; route_time_from c w tl (t + x)%Q (tt + x)%Q
  end.
Definition route_time (c : cfg) (w : world) (ls : list lid) (t : Q) : result Q := route_time_from c w ls t 0.

(** [Vehicle.traveled_route], 1428-1480: the Route and the list of times *)
Definition log_times (dep : bool) (log : list (Q * place)) : list Q :=
  flat_map (fun e => match snd e with PHome => if dep then [fst e] else [] | PLink _ => [fst e] | PEnd => [] end) log.
Definition traveled_route (w : world) (v : vid) (arrival departure : bool) : result (list lid * list Q) :=
  let log := v_tlog (V w v) in
  e <- of_opt IndexError (last_opt log) ;;
  ls <- route_new w (map KOwn (links_of log)) ;;
  Ok (ls, log_times departure log ++ (if arrival then [match snd e with PEnd => fst e | _ => (-1)%Q end] else [])).

(** ** Route objects *)
Lemma get_link_range : forall w k l, get_link w k = Ok (Some l) -> l < w_nl w.
Proof.
  intros w k l H. unfold get_link, get_obj, lookup in H. destruct k; try discriminate.
  - destruct (Nat.ltb_spec i (w_nl w)); congruence.
  - destruct (dict_get _ _) eqn:E; [|discriminate]. injection H as ->. apply dict_get_some in E. unfold link_dict in E.
    apply in_map_iff in E. destruct E as (x & [= _ ->] & E). apply in_seq in E. lia.
  - destruct (dict_get _ _) eqn:E; [|discriminate]. injection H as ->. apply dict_get_some in E. unfold link_dict in E.
    apply in_map_iff in E. destruct E as (x & [= _ ->] & E). apply in_seq in E. lia.
Qed.
Lemma of_opt_some : forall A e (o : option A) x, of_opt e o = Ok x -> o = Some x.
Proof. intros A e [a|] x H; [injection H as ->; reflexivity|discriminate]. Qed.

Definition named_by (w : world) (ks : list key) (ls : list lid) : Prop := Forall2 (fun k l => get_link w k = Ok (Some l)) ks ls.

Lemma last_rev : forall A (l : list A) x y, match rev (y :: x :: l) with [] => None | k :: _ => Some k end = match rev (x :: l) with [] => None | k :: _ => Some k end.
Proof.
  intros A l x y. cbn [rev]. destruct (rev l ++ [x]) as [|k r] eqn:E; [destruct (rev l); discriminate|]. reflexivity.
Qed.

Lemma route_new_cons : forall w k1 k2 tl, route_new w (k1 :: k2 :: tl) =
  (o1 <- get_link w k1 ;; o2 <- get_link w k2 ;; l1 <- of_opt AttributeError o1 ;;
   match o2 with
   | Some l2 => if mem l2 (n_out (N w (l_end (L w l1)))) then ls <- route_new w (k2 :: tl) ;; Ok (l1 :: ls) else Err Exception_
   | None => Err Exception_
   end).
Proof.
  intros w k1 k2 tl. unfold route_new at 1. change (route_pairs w (k1 :: k2 :: tl)) with
    (o1 <- get_link w k1 ;; o2 <- get_link w k2 ;; l1 <- of_opt AttributeError o1 ;;
      match o2 with
      | Some l2 => if mem l2 (n_out (N w (l_end (L w l1)))) then ls <- route_pairs w (k2 :: tl) ;; Ok (l1 :: ls) else Err Exception_
      | None => Err Exception_
      end).
  destruct (get_link w k1) as [o1|]; [|reflexivity]. cbn [bind]. destruct (get_link w k2) as [o2|]; [|reflexivity]. cbn [bind].
  destruct o1 as [l1|]; [|reflexivity]. cbn [bind of_opt]. destruct o2 as [l2|]; [|reflexivity].
  destruct (mem _ _); [|reflexivity]. unfold route_new.
  pose proof (last_rev _ tl k2 k1) as K. destruct (route_pairs w (k2 :: tl)) as [ls|]; [|reflexivity]. cbn [bind].
  destruct (rev (k1 :: k2 :: tl)) as [|a ra], (rev (k2 :: tl)) as [|b rb]; try discriminate K; [reflexivity|]. injection K as ->.
  destruct (get_link w b) as [[l|]|]; reflexivity.
Qed.

Lemma route_new_nil : forall w, route_new w [] = Ok [].
Proof. reflexivity. Qed.
Lemma route_new_one : forall w k, route_new w [k] = (o <- get_link w k ;; l <- of_opt AttributeError o ;; Ok [l]).
Proof. reflexivity. Qed.

Lemma route_sound : forall w, topo w -> forall ks ls, route_new w ks = Ok ls -> named_by w ks ls /\ connected w ls.
Proof.
  intros w T. induction ks as [|k1 [|k2 tl] IH]; intros ls H.
  - rewrite route_new_nil in H. injection H as <-. split; [constructor|exact Logic.I].
  - rewrite route_new_one in H. apply bind_ok in H. destruct H as (o & E & H). apply bind_ok in H. destruct H as (l & E1 & H).
    injection H as <-. apply of_opt_some in E1. subst o. split; [constructor; [exact E|constructor]|exact Logic.I].
  - rewrite route_new_cons in H. apply bind_ok in H. destruct H as (o1 & E1 & H). apply bind_ok in H. destruct H as (o2 & E2 & H).
    apply bind_ok in H. destruct H as (l1 & E3 & H). apply of_opt_some in E3. subst o1. destruct o2 as [l2|]; [|discriminate].
    destruct (mem _ _) eqn:Em; [|discriminate]. apply bind_ok in H. destruct H as (ls' & E4 & H). injection H as <-.
    destruct (IH _ E4) as [I1 I2]. apply mem_iff in Em. apply (t_out T) in Em.
    split; [constructor; auto|]. inversion I1 as [|? a ? la Hk Ht]; subst. assert (a = l2) by congruence. subst a.
    cbn [connected]. split; [symmetry; tauto|exact I2].
Qed.
Lemma route_complete : forall w, topo w -> forall ks ls, named_by w ks ls -> connected w ls -> route_new w ks = Ok ls.
Proof.
  intros w T. induction ks as [|k1 [|k2 tl] IH]; intros ls H1 H2.
  - inversion H1; subst. reflexivity.
  - inversion H1 as [|? l ? la Hk Ht]; subst. inversion Ht; subst. rewrite route_new_one, Hk. reflexivity.
  - inversion H1 as [|? l1 ? la Hk Ht]; subst. pose proof Ht as Ht'. inversion Ht' as [|? l2 ? lb Hk2 Ht2]; subst.
    rewrite route_new_cons, Hk, Hk2. cbn [bind of_opt]. cbn [connected] in H2. destruct H2 as [C1 C2].
    assert (Em : mem l2 (n_out (N w (l_end (L w l1)))) = true).
    { apply mem_iff. apply (t_out T). split; [eapply get_link_range; exact Hk2|auto]. }
    rewrite Em, (IH _ Ht C2). reflexivity.
Qed.

Lemma reach_topo : forall c w, reach c w -> topo w.
Proof. intros c w H. exact (proj1 (proj1 (reach_Inv2 _ _ H))). Qed.

Theorem route_iff_lemma : forall c w ks ls, reach c w -> (route_new w ks = Ok ls <-> named_by w ks ls /\ connected w ls).
Proof. intros c w ks ls R. apply reach_topo in R. split; [apply route_sound; auto|intros [A B]; apply route_complete; auto]. Qed.

Lemma NoDup_map_inj_in : forall (A B : Type) (f : A -> B) l x y, NoDup (map f l) -> In x l -> In y l -> f x = f y -> x = y.
Proof.
  intros A B f l x y. induction l as [|a l IH]; intros U Hx Hy E; [destruct Hx|]. cbn [map] in U. inversion U; subst.
  destruct Hx as [-> |Hx], Hy as [-> |Hy]; auto.
  - elim H1. rewrite E. apply in_map; auto.
  - elim H1. rewrite <- E. apply in_map; auto.
Qed.
Lemma link_name_inj : forall c w a b, reach c w -> a < w_nl w -> b < w_nl w -> l_name (L w a) = l_name (L w b) -> a = b.
Proof.
  intros c w a b R Ha Hb E. destruct (unique_lemma _ _ R) as (_ & U & _). unfold link_names in U.
  apply (NoDup_map_inj_in _ _ _ _ a b U); [apply in_seq; lia|apply in_seq; lia|exact E].
Qed.

Theorem route_equal_lemma : forall c w a b, reach c w -> Forall (exists_link w) a -> Forall (exists_link w) b ->
  (route_eqb w a b = true <-> a = b).
Proof.
  intros c w a b R Ha Hb. unfold route_eqb. destruct (list_eq_dec _ _ _) as [E|E]; split; intro H; auto; [|discriminate|subst; congruence].
  clear H. revert b Hb E. induction Ha as [|x a Hx Ha IH]; intros b Hb E; destruct Hb as [|y b Hy Hb]; try discriminate; auto.
  cbn [map] in E. injection E as E1 E2. f_equal; [eapply link_name_inj; eauto|auto].
Qed.

(** ** Travel times of routes *)
Lemma slot_eq : forall c t t', (t == t')%Q -> slot c t = slot c t'.
Proof. intros c t t' H. unfold slot. apply Qfloor_comp. rewrite H. reflexivity. Qed.
Lemma att_eq : forall c k t t', (t == t')%Q -> actual_travel_time c k t = actual_travel_time c k t'.
Proof. intros c k t t' H. unfold actual_travel_time. rewrite (slot_eq _ _ _ H). reflexivity. Qed.

Definition same_time (a b : result Q) : Prop :=
  match a, b with Ok x, Ok y => (x == y)%Q | Err e, Err f => e = f | _, _ => False end.
Lemma time_from_eq : forall c w ls t t' a a', (t == t')%Q -> (a == a')%Q ->
  same_time (route_time_from c w ls t a) (route_time_from c w ls t' a').
Proof.
  intros c w ls; induction ls as [|l ls IH]; intros t t' a a' Ht Ha; cbn [route_time_from]; [exact Ha|].
  rewrite (att_eq c (L w l) t t' Ht). destruct (actual_travel_time _ _ _) as [x|e]; cbn [bind]; [|reflexivity].
  apply IH; [rewrite Ht|rewrite Ha]; reflexivity.
Qed.
Lemma time_from_shift : forall c w ls t a, same_time (route_time_from c w ls t a) (x <- route_time_from c w ls t 0 ;; Ok (a + x)%Q).
Proof.
  intros c w ls; induction ls as [|l ls IH]; intros t a; cbn [route_time_from]; [cbn; ring|].
  destruct (actual_travel_time _ _ _) as [x|e]; cbn [bind]; [|reflexivity].
  pose proof (IH (t + x)%Q (a + x)%Q) as K1. pose proof (IH (t + x)%Q (0 + x)%Q) as K2.
  destruct (route_time_from c w ls (t + x) (a + x)) as [y1|], (route_time_from c w ls (t + x) (0 + x)) as [y2|],
    (route_time_from c w ls (t + x) 0) as [y3|]; cbn [bind same_time] in *; try contradiction; try congruence.
  rewrite K1, K2. ring.
Qed.
Lemma route_time_app : forall c w a b t, same_time (route_time c w (a ++ b) t)
  (x <- route_time c w a t ;; y <- route_time c w b (t + x)%Q ;; Ok (x + y)%Q).
Proof.
  intros c w a b t. unfold route_time. assert (G : forall a t acc, same_time (route_time_from c w (a ++ b) t acc)
    (x <- route_time_from c w a t 0 ;; y <- route_time_from c w b (t + x)%Q 0 ;; Ok (acc + (x + y))%Q)).
  { clear a t. induction a as [|l a IH]; intros t acc.
    - cbn [app route_time_from bind]. pose proof (time_from_shift c w b t acc) as K1.
      pose proof (time_from_eq c w b t (t + 0)%Q 0 0 ltac:(ring) ltac:(reflexivity)) as K2.
      destruct (route_time_from c w b t acc), (route_time_from c w b t 0), (route_time_from c w b (t + 0) 0);
        cbn [bind same_time] in *; try contradiction; try congruence. rewrite K1, K2. ring.
    - cbn [app route_time_from]. destruct (actual_travel_time _ _ _) as [z|e]; cbn [bind]; [|reflexivity].
      pose proof (IH (t + z)%Q (acc + z)%Q) as K1. pose proof (time_from_shift c w a (t + z)%Q (0 + z)%Q) as K2.
      destruct (route_time_from c w a (t + z) 0) as [x1|], (route_time_from c w a (t + z) (0 + z)) as [x2|]; cbn [bind same_time] in *; try contradiction.
      + pose proof (time_from_eq c w b (t + z + x1)%Q (t + x2)%Q 0 0 ltac:(rewrite K2; ring) ltac:(reflexivity)) as K3.
        destruct (route_time_from c w (a ++ b) (t + z) (acc + z)), (route_time_from c w b (t + z + x1) 0), (route_time_from c w b (t + x2) 0);
          cbn [bind same_time] in *; try contradiction; try congruence. rewrite K1, K2, K3. ring.
      + subst. exact K1. }
  pose proof (G a t 0%Q) as K. destruct (route_time_from c w (a ++ b) t 0), (route_time_from c w a t 0) as [x|]; cbn [bind same_time] in *; auto;
  destruct (route_time_from c w b (t + x) 0); cbn [bind same_time] in *; auto. rewrite K. ring.
Qed.

Theorem route_concat_lemma : forall c w a b t x y, route_time c w a t = Ok x -> route_time c w b (t + x)%Q = Ok y ->
  exists z, route_time c w (a ++ b) t = Ok z /\ (z == x + y)%Q.
Proof.
  intros c w a b t x y H1 H2. pose proof (route_time_app c w a b t) as K. rewrite H1 in K. cbn [bind] in K. rewrite H2 in K. cbn [bind] in K.
  destruct (route_time c w (a ++ b) t) as [z|]; cbn in K; [|contradiction]. eauto.
Qed.
(** ... and it fails only if one of the parts does *)
Theorem route_concat_err_lemma : forall c w a b t, (exists e, route_time c w (a ++ b) t = Err e) <->
  (exists e, route_time c w a t = Err e) \/ (exists x e, route_time c w a t = Ok x /\ route_time c w b (t + x)%Q = Err e).
Proof.
  intros c w a b t. pose proof (route_time_app c w a b t) as K. destruct (route_time c w a t) as [x|e]; cbn [bind] in K.
  - destruct (route_time c w b (t + x)) as [y|e] eqn:E; cbn [bind] in K; destruct (route_time c w (a ++ b) t) as [z|]; cbn in K; try contradiction; split.
    + intros (e & H); discriminate.
    + intros [(e & H)|(x' & e & [= ->] & H)]; [discriminate|congruence].
    + intros _. right. eauto.
    + intros _. eauto.
  - destruct (route_time c w (a ++ b) t) as [z|]; cbn in K; [contradiction|]. subst. split; eauto.
Qed.

(** ** Traveled routes *)
Lemma links_of_app : forall a b, links_of (a ++ b) = links_of a ++ links_of b.
Proof. intros. unfold links_of. apply flat_map_app. Qed.
Lemma links_of_rows : forall c es, links_of (rows c es) = map snd es.
Proof. intros c es. induction es as [|e es IH]; [reflexivity|]. unfold links_of, rows in *. cbn. f_equal. exact IH. Qed.
Lemma links_of_end : forall c a, links_of (end_row c a) = [].
Proof. intros c a. unfold end_row. destruct (v_state a); reflexivity. Qed.

Definition entries (c : cfg) (es : list (nat * lid)) : list Q := map (fun e => (Qof_nat (fst e) * dt c)%Q) es.
Lemma log_times_rows : forall dep c es, log_times dep (rows c es) = entries c es.
Proof. intros dep c es. induction es as [|e es IH]; [reflexivity|]. unfold log_times, rows, entries in *. cbn. f_equal. exact IH. Qed.
Lemma entries_sorted : forall c es, (0 < dt c)%Q -> StronglySorted lt (map fst es) -> StronglySorted Qlt (entries c es).
Proof.
  intros c es Hd. unfold entries. induction es as [|e es IH]; intro H; cbn [map] in *; constructor; inversion H; subst; auto.
  rewrite Forall_map in *. eapply Forall_impl; [|eassumption]. cbn beta. intros a Ha. apply Qmult_lt_compat_r; [exact Hd|].
  unfold Qof_nat. rewrite <- Zlt_Qlt. lia.
Qed.
Lemma last_opt_snoc : forall A (l : list A) x, last_opt (l ++ [x]) = Some x.
Proof. induction l as [|a [|b l] IH]; intro x; auto. cbn [app last_opt] in *. apply IH. Qed.
Lemma last_opt_cons : forall A (l : list A) x, exists y, last_opt (x :: l) = Some y.
Proof. intros A l; induction l as [|a l IH]; intro x; [exists x; reflexivity|]. cbn [last_opt]. apply IH. Qed.

Lemma keys_own : forall w ls, Forall (fun l => l < w_nl w) ls -> named_by w (map KOwn ls) ls.
Proof.
  intros w ls H. induction H as [|l ls Hl H IH]; cbn [map]; constructor; auto. unfold get_link, get_obj.
  apply Nat.ltb_lt in Hl. rewrite Hl. reflexivity.
Qed.

Theorem traveled_lemma : forall c w v ad dd, reach c w -> exists_veh w v ->
  exists ls ts, traveled_route w v ad dd = Ok (ls, ts) /\
    ls = links_of (v_tlog (V w v)) /\ Forall (exists_link w) ls /\ connected w ls /\
    (forall l tl, ls = l :: tl -> l_start (L w l) = v_orig (V w v)) /\
    (v_state (V w v) = End_ -> exists ls' l, ls = ls' ++ [l] /\ v_dest (V w v) = Some (l_end (L w l))).
Proof.
  intros c w v ad dd R Hv. destruct (reach_trip c w R v Hv) as (es & A). unfold Trip in A.
  destruct A as [(t0 & A1) A2 A3 A4 A5 A6 A7 A8 A9 A10 A11].
  assert (El : links_of (v_tlog (V w v)) = map snd es).
  { rewrite A1. change ((t0, PHome) :: rows c es ++ end_row c (V w v)) with ([(t0, PHome)] ++ rows c es ++ end_row c (V w v)).
    rewrite !links_of_app, links_of_rows, links_of_end, app_nil_r. reflexivity. }
  unfold traveled_route. destruct (last_opt_cons _ (rows c es ++ end_row c (V w v)) (t0, PHome)) as (y & Ey).
  assert (Ey' : last_opt (v_tlog (V w v)) = Some y) by (rewrite A1; exact Ey). cbv zeta. rewrite Ey'. cbn [of_opt bind].
  assert (Er : route_new w (map KOwn (links_of (v_tlog (V w v)))) = Ok (map snd es)).
  { apply (route_complete w (reach_topo _ _ R)); [rewrite El; apply keys_own; rewrite Forall_map; exact A4|exact A5]. }
  rewrite Er. cbn [bind]. eexists _, _. split; [reflexivity|]. split; [auto|]. split; [rewrite Forall_map; exact A4|]. split; [exact A5|].
  split.
  - intros l tl E. destruct es as [|e es']; [discriminate|]. cbn [map] in E. injection E as <- _. eapply A6; reflexivity.
  - intro He. destruct (A10 He) as (_ & es' & t & l & B1 & B2 & _). exists (map snd es'), l. rewrite B1, map_app. auto.
Qed.

(** the entering times: the list without departure and arrival time *)
Theorem times_lemma : forall c w v ls ts, (0 < dt c)%Q -> reach c w -> exists_veh w v ->
  traveled_route w v false false = Ok (ls, ts) -> List.length ts = List.length ls /\ StronglySorted Qlt ts.
Proof.
  intros c w v ls ts Hd R Hv H. destruct (reach_trip c w R v Hv) as (es & A). unfold Trip in A.
  destruct (traveled_lemma c w v false false R Hv) as (ls' & ts' & K1 & K2 & _). rewrite K1 in H. injection H as -> ->.
  destruct A as [(t0 & A1) A2 A3 A4 A5 A6 A7 A8 A9 A10 A11].
  unfold traveled_route in K1. apply bind_ok in K1. destruct K1 as (e & _ & K1). apply bind_ok in K1. destruct K1 as (q & _ & K1).
  injection K1 as _ <-. rewrite app_nil_r, A1.
  assert (Et : log_times false ((t0, PHome) :: rows c es ++ end_row c (V w v)) = entries c es).
  { change ((t0, PHome) :: rows c es ++ end_row c (V w v)) with ([(t0, PHome)] ++ rows c es ++ end_row c (V w v)).
    unfold log_times. rewrite !flat_map_app. fold (log_times false (rows c es)). rewrite log_times_rows. unfold end_row.
    destruct (v_state (V w v)); cbn; apply app_nil_r. }
  rewrite Et. split; [|apply entries_sorted; auto]. rewrite K2, A1.
  change ((t0, PHome) :: rows c es ++ end_row c (V w v)) with ([(t0, PHome)] ++ rows c es ++ end_row c (V w v)).
  rewrite !links_of_app, links_of_rows, links_of_end, app_nil_r. unfold entries. cbn [links_of flat_map snd app]. rewrite !map_length. reflexivity.
Qed.

(** with the arrival time: the entering times, then the time of arrival or -1 *)
Theorem arrival_lemma : forall c w v ls ts, (0 < dt c)%Q -> reach c w -> exists_veh w v ->
  traveled_route w v true false = Ok (ls, ts) -> exists ts' t, ts = ts' ++ [t] /\ traveled_route w v false false = Ok (ls, ts') /\
    (v_state (V w v) = End_ -> (t == inject_Z (v_arr (V w v)) * dt c)%Q /\ Forall (fun x => (x <= t)%Q) ts') /\
    (v_state (V w v) <> End_ -> (t == -1)%Q).
Proof.
  intros c w v ls ts Hd R Hv H. destruct (reach_trip c w R v Hv) as (es & A). unfold Trip in A.
  destruct A as [(t0 & A1) A2 A3 A4 A5 A6 A7 A8 A9 A10 A11].
  unfold traveled_route in *. apply bind_ok in H. destruct H as (e & E1 & H). apply bind_ok in H. destruct H as (q & E2 & H).
  injection H as -> <-. rewrite E1. cbn [bind]. rewrite E2. cbn [bind]. rewrite app_nil_r.
  eexists _, _. split; [reflexivity|]. split; [reflexivity|]. apply of_opt_some in E1.
  assert (Et : log_times false (v_tlog (V w v)) = entries c es).
  { rewrite A1. change ((t0, PHome) :: rows c es ++ end_row c (V w v)) with ([(t0, PHome)] ++ rows c es ++ end_row c (V w v)).
    unfold log_times. rewrite !flat_map_app. fold (log_times false (rows c es)). rewrite log_times_rows. unfold end_row.
    destruct (v_state (V w v)); cbn; apply app_nil_r. }
  split; intro He.
  - unfold end_row in A1. rewrite He in A1. rewrite A1, app_comm_cons, last_opt_snoc in E1. injection E1 as <-. cbn [snd fst].
    split; [reflexivity|]. rewrite Et. unfold entries. rewrite Forall_map.
    destruct (A10 He) as (_ & es' & t & l & B1 & B2 & B3). rewrite B1 in A2 |- *. rewrite map_app in A2. cbn [map] in A2.
    assert (Hle : forall x, In x (es' ++ [(t, l)]) -> fst x <= t).
    { intros x Hx. apply in_app_or in Hx. destruct Hx as [Hx|[<-|[]]]; [|auto]. apply Nat.lt_le_incl.
      apply (in_map fst) in Hx. clear - A2 Hx. induction (map fst es') as [|y ys IH]; [destruct Hx|]. cbn [app fst] in *. inversion A2; subst.
      destruct Hx as [-> |Hx]; [|auto]. rewrite Forall_forall in H2. apply H2. apply in_or_app. right; left; reflexivity. }
    apply Forall_forall. intros x Hx. apply Hle in Hx. apply Qmult_le_compat_r; [|apply Qlt_le_weak; exact Hd].
    unfold Qof_nat. rewrite <- Zle_Qle. lia.
  - assert (Ne : snd e <> PEnd); [|destruct (snd e); [reflexivity|reflexivity|congruence]].
    unfold end_row in A1. replace (v_tlog (V w v)) with ((t0, PHome) :: rows c es) in E1
      by (rewrite A1; destruct (v_state (V w v)); try rewrite app_nil_r; try reflexivity; congruence).
    clear - E1. destruct es as [|a es _] using rev_ind.
    + injection E1 as <-. discriminate.
    + unfold rows in E1. rewrite map_app in E1. cbn [map] in E1. rewrite app_comm_cons, last_opt_snoc in E1. injection E1 as <-. discriminate.
Qed.

(** every traveled route is accepted by the constructor *)
Theorem traveled_accepted_lemma : forall c w v, reach c w -> exists_veh w v ->
  route_new w (map KOwn (links_of (v_tlog (V w v)))) = Ok (links_of (v_tlog (V w v))).
Proof.
  intros c w v R Hv. destruct (traveled_lemma c w v false false R Hv) as (ls & ts & _ & -> & A & B & _).
  apply (route_complete w (reach_topo _ _ R)); [apply keys_own; exact A|exact B].
Qed.
