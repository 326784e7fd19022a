(** * CppExt: congestion externalities in the compiled engine (traffi.cpp 650-709), compared with those of
    Utilities.py 433-515 (Dso.v). *)
From Coq Require Import Bool.
From Verif Require Import Base Types Sim Build Heap Lists Inv FrameBase Tac Frame Eff Eff2 Trace InvStep Reach Steps Effects Phases Attr Life Incoming Vev Ride TripLog Counts Registry LinkQueries Outflow Route Spec SpecDue Due Demand Average SpecDso Dso SpecTT TTActual TsnOK.
Local Open Scope nat_scope.

(** ** The model *)

(** A read of a [std::vector]: outside of the vector the behaviour is undefined ([Err IndexError]). *)
Definition vec_get {A} (l : list A) (i : Z) : result A :=
  if (0 <=? i)%Z then of_opt IndexError (nth_error l (Z.to_nat i)) else Err IndexError.

(** the forward scan, 657-667 *)
Fixpoint cpp_end (c : cfg) (k : link) (n : Z) (ts : list Z) (e : Z) : result Z :=
  match ts with
  | [] => Ok e
  | i :: tl =>
      x <- vec_get (l_tta k) i ;;
      let f := (i + qtrunc (x / dt c))%Z in
      if (n <=? f)%Z then Ok e
      else if qlt (l_len k / l_u k * (101 # 100)) x then
        a <- vec_get (l_ca k) f ;;
        d <- vec_get (l_cd k) f ;;
        if (0 <? a - d)%Z then cpp_end c k n tl i else Ok e
      else Ok e
  end.
(** the backward scan, 679-685 *)
Fixpoint cpp_leader (k : link) (n o : Z) (ts : list Z) : result Z :=
  match ts with
  | [] => Ok o
  | i :: tl =>
      if (i <? n)%Z && (o <? n)%Z then
        x <- vec_get (l_cd k) i ;; m <- vec_get (l_cd k) o ;;
        if (x <? m)%Z then Ok i else cpp_leader k n o tl
      else cpp_leader k n o tl
  end.
(** [Link::estimate_congestion_externality], 650-689; [vmax] is positive *)
Definition cpp_ext (c : cfg) (k : link) (ts : Z) : result Q :=
  let n := Z.of_nat (List.length (l_tta k)) in
  e <- cpp_end c k n (up ts n) ts ;;
  m <- (if (0 <=? ts)%Z && (ts <? n)%Z && (0 <=? e)%Z && (e <? n)%Z
        then a1 <- vec_get (l_ca k) e ;; a0 <- vec_get (l_ca k) ts ;; Ok (a1 - a0)%Z
        else Ok 0%Z) ;;
  o0 <- (if (0 <=? ts)%Z && (ts <? n)%Z then x <- vec_get (l_tta k) ts ;; Ok (ts + qtrunc (x / dt c) + 1)%Z else Ok 0%Z) ;;
  let o := if (n <=? o0)%Z then (n - 1)%Z else o0 in
  g <- cpp_leader k n o (down o) ;;
  Ok (inject_Z (o - g) * dt c * inject_Z m)%Q.
(** [World::estimate_congestion_externality_route], 691-709 *)
Definition cpp_next (c : cfg) (k : link) (t : Q) : result Q :=
  let ts := qtrunc (t / dt c) in
  if (0 <=? ts)%Z && (ts <? Z.of_nat (List.length (l_tta k)))%Z
  then x <- vec_get (l_tta k) ts ;; Ok (t + x)%Q
  else Ok (t + l_len k / l_u k)%Q.
Fixpoint cpp_ext_route (c : cfg) (w : world) (ls : list lid) (t : Q) : result Q :=
  match ls with
  | [] => Ok 0%Q
  | l :: tl => x <- cpp_ext c (L w l) (qtrunc (t / dt c)) ;; t1 <- cpp_next c (L w l) t ;; y <- cpp_ext_route c w tl t1 ;; Ok (x + y)%Q
  end.

(** ** Both read the same entries *)

(** the records of a link at the end of the simulation: one entry for each timestep, and no negative travel times *)
Definition complete (k : link) : Prop :=
  List.length (l_ca k) = List.length (l_tta k) /\ List.length (l_cd k) = List.length (l_tta k) /\ Forall (fun x => (0 <= x)%Q) (l_tta k).

Lemma vec_get_nat : forall A (l : list A) i x, nth_error l i = Some x -> vec_get l (Z.of_nat i) = Ok x.
Proof. intros A l i x H. unfold vec_get. destruct (Z.leb_spec 0 (Z.of_nat i)); [|lia]. rewrite Nat2Z.id, H. reflexivity. Qed.
Lemma py_get_ok : forall A (l : list A) i x, nth_error l i = Some x -> py_get l (Z.of_nat i) = Ok x.
Proof. intros A l i x H. unfold py_get. destruct (Z.leb_spec 0 (Z.of_nat i)); [|lia]. rewrite Nat2Z.id, H. reflexivity. Qed.
Lemma py_vec : forall A (l : list A) i, (0 <= i)%Z -> vec_get l i = py_get l i.
Proof. intros A l i H. unfold vec_get, py_get. destruct (Z.leb_spec 0 i); [reflexivity|lia]. Qed.
Lemma vec_in : forall A (l : list A) i, (0 <= i < Z.of_nat (List.length l))%Z -> exists x, vec_get l i = Ok x /\ nth_error l (Z.to_nat i) = Some x.
Proof.
  intros A l i H. unfold vec_get. destruct (Z.leb_spec 0 i); [|lia]. destruct (nth_error l (Z.to_nat i)) as [x|] eqn:E; [exists x; auto|].
  apply nth_error_None in E. lia.
Qed.
Lemma vec_out : forall A (l : list A) i, (Z.of_nat (List.length l) <= i)%Z -> py_get l i = Err IndexError.
Proof.
  intros A l i H. unfold py_get. destruct (Z.leb_spec 0 i); [|lia]. destruct (nth_error l (Z.to_nat i)) as [x|] eqn:E; [|reflexivity].
  apply nth_error_lt in E. lia.
Qed.
Lemma trunc_dt : forall c x, (0 < dt c)%Q -> (0 <= x)%Q -> (0 <= qtrunc (x / dt c))%Z.
Proof. intros c x Hd Hx. apply qtrunc_nonneg. apply Qle_shift_div_l; [exact Hd|]. lra. Qed.
Lemma time_nonneg : forall k i x, complete k -> vec_get (l_tta k) i = Ok x -> (0 <= x)%Q.
Proof.
  intros k i x (_ & _ & F) H. unfold vec_get in H. destruct (0 <=? i)%Z; [|discriminate]. destruct (nth_error (l_tta k) (Z.to_nat i)) as [y|] eqn:E; [|discriminate].
  injection H as <-. rewrite Forall_forall in F. apply F. eapply nth_error_In, E.
Qed.
Lemma up_cons : forall a b, (a < b)%Z -> up a b = a :: up (a + 1) b.
Proof.
  intros a b H. unfold up. replace (Z.to_nat (b - a)) with (S (Z.to_nat (b - (a + 1)))) by lia. cbn [seq map].
  f_equal; [lia|]. rewrite <- seq_shift, map_map. apply map_ext. intro j. lia.
Qed.
Lemma up_nil : forall a b, (b <= a)%Z -> up a b = [].
Proof. intros a b H. unfold up. replace (Z.to_nat (b - a)) with 0 by lia. reflexivity. Qed.

(** the forward scans *)
Lemma cpp_end_ok : forall c k m i e, (0 < dt c)%Q -> complete k -> (0 <= i)%Z -> m = Z.to_nat (Z.of_nat (List.length (l_tta k)) - i) ->
  exists r, cpp_end c k (Z.of_nat (List.length (l_tta k))) (up i (Z.of_nat (List.length (l_tta k)))) e = Ok r /\
    (r = e \/ (i <= r < Z.of_nat (List.length (l_tta k)))%Z) /\
    (forall r', ~ (l_u k == 0)%Q -> ext_end c k (up i (Z.of_nat (List.length (l_tta k)))) e = Ok r' -> r' = r).
Proof.
  intros c k m. induction m as [|m IH]; intros i e Hd Hk Hi Hm.
  - rewrite up_nil by lia. exists e. split; [reflexivity|]. split; [auto|]. intros r' _ H. cbn in H. injection H as <-. reflexivity.
  - set (n := Z.of_nat (List.length (l_tta k))) in *. rewrite up_cons by lia. cbn [cpp_end ext_end].
    destruct (vec_in _ (l_tta k) i ltac:(lia)) as (x & X & _). pose proof (time_nonneg k i x Hk X) as Hx. rewrite <- (py_vec _ (l_tta k) i) by exact Hi.
    rewrite X. cbn [bind]. pose proof (trunc_dt c x Hd Hx) as Hq. set (f := (i + qtrunc (x / dt c))%Z) in *.
    destruct (Z.leb_spec n f) as [Hf|Hf].
    + exists e. split; [reflexivity|]. split; [auto|]. intros r' Hu H. unfold qdiv in H. destruct (qeq (l_u k) 0); [discriminate|]. cbn [bind] in H.
      destruct (qlt (l_len k / l_u k * (101 # 100)) x); [|injection H as <-; reflexivity].
      rewrite vec_out in H by (destruct Hk as (-> & _); exact Hf). discriminate.
    + destruct (vec_in _ (l_ca k) f ltac:(destruct Hk as (-> & _); unfold f; lia)) as (a & A & _).
      destruct (vec_in _ (l_cd k) f ltac:(destruct Hk as (_ & -> & _); unfold f; lia)) as (d & D & _).
      rewrite <- (py_vec _ (l_ca k) f), <- (py_vec _ (l_cd k) f) by (unfold f; lia). rewrite A, D. cbn [bind].
      destruct (IH (i + 1)%Z i Hd Hk ltac:(lia) ltac:(lia)) as (r & R1 & R2 & R3).
      destruct (qlt (l_len k / l_u k * (101 # 100)) x) eqn:C.
      * destruct (0 <? a - d)%Z eqn:P.
        -- exists r. split; [exact R1|]. split; [lia|]. intros r' Hu H. unfold qdiv in H. destruct (qeq (l_u k) 0); [discriminate|]. cbn [bind] in H.
           rewrite C in H. apply (R3 r' Hu). exact H.
        -- exists e. split; [reflexivity|]. split; [auto|]. intros r' Hu H. unfold qdiv in H. destruct (qeq (l_u k) 0); [discriminate|]. cbn [bind] in H.
           rewrite C in H. injection H as <-. reflexivity.
      * exists e. split; [reflexivity|]. split; [auto|]. intros r' Hu H. unfold qdiv in H. destruct (qeq (l_u k) 0); [discriminate|]. cbn [bind] in H.
        rewrite C in H. injection H as <-. reflexivity.
Qed.
(** the backward scans *)
Lemma cpp_leader_ok : forall k o ts, complete k -> (o < Z.of_nat (List.length (l_tta k)))%Z -> (forall i, In i ts -> (0 < i <= o)%Z) ->
  exists r, cpp_leader k (Z.of_nat (List.length (l_tta k))) o ts = Ok r /\ (r = o \/ (0 < r <= o)%Z) /\ ext_leader k o ts = Ok r.
Proof.
  intros k o ts Hk Ho. induction ts as [|i tl IH]; intro H; cbn [cpp_leader ext_leader]; [exists o; auto|].
  pose proof (H i (or_introl eq_refl)) as Hi. set (n := Z.of_nat (List.length (l_tta k))) in *.
  destruct (Z.ltb_spec i n); [|lia]. destruct (Z.ltb_spec o n); [|lia]. cbn [andb].
  destruct (vec_in _ (l_cd k) i ltac:(destruct Hk as (_ & -> & _); lia)) as (x & X & _).
  destruct (vec_in _ (l_cd k) o ltac:(destruct Hk as (_ & -> & _); lia)) as (m & M & _).
  rewrite <- (py_vec _ (l_cd k) i), <- (py_vec _ (l_cd k) o) by lia. rewrite X, M. cbn [bind].
  destruct (x <? m)%Z; [exists i; split; [reflexivity|]; split; [lia|reflexivity]|]. apply IH. intros j Hj. apply H. right. exact Hj.
Qed.
Lemma down_in : forall o i, In i (down o) -> (0 < i <= o)%Z.
Proof. intros o i H. unfold down in H. apply in_map_iff in H. destruct H as (j & <- & H). apply in_seq in H. lia. Qed.
Lemma leader_out : forall k o ts, (Z.of_nat (List.length (l_cd k)) <= o)%Z -> ts <> [] -> (forall i, In i ts -> (0 < i <= o)%Z) ->
  exists e, ext_leader k o ts = Err e.
Proof.
  intros k o [|i tl] Ho H0 H; [congruence|]. cbn [ext_leader]. destruct (py_get (l_cd k) i); cbn [bind]; [|eauto]. rewrite vec_out by exact Ho. cbn [bind]. eauto.
Qed.

(** ** The estimate of one link *)

(** No read outside of the vectors, and never negative. *)
Theorem cpp_ext_safe : forall c k ts, (0 < dt c)%Q -> complete k -> nondecreasing (l_ca k) -> (0 <= ts)%Z -> exists x, cpp_ext c k ts = Ok x /\ (0 <= x)%Q.
Proof.
  intros c k ts Hd Hk Ha Hts. unfold cpp_ext. set (n := Z.of_nat (List.length (l_tta k))).
  destruct (cpp_end_ok c k _ ts ts Hd Hk Hts eq_refl) as (e & E1 & E2 & _). fold n in E1, E2. rewrite E1. cbn [bind].
  destruct (Z.leb_spec 0 ts); [|lia]. cbn [andb].
  assert (K : forall o m, (o < n)%Z -> (0 <= m)%Z -> exists x, (g <- cpp_leader k n o (down o) ;; Ok (inject_Z (o - g) * dt c * inject_Z m)%Q) = Ok x /\ (0 <= x)%Q).
  { intros o m Ho Hm. destruct (cpp_leader_ok k o (down o) Hk Ho (down_in o)) as (g & G1 & G2 & _). fold n in G1. rewrite G1. cbn [bind].
    eexists. split; [reflexivity|]. apply Qmult_le_0_compat; [apply Qmult_le_0_compat; [|lra]|]; change 0%Q with (inject_Z 0); rewrite <- Zle_Qle; lia. }
  destruct (Z.ltb_spec ts n) as [Hn|Hn]; cbn [andb].
  - destruct (vec_in _ (l_tta k) ts ltac:(lia)) as (x & X & _). rewrite X. cbn [bind].
    destruct (Z.leb_spec 0 e); [|lia]. destruct (Z.ltb_spec e n); [|lia]. cbn [andb].
    destruct (vec_in _ (l_ca k) e ltac:(destruct Hk as (-> & _); lia)) as (a1 & A1 & N1).
    destruct (vec_in _ (l_ca k) ts ltac:(destruct Hk as (-> & _); lia)) as (a0 & A0 & N0). rewrite A1, A0. cbn [bind].
    assert (Hle : (a0 <= a1)%Z) by (apply (Ha (Z.to_nat ts) (Z.to_nat e)); [lia|assumption|assumption]).
    apply K; [|lia]. destruct (Z.leb_spec n (ts + qtrunc (x / dt c) + 1)); lia.
  - cbn [bind]. apply K; [|lia]. destruct (Z.leb_spec n 0); lia.
Qed.

(** the forward scan ends at the last timestep of the queue that is known when the simulation is over *)
Lemma cpp_end_queue : forall c k m i e r, (0 < dt c)%Q -> complete k -> m = List.length (l_tta k) - i ->
  cpp_end c k (Z.of_nat (List.length (l_tta k))) (up (Z.of_nat i) (Z.of_nat (List.length (l_tta k)))) (Z.of_nat e) = Ok (Z.of_nat r) ->
  r = e /\ ~ queued c k i \/ i <= r /\ (forall j, i <= j <= r -> queued c k j) /\ ~ queued c k (S r).
Proof.
  intros c k m. induction m as [|m IH]; intros i e r Hd Hk Hm H.
  - rewrite up_nil in H by lia. cbn in H. injection H as H. left. split; [lia|]. intros (x & _ & _ & X & _). apply nth_error_lt in X. lia.
  - rewrite up_cons in H by lia. cbn [cpp_end] in H. destruct (vec_in _ (l_tta k) (Z.of_nat i) ltac:(lia)) as (x & X & X'). rewrite X in H. cbn [bind] in H. rewrite Nat2Z.id in X'.
    pose proof (time_nonneg k _ x Hk X) as Hx. pose proof (trunc_dt c x Hd Hx) as Hq.
    destruct (Z.leb_spec (Z.of_nat (List.length (l_tta k))) (Z.of_nat i + qtrunc (x / dt c))) as [Hf|Hf].
    + injection H as H. left. split; [lia|]. intros (y & a & d & Y & _ & A & _). rewrite X' in Y. injection Y as <-. apply nth_error_lt in A. destruct Hk as (K & _). lia.
    + replace (Z.of_nat i + qtrunc (x / dt c))%Z with (Z.of_nat (i + Z.to_nat (qtrunc (x / dt c)))) in H by lia.
      destruct (qlt (l_len k / l_u k * (101 # 100)) x) eqn:C.
      2:{ injection H as H. left. split; [lia|]. apply qlt_false in C. intros (y & a & d & Y & C' & _). rewrite X' in Y. injection Y as <-. lra. }
      apply qlt_iff in C. destruct (nth_error (l_ca k) (i + Z.to_nat (qtrunc (x / dt c)))) as [a|] eqn:A; [|apply nth_error_None in A; destruct Hk as (K & _); lia].
      destruct (nth_error (l_cd k) (i + Z.to_nat (qtrunc (x / dt c)))) as [d|] eqn:D; [|apply nth_error_None in D; destruct Hk as (_ & K & _); lia].
      rewrite (vec_get_nat _ _ _ _ A), (vec_get_nat _ _ _ _ D) in H. cbn [bind] in H. destruct (Z.ltb_spec 0 (a - d)) as [P|P].
      2:{ injection H as H. left. split; [lia|]. intros (y & a' & d' & Y & _ & A' & D' & Q'). rewrite X' in Y. injection Y as <-. rewrite A in A'. injection A' as <-. rewrite D in D'. injection D' as <-. lia. }
      assert (Q0 : queued c k i) by (exists x, a, d; repeat (split; [assumption|]); lia).
      replace (Z.of_nat i + 1)%Z with (Z.of_nat (S i)) in H by lia. right.
      destruct (IH (S i) i r Hd Hk ltac:(lia) H) as [[-> Nq]|(Hr & Hj & Nq)].
      * split; [lia|]. split; [|exact Nq]. intros j Hj. replace j with i by lia. exact Q0.
      * split; [lia|]. split; [|exact Nq]. intros j Hj'. destruct (Nat.eq_dec j i) as [-> |]; [exact Q0|]. apply Hj. lia.
Qed.
(** What is estimated: the vehicles behind in the queue, times the headway at the exit, which is taken in the last timestep if the vehicle
    is out later. *)
Theorem cpp_ext_value : forall c k i x, (0 < dt c)%Q -> complete k -> nondecreasing (l_cd k) -> nth_error (l_tta k) i = Some x ->
  exists y n h, cpp_ext c k (Z.of_nat i) = Ok y /\ (behind c k i n \/ ~ queued c k i /\ n = 0%Z) /\
    headway k (Nat.min (i + Z.to_nat (qtrunc (x / dt c)) + 1) (List.length (l_tta k) - 1)) h /\ (y == Qof_nat h * dt c * inject_Z n)%Q.
Proof.
  intros c k i x Hd Hk Hm X. pose proof (nth_error_lt _ _ X) as Hi. unfold cpp_ext. set (n := Z.of_nat (List.length (l_tta k))).
  destruct (cpp_end_ok c k _ (Z.of_nat i) (Z.of_nat i) Hd Hk ltac:(lia) eq_refl) as (e & E1 & E2 & _). fold n in E1, E2. rewrite E1. cbn [bind].
  replace e with (Z.of_nat (Z.to_nat e)) in * by lia. set (r := Z.to_nat e) in *. clearbody r. pose proof (cpp_end_queue c k _ i i r Hd Hk eq_refl E1) as Hq.
  destruct (Z.leb_spec 0 (Z.of_nat i)); [|lia]. destruct (Z.ltb_spec (Z.of_nat i) n); [|lia]. destruct (Z.leb_spec 0 (Z.of_nat r)); [|lia]. destruct (Z.ltb_spec (Z.of_nat r) n); [|lia]. cbn [andb].
  destruct (nth_error (l_ca k) r) as [a1|] eqn:A1; [|apply nth_error_None in A1; destruct Hk as (K & _); lia].
  destruct (nth_error (l_ca k) i) as [a0|] eqn:A0; [|apply nth_error_None in A0; destruct Hk as (K & _); lia].
  rewrite (vec_get_nat _ _ _ _ A1), (vec_get_nat _ _ _ _ A0), (vec_get_nat _ _ _ _ X). cbn [bind].
  pose proof (time_nonneg k _ x Hk (vec_get_nat _ _ _ _ X)) as Hx. pose proof (trunc_dt c x Hd Hx) as Hx'.
  set (o := Nat.min (i + Z.to_nat (qtrunc (x / dt c)) + 1) (List.length (l_tta k) - 1)).
  assert (Eo : (if (n <=? Z.of_nat i + qtrunc (x / dt c) + 1)%Z then (n - 1)%Z else (Z.of_nat i + qtrunc (x / dt c) + 1)%Z) = Z.of_nat o).
  { unfold o. destruct (Z.leb_spec n (Z.of_nat i + qtrunc (x / dt c) + 1)); lia. }
  rewrite Eo. destruct (cpp_leader_ok k (Z.of_nat o) (down (Z.of_nat o)) Hk ltac:(unfold o; lia) (down_in _)) as (g & G1 & _ & G3). fold n in G1. rewrite G1. cbn [bind].
  unfold down in G3. rewrite Nat2Z.id in G3. destruct (ext_leader_spec k o o 0 g Hm ltac:(lia) ltac:(intros; lia) G3) as (h & -> & Hh). assert (Hho : h <= o) by apply Hh.
  assert (Eh : (inject_Z (Z.of_nat o - Z.of_nat (o - h)) == Qof_nat h)%Q) by (unfold Qof_nat; replace (Z.of_nat o - Z.of_nat (o - h))%Z with (Z.of_nat h) by lia; reflexivity).
  eexists. exists (a1 - a0)%Z, h. split; [reflexivity|]. split; [|split; [exact Hh|rewrite Eh; reflexivity]].
  destruct Hq as [[-> Nq]|(Hr & Hj & Nq)]; [right; split; [exact Nq|rewrite A1 in A0; injection A0 as ->; lia]|].
  left. exists r, a0, a1. split; [exact Hr|]. split; [exact Hj|]. split; [exact Nq|]. auto.
Qed.

(** The same value whenever the Python code raises no exception. *)
Theorem cpp_ext_agrees : forall c k t x, (0 < dt c)%Q -> ~ (l_u k == 0)%Q -> complete k -> (0 <= t)%Q -> ext_try c k t = Ok x -> cpp_ext c k (qtrunc (t / dt c)) = Ok x.
Proof.
  intros c k t x Hd Hu Hk Ht H. pose proof (trunc_dt c t Hd Ht) as Hts. unfold ext_try in H. unfold cpp_ext.
  set (ts := qtrunc (t / dt c)) in *. set (n := Z.of_nat (List.length (l_tta k))) in *.
  destruct (cpp_end_ok c k _ ts ts Hd Hk Hts eq_refl) as (e & E1 & E2 & E3). fold n in E1, E2, E3. rewrite E1. cbn [bind].
  destruct (ext_end c k (up ts n) ts) as [e'|]; [|discriminate]. pose proof (E3 e' Hu eq_refl) as ->. cbn [bind] in H.
  destruct (py_get (l_ca k) e) as [a1|] eqn:A1; [|discriminate]. cbn [bind] in H.
  destruct (py_get (l_ca k) ts) as [a0|] eqn:A0; [|discriminate]. cbn [bind] in H.
  destruct (py_get (l_tta k) ts) as [y|] eqn:Y; [|discriminate]. cbn [bind] in H.
  destruct (Z.ltb_spec ts n) as [Hn|Hn]; [|rewrite vec_out in Y by exact Hn; discriminate].
  destruct (Z.leb_spec 0 ts); [|lia]. destruct (Z.leb_spec 0 e); [|lia]. destruct (Z.ltb_spec e n); [|lia]. cbn [andb].
  rewrite !py_vec by lia. rewrite A1, A0, Y. cbn [bind]. rewrite <- (py_vec _ _ _ Hts) in Y. pose proof (time_nonneg k ts y Hk Y) as Hy. pose proof (trunc_dt c y Hd Hy) as Hq.
  set (o := (ts + qtrunc (y / dt c) + 1)%Z) in *.
  destruct (Z.leb_spec n o) as [Ho|Ho].
  - exfalso. destruct (leader_out k o (down o)) as (err & Err0); [destruct Hk as (_ & -> & _); exact Ho| |apply down_in|rewrite Err0 in H; discriminate].
    unfold down. replace (Z.to_nat o) with (S (Z.to_nat (o - 1))) by (unfold o; lia). discriminate.
  - destruct (cpp_leader_ok k o (down o) Hk Ho (down_in o)) as (g & G1 & _ & G3). fold n in G1. rewrite G1. rewrite G3 in H. exact H.
Qed.
(** ... in particular it is never below that of the Python code, which takes 0 for an exception *)
Theorem cpp_ext_above : forall c k t, (0 < dt c)%Q -> ~ (l_u k == 0)%Q -> complete k -> nondecreasing (l_ca k) -> (0 <= t)%Q ->
  exists x, cpp_ext c k (qtrunc (t / dt c)) = Ok x /\ (ext_link c k t <= x)%Q /\ (x == ext_link c k t \/ exists e, ext_try c k t = Err e)%Q.
Proof.
  intros c k t Hd Hu Hk Ha Ht. pose proof (trunc_dt c t Hd Ht) as Hts. destruct (cpp_ext_safe c k _ Hd Hk Ha Hts) as (x & X & Px). exists x. split; [exact X|].
  unfold ext_link. destruct (ext_try c k t) as [y|e] eqn:E.
  - pose proof (cpp_ext_agrees c k t y Hd Hu Hk Ht E) as Y. rewrite X in Y. injection Y as <-. split; [apply Qle_refl|left; reflexivity].
  - split; [exact Px|right; eauto].
Qed.
(** after the end of the simulation both are 0 *)
Theorem cpp_ext_after : forall c k t, (0 < dt c)%Q -> complete k -> (Qof_nat (List.length (l_tta k)) * dt c <= t)%Q ->
  (exists x, cpp_ext c k (qtrunc (t / dt c)) = Ok x /\ (x == 0)%Q) /\ ext_link c k t = 0%Q.
Proof.
  intros c k t Hd Hk Ht. assert (A : (Qof_nat (List.length (l_tta k)) <= t / dt c)%Q) by (apply Qle_shift_div_l; assumption).
  assert (B : (0 <= Qof_nat (List.length (l_tta k)))%Q) by (unfold Qof_nat; change 0%Q with (inject_Z 0); rewrite <- Zle_Qle; lia).
  assert (Hts : (Z.of_nat (List.length (l_tta k)) <= qtrunc (t / dt c))%Z).
  { rewrite qtrunc_floor by lra. apply Qfloor_resp_le in A. unfold Qof_nat in A. rewrite Qfloor_Z in A. exact A. }
  unfold ext_link, ext_try, cpp_ext. set (ts := qtrunc (t / dt c)) in *. rewrite up_nil by exact Hts. cbn [cpp_end ext_end bind]. split.
  - destruct (Z.ltb_spec ts (Z.of_nat (List.length (l_tta k)))); [lia|]. rewrite !andb_false_r. cbn [andb bind].
    assert (Ho : ((if (Z.of_nat (List.length (l_tta k)) <=? 0)%Z then Z.of_nat (List.length (l_tta k)) - 1 else 0) <= 0)%Z) by (destruct (Z.leb_spec (Z.of_nat (List.length (l_tta k))) 0); lia).
    set (o := if (Z.of_nat (List.length (l_tta k)) <=? 0)%Z then (Z.of_nat (List.length (l_tta k)) - 1)%Z else 0%Z) in *.
    unfold down. replace (Z.to_nat o) with 0 by lia. cbn [seq map cpp_leader bind]. eexists. split; [reflexivity|]. rewrite Z.sub_diag. ring.
  - rewrite vec_out by (destruct Hk as (-> & _); exact Hts). reflexivity.
Qed.
(** No exception is raised if the queue ends in a timestep [j] from which one is back before the end of the simulation, and so does the
    vehicle itself. *)
Theorem ext_try_ok : forall c k t j, (0 < dt c)%Q -> ~ (l_u k == 0)%Q -> complete k -> (0 <= t)%Q ->
  let i := Z.to_nat (qtrunc (t / dt c)) in let lands := fun s => exists x, nth_error (l_tta k) s = Some x /\ s + Z.to_nat (qtrunc (x / dt c)) + 1 < List.length (l_tta k) in
  i <= j -> (forall s, i <= s <= j -> lands s) -> ~ queued c k j -> exists x, ext_try c k t = Ok x.
Proof.
  intros c k t j Hd Hu Hk Ht i lands Hij Hl Hq. pose proof (trunc_dt c t Hd Ht) as Hts. unfold ext_try.
  replace (qtrunc (t / dt c)) with (Z.of_nat i) by (unfold i; lia). clearbody i.
  set (n := Z.of_nat (List.length (l_tta k))).
  assert (E : forall m s e, m = j - s -> i <= s <= j -> exists r, ext_end c k (up (Z.of_nat s) n) (Z.of_nat e) = Ok (Z.of_nat r) /\ (r = e \/ r <= j)).
  { induction m as [|m IH]; intros s e Hm Hs; destruct (Hl s Hs) as (x & X & Lx); pose proof (nth_error_lt _ _ X) as Hn;
      rewrite up_cons by (unfold n; lia); cbn [ext_end]; rewrite (py_get_ok _ _ _ _ X); cbn [bind];
      assert (Hx : (0 <= x)%Q) by (eapply time_nonneg; [exact Hk|apply vec_get_nat; exact X]); pose proof (trunc_dt c x Hd Hx) as Hx';
      unfold qdiv; destruct (qeq (l_u k) 0) eqn:U; [apply qeq_iff in U; contradiction| |apply qeq_iff in U; contradiction|]; cbn [bind];
      destruct (qlt (l_len k / l_u k * (101 # 100)) x) eqn:C; [|exists e; auto| |exists e; auto]; apply qlt_iff in C;
      replace (Z.of_nat s + qtrunc (x / dt c))%Z with (Z.of_nat (s + Z.to_nat (qtrunc (x / dt c)))) by lia;
      destruct (nth_error (l_ca k) (s + Z.to_nat (qtrunc (x / dt c)))) as [a|] eqn:A; [|apply nth_error_None in A; destruct Hk as (K & _); lia| |apply nth_error_None in A; destruct Hk as (K & _); lia];
      destruct (nth_error (l_cd k) (s + Z.to_nat (qtrunc (x / dt c)))) as [d|] eqn:D; [|apply nth_error_None in D; destruct Hk as (_ & K & _); lia| |apply nth_error_None in D; destruct Hk as (_ & K & _); lia];
      rewrite (py_get_ok _ _ _ _ A), (py_get_ok _ _ _ _ D); cbn [bind]; destruct (Z.ltb_spec 0 (a - d)) as [P|P]; [|exists e; auto| |exists e; auto].
    - exfalso. apply Hq. replace j with s by lia. exists x, a, d. repeat (split; [assumption|]). lia.
    - destruct (Nat.eq_dec s j) as [-> |]; [exfalso; apply Hq; exists x, a, d; repeat (split; [assumption|]); lia|].
      destruct (IH (S s) s ltac:(lia) ltac:(lia)) as (r & R1 & R2). replace (Z.of_nat s + 1)%Z with (Z.of_nat (S s)) by lia. exists r. split; [exact R1|lia]. }
  destruct (E (j - i) i i eq_refl ltac:(lia)) as (r & R1 & R2). rewrite R1. cbn [bind].
  assert (Hr : r < List.length (l_tta k)).
  { destruct (Hl j ltac:(lia)) as (y & Y & _). apply nth_error_lt in Y. lia. }
  destruct (nth_error (l_ca k) r) as [a1|] eqn:A1; [|apply nth_error_None in A1; destruct Hk as (K & _); lia]. rewrite (py_get_ok _ _ _ _ A1). cbn [bind].
  destruct (Hl i ltac:(lia)) as (x & X & Lx). pose proof (nth_error_lt _ _ X) as Hi.
  destruct (nth_error (l_ca k) i) as [a0|] eqn:A0; [|apply nth_error_None in A0; destruct Hk as (K & _); lia]. rewrite (py_get_ok _ _ _ _ A0). cbn [bind].
  rewrite (py_get_ok _ _ _ _ X). cbn [bind].
  assert (Hx : (0 <= x)%Q) by (eapply time_nonneg; [exact Hk|apply vec_get_nat; exact X]). pose proof (trunc_dt c x Hd Hx) as Hx'.
  set (o := (Z.of_nat i + qtrunc (x / dt c) + 1)%Z).
  destruct (cpp_leader_ok k o (down o) Hk ltac:(unfold o; lia) (down_in o)) as (g & _ & _ & G). rewrite G. cbn [bind]. eauto.
Qed.

(** ** The estimate of a route *)

(** the times at which the links of a route are entered (Route.actual_travel_time) *)
Fixpoint raised (c : cfg) (w : world) (ls : list lid) (tts : list Q) (t : Q) : Prop :=
  match ls, tts with
  | l :: tl, x :: xs => ((t < Qof_nat (List.length (l_tta (L w l))) * dt c)%Q /\ exists e, ext_try c (L w l) t = Err e) \/ raised c w tl xs (t + x)%Q
  | _, _ => False
  end.
Lemma next_time : forall c k t x, (0 < dt c)%Q -> (0 <= t)%Q -> (t < Qof_nat (List.length (l_tta k)) * dt c)%Q -> actual_travel_time c k t = Ok x ->
  cpp_next c k t = Ok (t + x)%Q.
Proof.
  intros c k t x Hd Ht Hn H. pose proof (trunc_dt c t Hd Ht) as Hts. unfold cpp_next.
  assert (E : qtrunc (t / dt c) = slot c t) by (apply qtrunc_floor; apply Qle_shift_div_l; [exact Hd|lra]). unfold actual_travel_time, clamp_get in H. rewrite <- E in H.
  assert (A : (t / dt c < Qof_nat (List.length (l_tta k)))%Q) by (apply Qlt_shift_div_r; assumption).
  assert (B : (qtrunc (t / dt c) < Z.of_nat (List.length (l_tta k)))%Z).
  { rewrite E. unfold slot. assert (D : (inject_Z (Qfloor (t / dt c)) < Qof_nat (List.length (l_tta k)))%Q) by (eapply Qle_lt_trans; [apply Qfloor_le|exact A]). unfold Qof_nat in D. rewrite <- Zlt_Qlt in D. exact D. }
  destruct (Z.leb_spec (Z.of_nat (List.length (l_tta k))) (qtrunc (t / dt c))); [lia|]. destruct (Z.ltb_spec (qtrunc (t / dt c)) 0); [lia|].
  destruct (Z.leb_spec 0 (qtrunc (t / dt c))); [|lia]. destruct (Z.ltb_spec (qtrunc (t / dt c)) (Z.of_nat (List.length (l_tta k)))); [|lia]. cbn [andb].
  unfold vec_get. destruct (Z.leb_spec 0 (qtrunc (t / dt c))); [|lia]. rewrite H. reflexivity.
Qed.
(** all links have records of the same length: the number of timesteps *)
Definition records (w : world) (n : nat) (ls : list lid) : Prop :=
  forall l, In l ls -> complete (L w l) /\ List.length (l_tta (L w l)) = n /\ (0 < l_u (L w l))%Q /\ (0 <= l_len (L w l))%Q /\ nondecreasing (l_ca (L w l)).
Lemma next_after : forall c k t, (0 < dt c)%Q -> (Qof_nat (List.length (l_tta k)) * dt c <= t)%Q -> cpp_next c k t = Ok (t + l_len k / l_u k)%Q.
Proof.
  intros c k t Hd Ht. unfold cpp_next. assert (A : (Qof_nat (List.length (l_tta k)) <= t / dt c)%Q) by (apply Qle_shift_div_l; assumption).
  assert (B : (0 <= Qof_nat (List.length (l_tta k)))%Q) by (unfold Qof_nat; change 0%Q with (inject_Z 0); rewrite <- Zle_Qle; lia).
  assert (Hts : (Z.of_nat (List.length (l_tta k)) <= qtrunc (t / dt c))%Z).
  { rewrite qtrunc_floor by lra. apply Qfloor_resp_le in A. unfold Qof_nat in A. rewrite Qfloor_Z in A. exact A. }
  destruct (Z.ltb_spec (qtrunc (t / dt c)) (Z.of_nat (List.length (l_tta k)))); [lia|]. rewrite andb_false_r. reflexivity.
Qed.
(** beyond the end nothing is added, whatever the times *)
Lemma route_after : forall c w n ls t, (0 < dt c)%Q -> records w n ls -> (Qof_nat n * dt c <= t)%Q -> exists x, cpp_ext_route c w ls t = Ok x /\ (x == 0)%Q.
Proof.
  intros c w n ls. induction ls as [|l ls IH]; intros t Hd Hr Ht; [exists 0%Q; split; reflexivity|].
  destruct (Hr l (or_introl eq_refl)) as (K1 & K2 & K3 & K4 & K5). cbn [cpp_ext_route].
  rewrite <- K2 in Ht. destruct (cpp_ext_after c (L w l) t Hd K1 Ht) as [(x & X & X0) _]. rewrite X. cbn [bind]. rewrite next_after by assumption. cbn [bind].
  destruct (IH (t + l_len (L w l) / l_u (L w l))%Q Hd) as (y & Y & Y0).
  - intros l' H. apply Hr. right. exact H.
  - rewrite <- K2. assert (0 <= l_len (L w l) / l_u (L w l))%Q by (apply Qle_shift_div_l; [exact K3|lra]). lra.
  - rewrite Y. cbn [bind]. eexists. split; [reflexivity|]. rewrite X0, Y0. reflexivity.
Qed.
Lemma sum_after : forall c w n ls tts t, (0 < dt c)%Q -> records w n ls -> (Qof_nat n * dt c <= t)%Q -> Forall (fun x => (0 <= x)%Q) tts ->
  forall y, ext_sum c w ls tts t = Ok y -> (y == 0)%Q.
Proof.
  intros c w n ls. induction ls as [|l ls IH]; intros tts t Hd Hr Ht Hp y H; cbn [ext_sum] in H; [destruct tts; injection H as <-; reflexivity|].
  destruct tts as [|x xs]; [discriminate|]. inversion Hp as [|? ? P1 P2]; subst. destruct (ext_sum c w ls xs (t + x)) as [z|] eqn:E; [|discriminate]. cbn [bind] in H. injection H as <-.
  destruct (Hr l (or_introl eq_refl)) as (K1 & K2 & _). destruct (cpp_ext_after c (L w l) t Hd K1) as [_ ->]; [rewrite K2; exact Ht|].
  assert (Z0 : (z == 0)%Q) by (apply (IH xs (t + x)%Q Hd); [intros l' H'; apply Hr; right; exact H'|lra|exact P2|exact E]). rewrite Z0. reflexivity.
Qed.
Lemma details_nonneg : forall c w n ls t tts, records w n ls -> details c w ls t = Ok tts -> Forall (fun x => (0 <= x)%Q) tts.
Proof.
  intros c w n ls. induction ls as [|l ls IH]; intros t tts Hr H; cbn [details] in H; [injection H as <-; constructor|].
  destruct (actual_travel_time c (L w l) t) as [x|] eqn:X; [|discriminate]. cbn [bind] in H. destruct (details c w ls (t + x)) as [xs|] eqn:D; [|discriminate]. cbn [bind] in H. injection H as <-.
  constructor; [|apply (IH _ _ ltac:(intros l' H'; apply Hr; right; exact H') D)].
  destruct (Hr l (or_introl eq_refl)) as ((_ & _ & F) & _). rewrite Forall_forall in F. unfold actual_travel_time, clamp_get in X.
  destruct (Z.leb _ _); [|destruct (Z.ltb _ _)].
  - rewrite last_opt_nth in X. destruct (nth_error (l_tta (L w l)) (List.length (l_tta (L w l)) - 1)) eqn:E; cbn in X; [|discriminate]. injection X as <-. apply F. eapply nth_error_In, E.
  - destruct (nth_error (l_tta (L w l)) 0) eqn:E; cbn in X; [|discriminate]. injection X as <-. apply F. eapply nth_error_In, E.
  - destruct (nth_error (l_tta (L w l)) _) eqn:E; cbn in X; [|discriminate]. injection X as <-. apply F. eapply nth_error_In, E.
Qed.
Theorem cpp_ext_route_ok : forall c w n ls t x, (0 < dt c)%Q -> records w n ls -> (0 <= t)%Q -> ext_route c w ls t = Ok x ->
  exists y, cpp_ext_route c w ls t = Ok y /\ (x <= y)%Q /\ ((x == y)%Q \/ exists tts, details c w ls t = Ok tts /\ raised c w ls tts t).
Proof.
  intros c w n ls t x Hd Hr Ht H. unfold ext_route in H. destruct (details c w ls t) as [tts|] eqn:D; [|discriminate]. cbn [bind] in H.
  enough (K : exists y, cpp_ext_route c w ls t = Ok y /\ (x <= y)%Q /\ ((x == y)%Q \/ raised c w ls tts t)).
  { destruct K as (y & K1 & K2 & K3). exists y. split; [exact K1|]. split; [exact K2|]. destruct K3; [auto|right; eauto]. }
  revert t tts x Ht D H. induction ls as [|l ls IH]; intros t tts x Ht D H; cbn [details] in D.
  { injection D as <-. injection H as <-. exists 0%Q. split; [reflexivity|]. split; [apply Qle_refl|left; reflexivity]. }
  pose proof (details_nonneg c w n (l :: ls) t tts Hr D) as Hp.
  destruct (actual_travel_time c (L w l) t) as [a|] eqn:A; [|discriminate]. cbn [bind] in D. destruct (details c w ls (t + a)) as [xs|] eqn:D'; [|discriminate]. cbn [bind] in D. injection D as <-.
  inversion Hp as [|? ? P1 P2]; subst. cbn [ext_sum] in H. destruct (ext_sum c w ls xs (t + a)) as [z|] eqn:E; [|discriminate]. cbn [bind] in H. injection H as <-.
  destruct (Hr l (or_introl eq_refl)) as (K1 & K2 & K3 & K4 & K5). assert (Hr' : records w n ls) by (intros l' H'; apply Hr; right; exact H').
  cbn [cpp_ext_route raised]. destruct (Qlt_le_dec t (Qof_nat (List.length (l_tta (L w l))) * dt c)) as [Hn|Hn].
  - destruct (cpp_ext_above c (L w l) t Hd ltac:(lra) K1 K5 Ht) as (y1 & Y1 & Y2 & Y3). rewrite Y1. cbn [bind]. rewrite (next_time c (L w l) t a Hd Ht Hn A). cbn [bind].
    destruct (IH Hr' (t + a)%Q xs z ltac:(lra) D' E) as (y & Y & Z1 & Z2). rewrite Y. cbn [bind]. eexists. split; [reflexivity|]. split; [lra|].
    destruct Y3 as [Y3|Y3]; [|right; left; auto]. destruct Z2 as [Z2|Z2]; [left; lra|right; right; exact Z2].
  - destruct (route_after c w n (l :: ls) t Hd Hr ltac:(rewrite <- K2; exact Hn)) as (y & Y & Y0). cbn [cpp_ext_route] in Y. exists y. split; [exact Y|].
    destruct (cpp_ext_after c (L w l) t Hd K1 Hn) as [_ ->]. assert (Hz : (z == 0)%Q).
    { apply (sum_after c w n ls xs (t + a)%Q Hd Hr'); [rewrite <- K2; lra|exact P2|exact E]. }
    assert (Ex : (0 + z == y)%Q) by (rewrite Hz, Y0; reflexivity). split; [lra|left; exact Ex].
Qed.

(** ** The records of a simulation *)
Lemma exits_spent : forall c P w0 w l g, (0 < dt c)%Q -> reach c w0 -> exits c P l w0 w g -> Forall (fun x => (0 <= spent x)%Q) g.
Proof.
  intros c P w0 w l g Hd R H. induction H as [|w1 w2 g g2 H IH Hf E (new & G1 & G2 & G3)|w1 w2 g H IH S0 E1 E2]; [constructor| |exact IH].
  apply Forall_app. split; [exact IH|]. pose proof (proj1 (exits_grid c P w0 w1 l g R H)) as R1. rewrite Forall_forall in G3. apply Forall_forall. intros x Hx.
  assert (Bd : (entered x <= now c w1)%Q).
  { assert (X : In (fst x) (on_link w1 l ++ map (fun v => (v, now c w1)) new)) by (rewrite G1; apply in_or_app; left; apply in_map; exact Hx).
    apply in_app_or in X. destruct X as [X|X]; apply in_map_iff in X; destruct X as (v & X & Hv); unfold entered; rewrite <- X; cbn [snd]; [|apply Qle_refl].
    pose proof (reach_Inv2 _ _ R1) as [[_ I] _]. rewrite <- Dq_none in Hv. apply (s_D I) in Hv. destruct Hv as (V1 & V2 & V3 & _).
    destruct (reach_arrived c w1 R1 v V1) as (t & Lt & Et); [congruence|]. rewrite Et. unfold now. apply Qmult_le_compat_r; [|lra]. unfold Qof_nat. rewrite <- Zle_Qle. lia. }
  unfold spent. assert (Ld : (now c w1 <= left_at x)%Q); [|lra]. destruct (G3 x Hx) as [[-> _]|[-> _]]; [apply Qle_refl|].
  unfold now. apply Qmult_le_compat_r; [|lra]. unfold Qof_nat. rewrite <- Zle_Qle. lia.
Qed.
Lemma put_nonneg : forall c g tt, Forall (fun x => (0 <= spent x)%Q) g -> Forall (fun x => (0 <= x)%Q) tt -> Forall (fun x => (0 <= x)%Q) (fold_left (put c) g tt).
Proof.
  intros c g tt Hg Ht. apply Forall_forall. intros x Hx. apply In_nth_error in Hx. destruct Hx as (j & Hx).
  pose proof (nth_error_lt _ _ Hx) as Hj. rewrite put_length in Hj. destruct (nth_error tt j) as [d|] eqn:D; [|apply nth_error_None in D; lia].
  rewrite (put_nth c g tt j d Hj D) in Hx. rewrite Forall_forall in Hg, Ht. destruct (last_opt _) as [y|] eqn:Y; injection Hx as <-.
  - apply Hg. rewrite last_opt_nth in Y. apply nth_error_In in Y. apply filter_In in Y. apply Y.
  - apply Ht. eapply nth_error_In, D.
Qed.
Theorem records_ok : forall c P tm w0 w1 w l, (0 < dt c)%Q -> (0 <= c_deltan c)%Z -> reach c w0 -> w_final w0 = false -> (0 < l_u (L w0 l))%Q -> (0 <= l_len (L w0 l))%Q -> l < w_nl w0 ->
  finalize c tm w0 = Ok w1 -> later c P w1 w -> w_T w = w_tsize w1 -> complete (L w l) /\ nondecreasing (l_ca (L w l)) /\ List.length (l_tta (L w l)) = w_T w.
Proof.
  intros c P tm w0 w1 w l Hd Hn R F Hu Hl Hw E K HT.
  assert (R1 : reach c w1) by (apply (rc_op c w0 (OFinalize tm) w1 R); [exact F|discriminate|exact E]).
  pose proof (finalize_final _ _ _ _ E) as F1. destruct (finalize_tta c tm w0 w1 l E Hw) as (n & ff & T1 & _ & T3 & T4).
  destruct (later_exits c P w1 w l R1 F1 K) as (g & G1 & G2 & _).
  assert (Hw1 : l < w_nl w1) by (pose proof (fz_cnt _ _ _ (finalize_ok _ _ _ _ E)) as Z0; injection Z0; intros; congruence).
  assert (Hw' : l < w_nl w) by (rewrite (later_nl c P w1 w F1 K); exact Hw1).
  pose proof (curves_lemma c w l Hn (later_reach _ _ _ _ R1 K) Hw') as [Ca Cd _ Cm _ _].
  assert (Len : List.length (l_tta (L w l)) = w_T w) by (rewrite G2, put_length, T1, repeat_length; congruence).
  split; [|split; [exact Cm|exact Len]]. split; [congruence|]. split; [congruence|]. rewrite G2. apply put_nonneg; [apply (exits_spent c P w1 w l g Hd R1 G1)|].
  rewrite T1. apply Forall_forall. intros x Hx. pose proof (repeat_spec _ _ _ Hx) as ->. destruct n as [|n]; [destruct Hx|]. destruct (T4 ltac:(lia)) as [_ ->].
  apply Qle_shift_div_l; [exact Hu|lra].
Qed.
