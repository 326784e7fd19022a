(** * DuoInv: bounds and sums of the DUO preferences. *)
From Verif Require Import Base Types Sim Build Heap Lists Inv FrameBase Tac Frame Eff Eff2 Trace InvStep Reach Steps Effects Phases Attr Life Incoming Vev Ride TripLog Route Green Choice Enforce Counts LinkQueries FD NodeCap Origin Bucket Outflow Trials Motion Spacing Spec Distance Totals SpecDuo Duo Search.
Local Open Scope nat_scope.

(** ** What a timestep does to the RouteChoice object *)
Inductive duo_view (c : cfg) (w w' : world) : Prop :=
| dv_same : rcw w' = rcw w -> c_gradual c = false -> Nat.modulo (w_T w) (route_steps c) <> 0 -> duo_view c w w'
| dv_update : forall wa wb, fr w wa -> fr w wb -> rcw wa = rcw w -> (forall l, l_tti (L wa l) = l_tti (L w' l)) -> Inv2 wa None ->
    (wb = wa /\ c_gradual c = true /\ Nat.modulo (w_T w) (route_steps c) <> 0 \/
     route_search_all c wa = Ok wb /\ Nat.modulo (w_T w) (route_steps c) = 0) ->
    rcw w' = rcw (homogeneous_DUO_update c wb) -> duo_view c w w'.

Lemma search_L : forall c w w', route_search_all c w = Ok w' -> w_links w' = w_links w /\ w_nodes w' = w_nodes w.
Proof.
  intros c w w' H. unfold route_search_all in H. apply bind_ok in H. destruct H as ([[m cnt] dr] & _ & H).
  destruct (c_dijkstra _ _ _). injection H as <-. split; reflexivity.
Qed.

Lemma body_duo : forall c w w', Inv2 w None -> body c w = Ok w' -> duo_view c w w'.
Proof.
  intros c w w' I H. pose proof (fr_w_T (body_fr _ _ H)) as ET'. apply body_runs in H.
  destruct H as (w1 & w2 & w3 & w4 & w5 & w6 & E1 & E2 & E3 & E4 & E5 & E6 & ->).
  assert (X : Inv2 w5 None /\ fr w w5 /\ rcw w5 = rcw w).
  { apply phase_links_run in E1. apply phase_nodes_run in E2. apply phase_transfer_run in E3. apply phase_follow_run in E4. apply phase_vehicles_run in E5.
    split; [|split].
    - eapply run_Inv2; [exact E5|]. eapply run_Inv2; [exact E4|]. eapply run_Inv2; [exact E3|]. eapply run_Inv2; [exact E2|]. eapply run_Inv2; [exact E1|]. exact I.
    - pose proof (run_fr _ _ _ _ E1) as F1. pose proof (run_fr _ _ _ _ E2) as F2. pose proof (run_fr _ _ _ _ E3) as F3.
      pose proof (run_fr _ _ _ _ E4) as F4. pose proof (run_fr _ _ _ _ E5) as F5.
      exact (fr_trans F1 (fr_trans F2 (fr_trans F3 (fr_trans F4 F5)))).
    - apply run_rc in E1; [|intros []; cbn; congruence]. apply run_rc in E2; [|intros []; cbn; congruence].
      apply run_rc in E3; [|intros []; cbn; congruence]. apply run_rc in E4; [|intros []; cbn; congruence].
      apply run_rc in E5; [|intros []; cbn; congruence]. congruence. }
  destruct X as (I5 & F5 & C5). clear E1 E2 E3 E4 E5.
  pose proof (fr_w_T F5) as ET. unfold route_phase in E6. rewrite ET in E6. cbn zeta in E6.
  assert (Fs : forall x, route_search_all c w5 = Ok x -> fr w x).
  { intros x Hx. refine (fr_trans F5 _). eapply mstep_fr. apply (m_search c w5 Hx). }
  destruct (c_gradual c) eqn:Eg.
  - apply bind_ok in E6. destruct E6 as (wb & Eb & E6). destruct (qeq _ _) in E6; [discriminate|]. injection E6 as <-.
    destruct (Nat.eqb _ _) eqn:Em in Eb.
    + apply Nat.eqb_eq in Em. apply (dv_update c w _ w5 wb); auto.
      intro l. destruct (search_L _ _ _ Eb) as [El _]. unfold L. cbn. rewrite El. reflexivity.
    + apply Nat.eqb_neq in Em. injection Eb as <-. apply (dv_update c w _ w5 w5); auto.
  - destruct (Nat.eqb _ _) eqn:Em in E6.
    + apply Nat.eqb_eq in Em. apply bind_ok in E6. destruct E6 as (wb & Eb & E6). apply (dv_update c w _ w5 wb); auto.
      * assert (K : w_links w6 = w_links (homogeneous_DUO_update c wb)).
        { revert E6. apply (foldM_inv (fun x => w_links x = w_links (homogeneous_DUO_update c wb))); auto.
          intros v a a' _ Ha F. apply pref_update_L in F. destruct F as [F _]. congruence. }
        intro l. destruct (search_L _ _ _ Eb) as [El _]. unfold L. cbn. rewrite K. cbn. rewrite El. reflexivity.
      * assert (K : rcw w6 = rcw (homogeneous_DUO_update c wb)).
        { revert E6. apply (foldM_inv (fun x => rcw x = rcw (homogeneous_DUO_update c wb))); auto.
          intros v a a' _ Ha F. apply rc_pref in F. congruence. }
        exact K.
    + apply Nat.eqb_neq in Em. injection E6 as <-. apply dv_same; auto.
Qed.

(** the network of a finalized World does not change *)
Lemma op_rc : forall c o w w', op_ok o w -> (forall a, o <> OExec a) -> apply_op c o w = Ok w' -> clock0 w ->
  w_T w' = w_T w /\
  (rcw w' = rcw w /\ w_final w' = w_final w /\
   (w_final w = true -> w_nl w' = w_nl w /\ w_nn w' = w_nn w /\ (forall l, l_start (L w' l) = l_start (L w l) /\ l_end (L w' l) = l_end (L w l)) /\
       (forall n, n_out (N w' n) = n_out (N w n))) \/
   w_final w = false /\ w_final w' = true /\ w_rcrec w' = [] /\ w_rcpref w' = (fun _ _ => 0%Q)).
Proof.
  intros c o w w' Ho Hx H Hc. pose proof (apply_op_osteps _ _ _ _ Ho Hx H) as O. clear - O Hc.
  induction O as [w|a b d O1 O IH].
  - split; [reflexivity|]. left. repeat split; reflexivity.
  - destruct (ostep_clock _ _ _ O1 Hc) as [Hb Tb]. specialize (IH Hb). destruct IH as [Td IH].
    split; [congruence|].
    assert (K : rcw b = rcw a /\ w_final b = w_final a /\
       (w_final a = true -> w_nl b = w_nl a /\ w_nn b = w_nn a /\ (forall l, l_start (L b l) = l_start (L a l) /\ l_end (L b l) = l_end (L a l)) /\
       (forall n, n_out (N b n) = n_out (N a n))) \/
       w_final a = false /\ w_final b = true /\ w_rcrec b = [] /\ w_rcpref b = (fun _ _ => 0%Q)).
    { destruct O1 as [a0 nd w Hf E Hn|a0 k w Hf Hs He E Hn|a0 nl nm pv w H1 H2 H3 H4 H5 H6 H7|tm w w' Hf Hz|w w' Hv Hl Hn Hw Hm|w w' Hv Hl Hn Hw].
      - left. split; [reflexivity|]. split; [reflexivity|]. congruence.
      - left. split; [reflexivity|]. split; [reflexivity|]. congruence.
      - left. split; [reflexivity|]. split; [reflexivity|]. intros _. repeat split; reflexivity.
      - right. split; [exact Hf|]. split; [exact (finalize_final _ _ _ _ Hz)|].
        unfold finalize in Hz. cbn zeta in Hz. apply bind_ok in Hz. destruct Hz as (w1 & _ & Hz). injection Hz as <-.
        assert (P : forall ns x, rcw (fold_left (fun w n => adjust_node_capacity c n w) ns x) = rcw x).
        { induction ns as [|z ns IHn]; intros x; [reflexivity|]. cbn [fold_left]. rewrite IHn.
          unfold adjust_node_capacity. destruct (n_fcap _); [reflexivity|]. destruct (map _ _); [reflexivity|]. destruct (map _ _); reflexivity. }
        assert (P' : forall ns x, w_rcrec (fold_left (fun w n => adjust_node_capacity c n w) ns x) = w_rcrec x /\ w_rcpref (fold_left (fun w n => adjust_node_capacity c n w) ns x) = w_rcpref x).
        { intros ns x. specialize (P ns x). unfold rcw in P. split; congruence. }
        cbn. destruct (c_adjust c); cbn; [|split; reflexivity]. destruct (P' (seq 0 (w_nn w1)) (sw_rcdist (fun _ _ => Some 0%Q) (sw_rcnext (fun _ _ => Some 0) (sw_rcpref (fun _ _ => 0%Q) (sw_rcrec [] w1))))) as [Pa Pb].
        split; [exact Pa|exact Pb].
      - left. unfold wkeep in Hw. unfold rcw, L, N. rewrite Hl, Hn. repeat split; congruence.
      - left. unfold wkeep in Hw. unfold rcw. split; [congruence|]. split; [congruence|]. intros _. split; [congruence|]. split; [congruence|]. split.
        + intro l. specialize (Hl l). unfold lkeep in Hl. split; congruence.
        + intro n. specialize (Hn n). unfold nkeep in Hn. congruence. }
    destruct K as [(K1 & K2 & K3) | (K1 & K2 & K3 & K4)]; destruct IH as [(J1 & J2 & J3) | (J1 & J2 & J3 & J4)].
    + left. split; [congruence|]. split; [congruence|]. intro Hf. destruct (K3 Hf) as (A1 & A2 & A3 & A4).
      destruct (J3 ltac:(congruence)) as (B1 & B2 & B3 & B4). split; [congruence|]. split; [congruence|]. split.
      * intro l. destruct (A3 l), (B3 l). split; congruence.
      * intro n. rewrite B4, A4. reflexivity.
    + right. split; [congruence|]. auto.
    + right. split; [exact K1|]. unfold rcw in J1. split; [congruence|]. split; congruence.
    + congruence.
Qed.

Record DuoB (w : world) : Prop := mkDuoB {
  db_new : w_final w = false -> w_rcrec w = [];
  db_zero : w_rcrec w = [] -> w_T w = 0 /\ forall k l, (w_rcpref w k l == 0)%Q }.

Lemma duo_pref : forall c w k l, w_rcpref (homogeneous_DUO_update c w) k l =
  let wt := if qeq (qsum (map (w_rcpref w k) (seq 0 (w_nl w)))) 0 then 1%Q else duo_weight0 c in
  ((1 - wt) * w_rcpref w k l + (if opt_eqb (Some (l_end (L w l))) (w_rcnext w (l_start (L w l)) k) then wt else 0))%Q.
Proof. reflexivity. Qed.

Lemma view_rec : forall c w w', DuoB w -> duo_view c w w' -> w_rcrec w' <> [].
Proof.
  intros c w w' [D0 D1] [E Eg Em|wa wb F F' Ea Et I Hb E].
  - unfold rcw in E. replace (w_rcrec w') with (w_rcrec w) by congruence. intro K. destruct (D1 K) as [T _].
    rewrite T in Em. apply Em. apply Nat.mod_0_l. unfold route_steps. destruct (Z.to_nat _); lia.
  - unfold rcw in E. replace (w_rcrec w') with (w_rcrec wb) by (cbn in E; congruence).
    destruct Hb as [(-> & _ & Em) | (Hs & _)].
    + unfold rcw in Ea. replace (w_rcrec wa) with (w_rcrec w) by congruence. intro K. destruct (D1 K) as [T _].
      rewrite T in Em. apply Em. apply Nat.mod_0_l. unfold route_steps. destruct (Z.to_nat _); lia.
    + destruct (search_lemma _ _ _ Hs) as (m & _ & _ & Hr & _). rewrite Hr. destruct (w_rcrec wa); discriminate.
Qed.

Theorem reach_DuoB : forall c w, reach c w -> DuoB w.
Proof.
  intros c w H. induction H as [tm|w o w' R IH Ho Hx H|w w' R IH Hf H|w R IH].
  - constructor; cbn; auto. intros _. split; [reflexivity|]. intros. reflexivity.
  - destruct IH as [D0 D1]. destruct (op_rc _ _ _ _ Ho Hx H (reach_clock _ _ R)) as (ET & [(E & Ef & _) | (Ef0 & Ef & Er & Ep)]).
    + unfold rcw in E. constructor; intro K.
      * replace (w_rcrec w') with (w_rcrec w) by congruence. apply D0. congruence.
      * rewrite ET. replace (w_rcpref w') with (w_rcpref w) by congruence. apply D1. congruence.
    + constructor; [congruence|]. intros _. split.
      * rewrite ET. apply (reach_clock _ _ R). auto.
      * rewrite Ep. reflexivity.
  - apply tick_fr in H. destruct H as (w1 & Hb & ->). pose proof (body_duo _ _ _ (reach_Inv2 _ _ R) Hb) as DV.
    pose proof (view_rec _ _ _ IH DV) as Hr. constructor; cbn.
    + rewrite (fr_w_final (body_fr _ _ Hb)). congruence.
    + intro; congruence.
  - destruct IH as [D0 D1]. constructor; cbn; auto.
Qed.

(** ** Bounds *)
Lemma duo_unit : forall c w, good_weights c -> (forall k l, (0 <= w_rcpref w k l)%Q /\ (w_rcpref w k l <= 1)%Q) ->
  forall k l, (0 <= w_rcpref (homogeneous_DUO_update c w) k l)%Q /\ (w_rcpref (homogeneous_DUO_update c w) k l <= 1)%Q.
Proof.
  intros c w (_ & _ & G1 & G2) H k l. rewrite duo_pref. cbn zeta. destruct (H k l) as [H1 H2].
  destruct (qeq _ _); destruct (opt_eqb _ _); try (split; lra); split; nra.
Qed.

Theorem duo_bounds_reach : forall c w k l, good_weights c -> reach c w -> (0 <= w_rcpref w k l)%Q /\ (w_rcpref w k l <= 1)%Q.
Proof.
  intros c w k l G R. revert k l.
  induction R as [tm|w o w' R IH Ho Hx H|w w' R IH Hf H|w R IH]; intros k l.
  - cbn. split; lra.
  - destruct (op_rc _ _ _ _ Ho Hx H (reach_clock _ _ R)) as (ET & [(E & Ef & _) | (Ef0 & Ef & Er & Ep)]).
    + unfold rcw in E. replace (w_rcpref w') with (w_rcpref w) by congruence. apply IH.
    + rewrite Ep. split; lra.
  - apply tick_fr in H. destruct H as (w1 & Hb & ->). change (w_rcpref (sw_T (S (w_T w)) w1)) with (w_rcpref w1).
    destruct (body_duo _ _ _ (reach_Inv2 _ _ R) Hb) as [E _ _|wa wb F F' Ea Et I Hs E]; unfold rcw in E.
    + replace (w_rcpref w1) with (w_rcpref w) by congruence. apply IH.
    + replace (w_rcpref w1) with (w_rcpref (homogeneous_DUO_update c wb)) by congruence. apply duo_unit; [exact G|].
      unfold rcw in Ea. destruct Hs as [(-> & _) | (Hs & _)].
      * replace (w_rcpref wa) with (w_rcpref w) by congruence. exact IH.
      * destruct (search_lemma _ _ _ Hs) as (m & _ & _ & _ & Hp). rewrite Hp. replace (w_rcpref wa) with (w_rcpref w) by congruence. exact IH.
  - apply IH.
Qed.
Theorem duo_bounds_lemma : forall c w k l, good_weights c -> reachable c w -> (0 <= w_rcpref w k l)%Q /\ (w_rcpref w k l <= 1)%Q.
Proof. intros c w k l G R. apply reachable_reach in R. apply (duo_bounds_reach c); auto. Qed.

(** ** Sums *)
Definition hits (w : world) (k : nid) (ls : list lid) : Q :=
  qsum (map (fun l => if opt_eqb (Some (l_end (L w l))) (w_rcnext w (l_start (L w l)) k) then 1%Q else 0%Q) ls).

Lemma duo_sum : forall c w k ls, exists wt, (wt = 1%Q \/ wt = duo_weight0 c) /\
  (qsum (map (w_rcpref w k) (seq 0 (w_nl w))) == 0 -> wt = 1)%Q /\
  (qsum (map (w_rcpref (homogeneous_DUO_update c w) k) ls) == (1 - wt) * qsum (map (w_rcpref w k) ls) + wt * hits w k ls)%Q.
Proof.
  intros c w k ls. set (wt := if qeq (qsum (map (w_rcpref w k) (seq 0 (w_nl w)))) 0 then 1%Q else duo_weight0 c).
  exists wt. split; [|split].
  - subst wt. destruct (qeq _ _); auto.
  - intro H. apply qeq_iff in H. subst wt. rewrite H. reflexivity.
  - unfold hits. induction ls as [|l ls IH]; cbn [map qsum fold_right]; [ring|].
    change (fold_right Qplus 0%Q) with qsum. rewrite IH. rewrite duo_pref. cbn zeta. fold wt.
    destruct (opt_eqb _ _); ring.
Qed.

Lemma hits_le : forall w k n ls, (forall l, In l ls -> l_start (L w l) = n) -> NoDup (map (fun l => l_end (L w l)) ls) ->
  (0 <= hits w k ls)%Q /\ (hits w k ls <= 1)%Q /\
  ((exists l, In l ls /\ w_rcnext w n k = Some (l_end (L w l))) -> hits w k ls == 1)%Q /\
  ((forall l, In l ls -> w_rcnext w n k <> Some (l_end (L w l))) -> hits w k ls == 0)%Q.
Proof.
  intros w k n ls Hs Nd. unfold hits. induction ls as [|a ls IH].
  - cbn. split; [lra|]. split; [lra|]. split; [intros (l & [] & _)|reflexivity].
  - cbn [map qsum fold_right]. change (fold_right Qplus 0%Q) with qsum. inversion Nd as [|x y Ha Nd']; subst.
    destruct (IH (fun l Hl => Hs l (or_intror Hl)) Nd') as (I1 & I2 & I3 & I4).
    rewrite (Hs a (or_introl eq_refl)).
    destruct (opt_eqb (Some (l_end (L w a))) (w_rcnext w n k)) eqn:E.
    + apply opt_eqb_eq in E.
      assert (Z : (qsum (map (fun l => if opt_eqb (Some (l_end (L w l))) (w_rcnext w (l_start (L w l)) k) then 1%Q else 0%Q) ls) == 0)%Q).
      { apply I4. intros l Hl K. apply Ha. apply in_map_iff. exists l. split; [|exact Hl]. congruence. }
      split; [lra|]. split; [lra|]. split; [intros _; lra|]. intros K. exfalso. apply (K a (or_introl eq_refl)). congruence.
    + split; [lra|]. split; [lra|]. split.
      * intros (l & [<- | Hl] & K); [rewrite K in E; cbn in E; rewrite Nat.eqb_refl in E; discriminate|].
        assert (Z := I3 (ex_intro _ l (conj Hl K))). lra.
      * intros K. assert (Z := I4 (fun l Hl => K l (or_intror Hl))). lra.
Qed.

Lemma zero_sum : forall (f : lid -> Q) ls, (forall l, (f l == 0)%Q) -> (qsum (map f ls) == 0)%Q.
Proof.
  intros f ls H. induction ls as [|a ls IH]; cbn [map qsum fold_right]; [reflexivity|].
  change (fold_right Qplus 0%Q) with qsum. rewrite IH, H. ring.
Qed.

Lemma out_start : forall w p n l, Inv2 w p -> In l (n_out (N w n)) -> n < w_nn w -> l_start (L w l) = n /\ l < w_nl w.
Proof. intros w p n l I Hl Hn. destruct I as [[T _] _]. destruct (t_out T n l) as [K _]. destruct (K Hl); auto. Qed.

Theorem duo_sum_lemma : forall c w k n, good_weights c -> reachable c w -> exists_node w n -> no_parallel w n ->
  (0 <= out_pref w k n)%Q /\ (out_pref w k n <= 1)%Q.
Proof.
  intros c w k n G R. pose proof (fun x l Hx => duo_bounds_lemma c x k l G Hx) as B. apply reachable_reach in R.
  assert (Z : forall x, (forall l, (w_rcpref x k l == 0)%Q) -> (0 <= out_pref x k n)%Q /\ (out_pref x k n <= 1)%Q).
  { intros x Hz. unfold out_pref. assert (X := zero_sum (w_rcpref x k) (n_out (N x n)) Hz). lra. }
  induction R as [tm|w o w' R IH Ho Hx H|w w' R IH Hf H|w R IH]; intros Hn Np.
  - apply Z. reflexivity.
  - destruct (op_rc _ _ _ _ Ho Hx H (reach_clock _ _ R)) as (ET & [(E & Ef & En) | (Ef0 & Ef & Er & Ep)]).
    + unfold rcw in E. destruct (w_final w) eqn:Efw.
      * destruct (En eq_refl) as (_ & Enn & Ee & Eo). unfold out_pref, no_parallel, exists_node in *.
        rewrite Eo in *. rewrite Enn in *. replace (w_rcpref w') with (w_rcpref w) by congruence. apply IH; auto.
        erewrite map_ext; [exact Np|]. intro l. cbn beta. symmetry. apply Ee.
      * apply Z. replace (w_rcpref w') with (w_rcpref w) by congruence.
        destruct (reach_DuoB _ _ R) as [D0 D1]. intro l. apply D1. auto.
    + apply Z. rewrite Ep. reflexivity.
  - apply tick_fr in H. destruct H as (w1 & Hb & ->). pose proof (body_fr _ _ Hb) as F0.
    assert (Np0 : no_parallel w n).
    { unfold no_parallel in *. rewrite <- (fr_n_out F0 n). erewrite map_ext; [exact Np|]. intro l. cbn beta. symmetry. apply (fr_l_end F0 l). }
    assert (Hn0 : exists_node w n) by (unfold exists_node in *; cbn in Hn; rewrite (fr_w_nn F0) in Hn; exact Hn).
    change (out_pref (sw_T (S (w_T w)) w1) k n) with (out_pref w1 k n). specialize (IH Hn0 Np0). unfold out_pref in IH |- *.
    rewrite (fr_n_out F0 n). pose proof (reach_Inv2 _ _ R) as I0.
    destruct (body_duo _ _ _ I0 Hb) as [E _ _|wa wb F F' Ea Et I Hs E]; unfold rcw in E.
    + replace (w_rcpref w1) with (w_rcpref w) by congruence. apply IH.
    + replace (w_rcpref w1) with (w_rcpref (homogeneous_DUO_update c wb)) by congruence.
      assert (Ep : w_rcpref wb = w_rcpref w).
      { unfold rcw in Ea. destruct Hs as [(-> & _) | (Hs & _)]; [congruence|].
        destruct (search_lemma _ _ _ Hs) as (m & _ & _ & _ & Hp). rewrite Hp. congruence. }
      destruct (duo_sum c wb k (n_out (N w n))) as (wt & Hw & _ & ->). rewrite Ep.
      destruct (hits_le wb k n (n_out (N w n))) as (h1 & h2 & _).
      { intros l Hl. rewrite (fr_l_start F' l). exact (proj1 (out_start _ _ _ _ I0 Hl Hn0)). }
      { unfold no_parallel in Np0. erewrite map_ext; [exact Np0|]. intro l. cbn beta. apply (fr_l_end F' l). }
      destruct G as (_ & _ & G1 & G2). destruct Hw as [-> | ->]; split; nra.
  - apply (IH Hn Np).
Qed.
