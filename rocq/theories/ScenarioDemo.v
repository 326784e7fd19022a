(** * ScenarioDemo: witnesses for Props_Scenario. *)
From Verif Require Import Base Types Sim Build Reach Steps Spec Demo Scenario SpecScenario.
Local Open Scope string_scope.
Local Open Scope nat_scope.

(** build, save and load *)
Definition trip_back (c : cfg) (tm : option Q) (acts : list act) : option (world * info * (world * info)) :=
  match foldM (perform c) acts (empty_world tm, []) with
  | Ok s => match load c (save s) (empty_world tm, []) with Ok s' => Some (s, s') | Err _ => None end
  | Err _ => None
  end.
Lemma trip_back_ok : forall c tm acts (t : world -> world -> bool),
  match trip_back c tm acts with Some (s, s') => t (fst s) (fst s') | None => false end = true ->
  exists s s', foldM (perform c) acts (empty_world tm, []) = Ok s /\ load c (save s) (empty_world tm, []) = Ok s' /\ t (fst s) (fst s') = true.
Proof.
  intros c tm acts t H. unfold trip_back in H. destruct (foldM (perform c) acts (empty_world tm, [])) as [s|]; [|discriminate].
  destruct (load c (save s) (empty_world tm, [])) as [s'|] eqn:E; [|discriminate]. exists s, s'. split; [reflexivity|]. split; [exact E|exact H].
Qed.

Definition road (cin : option Q) : list act :=
  map AOp [ OAddNode (mkNodeArgs "A" 0 0 [10%Q; 20%Q] 5 None None None); OAddNode (mkNodeArgs "B" 100 0 [0%Q] 0 None (Some 1%Q) None);
            OAddNode (mkNodeArgs "C" 100 100 [30%Q; 10%Q] 0 (Some 7%Q) None None);
            OAddLink (mkLinkArgs None 0 1 100 20 (2#10) (Some (1#10)) 2 1 [0; 1] None cin None None);
            OAddLink (mkLinkArgs (Some "BC") 1 2 100 10 (1#10) None 1 2 [0] (Some (1#2)) cin (Some (fun _ => 3%Q)) None) ].
Definition trips : list dcall := [ DNodes ["A"; "B"] ["C"] 0 100 (1#2) (-1); DNodes ["A"] ["B"; "C"] 20 100 (-1) 100 ].
(** the hypotheses of the theorems are satisfied *)
Lemma road_demo : exists s, Forall adds_node (firstn 3 (road (Some 1%Q))) /\ Forall adds_link_cin (skipn 3 (road (Some 1%Q))) /\ one_kind trips /\
  foldM (perform cfg0) (firstn 3 (road (Some 1%Q)) ++ skipn 3 (road (Some 1%Q)) ++ map ADemand trips)%list (empty_world (Some 400%Q), []) = Ok s /\
  calls_of (snd s) = trips /\ 20 <= w_nv (fst s).
Proof.
  destruct (foldM (perform cfg0) (firstn 3 (road (Some 1%Q)) ++ skipn 3 (road (Some 1%Q)) ++ map ADemand trips)%list (empty_world (Some 400%Q), [])) as [s|] eqn:E;
    [|exfalso; vm_compute in E; discriminate].
  exists s. split; [repeat constructor; eexists; reflexivity|]. split; [repeat constructor; eexists; split; try reflexivity; discriminate|].
  split; [intros a b [<- |[<- |[]]] [<- |[<- |[]]]; reflexivity|]. split; [reflexivity|].
  vm_compute in E. injection E as <-. cbn [snd fst calls_of flat_map app w_nv]. split; [reflexivity|lia].
Qed.
Lemma road_plain_demo : exists s s', Forall adds_network (road None) /\
  foldM (perform cfg0) (road None ++ map ADemand trips)%list (empty_world (Some 400%Q), []) = Ok s /\ load cfg0 (save s) (empty_world (Some 400%Q), []) = Ok s' /\
  (20 <=? w_nv (fst s')) && (w_nv (fst s') =? w_nv (fst s)) = true.
Proof.
  destruct (trip_back_ok cfg0 (Some 400%Q) (road None ++ map ADemand trips)%list (fun w w' => (20 <=? w_nv w') && (w_nv w' =? w_nv w))) as (s & s' & H1 & H2 & H3); [vm_compute; reflexivity|].
  exists s, s'. split; [|auto]. unfold road. cbn [map]. repeat (constructor; [first [left; eexists; reflexivity|right; eexists; reflexivity]|]). constructor.
Qed.

(** ** Where the claim fails *)
(** a slow link without a given capacity_in: in the loaded World the first vehicle enters one timestep earlier *)
Definition slow_road : list act :=
  map AOp [node_ "A"; node_ "B"; OAddLink (mkLinkArgs (Some "AB") 0 1 100 (5#4) (2#10) None 1 1 [0] None None None None)].
Definition slow_test (w w' : world) : bool :=
  match calls cfg0 [OExec (UntilT 30)] w, calls cfg0 [OExec (UntilT 30)] w' with
  | Ok w1, Ok w1' => qeq (v_larr (V w1 0)) 10 && qeq (v_larr (V w1' 0)) 5 && (0 <? w_nv w)
  | _, _ => false end.
Lemma slow_lemma : exists c tm nets ds w i w', Forall adds_network nets /\ one_kind ds /\
  foldM (perform c) (nets ++ map ADemand ds)%list (empty_world tm, []) = Ok (w, i) /\ load c (save (w, i)) (empty_world tm, []) = Ok (w', i) /\
  exists a w1 w1' v, calls c [OExec a] w = Ok w1 /\ calls c [OExec a] w' = Ok w1' /\ v < w_nv w /\ ~ (v_larr (V w1' v) == v_larr (V w1 v))%Q.
Proof.
  destruct (trip_back_ok cfg0 (Some 400%Q) (slow_road ++ map ADemand [DOd "A" "B" 0 40 1 (-1)])%list slow_test) as ([w i] & [w' i'] & H1 & H2 & H3); [vm_compute; reflexivity|].
  exists cfg0, (Some 400%Q), slow_road, [DOd "A" "B" 0 40 1 (-1)], w, i, w'.
  split; [unfold slow_road; cbn [map]; repeat (constructor; [first [left; eexists; reflexivity|right; eexists; reflexivity]|]); constructor|].
  split; [intros a b [<- |[]] [<- |[]]; reflexivity|]. split; [exact H1|].
  assert (i' = i).
  { assert (E1 : i = [(0, [DOd "A" "B" 0 40 1 (-1)])]) by (apply (f_equal (fun r => match r with Ok s => snd s | Err _ => [] end)) in H1; vm_compute in H1; symmetry; exact H1).
    assert (E2 : match load cfg0 (save (w, i)) (empty_world (Some 400%Q), []) with Ok s => snd s | Err _ => [] end = i') by (rewrite H2; reflexivity).
    rewrite <- E2, E1. apply (f_equal (fun r => match r with Ok s => fst s | Err _ => empty_world None end)) in H1. cbn [fst] in H1. subst w. vm_compute. reflexivity. }
  subst i'. split; [exact H2|]. cbn [fst] in H3. unfold slow_test in H3.
  destruct (calls cfg0 [OExec (UntilT 30)] w) as [w1|] eqn:E1; [|discriminate]. destruct (calls cfg0 [OExec (UntilT 30)] w') as [w1'|] eqn:E2; [|discriminate].
  exists (UntilT 30), w1, w1', 0. split; [exact E1|]. split; [exact E2|]. apply andb_true_iff in H3. destruct H3 as [H3 K3]. apply andb_true_iff in H3. destruct H3 as [K1 K2].
  apply qeq_iff in K1, K2. apply Nat.ltb_lt in K3. split; [exact K3|]. rewrite K1, K2. intro X. vm_compute in X. discriminate.
Qed.

(** vehicles added one by one are not saved *)
Lemma single_vehicles_lemma : exists c tm acts s s', foldM (perform c) acts (empty_world tm, []) = Ok s /\ load c (save s) (empty_world tm, []) = Ok s' /\
  w_nv (fst s) = 1 /\ w_nv (fst s') = 0.
Proof.
  destruct (trip_back_ok cfg0 (Some 400%Q) (road None ++ [AOp (veh_ 0 2 0)])%list (fun w w' => (w_nv w =? 1) && (w_nv w' =? 0))) as (s & s' & H1 & H2 & H3); [vm_compute; reflexivity|].
  apply andb_true_iff in H3. destruct H3 as [K1 K2]. apply Nat.eqb_eq in K1, K2. exists cfg0, (Some 400%Q), (road None ++ [AOp (veh_ 0 2 0)])%list, s, s'. auto.
Qed.
(** calls of different functions are repeated function by function, so that vehicles change their places *)
Lemma mixed_lemma : exists c tm acts s s', foldM (perform c) acts (empty_world tm, []) = Ok s /\ load c (save s) (empty_world tm, []) = Ok s' /\
  w_nv (fst s') = w_nv (fst s) /\ 1 < w_nv (fst s) /\ v_orig (V (fst s') 1) <> v_orig (V (fst s) 1).
Proof.
  destruct (trip_back_ok cfg0 (Some 400%Q) (road None ++ map ADemand [DOd "A" "C" 0 5 1 (-1); DPoint 90 0 100 100 0 5 1 (-1); DOd "A" "C" 0 5 1 (-1)])%list
    (fun w w' => (w_nv w' =? w_nv w) && (1 <? w_nv w) && negb (v_orig (V w' 1) =? v_orig (V w 1)))) as (s & s' & H1 & H2 & H3); [vm_compute; reflexivity|].
  apply andb_true_iff in H3. destruct H3 as [K1 K2]. apply andb_true_iff in K1. destruct K1 as [K1 K3]. apply negb_true_iff in K2. apply Nat.eqb_neq in K2. apply Nat.eqb_eq in K1. apply Nat.ltb_lt in K3.
  eexists cfg0, (Some 400%Q), _, s, s'. split; [exact H1|]. auto.
Qed.
(** an overridden signal starts in its first phase, the loaded one according to its offset *)
Lemma signal_lemma : exists c tm acts s s', foldM (perform c) acts (empty_world tm, []) = Ok s /\ load c (save s) (empty_world tm, []) = Ok s' /\
  1 < w_nn (fst s) /\ n_phase (N (fst s) 1) = 0 /\ n_phase (N (fst s') 1) = 1.
Proof.
  destruct (trip_back_ok cfg0 (Some 400%Q) (road None ++ [AOp (OOverrideSignal 1 [10%Q; 10%Q] None 5 true)])%list
    (fun w w' => (1 <? w_nn w) && (n_phase (N w 1) =? 0) && (n_phase (N w' 1) =? 1))) as (s & s' & H1 & H2 & H3); [vm_compute; reflexivity|].
  apply andb_true_iff in H3. destruct H3 as [K1 K2]. apply andb_true_iff in K1. destruct K1 as [K1 K3]. apply Nat.eqb_eq in K2, K3. apply Nat.ltb_lt in K1.
  eexists cfg0, (Some 400%Q), _, s, s'. split; [exact H1|]. auto.
Qed.
(** a link with jam_density_per_lane whose jam density was changed cannot be loaded *)
Lemma jam_lemma : exists c tm acts s e, foldM (perform c) acts (empty_world tm, []) = Ok s /\ load c (save s) (empty_world tm, []) = Err e.
Proof.
  assert (X : match foldM (perform cfg0) (road None ++ [AOp (OChangeJam 0 (1#10))])%list (empty_world (Some 400%Q), []) with
    | Ok s => match load cfg0 (save s) (empty_world (Some 400%Q), []) with Err AttributeError => true | _ => false end | Err _ => false end = true) by (vm_compute; reflexivity).
  destruct (foldM (perform cfg0) (road None ++ [AOp (OChangeJam 0 (1#10))])%list (empty_world (Some 400%Q), [])) as [s|] eqn:E; [|discriminate].
  destruct (load cfg0 (save s) (empty_world (Some 400%Q), [])) as [|e] eqn:E2; [discriminate|]. eexists cfg0, (Some 400%Q), _, s, e. split; [exact E|exact E2].
Qed.
