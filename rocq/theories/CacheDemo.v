(** * CacheDemo: reading the state of links between and during timesteps. *)
From Verif Require Import Base Types Sim Build Tac Reach Steps Spec Paths SpecCache Cache Demo MotionDemo.
Local Open Scope string_scope.
Local Open Scope nat_scope.

Definition says (r : result Q) (q : Q) : bool := match r with Ok x => Qeq_bool x q | Err _ => false end.
Definition ask_all (c : cfg) (w : world) (l : lid) (k : cache) : cache :=
  fold_left (fun k q => snd (ask c w q l k)) [QFlow; QQueue; QNum; QDensity; QSpeed] k.

Definition read_test (w : world) (k : cache) : bool :=
  (says (fst (ask cfg_det w QSpeed 0 k)) 20 && says (fst (ask cfg_det w QNum 0 k)) 5 && says (fst (ask cfg_det w QDensity 0 k)) (5 # 520) &&
   says (fst (ask cfg_det w QFlow 0 k)) (100 # 520) && says (fst (ask cfg_det w QQueue 0 k)) 0 && Qeq_bool (k_flow k 0) (100 # 520) &&
   says (fst (ask cfg_det w QSpeed 1 k)) 20 && says (fst (ask cfg_det w QNum 1 k)) 0 &&
   match ctick cfg_det (w, k), tick cfg_det w with
   | Ok (w1, k1), Ok w2 => Qeq_bool (v_x (V w1 0)) 300 && Qeq_bool (v_x (V w2 0)) 300 && is_none (k_flow k1 0)
   | _, _ => false
   end)%bool.

(** scripts with reads *)
Inductive act := ARead (q : query) (l : lid) | AOp (o : op) | ATick.
Definition is_exec (o : op) : bool := match o with OExec _ => true | _ => false end.
Fixpoint cplay (c : cfg) (acts : list act) (w : world) (k : cache) : option (world * cache) :=
  match acts with
  | [] => Some (w, k)
  | ARead q l :: tl => if l <? w_nl w then cplay c tl w (snd (ask c w q l k)) else None
  | AOp o :: tl => if (op_okb o w && speed_b o w && negb (is_exec o))%bool
                   then match apply_op c o w with Ok w1 => cplay c tl w1 k | Err _ => None end else None
  | ATick :: tl => if w_final w then match ctick c (w, k) with Ok (w1, k1) => cplay c tl w1 k1 | Err _ => None end else None
  end.
Lemma cplay_later : forall c s acts w k w' k', clater c keep_speed s (w, k) -> cplay c acts w k = Some (w', k') -> clater c keep_speed s (w', k').
Proof.
  intros c s acts. induction acts as [|[q l|o|] acts IH]; intros w k w' k' H E; cbn [cplay] in E.
  - injection E as <- <-. exact H.
  - destruct (l <? w_nl w) eqn:El; [|discriminate]. apply Nat.ltb_lt in El. eapply IH; [|exact E]. econstructor; [exact H|]. apply cs_read, El.
  - destruct (op_okb o w) eqn:E1; [|discriminate]. destruct (speed_b o w) eqn:E2; [|discriminate]. destruct (is_exec o) eqn:E3; [discriminate|]. cbn in E.
    destruct (apply_op c o w) as [w1|] eqn:Ea; [|discriminate]. apply speed_b_ok in E2. eapply IH; [|exact E]. econstructor; [exact H|].
    eapply cs_op; eauto.
    + apply op_okb_ok. exact E1.
    + intros a ->. discriminate.
    + intros (l & q & -> & _). destruct E2 as (_ & E2). eapply E2. reflexivity.
  - destruct (w_final w) eqn:Ef; [|discriminate]. destruct (ctick c (w, k)) as [[w1 k1]|] eqn:Et; [|discriminate].
    eapply IH; [|exact E]. econstructor; [exact H|]. eapply cs_tick; eauto.
Qed.

(** One vehicle (of DELTAN = 5) on link 0 (520 m); the states are read in several timesteps: the values, and the next timestep. *)
Lemma read_example : exists tm w k, clater cfg_det keep_speed (empty_world tm, empty_cache) (w, k) /\ 0 < w_nl w /\ read_test w k = true.
Proof.
  pose (acts := (map AOp row_net ++ [AOp (OFinalize None); ATick; ARead QFlow 0; ATick; ARead QSpeed 0; ARead QQueue 1; ARead QNum 0; ATick;
    ARead QFlow 0; ARead QQueue 0; ARead QNum 0])%list).
  assert (K : match cplay cfg_det acts (empty_world (Some 200%Q)) empty_cache with Some (w, k) => (0 <? w_nl w) && read_test w k | None => false end = true)
    by (vm_compute; reflexivity).
  destruct (cplay cfg_det acts _ _) as [[w k]|] eqn:E; [|discriminate]. apply andb_true_iff in K. destruct K as (K1 & K2). apply Nat.ltb_lt in K1.
  exists (Some 200%Q), w, k. split; [|auto]. eapply cplay_later; [constructor|exact E].
Qed.

(** Read the speed of an empty link, then change its free flow speed: the next read returns the old speed, and the
    next timestep records the travel time at the old speed, which it does not without the read. *)
Definition stale_test (w : world) : bool :=
  match ask cfg_det w QSpeed 1 empty_cache, apply_op cfg_det (OChangeSpeed 1 5) w with
  | (Ok s, k), Ok w1 =>
      (Qeq_bool s 20 && says (fst (ask cfg_det w1 QSpeed 1 k)) 20 && Qeq_bool (truth cfg_det w1 QSpeed 1) 5 &&
       match ctick cfg_det (w1, k), ctick cfg_det (w1, empty_cache), tick cfg_det w1 with
       | Ok (w2, _), Ok (w3, _), Ok w4 =>
           match last_opt (l_tti (L w2 1)), last_opt (l_tti (L w3 1)), last_opt (l_tti (L w4 1)) with
           | Some a, Some b, Some d => Qeq_bool a 25 && Qeq_bool b 100 && Qeq_bool d 100
           | _, _, _ => false
           end
       | _, _, _ => false
       end)%bool
  | _, _ => false
  end.
Lemma stale_refuted : exists w, reachable cfg_det w /\ stale_test w = true.
Proof. apply (play_witness cfg_det (row_net ++ [OExec (UntilT 10)])%list (Some 200%Q)). vm_compute. reflexivity. Qed.

(** A user function of a node reads the number of vehicles of a link during the timestep in which a vehicle enters it:
    a read after the timestep returns the old number. *)
Definition callback_test (w : world) : bool :=
  match ctick_with cfg_det (fun w k => snd (ask cfg_det w QNum 0 k)) (w, empty_cache) with
  | Ok (w1, k) => (says (fst (ask cfg_det w1 QNum 0 k)) 0 && Qeq_bool (truth cfg_det w1 QNum 0) 5)%bool
  | Err _ => false
  end.
Lemma callback_refuted : exists w, reachable cfg_det w /\ callback_test w = true.
Proof. apply (play_witness cfg_det (row_net ++ [OExec (UntilT 0)])%list (Some 200%Q)). vm_compute. reflexivity. Qed.
