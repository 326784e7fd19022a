(** * FrameBase: the parts of the state that a timestep leaves alone.
    GENERATED by tools/gen_frame.py. *)
From Verif Require Import Base Types Sim Heap.
Set Implicit Arguments.

Definition vstat (a : vehicle) := (v_name a, v_orig a, v_dep a, v_depsec a, v_princ a, v_mode a, v_prefer a, v_avoid a, v_spec a, v_abortopt a).
Definition lstat (a : link) := (l_name a, l_start a, l_end a, l_len a, l_lanes a, l_u a, l_kappa a, l_tau a, l_w a, l_cap a, l_delta a, l_dpl a, l_ffs a, l_jam a, l_jampl a, l_prio a, l_toll a, l_penalty a, l_group a, l_cout a, l_cin a, l_eulardx a, l_ediedx a).
Definition nstat (a : node) := (n_name a, n_x a, n_y a, n_fcap a, n_lanes a, n_in a, n_out a).
Definition nsig (a : node) := (n_signal a, n_phase a, n_sigt a, n_offset a, n_cycle a, n_siglog a).
Definition rstat (a : request) := (r_orig a, r_dest a, r_depart a, r_taxi a).
Definition wstat (a : world) := (w_nn a, w_nl a, w_nv a, w_nr a, w_T a, w_tmax a, w_tsize a, w_final a, w_prefveh a, w_pending a).

(** [fr w w']: same static data; [frs w w']: and same signal state. *)
Record fr (w w' : world) : Prop := mkFr {
  fr_w : wstat w' = wstat w;
  fr_v : forall v, vstat (V w' v) = vstat (V w v);
  fr_l : forall l, lstat (L w' l) = lstat (L w l);
  fr_n : forall n, nstat (N w' n) = nstat (N w n);
  fr_r : forall r, rstat (R w' r) = rstat (R w r) }.

Record frs (w w' : world) : Prop := mkFrs {
  frs_fr : fr w w';
  frs_sig : forall n, nsig (N w' n) = nsig (N w n) }.

Lemma fr_refl : forall w, fr w w.
Proof. intros; constructor; reflexivity. Qed.
Lemma frs_refl : forall w, frs w w.
Proof. intros; constructor; [apply fr_refl | reflexivity]. Qed.
Lemma fr_trans : forall a b c, fr a b -> fr b c -> fr a c.
Proof.
  intros a b c [] []; constructor; intros; etransitivity; eauto.
Qed.
Lemma frs_trans : forall a b c, frs a b -> frs b c -> frs a c.
Proof.
  intros a b c [] []; constructor; [eapply fr_trans; eauto|]; intros; etransitivity; eauto.
Qed.

Lemma fr_v_name : forall w w', fr w w' -> forall i, v_name (V w' i) = v_name (V w i).
Proof. intros w w' H i. pose proof (fr_v H i) as E. unfold vstat in E. congruence. Qed.
Lemma fr_v_orig : forall w w', fr w w' -> forall i, v_orig (V w' i) = v_orig (V w i).
Proof. intros w w' H i. pose proof (fr_v H i) as E. unfold vstat in E. congruence. Qed.
Lemma fr_v_dep : forall w w', fr w w' -> forall i, v_dep (V w' i) = v_dep (V w i).
Proof. intros w w' H i. pose proof (fr_v H i) as E. unfold vstat in E. congruence. Qed.
Lemma fr_v_depsec : forall w w', fr w w' -> forall i, v_depsec (V w' i) = v_depsec (V w i).
Proof. intros w w' H i. pose proof (fr_v H i) as E. unfold vstat in E. congruence. Qed.
Lemma fr_v_princ : forall w w', fr w w' -> forall i, v_princ (V w' i) = v_princ (V w i).
Proof. intros w w' H i. pose proof (fr_v H i) as E. unfold vstat in E. congruence. Qed.
Lemma fr_v_mode : forall w w', fr w w' -> forall i, v_mode (V w' i) = v_mode (V w i).
Proof. intros w w' H i. pose proof (fr_v H i) as E. unfold vstat in E. congruence. Qed.
Lemma fr_v_prefer : forall w w', fr w w' -> forall i, v_prefer (V w' i) = v_prefer (V w i).
Proof. intros w w' H i. pose proof (fr_v H i) as E. unfold vstat in E. congruence. Qed.
Lemma fr_v_avoid : forall w w', fr w w' -> forall i, v_avoid (V w' i) = v_avoid (V w i).
Proof. intros w w' H i. pose proof (fr_v H i) as E. unfold vstat in E. congruence. Qed.
Lemma fr_v_spec : forall w w', fr w w' -> forall i, v_spec (V w' i) = v_spec (V w i).
Proof. intros w w' H i. pose proof (fr_v H i) as E. unfold vstat in E. congruence. Qed.
Lemma fr_v_abortopt : forall w w', fr w w' -> forall i, v_abortopt (V w' i) = v_abortopt (V w i).
Proof. intros w w' H i. pose proof (fr_v H i) as E. unfold vstat in E. congruence. Qed.
Lemma fr_l_name : forall w w', fr w w' -> forall i, l_name (L w' i) = l_name (L w i).
Proof. intros w w' H i. pose proof (fr_l H i) as E. unfold lstat in E. congruence. Qed.
Lemma fr_l_start : forall w w', fr w w' -> forall i, l_start (L w' i) = l_start (L w i).
Proof. intros w w' H i. pose proof (fr_l H i) as E. unfold lstat in E. congruence. Qed.
Lemma fr_l_end : forall w w', fr w w' -> forall i, l_end (L w' i) = l_end (L w i).
Proof. intros w w' H i. pose proof (fr_l H i) as E. unfold lstat in E. congruence. Qed.
Lemma fr_l_len : forall w w', fr w w' -> forall i, l_len (L w' i) = l_len (L w i).
Proof. intros w w' H i. pose proof (fr_l H i) as E. unfold lstat in E. congruence. Qed.
Lemma fr_l_lanes : forall w w', fr w w' -> forall i, l_lanes (L w' i) = l_lanes (L w i).
Proof. intros w w' H i. pose proof (fr_l H i) as E. unfold lstat in E. congruence. Qed.
Lemma fr_l_u : forall w w', fr w w' -> forall i, l_u (L w' i) = l_u (L w i).
Proof. intros w w' H i. pose proof (fr_l H i) as E. unfold lstat in E. congruence. Qed.
Lemma fr_l_kappa : forall w w', fr w w' -> forall i, l_kappa (L w' i) = l_kappa (L w i).
Proof. intros w w' H i. pose proof (fr_l H i) as E. unfold lstat in E. congruence. Qed.
Lemma fr_l_tau : forall w w', fr w w' -> forall i, l_tau (L w' i) = l_tau (L w i).
Proof. intros w w' H i. pose proof (fr_l H i) as E. unfold lstat in E. congruence. Qed.
Lemma fr_l_w : forall w w', fr w w' -> forall i, l_w (L w' i) = l_w (L w i).
Proof. intros w w' H i. pose proof (fr_l H i) as E. unfold lstat in E. congruence. Qed.
Lemma fr_l_cap : forall w w', fr w w' -> forall i, l_cap (L w' i) = l_cap (L w i).
Proof. intros w w' H i. pose proof (fr_l H i) as E. unfold lstat in E. congruence. Qed.
Lemma fr_l_delta : forall w w', fr w w' -> forall i, l_delta (L w' i) = l_delta (L w i).
Proof. intros w w' H i. pose proof (fr_l H i) as E. unfold lstat in E. congruence. Qed.
Lemma fr_l_dpl : forall w w', fr w w' -> forall i, l_dpl (L w' i) = l_dpl (L w i).
Proof. intros w w' H i. pose proof (fr_l H i) as E. unfold lstat in E. congruence. Qed.
Lemma fr_l_ffs : forall w w', fr w w' -> forall i, l_ffs (L w' i) = l_ffs (L w i).
Proof. intros w w' H i. pose proof (fr_l H i) as E. unfold lstat in E. congruence. Qed.
Lemma fr_l_jam : forall w w', fr w w' -> forall i, l_jam (L w' i) = l_jam (L w i).
Proof. intros w w' H i. pose proof (fr_l H i) as E. unfold lstat in E. congruence. Qed.
Lemma fr_l_jampl : forall w w', fr w w' -> forall i, l_jampl (L w' i) = l_jampl (L w i).
Proof. intros w w' H i. pose proof (fr_l H i) as E. unfold lstat in E. congruence. Qed.
Lemma fr_l_prio : forall w w', fr w w' -> forall i, l_prio (L w' i) = l_prio (L w i).
Proof. intros w w' H i. pose proof (fr_l H i) as E. unfold lstat in E. congruence. Qed.
Lemma fr_l_toll : forall w w', fr w w' -> forall i, l_toll (L w' i) = l_toll (L w i).
Proof. intros w w' H i. pose proof (fr_l H i) as E. unfold lstat in E. congruence. Qed.
Lemma fr_l_penalty : forall w w', fr w w' -> forall i, l_penalty (L w' i) = l_penalty (L w i).
Proof. intros w w' H i. pose proof (fr_l H i) as E. unfold lstat in E. congruence. Qed.
Lemma fr_l_group : forall w w', fr w w' -> forall i, l_group (L w' i) = l_group (L w i).
Proof. intros w w' H i. pose proof (fr_l H i) as E. unfold lstat in E. congruence. Qed.
Lemma fr_l_cout : forall w w', fr w w' -> forall i, l_cout (L w' i) = l_cout (L w i).
Proof. intros w w' H i. pose proof (fr_l H i) as E. unfold lstat in E. congruence. Qed.
Lemma fr_l_cin : forall w w', fr w w' -> forall i, l_cin (L w' i) = l_cin (L w i).
Proof. intros w w' H i. pose proof (fr_l H i) as E. unfold lstat in E. congruence. Qed.
Lemma fr_l_eulardx : forall w w', fr w w' -> forall i, l_eulardx (L w' i) = l_eulardx (L w i).
Proof. intros w w' H i. pose proof (fr_l H i) as E. unfold lstat in E. congruence. Qed.
Lemma fr_l_ediedx : forall w w', fr w w' -> forall i, l_ediedx (L w' i) = l_ediedx (L w i).
Proof. intros w w' H i. pose proof (fr_l H i) as E. unfold lstat in E. congruence. Qed.
Lemma fr_n_name : forall w w', fr w w' -> forall i, n_name (N w' i) = n_name (N w i).
Proof. intros w w' H i. pose proof (fr_n H i) as E. unfold nstat in E. congruence. Qed.
Lemma fr_n_x : forall w w', fr w w' -> forall i, n_x (N w' i) = n_x (N w i).
Proof. intros w w' H i. pose proof (fr_n H i) as E. unfold nstat in E. congruence. Qed.
Lemma fr_n_y : forall w w', fr w w' -> forall i, n_y (N w' i) = n_y (N w i).
Proof. intros w w' H i. pose proof (fr_n H i) as E. unfold nstat in E. congruence. Qed.
Lemma fr_n_fcap : forall w w', fr w w' -> forall i, n_fcap (N w' i) = n_fcap (N w i).
Proof. intros w w' H i. pose proof (fr_n H i) as E. unfold nstat in E. congruence. Qed.
Lemma fr_n_lanes : forall w w', fr w w' -> forall i, n_lanes (N w' i) = n_lanes (N w i).
Proof. intros w w' H i. pose proof (fr_n H i) as E. unfold nstat in E. congruence. Qed.
Lemma fr_n_in : forall w w', fr w w' -> forall i, n_in (N w' i) = n_in (N w i).
Proof. intros w w' H i. pose proof (fr_n H i) as E. unfold nstat in E. congruence. Qed.
Lemma fr_n_out : forall w w', fr w w' -> forall i, n_out (N w' i) = n_out (N w i).
Proof. intros w w' H i. pose proof (fr_n H i) as E. unfold nstat in E. congruence. Qed.
Lemma fr_r_orig : forall w w', fr w w' -> forall i, r_orig (R w' i) = r_orig (R w i).
Proof. intros w w' H i. pose proof (fr_r H i) as E. unfold rstat in E. congruence. Qed.
Lemma fr_r_dest : forall w w', fr w w' -> forall i, r_dest (R w' i) = r_dest (R w i).
Proof. intros w w' H i. pose proof (fr_r H i) as E. unfold rstat in E. congruence. Qed.
Lemma fr_r_depart : forall w w', fr w w' -> forall i, r_depart (R w' i) = r_depart (R w i).
Proof. intros w w' H i. pose proof (fr_r H i) as E. unfold rstat in E. congruence. Qed.
Lemma fr_r_taxi : forall w w', fr w w' -> forall i, r_taxi (R w' i) = r_taxi (R w i).
Proof. intros w w' H i. pose proof (fr_r H i) as E. unfold rstat in E. congruence. Qed.
Lemma fr_w_nn : forall w w', fr w w' -> w_nn w' = w_nn w.
Proof. intros w w' H. pose proof (fr_w H) as E. unfold wstat in E. congruence. Qed.
Lemma fr_w_nl : forall w w', fr w w' -> w_nl w' = w_nl w.
Proof. intros w w' H. pose proof (fr_w H) as E. unfold wstat in E. congruence. Qed.
Lemma fr_w_nv : forall w w', fr w w' -> w_nv w' = w_nv w.
Proof. intros w w' H. pose proof (fr_w H) as E. unfold wstat in E. congruence. Qed.
Lemma fr_w_nr : forall w w', fr w w' -> w_nr w' = w_nr w.
Proof. intros w w' H. pose proof (fr_w H) as E. unfold wstat in E. congruence. Qed.
Lemma fr_w_T : forall w w', fr w w' -> w_T w' = w_T w.
Proof. intros w w' H. pose proof (fr_w H) as E. unfold wstat in E. congruence. Qed.
Lemma fr_w_tmax : forall w w', fr w w' -> w_tmax w' = w_tmax w.
Proof. intros w w' H. pose proof (fr_w H) as E. unfold wstat in E. congruence. Qed.
Lemma fr_w_tsize : forall w w', fr w w' -> w_tsize w' = w_tsize w.
Proof. intros w w' H. pose proof (fr_w H) as E. unfold wstat in E. congruence. Qed.
Lemma fr_w_final : forall w w', fr w w' -> w_final w' = w_final w.
Proof. intros w w' H. pose proof (fr_w H) as E. unfold wstat in E. congruence. Qed.
Lemma fr_w_prefveh : forall w w', fr w w' -> w_prefveh w' = w_prefveh w.
Proof. intros w w' H. pose proof (fr_w H) as E. unfold wstat in E. congruence. Qed.
Lemma fr_w_pending : forall w w', fr w w' -> w_pending w' = w_pending w.
Proof. intros w w' H. pose proof (fr_w H) as E. unfold wstat in E. congruence. Qed.
Lemma frs_n_signal : forall w w', frs w w' -> forall i, n_signal (N w' i) = n_signal (N w i).
Proof. intros w w' H i. pose proof (frs_sig H i) as E. unfold nsig in E. congruence. Qed.
Lemma frs_n_phase : forall w w', frs w w' -> forall i, n_phase (N w' i) = n_phase (N w i).
Proof. intros w w' H i. pose proof (frs_sig H i) as E. unfold nsig in E. congruence. Qed.
Lemma frs_n_sigt : forall w w', frs w w' -> forall i, n_sigt (N w' i) = n_sigt (N w i).
Proof. intros w w' H i. pose proof (frs_sig H i) as E. unfold nsig in E. congruence. Qed.
Lemma frs_n_offset : forall w w', frs w w' -> forall i, n_offset (N w' i) = n_offset (N w i).
Proof. intros w w' H i. pose proof (frs_sig H i) as E. unfold nsig in E. congruence. Qed.
Lemma frs_n_cycle : forall w w', frs w w' -> forall i, n_cycle (N w' i) = n_cycle (N w i).
Proof. intros w w' H i. pose proof (frs_sig H i) as E. unfold nsig in E. congruence. Qed.
Lemma frs_n_siglog : forall w w', frs w w' -> forall i, n_siglog (N w' i) = n_siglog (N w i).
Proof. intros w w' H i. pose proof (frs_sig H i) as E. unfold nsig in E. congruence. Qed.

(** rewrite all static data of [w'] back to [w] *)
Ltac fr_rw H := rewrite ?(fr_v_name H), ?(fr_v_orig H), ?(fr_v_dep H), ?(fr_v_depsec H), ?(fr_v_princ H), ?(fr_v_mode H), ?(fr_v_prefer H), ?(fr_v_avoid H), ?(fr_v_spec H), ?(fr_v_abortopt H), ?(fr_l_name H), ?(fr_l_start H), ?(fr_l_end H), ?(fr_l_len H), ?(fr_l_lanes H), ?(fr_l_u H), ?(fr_l_kappa H), ?(fr_l_tau H), ?(fr_l_w H), ?(fr_l_cap H), ?(fr_l_delta H), ?(fr_l_dpl H), ?(fr_l_ffs H), ?(fr_l_jam H), ?(fr_l_jampl H), ?(fr_l_prio H), ?(fr_l_toll H), ?(fr_l_penalty H), ?(fr_l_group H), ?(fr_l_cout H), ?(fr_l_cin H), ?(fr_l_eulardx H), ?(fr_l_ediedx H), ?(fr_n_name H), ?(fr_n_x H), ?(fr_n_y H), ?(fr_n_fcap H), ?(fr_n_lanes H), ?(fr_n_in H), ?(fr_n_out H), ?(fr_r_orig H), ?(fr_r_dest H), ?(fr_r_depart H), ?(fr_r_taxi H), ?(fr_w_nn H), ?(fr_w_nl H), ?(fr_w_nv H), ?(fr_w_nr H), ?(fr_w_T H), ?(fr_w_tmax H), ?(fr_w_tsize H), ?(fr_w_final H), ?(fr_w_prefveh H), ?(fr_w_pending H).
Ltac fr_rw_in H K := rewrite ?(fr_v_name H), ?(fr_v_orig H), ?(fr_v_dep H), ?(fr_v_depsec H), ?(fr_v_princ H), ?(fr_v_mode H), ?(fr_v_prefer H), ?(fr_v_avoid H), ?(fr_v_spec H), ?(fr_v_abortopt H), ?(fr_l_name H), ?(fr_l_start H), ?(fr_l_end H), ?(fr_l_len H), ?(fr_l_lanes H), ?(fr_l_u H), ?(fr_l_kappa H), ?(fr_l_tau H), ?(fr_l_w H), ?(fr_l_cap H), ?(fr_l_delta H), ?(fr_l_dpl H), ?(fr_l_ffs H), ?(fr_l_jam H), ?(fr_l_jampl H), ?(fr_l_prio H), ?(fr_l_toll H), ?(fr_l_penalty H), ?(fr_l_group H), ?(fr_l_cout H), ?(fr_l_cin H), ?(fr_l_eulardx H), ?(fr_l_ediedx H), ?(fr_n_name H), ?(fr_n_x H), ?(fr_n_y H), ?(fr_n_fcap H), ?(fr_n_lanes H), ?(fr_n_in H), ?(fr_n_out H), ?(fr_r_orig H), ?(fr_r_dest H), ?(fr_r_depart H), ?(fr_r_taxi H), ?(fr_w_nn H), ?(fr_w_nl H), ?(fr_w_nv H), ?(fr_w_nr H), ?(fr_w_T H), ?(fr_w_tmax H), ?(fr_w_tsize H), ?(fr_w_final H), ?(fr_w_prefveh H), ?(fr_w_pending H) in K.
