# Generates rocq/theories/FrameBase.v: the parts of the state a timestep leaves alone.
vs="v_name v_orig v_dep v_depsec v_princ v_mode v_prefer v_avoid v_spec v_abortopt".split()
ls="l_name l_start l_end l_len l_lanes l_u l_kappa l_tau l_w l_cap l_delta l_dpl l_ffs l_jam l_jampl l_prio l_toll l_penalty l_group l_cout l_cin l_eulardx l_ediedx".split()
ns="n_name n_x n_y n_fcap n_lanes n_in n_out".split()
sg="n_signal n_phase n_sigt n_offset n_cycle n_siglog".split()
rq="r_orig r_dest r_depart r_taxi".split()
ws="w_nn w_nl w_nv w_nr w_T w_tmax w_tsize w_final w_prefveh w_pending".split()
def tup(fs,x): return "("+", ".join(f"{f} {x}" for f in fs)+")"
print('''(** * FrameBase: the parts of the state that a timestep leaves alone.
    GENERATED by tools/gen_frame.py. *)
From Verif Require Import Base Types Sim Heap.
Set Implicit Arguments.
''')
print(f"Definition vstat (a : vehicle) := {tup(vs,'a')}.")
print(f"Definition lstat (a : link) := {tup(ls,'a')}.")
print(f"Definition nstat (a : node) := {tup(ns,'a')}.")
print(f"Definition nsig (a : node) := {tup(sg,'a')}.")
print(f"Definition rstat (a : request) := {tup(rq,'a')}.")
print(f"Definition wstat (a : world) := {tup(ws,'a')}.")
print('''
(** [fr w w']: same static data; [frs w w']: and same signal state. *)
Record fr (w w' : world) : Prop := mkFr {
  fr_w : wstat w' = wstat w;
  fr_v : forall v, vstat (V w' v) = vstat (V w v);
  fr_l : forall l, lstat (L w' l) = lstat (L w l);
  fr_n : forall n, nstat (N w' n) = nstat (N w n);
  fr_r : forall r, rstat (R w' r) = rstat (R w r) }.

Record frs (w w' : world) : Prop := mkFrs {
  frs_fr : fr w w';
  frs_sig : forall n, nsig (N w' n) = nsig (N w n) }.

Lemma fr_refl : forall w, fr w w.
Proof. intros; constructor; reflexivity. Qed.
Lemma frs_refl : forall w, frs w w.
Proof. intros; constructor; [apply fr_refl | reflexivity]. Qed.
Lemma fr_trans : forall a b c, fr a b -> fr b c -> fr a c.
Proof.
  intros a b c [] []; constructor; intros; etransitivity; eauto.
Qed.
Lemma frs_trans : forall a b c, frs a b -> frs b c -> frs a c.
Proof.
  intros a b c [] []; constructor; [eapply fr_trans; eauto|]; intros; etransitivity; eauto.
Qed.
''')
names=[]
for fs,acc,fld,T in ((vs,'V','fr_v','vstat'),(ls,'L','fr_l','lstat'),(ns,'N','fr_n','nstat'),(rq,'R','fr_r','rstat')):
    for f in fs:
        print(f"Lemma fr_{f} : forall w w', fr w w' -> forall i, {f} ({acc} w' i) = {f} ({acc} w i).\nProof. intros w w' H i. pose proof ({fld} H i) as E. unfold {T} in E. congruence. Qed.")
        names.append(f"fr_{f}")
for f in ws:
    print(f"Lemma fr_{f} : forall w w', fr w w' -> {f} w' = {f} w.\nProof. intros w w' H. pose proof (fr_w H) as E. unfold wstat in E. congruence. Qed.")
    names.append(f"fr_{f}")
for f in sg:
    print(f"Lemma frs_{f} : forall w w', frs w w' -> forall i, {f} (N w' i) = {f} (N w i).\nProof. intros w w' H i. pose proof (frs_sig H i) as E. unfold nsig in E. congruence. Qed.")
print()
print("(** rewrite all static data of [w'] back to [w] *)")
print("Ltac fr_rw H := rewrite ?(" + "), ?(".join(f"{n} H" for n in names) + ").")
print("Ltac fr_rw_in H K := rewrite ?(" + "), ?(".join(f"{n} H" for n in names) + ") in K.")
