# Generates rocq/theories/Heap.v: rewriting lemmas for heap reads after heap writes.
import re
src=open('/verif/tools/gen_types.py').read()
import types, io, contextlib
buf=io.StringIO()
g={}
with contextlib.redirect_stdout(buf): exec(src,g)
recs=g['recs']
wf=[f for f,_,_ in [r for r in recs if r[0]=='world'][0][3]]
out=[]
out.append('''(** * Heap: reads after writes.  GENERATED by tools/gen_heap.py. *)
From Verif Require Import Base Types Sim.
''')
heap={'modv':('w_vehs','V'),'modl':('w_links','L'),'modn':('w_nodes','N'),'modr':('w_reqs','R')}
names=[]
for m,(fld,acc) in heap.items():
    for f in wf:
        if f==fld: continue
        n=f"{f}_{m}"
        out.append(f"Lemma {n} : forall i f w, {f} ({m} i f w) = {f} w. Proof. reflexivity. Qed.")
        names.append(n)
    for m2,(fld2,acc2) in heap.items():
        if m2==m: continue
        n=f"{acc2}_{m}"
        out.append(f"Lemma {n} : forall i f w, {acc2} ({m} i f w) = {acc2} w. Proof. reflexivity. Qed.")
        names.append(n)
for m,(fld,acc) in heap.items():
    for f in wf:
        if f==fld: continue
        n=f"{acc}_s{f}"
        out.append(f"Lemma {n} : forall a w, {acc} (s{f} a w) = {acc} w. Proof. reflexivity. Qed.")
        names.append(n)
for m,(fld,acc) in heap.items():
    out.append(f"""Lemma {acc}_{m} : forall i f w j, {acc} ({m} i f w) j = if Nat.eqb j i then f ({acc} w i) else {acc} w j.
Proof. reflexivity. Qed.
Lemma {acc}_{m}_same : forall i f w, {acc} ({m} i f w) i = f ({acc} w i).
Proof. intros. rewrite {acc}_{m}, Nat.eqb_refl. reflexivity. Qed.
Lemma {acc}_{m}_other : forall i f w j, j <> i -> {acc} ({m} i f w) j = {acc} w j.
Proof. intros i f w j H. rewrite {acc}_{m}. apply Nat.eqb_neq in H. rewrite H. reflexivity. Qed.""")
    names.append(f"{acc}_{m}_same")
out.append("Global Hint Rewrite "+"\n  ".join(names)+" : hp.")
out.append("""
(** simplify reads after writes at known distinct or equal indices *)
Ltac hs := autorewrite with hp; rs.
Ltac hsin H := autorewrite with hp in H; rs in H.
""")
print("\n".join(out))
