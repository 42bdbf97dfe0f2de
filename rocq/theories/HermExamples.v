(* Two-by-two matrices for the examples. *)
From mathcomp Require Import all_ssreflect all_algebra.
From Verif Require Import Herm HermSpec HermProofs.
Set Implicit Arguments.
Unset Strict Implicit.
Unset Printing Implicit Defensive.
Import GRing.Theory Num.Theory.
Local Open Scope ring_scope.

Section Two.
Variable C : numClosedFieldType.

Definition mk (a b c d : C) : 'M[C]_2 :=
  \matrix_(i, j) if i == 0 then (if j == 0 then a else b)
                 else (if j == 0 then c else d).

Lemma mx2P (A B : 'M[C]_2) :
  A 0 0 = B 0 0 -> A 0 1 = B 0 1 -> A 1 0 = B 1 0 -> A 1 1 = B 1 1 -> A = B.
Proof.
move=> h1 h2 h3 h4; apply/matrixP => i j.
have o2 (k : 'I_2) : k = 0 \/ k = 1.
  case: k => [] [|[|k]] lk //; [left|right]; exact: val_inj.
by case: (o2 i) => ->; case: (o2 j) => ->.
Qed.

Lemma mkD a b c d a' b' c' d' :
  mk a b c d + mk a' b' c' d' = mk (a + a') (b + b') (c + c') (d + d').
Proof. by apply: mx2P; rewrite !mxE. Qed.

Lemma mkN a b c d : - mk a b c d = mk (- a) (- b) (- c) (- d).
Proof. by apply: mx2P; rewrite !mxE. Qed.

Lemma mkZ x a b c d : x *: mk a b c d = mk (x * a) (x * b) (x * c) (x * d).
Proof. by apply: mx2P; rewrite !mxE. Qed.

Lemma mkM a b c d a' b' c' d' :
  mk a b c d *m mk a' b' c' d' =
  mk (a * a' + b * c') (a * b' + b * d') (c * a' + d * c') (c * b' + d * d').
Proof.
apply: mx2P; rewrite !mxE !big_ord_recl big_ord0 !mxE /= ?addr0; by [].
Qed.

Lemma mk_ct a b c d : conj_transpose (mk a b c d) = mk a^* c^* b^* d^*.
Proof. by apply: mx2P; rewrite !mxE. Qed.

Lemma mk_herm a b c d :
  herm_part (mk a b c d) =
  mk ((a + a^*) / 2%:R) ((b + c^*) / 2%:R) ((c + b^*) / 2%:R) ((d + d^*) / 2%:R).
Proof. by apply: mx2P; rewrite !mxE. Qed.

Lemma mk0 : (0 : 'M[C]_2) = mk 0 0 0 0.
Proof. by apply: mx2P; rewrite !mxE. Qed.

End Two.
