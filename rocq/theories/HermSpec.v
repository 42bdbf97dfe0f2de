(* What the matrix-valued modules are supposed to compute, stated without the
   model's functions. *)
From mathcomp Require Import all_ssreflect all_algebra.
Set Implicit Arguments.
Unset Strict Implicit.
Unset Printing Implicit Defensive.
Import GRing.Theory Num.Theory.
Local Open Scope ring_scope.

Section Spec.
Variable C : numClosedFieldType.

(* A matrix is Hermitian when each entry is the conjugate of its mirror. *)
Definition hermitian (n : nat) (A : 'M[C]_n) : Prop :=
  forall j k, A j k = conjC (A k j).

(* a is an eigenvalue of A with a (column) eigenvector. *)
Definition has_eigenvalue (n : nat) (A : 'M[C]_n) (a : C) : Prop :=
  exists v : 'cV[C]_n, v != 0 /\ A *m v = a *: v.

Definition all_real (s : seq C) : Prop := forall x, x \in s -> x \is Num.real.

(* i times the sum over all pairs j < k (counted from 0) of
   [M_k, M_j] = M_k M_j - M_j M_k. *)
Definition smoothing_spec (n : nat) (Ms : seq 'M[C]_n) : 'M[C]_n :=
  'i *: \sum_(k < size Ms) \sum_(j < size Ms | (j < k)%N)
          (Ms`_k *m Ms`_j - Ms`_j *m Ms`_k).

(* The Hermitian part of a matrix, entry by entry. *)
Definition herm_part (n : nat) (A : 'M[C]_n) : 'M[C]_n :=
  \matrix_(j, k) ((A j k + conjC (A k j)) / 2%:R).

(* M_0 + c_1 M_1 + ... + c_p M_p + s * (smoothing term), resp. without M_0. *)
Definition affine_spec (n : nat) (bias : bool) (s : C) (Ms : seq 'M[C]_n)
    (c : seq C) : 'M[C]_n :=
  \sum_(k < size Ms) (if bias then 1 :: c else c)`_k *: Ms`_k
  + s *: smoothing_spec Ms.

(* <u| D |v> for column vectors. *)
Definition amplitude (n : nat) (u : 'cV[C]_n) (D : 'M[C]_n) (v : 'cV[C]_n) : C :=
  ((map_mx conjC u)^T *m D *m v) 0 0.

Definition orthonormal_cols (n r : nat) (U : 'M[C]_(n, r)) : Prop :=
  (map_mx conjC U)^T *m U = 1%:M.

(* (1 - t) x + t y, entry by entry. *)
Definition mix (t : C) (x y : seq C) : seq C :=
  [seq (1 - t) * a.1 + t * a.2 | a <- zip x y].

End Spec.
