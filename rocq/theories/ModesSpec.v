(** What one expects of gradients, without regard to how they are taken. *)
From Verif Require Import Base TreeUtil NonSeqSpec Precision.
Local Open Scope list_scope.

(** How many numbers an array, and a tree of arrays, of a shape holds. *)
Fixpoint entries (s : list nat) : nat := match s with [] => 1 | n :: s' => n * entries s' end.
Inductive holds : list (list nat) -> nat -> Prop :=
| h_nil : holds [] 0
| h_cons s l n : holds l n -> holds (s :: l) (entries s + n).
Definition numbers (t : tree (list nat)) (n : nat) : Prop := holds (leaves t) n.
(** Only vectors. *)
Definition vectors (t : tree (list nat)) : Prop := forall s, has_leaf t s -> length s = 1.

(** The numbers for which jax can differentiate, in the one and the other
    direction. *)
Definition reals (l : list dtype) : Prop := forall d, In d l -> exists w, d = DFloat w.
Definition reals_or_complex (l : list dtype) : Prop := forall d, In d l -> exists w, d = DFloat w \/ d = DComplex w.
Definition forward_works (arg out : list dtype) : Prop := reals arg /\ arg <> [].
Definition reverse_works (arg out : list dtype) : Prop := reals_or_complex arg /\ reals out.
Definition some_way_works (arg out : list dtype) : Prop := forward_works arg out \/ reverse_works arg out.
