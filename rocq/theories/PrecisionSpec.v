(** What setting the precision should do, from the documentation
    (basemodule.py L613-623, model.py L959-972). *)
From Coq Require Import ZArith.
From Verif Require Import Base TreeUtil NonSeqSpec SerialSpec Precision.
Local Open Scope string_scope.

Inductive single_spelling : prec -> Prop :=
| s1 : single_spelling (PType (DFloat 32)) | s2 : single_spelling (PType (DComplex 64))
| s3 : single_spelling (PStr "float32") | s4 : single_spelling (PStr "complex64")
| s5 : single_spelling (PStr "single") | s6 : single_spelling (PStr "f32")
| s7 : single_spelling (PStr "c64") | s8 : single_spelling (PNum 32).
Inductive double_spelling : prec -> Prop :=
| d1 : double_spelling (PType (DFloat 64)) | d2 : double_spelling (PType (DComplex 128))
| d3 : double_spelling (PStr "float64") | d4 : double_spelling (PStr "complex128")
| d5 : double_spelling (PStr "double") | d6 : double_spelling (PStr "f64")
| d7 : double_spelling (PStr "c128") | d8 : double_spelling (PNum 64).

(** [width w]: real arrays get [w] bits per number, complex ones twice that. *)
Definition converted {V} (astype : arr V -> dtype -> arr V) (w : nat) (a a' : arr V) : Prop :=
  a' = astype a (if is_complex (a_dt a) then DComplex (2 * w) else DFloat w).

(** Same tree, related leaves, dictionaries in the same order. *)
Inductive orel {X Y} (R : X -> Y -> Prop) : tree X -> tree Y -> Prop :=
| or_leaf x y : R x y -> orel R (Leaf x) (Leaf y)
| or_none : orel R NoneT NoneT
| or_dict d e : Forall2 (fun a b => fst a = fst b /\ orel R (snd a) (snd b)) d e -> orel R (Dict d) (Dict e)
| or_lst l m : Forall2 (orel R) l m -> orel R (Lst l) (Lst m)
| or_tup l m : Forall2 (orel R) l m -> orel R (Tup l) (Tup m).

Inductive mconv {V} (astype : arr V -> dtype -> arr V) (w : nat) : pmdl V -> pmdl V -> Prop :=
| mc_atom a a' : m_ready a = m_ready a' ->
    trel (converted astype w) (m_params a) (m_params a') ->
    trel (converted astype w) (m_state a) (m_state a') -> mconv astype w (PAtom a) (PAtom a')
| mc_net r ms ms' : orel (mconv astype w) ms ms' -> mconv astype w (PNet r ms) (PNet r ms').

Inductive all_ready {V} : pmdl V -> Prop :=
| ar_atom a : m_ready a = true -> all_ready (PAtom a)
| ar_net ms : (forall m, has_leaf ms m -> all_ready m) -> all_ready (PNet true ms).

(** Real and complex floating-point data, as opposed to integers and booleans. *)
Definition floating (d : dtype) : bool := match d with DFloat _ | DComplex _ => true | _ => false end.
Definition same_kind (d e : dtype) : Prop :=
  match d, e with
  | DBool, DBool | DInt _, DInt _ | DFloat _, DFloat _ | DComplex _, DComplex _ => True
  | _, _ => False
  end.
