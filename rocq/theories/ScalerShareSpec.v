(** Where the scalers of a mixed scaler are. *)
From Verif Require Import Base TreeUtil TreeSpec ScalerShare.
Local Open Scope list_scope.

(** A place in a PyTree. *)
Inductive key := Name (s : string) | Pos (i : nat).
Definition down {A} (t : tree A) (k : key) : option (tree A) :=
  match t, k with
  | Dict d, Name s => dget d s
  | Lst l, Pos i => nth_error l i
  | Tup l, Pos i => nth_error l i
  | _, _ => None
  end.
Fixpoint at_path {A} (t : tree A) (p : list key) : option (tree A) :=
  match p with [] => Some t | k :: p' => match down t k with Some u => at_path u p' | None => None end end.

Section Spec.
Context {K St : Type}.
Notation heap := (heap K St).
(** Object [q], a scaler of the class [k] that is not a mixed one, scales the
    part at [p] of the data given to object [r]. *)
Inductive place (h : heap) : nat -> list key -> nat -> K -> Prop :=
| here r k s : nth_error h r = Some (Plain k s) -> place h r [] r k
| under r t p r' p' q k : nth_error h r = Some (Mixed (Some t)) -> at_path t p = Some (Leaf r') -> place h r' p' q k -> place h r (p ++ p') q k.
(** The part at [p] is left alone. *)
Inductive left_out (h : heap) : nat -> list key -> Prop :=
| out_all r : nth_error h r = Some (Mixed None) -> left_out h r []
| out_none r t p : nth_error h r = Some (Mixed (Some t)) -> at_path t p = Some NoneT -> left_out h r p
| out_under r t p r' p' : nth_error h r = Some (Mixed (Some t)) -> at_path t p = Some (Leaf r') -> left_out h r' p' -> left_out h r (p ++ p').
(** No object is used in two places. *)
Definition unshared (h : heap) (r : nat) : Prop := forall p p' q k k', place h r p q k -> place h r p' q k' -> p = p'.
(** Python dictionaries. *)
Definition wf_heap (h : heap) : Prop := forall r t, nth_error h r = Some (Mixed (Some t)) -> wf_tree t.
End Spec.
