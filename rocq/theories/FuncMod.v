(** Modules given by a function: /repo/parametricmatrixmodels/modules/funcbase.py
    L86-168.

    Simplifications.  The function [f] of the subclass is any function from trees
    of arrays to trees of arrays or an error; numbers are any type with a zero;
    types of numbers are not modelled (the trial run uses float32). *)
From Coq Require Import ZArith.
From Verif Require Import Base TreeUtil NdArray Serial Layers Shapes.
Local Open Scope list_scope.

(** [None] in a tree of shapes; [is_shape_leaf] (tree_util.py L965) makes it a leaf. *)
Fixpoint none_in {X} (t : tree X) : bool :=
  match t with
  | Leaf _ => false
  | NoneT => true
  | Dict d => (fix go (d : list (string * tree X)) := match d with [] => false | (_, x) :: d' => none_in x || go d' end) d
  | Lst l | Tup l => (fix go (l : list (tree X)) := match l with [] => false | x :: l' => none_in x || go l' end) l
  end.

Section FuncMod.
Context {V : Type} (zero : V) (f : tree (arr V) -> result (tree (arr V))).

(** The trial input, L135-142: zeros with one sample in every leaf. *)
Definition trial (s : list nat) : arr V := mk_arr (1 :: s) (repeat zero (prod (1 :: s))).
(** get_output_shape, L118-155: [(1,) + None] is a TypeError; every error of [f]
    becomes a RuntimeError; the shapes of the output without the first axis. *)
Definition func_shape (input_shape : tree (list nat)) : result (tree (list nat)) :=
  if none_in input_shape then Err TypeError else
  let* dummy := jmapM (fun s => Ok (trial s)) input_shape in
  match f dummy with
  | Err _ => Err RuntimeError
  | Ok out => jmapM (fun a => get_shape (Sl (Some 1%Z) None) (shp a)) out
  end.
(** compile, L102-116 *)
Definition func_compile (input_shape : tree (list nat)) : result unit :=
  let* _ := func_shape input_shape in Ok tt.
(** _get_callable, L76-100, with the check of the first axis by [@jaxtyped]
    (Layers.v). *)
Definition func_call {St} (data : tree (arr V)) (state : St) : result (tree (arr V) * St) :=
  let* out := f data in
  let* _ := check_batch data out in
  Ok (out, state).
End FuncMod.
