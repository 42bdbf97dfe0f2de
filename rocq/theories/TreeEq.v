(** Comparison of trees: [any], [all_equal], [all_close],
    /repo/parametricmatrixmodels/tree_util.py L14-76, and the check of the
    data in every call of a model, model.py [_verify_input] L492-506.

    Simplifications:
    - numbers are any type with a decidable equality (no NaN, which differs
      from itself) and a relation [close];
    - a leaf is an array of jax, an array of numpy or any other value;
    - the truth value of an array with several entries raises ValueError, that
      of an empty one as well. *)
From Verif Require Import Base TreeUtil NdArray NonSeqSpec TrainArgs Params.
Local Open Scope list_scope.

Section TreeEq.
Context {V : Type} (eqb close : V -> V -> bool) (dv : V).

Inductive lf := JaxArr (a : arr V) | NpArr (a : arr V) | Other (v : V).
(** [any], L14-25: the truth value of the leaves is an argument. *)
Definition any (truth : V -> bool) (t : tree V) : bool := existsb truth (leaves t).
(** A leaf as an array in comparisons. *)
Definition as_arr (x : lf) : arr V := match x with JaxArr a | NpArr a => a | Other v => mk_arr [] [v] end.
(** [leaf1 != leaf2] as a condition, L45 and L74. *)
Definition differ (x y : lf) : result bool :=
  match x, y with
  | Other v, Other w => Ok (negb (eqb v w))
  | _, _ => let* r := abin dv dv (fun v w => negb (eqb v w)) (as_arr x) (as_arr y) in
            match dat r with [b] => Ok b | _ => Err ValueError end
  end.
(** [jax.numpy.array_equal] and [jax.numpy.allclose] (which broadcasts). *)
Fixpoint all2 (f : V -> V -> bool) (l m : list V) : bool :=
  match l, m with x :: l', y :: m' => f x y && all2 f l' m' | [], [] => true | _, _ => false end.
Definition array_equal (a b : arr V) : bool := TrainArgs.list_eqb (shp a) (shp b) && all2 eqb (dat a) (dat b).
Definition allclose (a b : arr V) : result bool :=
  let* r := abin dv dv close a b in Ok (forallb (fun x : bool => x) (dat r)).
(** The bodies of the loops, L40-47 and L69-76. *)
Definition eq_leaf (x y : lf) : result bool :=
  match x, y with
  | JaxArr a, JaxArr b => Ok (array_equal a b)
  | _, _ => let* d := differ x y in Ok (negb d)
  end.
Definition close_leaf (x y : lf) : result bool :=
  match x, y with
  | JaxArr a, JaxArr b => allclose a b
  | _, _ => let* d := differ x y in Ok (negb d)
  end.
Fixpoint loop (f : lf -> lf -> result bool) (l m : list lf) : result bool :=
  match l, m with
  | x :: l', y :: m' => let* b := f x y in if b then loop f l' m' else Ok false
  | _, _ => Ok true
  end.
Definition all_equal (t u : tree lf) : result bool :=
  if same_struct t u then loop eq_leaf (leaves t) (leaves u) else Ok false.
Definition all_close (t u : tree lf) : result bool :=
  if same_struct t u then loop close_leaf (leaves t) (leaves u) else Ok false.
End TreeEq.
Arguments JaxArr {V}. Arguments NpArr {V}. Arguments Other {V}.

(** A shape as jax sees it: a tuple of numbers. *)
Definition jax_shape (s : list nat) : tree (lf (V := nat)) := Tup (map (fun n => Leaf (Other n)) s).
(** [get_shapes(X, axis=slice(1, None))], tree_util.py L80-104. *)
Definition shapes_1 (X : tree (list nat)) : tree (lf (V := nat)) := tsub (fun s => jax_shape (tl s)) X.
(** [_verify_input], model.py L492-506; data are given by their shapes. *)
Definition verify_input (ready : bool) (input_shape X : tree (list nat)) : result unit :=
  if ready then
    let* b := all_equal Nat.eqb 0 (tsub jax_shape input_shape) (shapes_1 X) in
    if b then Ok tt else Err ValueError
  else Err RuntimeError.
