(** Comparisons of the shapes of trees of arrays,
    parametricmatrixmodels/tree_util.py L77-99, L973-1115.
    Simplifications: every leaf is an array (anything else is stopped by the
    annotations); slices have no step; an array is its shape. *)
From Coq Require Import ZArith.
From Verif Require Import Base TreeUtil Serial TrainArgs.
Local Open Scope list_scope.

(** The argument [axis]: [None], an integer, a tuple of integers, a slice. *)
Inductive axis := All | At (z : Z) | Ats (l : list Z) | Sl (lo hi : option Z).

(** Python indexing and slicing of a tuple. *)
Definition index (s : list nat) (z : Z) : result nat :=
  let n := Z.of_nat (length s) in
  let z := (if z <? 0 then z + n else z)%Z in
  if ((0 <=? z) && (z <? n))%Z then
    match nth_error s (Z.to_nat z) with Some v => Ok v | None => Err IndexError end
  else Err IndexError.
Definition clamp (n : nat) (z : Z) : nat :=
  let z := (if z <? 0 then z + Z.of_nat n else z)%Z in
  Z.to_nat (Z.min (Z.max z 0) (Z.of_nat n)).
Definition cut (s : list nat) (lo hi : option Z) : list nat :=
  let n := length s in
  let a := match lo with Some z => clamp n z | None => 0 end in
  let b := match hi with Some z => clamp n z | None => n end in
  firstn (b - a) (skipn a s).

Fixpoint collect {X Y} (f : X -> result Y) (l : list X) : result (list Y) :=
  match l with [] => Ok [] | x :: l' => let* y := f x in let* r := collect f l' in Ok (y :: r) end.
(** [get_shapes] — L77-99. *)
Definition get_shape (ax : axis) (s : list nat) : result (list nat) :=
  match ax with
  | All => Ok s
  | Sl lo hi => Ok (cut s lo hi)
  | At z => collect (index s) [z]
  | Ats l => collect (index s) l
  end.
Definition get_shapes (ax : axis) (t : tree (list nat)) : result (tree (list nat)) := jmapM (get_shape ax) t.

(** The body of the loops, L1003-1014, L1054-1062, L1103-1113: [Ok true] goes on. *)
Fixpoint each_axis (s r : list nat) (l : list Z) : result bool :=
  match l with
  | [] => Ok true
  | z :: l' =>
      let* a := index s z in
      let* b := index r z in
      if (a =? b)%nat then each_axis s r l' else Ok false
  end.
Definition same_along (ax : axis) (s r : list nat) : result bool :=
  match ax with
  | All => Ok (list_eqb s r)
  | Sl lo hi => Ok (list_eqb (cut s lo hi) (cut r lo hi))
  | At z => each_axis s r [z]
  | Ats l => each_axis s r l
  end.
Fixpoint all_along (ax : axis) (r : list nat) (l : list (list nat)) : result bool :=
  match l with
  | [] => Ok true
  | s :: l' => let* b := same_along ax s r in if b then all_along ax r l' else Ok false
  end.
(** [has_uniform_leaf_shapes] — L973-1015. *)
Definition has_uniform (ax : axis) (t : tree (list nat)) : result bool :=
  match leaves t with
  | [] => Ok true
  | r :: l => all_along ax r l
  end.
(** [uniform_leaf_shapes_equal] — L1019-1063. *)
Definition uniform_equal (ax : axis) (t u : tree (list nat)) : result bool :=
  let* a := has_uniform ax t in
  if negb a then Ok false else
  let* b := has_uniform ax u in
  if negb b then Ok false else
  match leaves t, leaves u with
  | s :: _, r :: _ => same_along ax s r
  | _, _ => Err IndexError
  end.
(** [shapes_equal] — L1067-1115. *)
Fixpoint zip_along (ax : axis) (l m : list (list nat)) : result bool :=
  match l, m with
  | s :: l', r :: m' => let* b := same_along ax s r in if b then zip_along ax l' m' else Ok false
  | _, _ => Ok true
  end.
Definition shapes_equal (ax : axis) (t u : tree (list nat)) : result bool :=
  if same_struct t u then zip_along ax (leaves t) (leaves u) else Ok false.
