(** Model of batching: /repo/parametricmatrixmodels/tree_util.py L872-907,
    L1119-1295 and [autobatch] of model_util.py L73-262. *)
From Verif Require Import Base TreeUtil NonSeq Seq.
Local Open Scope list_scope.

(** Arrays are lists of rows along axis 0; what a row is stays abstract.
    [jax.tree.map(f, t)] on one tree of arrays. *)
Definition tmapA {X Y} (f : X -> result Y) (t : tree X) : result (tree Y) :=
  tmapM (fun x => let* y := f x in Ok (Leaf y)) t.

(** [jax.lax.dynamic_slice_in_dim(x, start, length, axis=0)]: the length must
    not exceed the axis (TypeError) and the start is moved back so that the
    slice fits. *)
Definition dynamic_slice {S} (x : list S) (start len : nat) : result (list S) :=
  if length x <? len then Err TypeError
  else Ok (firstn len (skipn (Nat.min start (length x - len)) x)).

(** batch_leaves, tree_util.py L1119-1161 *)
Definition batch_leaves {S} (t : tree (list S)) (size idx : nat) (len : option nat)
  : result (tree (list S)) :=
  let start := idx * size in
  let len := match len with Some n => n | None => size end in
  tmapA (fun x => dynamic_slice x start len) t.

(** [jax.tree.leaves(t)[0].shape[0]] *)
Definition first_size {S} (t : tree (list S)) : result nat :=
  match leaves t with [] => Err IndexError | x :: _ => Ok (length x) end.

(** pytree_split, tree_util.py L1165-1232.  The vmap over the batch indices
    slices every leaf; the slice size is checked when it is traced, also when
    there is no full batch. *)
Definition pytree_split {S} (t : tree (list S)) (size : nat)
  : result (tree (list (list S)) * option (tree (list S))) :=
  let* n := first_size t in
  if size =? 0 then Err ZeroDivisionError
  else
    let num := n / size in
    let* parts := tmapA (fun x => if length x <? size then Err TypeError
                                  else rmapM (fun b => dynamic_slice x (b * size) size) (seq 0 num)) t in
    let rem := n mod size in
    if 0 <? rem then
      let* r := batch_leaves t size num (Some rem) in Ok (parts, Some r)
    else Ok (parts, None).

(** Two trees of arrays joined leaf by leaf; different structures raise
    ValueError.  Dictionaries are compared in their given order (JAX sorts the
    keys of both, so their insertion order is never seen). *)
Fixpoint tapp {S} (t u : tree (list S)) {struct t} : result (tree (list S)) :=
  let fix go (l m : list (tree (list S))) : result (list (tree (list S))) :=
    match l, m with
    | [], [] => Ok []
    | x :: l', y :: m' => let* z := tapp x y in let* zs := go l' m' in Ok (z :: zs)
    | _, _ => Err ValueError
    end in
  match t, u with
  | Leaf x, Leaf y => Ok (Leaf (x ++ y))
  | NoneT, NoneT => Ok NoneT
  | Lst l, Lst m => let* zs := go l m in Ok (Lst zs)
  | Tup l, Tup m => let* zs := go l m in Ok (Tup zs)
  | Dict d, Dict e =>
      let* zs :=
        (fix god (d e : list (string * tree (list S))) : result (list (string * tree (list S))) :=
           match d, e with
           | [], [] => Ok []
           | (k, x) :: d', (k', y) :: e' =>
               if String.eqb k k' then
                 let* z := tapp x y in let* zs := god d' e' in Ok ((k, z) :: zs)
               else Err ValueError
           | _, _ => Err ValueError
           end) d e in
      Ok (Dict zs)
  | _, _ => Err ValueError
  end.

(** concatenate, tree_util.py L872-907, axis 0 *)
Definition concatenate {S} (ts : list (tree (list S))) : result (tree (list S)) :=
  match ts with
  | [] => Err ValueError
  | t :: ts' => rfold tapp ts' t
  end.

(* ------------------------------------------------------------------ *)
(** * autobatch, model_util.py L73-262 *)
Section Autobatch.
Context {S O St : Type}.
(** the wrapped callable with parameters, training flag and key fixed (L114-125:
    they are passed unchanged to every call) *)
Variable fn : tree (list S) -> St -> result (tree (list O) * St).
(** rows without a further axis, i.e. the array has one axis only *)
Variable scalar_row : S -> bool.

(** [X_batch = tree.map(lambda x: x[j], X_batches)] L173, and the same slices
    inside [lax.scan] L182-186 *)
Definition part_at (parts : tree (list (list S))) (j : nat) : result (tree (list S)) :=
  tmapA (fun x => match nth_error x j with Some b => Ok b | None => Err IndexError end) parts.

(** [x[j][None, :]] L213-215: a row that is a scalar cannot be indexed that way *)
Definition single_row (x : list S) (j : nat) : result (list S) :=
  match nth_error x j with
  | Some r => if scalar_row r then Err IndexError else Ok [r]
  | None => Err IndexError
  end.

(** the loops L168-177, L182-186 and L209-223: one call per index, state
    threaded, outputs collected.  The progress bar is left out. *)
Definition batch_loop (get : nat -> result (tree (list S))) (js : list nat) (st : St)
  : result (list (tree (list O)) * St) :=
  rfold (fun acc j => let* x := get j in
                      let* (o, st') := fn x (snd acc) in
                      Ok (fst acc ++ [o], st')) js ([], st).

(** [batched_fn].  In the scan branch the stacked outputs, reshaped to merge the
    two leading axes (L190-195), are the outputs in order one after the other,
    which is also what [concatenate] gives in the other branch (L179-183);
    [lax.scan] additionally requires all outputs and states to have one shape,
    which is not modelled. *)
Definition autobatch (max_batch_size : option nat) (avoid_recompilation : bool)
    (X : tree (list S)) (st : St) : result (tree (list O) * St) :=
  let* n := first_size X in
  match max_batch_size with
  | None => fn X st
  | Some m =>
      if n <=? m then fn X st
      else if m =? 0 then Err ZeroDivisionError
      else
        let num := n / m in
        let rem := n mod m in
        let* (parts, remainder) := pytree_split X m in
        let* (outs, st1) := batch_loop (part_at parts) (seq 0 num) st in
        let* out := concatenate outs in
        match remainder with
        | Some xr =>
            if avoid_recompilation then
              let* (outs_r, st2) :=
                batch_loop (fun j => tmapA (fun x => single_row x j) xr) (seq 0 rem) st1 in
              let* out_r := concatenate outs_r in
              let* o := concatenate [out; out_r] in
              Ok (o, st2)
            else
              let* (out_r, st2) := fn xr st1 in
              let* o := concatenate [out; out_r] in
              Ok (o, st2)
        | None => Ok (out, st1)
        end
  end.
End Autobatch.

(* ------------------------------------------------------------------ *)
(** * random_permute_leaves, tree_util.py L1236-1295 (axis 0, rows moved as a
    whole).  [perm key n] is the permutation [jax.random.permutation] derives
    from a key for an axis of length [n]: position [i] of the result holds row
    [nth i (perm key n)].  With one key for all leaves the permutation depends
    only on the key and the length (JAX computes it by sorting random bits of
    that length); [independent_leaves] splits the key per leaf. *)
Section Shuffle.
Context {Rng : Type}.
Variable perm : Rng -> nat -> list nat.
Variable split_rng : Rng -> nat -> list Rng.

Definition permute_rows {S} (x : list S) (p : list nat) : list S :=
  flat_map (fun i => match nth_error x i with Some r => [r] | None => [] end) p.

Definition random_permute_leaves {S} (t : tree (list S)) (key : Rng) (independent_leaves : bool)
  : result (tree (list S)) :=
  if independent_leaves then
    let keys := split_rng key (length (leaves t)) in
    unflatten (treedef t)
      (map (fun xk => Leaf (permute_rows (fst xk) (perm (snd xk) (length (fst xk)))))
           (combine (leaves t) keys))
  else tmapA (fun x => Ok (permute_rows x (perm key (length x)))) t.
End Shuffle.
