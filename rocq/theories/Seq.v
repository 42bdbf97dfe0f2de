(** Model of /repo/parametricmatrixmodels/sequentialmodel.py. *)
From Verif Require Import Base TreeUtil.
Local Open Scope list_scope.

(* ------------------------------------------------------------------ *)
(** * The parts of jax.tree that are used *)

(** [jax.tree.structure]: containers with dictionary entries in sorted key
    order; the leaves are kept here but never looked at. *)
Fixpoint treedef {X} (t : tree X) : tree X :=
  match t with
  | Leaf x => Leaf x
  | NoneT => NoneT
  | Dict d => Dict (sort_kvs (map (fun kv => (fst kv, treedef (snd kv))) d))
  | Lst l => Lst (map treedef l)
  | Tup l => Tup (map treedef l)
  end.

(** leaves of a treedef, in order *)
Fixpoint def_leaves {X} (t : tree X) : list X :=
  match t with
  | Leaf x => [x]
  | NoneT => []
  | Dict d => concat (map (fun kv => def_leaves (snd kv)) d)
  | Lst l | Tup l => concat (map def_leaves l)
  end.

(** [treedef.flatten_up_to(u)]: the subtrees of [u] at the leaves of the
    treedef.  A node of another kind, another length or other keys raises
    ValueError. *)
Fixpoint flatten_up_to {X Y} (t : tree X) (u : tree Y) {struct t} : result (list (tree Y)) :=
  match t, u with
  | Leaf _, _ => Ok [u]
  | NoneT, NoneT => Ok []
  | Dict d, Dict e =>
      if negb (Nat.eqb (length d) (length e)) then Err ValueError
      else
        (fix go (d : list (string * tree X)) : result (list (tree Y)) :=
           match d with
           | [] => Ok []
           | (k, x) :: d' =>
               match dget e k with
               | Some y => let* a := flatten_up_to x y in let* b := go d' in Ok (a ++ b)
               | None => Err ValueError
               end
           end) d
  | Lst l, Lst m | Tup l, Tup m =>
      (fix go (l : list (tree X)) (m : list (tree Y)) : result (list (tree Y)) :=
         match l, m with
         | [], [] => Ok []
         | x :: l', y :: m' => let* a := flatten_up_to x y in let* b := go l' m' in Ok (a ++ b)
         | _, _ => Err ValueError
         end) l m
  | _, _ => Err ValueError
  end.

(** [jax.tree.unflatten]: puts the given values at the leaves, in order; returns
    the values left over. *)
Fixpoint unflatten_part {X Y} (t : tree X) (vs : list (tree Y)) {struct t}
  : result (tree Y * list (tree Y)) :=
  let fix go (l : list (tree X)) (vs : list (tree Y)) : result (list (tree Y) * list (tree Y)) :=
    match l with
    | [] => Ok ([], vs)
    | x :: l' => let* (y, vs1) := unflatten_part x vs in
                 let* (ys, vs2) := go l' vs1 in Ok (y :: ys, vs2)
    end in
  match t with
  | Leaf _ => match vs with v :: vs' => Ok (v, vs') | [] => Err ValueError end
  | NoneT => Ok (NoneT, vs)
  | Lst l => let* (ys, vs') := go l vs in Ok (Lst ys, vs')
  | Tup l => let* (ys, vs') := go l vs in Ok (Tup ys, vs')
  | Dict d =>
      let* (e, vs') :=
        (fix god (d : list (string * tree X)) (vs : list (tree Y))
           : result (list (string * tree Y) * list (tree Y)) :=
           match d with
           | [] => Ok ([], vs)
           | (k, x) :: d' => let* (y, vs1) := unflatten_part x vs in
                             let* (e, vs2) := god d' vs1 in Ok ((k, y) :: e, vs2)
           end) d vs in
      Ok (Dict e, vs')
  end.
Definition unflatten {X Y} (t : tree X) (vs : list (tree Y)) : result (tree Y) :=
  let* (u, rest) := unflatten_part t vs in
  match rest with [] => Ok u | _ => Err ValueError end.

(* ------------------------------------------------------------------ *)
(** * The forward pass *)
Section Seq.
Context {A Rng M : Type}.
(** the callable of a module: params, data, training, state, rng (see NonSeq.v) *)
Variable call : M -> tree A -> tree A -> bool -> tree A -> Rng -> result (tree A * tree A).
(** [jax.random.split(rng, n)] *)
Variable split_rng : Rng -> nat -> list Rng.

(** [sequential], L247-271, one step of the reduction; the carry is the data
    and the flat list of new states.  The leaf predicate of the reduction
    (L304-307) recognises the step's 4-tuple only when the parameters are an
    array, list, tuple or dict: with [None] the tuple is taken apart and the
    unpacking of L255-260 fails. *)
Definition seq_step (training : bool) (carry : tree A * list (tree A))
    (md : M * (tree A * (tree A * Rng))) : result (tree A * list (tree A)) :=
  let '(m, (mp, (ms, mr))) := md in
  match mp with
  | NoneT => Err TypeError
  | _ =>
      let* (out, ns) := call m mp (fst carry) training ms mr in
      Ok (out, snd carry ++ [ns])
  end.

(** [model_callable], L273-313.  [jax.tree.map] over several trees flattens the
    others up to the structure of the first; the reduction visits the steps in
    that same order.  The keys are unflattened and flattened again by the map
    (L286-287, L294-300). *)
Definition seq_callable (modules : tree M) (params data : tree A) (training : bool)
    (state : tree A) (rng : Rng) : result (tree A * tree A) :=
  let def := treedef modules in
  let ms := def_leaves def in
  let keys := split_rng rng (length (leaves modules)) in
  let* rngs := unflatten def (map Leaf keys) in
  let* ps := flatten_up_to def params in
  let* ss := flatten_up_to def state in
  let* rs := flatten_up_to def rngs in
  let keys' := flat_map (fun r => match r with Leaf k => [k] | _ => [] end) rs in
  let* (out, news) :=
    rfold (seq_step training) (combine ms (combine ps (combine ss keys'))) (data, []) in
  let* st := unflatten def news in
  Ok (out, st).

(* ------------------------------------------------------------------ *)
(** * Shapes: [compile] L129-153 (the shape bookkeeping) and
    [get_output_shape] L181-194: both fold over [jax.tree.leaves(modules)].
    The final check that a shape has at least one dimension (L149-153,
    L188-192) is [enough]. *)
Context {Sh : Type}.
Variable out_shape : M -> tree Sh -> result (tree Sh).
Variable enough : tree Sh -> bool.

Definition seq_shapes (modules : tree M) (input_shape : tree Sh) : result (tree Sh) :=
  let* o := rfold (fun s m => out_shape m s) (leaves modules) input_shape in
  if enough o then Ok o else Err ValueError.
End Seq.
