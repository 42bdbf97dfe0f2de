(** Model of the forward pass and the shape bookkeeping of
    /repo/parametricmatrixmodels/nonsequentialmodel.py. *)
From Verif Require Import Base TreeUtil Resolve Connections.
Local Open Scope string_scope.
Local Open Scope list_scope.

(** [jax.tree.map(f, t)] where [f] may raise and returns a tree that is put in
    place of the leaf.  [None] is an empty node.  JAX rebuilds dictionaries with
    sorted keys; here the entries keep their position, a difference that no
    lookup can see (flattening sorts the keys again). *)
Fixpoint tmapM {X Y} (f : X -> result (tree Y)) (t : tree X) : result (tree Y) :=
  let fix go (l : list (tree X)) : result (list (tree Y)) :=
    match l with
    | [] => Ok []
    | x :: l' => let* y := tmapM f x in let* ys := go l' in Ok (y :: ys)
    end in
  match t with
  | Leaf x => f x
  | NoneT => Ok NoneT
  | Lst l => let* ys := go l in Ok (Lst ys)
  | Tup l => let* ys := go l in Ok (Tup ys)
  | Dict d =>
      let* e := (fix god (d : list (string * tree X)) : result (list (string * tree Y)) :=
                   match d with
                   | [] => Ok []
                   | (k, x) :: d' => let* y := tmapM f x in let* e := god d' in Ok ((k, y) :: e)
                   end) d in
      Ok (Dict e)
  end.

(** [is_shape_leaf] (tree_util.py L948-969) applied to data: [None] and the
    empty tuple are leaves (a tuple of Python integers is not data). *)
Definition shape_leaf_data {A} (t : tree A) : bool :=
  match t with NoneT | Tup [] => true | _ => false end.
(** applied to shapes: a shape (tuple of integers) is a [Leaf] of the model. *)
Definition shape_leaf_shape {A} (t : tree A) : bool :=
  match t with NoneT | Leaf _ | Tup [] => true | _ => false end.

Definition reserved_name (p : string) : bool := String.eqb p "input" || String.eqb p "output".

Section NonSeq.
Variable sep : ascii.
Context {A Rng M : Type}.          (* arrays, random keys, modules *)

(** [module._get_callable()] applied to (params, data, training, state, rng);
    it may raise *)
Variable call : M -> tree A -> tree A -> bool -> tree A -> Rng -> result (tree A * tree A).

(** [getitem_by_strpath(tree, p, allow_early_return=False,
    return_remainder=False, is_leaf=...)] *)
Definition look {X} (is_leaf : tree X -> bool) (t : tree X) (p : string) : result (tree X) :=
  rmap fst (getitem sep is_leaf false t p).

(** [extend_structure_from_strpaths(None, execution_order)]: all slots None
    (L597-610, L835-841); the leaf comparison is never used for None fills. *)
Definition empty_slots {X} (order : list string) : result (tree X) :=
  extend_structure (fun _ _ => false) sep None order (FillOne NoneT).

(** L847-907: one module.  [acc] is (intermediate_outputs, new_state). *)
Definition node_step (params : tree A) (training : bool) (rng : Rng)
    (acc : tree A * tree A) (x : string * (option M * tree string))
  : result (tree A * tree A) :=
  let '(inter, st) := acc in
  let '(p, (m, deps)) := x in
  if reserved_name p then Ok acc                                    (* L852-853 *)
  else
    let* in_data := tmapM (look shape_leaf_data inter) deps in      (* L856-866 *)
    let* mp := look no_leaf params p in                             (* L868-874 *)
    let* ms := look no_leaf st p in                                 (* L875-881 *)
    match m with
    | None => Err TypeError                       (* None is not callable *)
    | Some m =>
        let* (out, ns) := call m mp in_data training ms rng in      (* L884-890 *)
        let* inter' := setitem sep no_leaf inter p out in           (* L893-898 *)
        let* st' := setitem sep no_leaf st p ns in                  (* L900-905 *)
        Ok (inter', st')
    end.

(** nonseq_callable, L826-923.  [new_state = state] (L849) is the object the
    caller passed: the second component is also the content of the caller's
    object after the call.  [zip] (L849-853) stops at the shortest list. *)
Definition nonseq_callable (order : list string) (callables : list (option M))
    (deps : list (tree string)) (out_deps : tree string)
    (params data : tree A) (training : bool) (state : tree A) (rng : Rng)
  : result (tree A * tree A) :=
  let* inter0 := empty_slots order in
  let* inter1 := setitem sep no_leaf inter0 "input" data in
  let* (inter, st) := rfold (node_step params training rng)
                        (combine order (combine callables deps)) (inter1, state) in
  let* out := tmapM (look shape_leaf_data inter) out_deps in        (* L907-919 *)
  Ok (out, st).

(** get_execution_order, L292-329 *)
Definition get_execution_order {X} (modules : tree X) (conns : dict cval) : result (list string) :=
  let* g := get_outer_connections sep "input" "output" modules conns in
  if negb (dmem g "input") then Err ValueError
  else let* (order, _) := resolve_connections g "input" "output" in Ok order.

(** L548-561 and L816-824: for every module path of the order *)
Definition body (order : list string) : list string :=
  filter (fun p => negb (reserved_name p)) order.

(** _get_module_input_dependencies, L523-563 ([None] first, L548) *)
Definition module_input_dependencies {X} (uuid : nat -> string) (modules : tree X)
    (conns : dict cval) : result (list (tree string) * tree string) :=
  let* order := get_execution_order modules conns in
  let* (placed, outrem) := place_connections sep uuid "input" "output" modules conns in
  let* deps := rmapM (look no_leaf placed) (body order) in
  Ok (NoneT :: deps, outrem).

(** L816-824: [None] for the input, then the callables in order; a path that
    leads to a container has no [_get_callable]. *)
Definition module_callables (modules : tree M) (order : list string) : result (list (option M)) :=
  let* ms := rmapM (fun p => let* t := look no_leaf modules p in
                             match t with Leaf m => Ok (Some m) | _ => Err AttributeError end)
                   (body order) in
  Ok (None :: ms).

(** A compiled model applied to data: _get_callable (L737-925) followed by the
    call.  make_mutable (L811) was applied in __init__ and on every edit; the
    theorems take tuple-free modules. *)
Definition nonseq_model (uuid : nat -> string) (modules : tree M) (conns : dict cval)
    (params data : tree A) (training : bool) (state : tree A) (rng : Rng)
  : result (tree A * tree A) :=
  let* order := get_execution_order modules conns in
  let* callables := module_callables modules order in
  let* (deps, out_deps) := module_input_dependencies uuid modules conns in
  nonseq_callable order callables deps out_deps params data training state rng.

(* ------------------------------------------------------------------ *)
(** * Shapes: _get_shape_progression — L565-703 *)
Context {Sh : Type}.
Variable out_shape : M -> tree Sh -> result (tree Sh).   (* get_output_shape *)

(** L630-690; every failure of get_output_shape becomes RuntimeError *)
Definition shape_step (modules : tree M) (acc : tree Sh * tree Sh) (x : string * tree string)
  : result (tree Sh * tree Sh) :=
  let '(ins, outs) := acc in
  let '(p, deps) := x in
  if reserved_name p then Ok acc
  else
    let* in_shapes := tmapM (look shape_leaf_shape outs) deps in
    let* ins' := setitem sep shape_leaf_shape ins p in_shapes in
    let* m := look no_leaf modules p in
    match m with
    | Leaf m =>
        match out_shape m in_shapes with
        | Ok o => let* outs' := setitem sep shape_leaf_shape outs p o in Ok (ins', outs')
        | Err _ => Err RuntimeError
        end
    | _ => Err RuntimeError
    end.

Definition shape_progression (modules : tree M) (order : list string)
    (deps : list (tree string)) (out_deps : tree string) (input_shape : tree Sh)
  : result (tree Sh * tree Sh * tree Sh) :=
  let* ins0 := empty_slots order in
  let* outs0 := empty_slots order in
  let* outs1 := setitem sep shape_leaf_shape outs0 "input" input_shape in
  let* (ins, outs) := rfold (shape_step modules) (combine order deps) (ins0, outs1) in
  let* o := tmapM (look shape_leaf_shape outs) out_deps in
  Ok (ins, outs, o).

(** The shapes of a model: [compile] L372-521 and [get_output_shape] L705-735
    both run the execution order and the dependencies through
    [_get_shape_progression].  [compile]'s parameter initialisation is not
    modelled. *)
Definition model_shapes (uuid : nat -> string) (modules : tree M) (conns : dict cval)
    (input_shape : tree Sh) : result (tree Sh * tree Sh * tree Sh) :=
  let* order := get_execution_order modules conns in
  let* (deps, out_deps) := module_input_dependencies uuid modules conns in
  shape_progression modules order deps out_deps input_shape.

(** What the caller can see after a call of the bare callable.  [new_state =
    state] (L849) makes the local name an alias of the caller's object and
    [setitem_by_strpath] (tree_util.py L292-363) assigns in place, so the object
    the caller passed as [state] is the one that is returned: reading it after
    the call gives the new state.  [params] is only read (L873-879).  Inside
    [jax.jit] JAX passes fresh containers, so there the caller's object is not
    reached. *)
Record after_call := { ret_output : tree A; ret_state : tree A; caller_params : tree A; caller_state : tree A }.
Definition nonseq_object_call (uuid : nat -> string) (modules : tree M) (conns : dict cval)
    (params data : tree A) (training : bool) (state : tree A) (rng : Rng) : result after_call :=
  let* (out, st) := nonseq_model uuid modules conns params data training state rng in
  Ok {| ret_output := out; ret_state := st; caller_params := params; caller_state := st |}.
End NonSeq.
