(** Specification of the dataflow semantics of a graph model, independent of
    the evaluation order. *)
From Verif Require Import Base TreeUtil TreeSpec.

(** [filled R deps d]: [d] is [deps] with every leaf [p] replaced by a tree
    related to [p] by [R]. *)
Inductive filled {X Y} (R : X -> tree Y -> Prop) : tree X -> tree Y -> Prop :=
| filled_leaf x y : R x y -> filled R (Leaf x) y
| filled_none : filled R NoneT NoneT
| filled_lst l m : Forall2 (filled R) l m -> filled R (Lst l) (Lst m)
| filled_tup l m : Forall2 (filled R) l m -> filled R (Tup l) (Tup m)
| filled_dict d e :
    Forall2 (fun a b => fst a = fst b /\ filled R (snd a) (snd b)) d e ->
    filled R (Dict d) (Dict e).

(** The value a path denotes when node [n] (the input or a module) carries the
    tree [val n]: the path is a node followed by keys into its value. *)
Definition value_at {A} (sep : ascii) (nodes : list string) (val : string -> tree A)
    (p : string) (d : tree A) : Prop :=
  exists n ks, In n nodes /\ split sep p = split sep n ++ ks /\ walk (val n) ks = Some d.

(** the leaves of a tree of paths *)
Inductive has_leaf {X} : tree X -> X -> Prop :=
| hl_leaf x : has_leaf (Leaf x) x
| hl_dict d k t x : In (k, t) d -> has_leaf t x -> has_leaf (Dict d) x
| hl_lst l t x : In t l -> has_leaf t x -> has_leaf (Lst l) x
| hl_tup l t x : In t l -> has_leaf t x -> has_leaf (Tup l) x.

(** The dataflow equations of a network: [val n] is the value of node [n] (the
    input or a module) and [news n] the new state of module [n].  Every module
    is applied to its assembled sources, its own parameters and its own old
    state.  There is no execution order here. *)
Definition dataflow {A Rng M} (sep : ascii)
    (call : M -> tree A -> tree A -> bool -> tree A -> Rng -> result (tree A * tree A))
    (in_key : string) (nodes : list (string * (M * tree string)))
    (params data : tree A) (training : bool) (state : tree A) (rng : Rng)
    (val news : string -> tree A) : Prop :=
  val in_key = data /\
  forall p m deps, In (p, (m, deps)) nodes ->
    exists ind mp ms,
      filled (value_at sep (in_key :: map fst nodes) val) deps ind /\
      walk params (split sep p) = Some mp /\ walk state (split sep p) = Some ms /\
      call m mp ind training ms rng = Ok (val p, news p).

(** Every source named by a module's inputs lies in a node listed earlier. *)
Definition sources_earlier {M} (sep : ascii) (in_key : string)
    (nodes : list (string * (M * tree string))) : Prop :=
  forall l1 p m deps l2, nodes = l1 ++ (p, (m, deps)) :: l2 ->
    forall q, has_leaf deps q ->
      exists n ks, In n (in_key :: map fst l1) /\ split sep q = split sep n ++ ks.

(** Every two different members part at some component. *)
Inductive apart (sep : ascii) : list string -> Prop :=
| apart_nil : apart sep []
| apart_cons p l : (forall q, In q l -> diverge (split sep p) (split sep q)) ->
    apart sep l -> apart sep (p :: l).

(** The slot [ks] can be assigned: its parent is a dictionary, or a list with
    such an item (items of tuples cannot be assigned). *)
Fixpoint settable {A} (t : tree A) (ks : list string) : Prop :=
  match ks with
  | [] => False
  | [k] => match t with
           | Dict _ => True
           | Lst l => isdigit k = true /\ int_of k < length l
           | _ => False
           end
  | k :: ks' => match child t k with Some t' => settable t' ks' | None => False end
  end.

(* ------------------------------------------------------------------ *)
(** * Networks written as connection dictionaries *)
From Verif Require Import ConcretizeSpec Connections ConnSpec.
From Coq Require Import Relations.Relation_Operators.

(** The node a path belongs to: the reserved key it starts with, or the node of
    the module tree it leads to, where a proper continuation of the path needs
    a module (an atomic node). *)
Definition outer_path {A} (sep : ascii) (key : string) (t : tree A) (p u : string) : Prop :=
  (u = key /\ reserved sep key p) \/
  (~ reserved sep key p /\ clean sep u /\
   exists rest a, split sep p = split sep u ++ rest /\ walk t (split sep u) = Some a /\
                  (rest <> [] -> atomic a = true)).

(** [u] feeds [w]: some connection leads from (a slot of) [u] to (a slot of) [w] *)
Definition feeds {A} (sep : ascii) (in_key out_key : string) (t : tree A) (conns : dict cval)
    (u w : string) : Prop :=
  exists k v, In (k, v) (pairs (normalize conns)) /\
    outer_path sep in_key t k u /\ outer_path sep out_key t v w.

(** on some path from the input to the output *)
Definition on_path {A} (sep : ascii) (in_key out_key : string) (t : tree A) (conns : dict cval)
    (p : string) : Prop :=
  clos_refl_trans _ (feeds sep in_key out_key t conns) in_key p /\
  clos_refl_trans _ (feeds sep in_key out_key t conns) p out_key.

(** a module on some path from the input to the output *)
Definition live_module {A} (sep : ascii) (t : tree A) (conns : dict cval) (p : string) : Prop :=
  on_path sep "input" "output" t conns p /\ p <> "input"%string /\ p <> "output"%string.

(** decimal components are written without leading zeros *)
Definition canonical (sep : ascii) (p : string) : Prop :=
  Forall (fun k => isdigit k = true -> k = str_of (int_of k)) (split sep p).

(** sources whose first letters are those of a reserved key start with the
    whole reserved key *)
Definition plain_sources (sep : ascii) (in_key out_key : string) (conns : dict cval) : Prop :=
  forall k c, In (k, c) conns -> startswith k in_key = true \/ startswith k out_key = true ->
    reserved sep in_key k.

(** [d] holds exactly the sources of the concrete targets below [pre] *)
Definition assembled (sep : ascii) (Q : list (string * string * string)) (pre : list string)
    (d : tree string) : Prop :=
  (forall k v w r, In (k, v, w) Q -> split sep w = pre ++ r -> walk d r = Some (Leaf k)) /\
  (forall r q, walk d r = Some (Leaf q) ->
     exists v w r', In (q, v, w) Q /\ split sep w = pre ++ r' /\ same_keys r r').

(** Same containers with the same keys; only the leaves may differ. *)
Definition same_layout {X Y} (t : tree X) (u : tree Y) : Prop :=
  filled (fun _ y => exists b, y = Leaf b) t u.

(** The kind of a node and its keys. *)
Inductive kind := KLeaf | KNone | KDict (ks : list string) | KLst (n : nat) | KTup (n : nat).
Definition kind_of {A} (t : tree A) : kind :=
  match t with
  | Leaf _ => KLeaf
  | NoneT => KNone
  | Dict d => KDict (dkeys d)
  | Lst l => KLst (length l)
  | Tup l => KTup (length l)
  end.

(** Leafwise map; the shapes of a data tree. *)
Fixpoint tmap {X Y} (f : X -> Y) (t : tree X) : tree Y :=
  match t with
  | Leaf x => Leaf (f x)
  | NoneT => NoneT
  | Dict d => Dict (map (fun kv => (fst kv, tmap f (snd kv))) d)
  | Lst l => Lst (map (tmap f) l)
  | Tup l => Tup (map (tmap f) l)
  end.

(** A module whose announced output shape is always the real one. *)
Definition honest {A Rng M Sh} (shape : A -> Sh)
    (call : M -> tree A -> tree A -> bool -> tree A -> Rng -> result (tree A * tree A))
    (out_shape : M -> tree Sh -> result (tree Sh)) (m : M) : Prop :=
  forall mp ind training ms rng out ns o,
    call m mp ind training ms rng = Ok (out, ns) ->
    out_shape m (tmap shape ind) = Ok o -> tmap shape out = o.
