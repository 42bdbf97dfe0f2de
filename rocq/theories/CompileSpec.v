(** Specification of networks that can be compiled. *)
From Verif Require Import Base BaseLemmas TreeUtil TreeSpec ConnSpec Connections NonSeqSpec.
From Coq Require Import Relations.
Local Open Scope list_scope.

(** keys in the same place (below the top level) are all numbers or all names *)
Definition uniform (P : list (list string)) : Prop :=
  forall c a b r s, In (c ++ a :: r) P -> In (c ++ b :: s) P -> c <> [] -> isdigit a = isdigit b.

(** every connection leads from a node of the tree (or the input) to a module
    (or the output), and the keys of the targets are uniform *)
Definition proper_ends {M} (sep : ascii) (modules : tree M) (conns : dict cval) : Prop :=
  (forall k c, In (k, c) conns -> is_source sep "input" "output" modules k) /\
  (forall k v, In (k, v) (pairs (normalize conns)) -> ~ reserved sep "input" v /\
     (reserved sep "output" v \/
      exists ks rest m, split sep v = ks ++ rest /\ walk modules ks = Some (Leaf m))) /\
  uniform (map (split sep) (map snd (pairs (normalize conns)))).

(** the output depends on the input, no module on a path from the input to the
    output depends on itself, and everything that such a module or the output
    takes data from depends on the input *)
Definition proper_flow {M} (sep : ascii) (modules : tree M) (conns : dict cval) : Prop :=
  let feeds := feeds sep "input" "output" modules conns in
  clos_refl_trans _ feeds "input"%string "output"%string /\
  (forall p, on_path sep "input" "output" modules conns p -> ~ clos_trans _ feeds p p) /\
  (forall u p, feeds u p -> on_path sep "input" "output" modules conns p ->
     clos_refl_trans _ feeds "input"%string u).
