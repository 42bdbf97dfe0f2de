(** What models that share modules should do. *)
From Verif Require Import Base TreeUtil NonSeqSpec SerialSpec Params ParamsSpec.
Local Open Scope list_scope.

(** The model uses the module object [r]. *)
Definition uses (m : net nat) (r : nat) : Prop := atom_in m r.
(** Two models without a common module object. *)
Definition disjoint (m n : net nat) : Prop := forall r, uses m r -> ~ uses n r.
(** No module object occurs twice. *)
Definition unshared (m : net nat) : Prop := NoDup (atoms m).

(** The leaf [x] of [t] is in the place of the part [v] of [u]. *)
Inductive facing {X Y} : tree X -> tree Y -> X -> tree Y -> Prop :=
| fa_leaf x u : facing (Leaf x) u x u
| fa_lst l m t u x v : In (t, u) (combine l m) -> facing t u x v -> facing (Lst l) (Lst m) x v
| fa_tup l m t u x v : In (t, u) (combine l m) -> facing t u x v -> facing (Tup l) (Tup m) x v
| fa_dict d e k t u x v : In (k, t) d -> dget e k = Some u -> facing t u x v -> facing (Dict d) (Dict e) x v.
(** [q] is a part of the parameters [p] for the module object [r]. *)
Inductive part_for {P} : net nat -> tree P -> nat -> tree P -> Prop :=
| pf_atom r p : part_for (Atom r) p r p
| pf_nest t p x q r q' : facing t p x q -> part_for x q r q' -> part_for (Nest t) p r q'.
(** A module object gets the same parameters wherever it occurs. *)
Definition tied {P} (m : net nat) (p : tree P) : Prop := forall r q q', part_for m p r q -> part_for m p r q' -> q = q'.
