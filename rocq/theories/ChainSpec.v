(** Specification of chains of modules. *)
From Verif Require Import Base TreeUtil TreeSpec ConnSpec Connections.
From Coq Require Import Permutation.
Local Open Scope list_scope.

(** the connections of the chain u -> p1 -> ... -> pn -> output *)
Fixpoint links (u : string) (ps : list string) : list (string * string) :=
  match ps with
  | [] => [(u, "output"%string)]
  | p :: ps' => (u, p) :: links p ps'
  end.

(** the connections are those of the chain through the modules at [ps] *)
Definition chain {M} (sep : ascii) (modules : tree M) (conns : dict cval) (ps : list string) : Prop :=
  NoDup ps /\ Permutation (pairs (normalize conns)) (links "input" ps) /\
  forall p, In p ps -> ~ reserved sep "input" p /\ ~ reserved sep "output" p /\
    exists m, walk modules (split sep p) = Some (Leaf m).

(** the trees below the paths [ps] *)
Definition at_paths {A} (sep : ascii) (t : tree A) (ps : list string) (xs : list (tree A)) : Prop :=
  Forall2 (fun p x => walk t (split sep p) = Some x) ps xs.
