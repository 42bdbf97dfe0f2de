(** Specification vocabulary for connection graphs (independent of Resolve.v
    apart from the type of graphs). *)
From Verif Require Import Base Resolve.
From Coq Require Export Relations.Relation_Operators.

(** [u] lists [v] among its targets. *)
Definition edge (g : graph) (u v : string) : Prop :=
  exists vs, dget g u = Some vs /\ In v vs.
(** reachability along zero or more edges / one or more edges *)
Definition reach (g : graph) : string -> string -> Prop := clos_refl_trans _ (edge g).
Definition reach1 (g : graph) : string -> string -> Prop := clos_trans _ (edge g).
(** on some path from [s] to [e] *)
Definition live (g : graph) (s e v : string) : Prop := reach g s v /\ reach g v e.
(** every Python dict has pairwise different keys *)
Definition wf_graph (g : graph) : Prop := NoDup (dkeys g).
(** every node is preceded, in the list, by all nodes it takes data from *)
Definition topological (g : graph) (order : list string) : Prop :=
  forall l1 v l2, order = l1 ++ v :: l2 -> forall u, edge g u v -> In u l1.
