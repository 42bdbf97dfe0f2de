(** What the methods for parameters of models should do. *)
From Coq Require Import Permutation.
From Verif Require Import Base TreeUtil TreeSpec NonSeqSpec SerialSpec Params.
Local Open Scope list_scope.

(** A module somewhere in a model. *)
Inductive atom_in {M} : net M -> M -> Prop :=
| ai_atom a : atom_in (Atom a) a
| ai_nest t x a : has_leaf t x -> atom_in x a -> atom_in (Nest t) a.
(** Dictionaries have distinct keys. *)
Inductive wfn {M} : net M -> Prop :=
| wfn_atom a : wfn (Atom a)
| wfn_nest t : wf_tree t -> (forall x, has_leaf t x -> wfn x) -> wfn (Nest t).
(** The same arrangement of modules, those at the same place being related. *)
Inductive nrel {M} (R : M -> M -> Prop) : net M -> net M -> Prop :=
| nr_atom a b : R a b -> nrel R (Atom a) (Atom b)
| nr_nest t u : trel (nrel R) t u -> nrel R (Nest t) (Nest u).
(** [p] has a part for every leaf of [t], related to it, and nothing else. *)
Inductive parts {X Y} (Q : X -> tree Y -> Prop) : tree X -> tree Y -> Prop :=
| pa_leaf x p : Q x p -> parts Q (Leaf x) p
| pa_none : parts Q NoneT NoneT
| pa_lst l m : Forall2 (parts Q) l m -> parts Q (Lst l) (Lst m)
| pa_tup l m : Forall2 (parts Q) l m -> parts Q (Tup l) (Tup m)
| pa_dict d e e' : Permutation e' e -> Forall2 (fun a b => fst a = fst b /\ parts Q (snd a) (snd b)) d e' -> parts Q (Dict d) (Dict e).
Definition fits {X Y} : tree X -> tree Y -> Prop := parts (fun _ _ => True).

Section Spec.
Context {M P : Type} (m_get : M -> tree P) (m_set : M -> tree P -> M * result unit) (m_train : M -> bool).
(** Modules that report what was set, and whose flag does not change with it. *)
Definition honest_modules : Prop :=
  forall a p b, m_set a p = (b, Ok tt) -> trel eq p (m_get b) /\ m_train b = m_train a.
(** Modules that accept what they report and do not change then. *)
Definition steady_modules : Prop := forall a, m_set a (m_get a) = (a, Ok tt).
(** Not a mixture of frozen and trainable modules: all modules with parameters
    are trainable, or all modules are frozen. *)
Definition unmixed (m : net M) : Prop :=
  (forall a, atom_in m a -> m_train a = true \/ leaves (m_get a) = []) \/ (forall a, atom_in m a -> m_train a = false).
(** What Train.v guarantees (C28): arrays whose flag is false come back. *)
Definition respects_flags (train : tree (bool * P) -> result (tree P)) : Prop :=
  forall z p, train z = Ok p -> trel (fun bx y => fst bx = false -> y = snd bx) z p.
(** The modules in the order of jax. *)
Fixpoint atoms (m : net M) : list M :=
  match m with Atom a => [a] | Nest t => concat (leaves (tsub (fun x => Leaf (atoms x)) t)) end.
(** The number of real numbers in a tree of arrays. *)
Definition reals (size : P -> nat) (is_complex : P -> bool) (p : tree P) : nat :=
  list_sum (map (fun a => if is_complex a then 2 * size a else size a) (leaves p)).
End Spec.
