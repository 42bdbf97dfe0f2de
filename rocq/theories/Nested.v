(** Sequential models as modules of sequential models
    (/repo/parametricmatrixmodels/sequentialmodel.py L226-313).

    [Model] is a subclass of [BaseModule] (model.py L48), and the callable of a
    model is made of the callables of its modules (L243-245), which may be models
    themselves; parameters and states of a model are trees with those of its
    modules in place of the modules (model.py L302, L363).  Here the
    modules of every model are a list; other containers are Seq.v and C17.
    [d] bounds the depth of nesting. *)
From Verif Require Import Base TreeUtil Seq.
Local Open Scope list_scope.

Inductive nest (M : Type) := One (m : M) | Sub (xs : list (nest M)).
Arguments One {M} m.
Arguments Sub {M} xs.

Fixpoint depth {M} (x : nest M) : nat :=
  match x with One _ => 0 | Sub xs => S (fold_right Nat.max 0 (map depth xs)) end.

Section Nested.
Context {A Rng M : Type}.
(** the callable of a module that is not a model; [jax.random.split] *)
Variable call : M -> tree A -> tree A -> bool -> tree A -> Rng -> result (tree A * tree A).
Variable split_rng : Rng -> nat -> list Rng.

Fixpoint ncall (d : nat) (x : nest M) (params data : tree A) (training : bool) (state : tree A) (rng : Rng)
  : result (tree A * tree A) :=
  match x with
  | One m => call m params data training state rng
  | Sub xs =>
      match d with
      | 0 => Err OutOfFuel
      | S d' => seq_callable (ncall d') split_rng (Lst (map Leaf xs)) params data training state rng
      end
  end.
End Nested.
