(** The random keys a model is called with, in /repo/parametricmatrixmodels.

    In training they come from the loop of Train.v (training.py L333, L1068);
    here: the keys of the modules inside a model called with one key,
    sequentialmodel.py L303-304 (one key of [jax.random.split] per module, in the
    order of the leaves), applied again in nested models.  Models of graphs hand
    their key on unchanged (nonsequentialmodel.py L894, C20). *)
From Verif Require Import Base Draws.
Local Open Scope list_scope.

Inductive net := Module | Sequence (ms : list net).
Fixpoint module_keys (m : net) (k : key) : list key :=
  match m with
  | Module => [k]
  | Sequence ms =>
      (fix go (i : nat) (l : list net) : list key :=
         match l with [] => [] | x :: l' => module_keys x (child k i) ++ go (S i) l' end) 0 ms
  end.

(** [jax.random.split(key)] *)
Definition split2 (k : key) : key * key := (child k 0, child k 1).
