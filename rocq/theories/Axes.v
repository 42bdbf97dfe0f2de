(** Model of the check of the output shape at the end of [compile]:
    [if len(self.output_shape) < 1: raise ValueError], sequentialmodel.py L149-153
    and L188-192, nonsequentialmodel.py L444-450, in /repo/parametricmatrixmodels.
    The compilation of the modules themselves is left out (C59, C106). *)
From Verif Require Import Base TreeUtil Connections NonSeq Seq.
Local Open Scope list_scope.

(** Python's [len] of a shape: of the tuple of sizes of a bare array, or of a
    container of shapes.  [None] has no length. *)
Definition shape_len (o : tree (list nat)) : option nat :=
  match o with
  | Leaf s => Some (length s)
  | NoneT => None
  | Dict d => Some (length d)
  | Lst l => Some (length l)
  | Tup l => Some (length l)
  end.
(** simplification: the TypeError for [None] is given as the ValueError *)
Definition len_ok (o : tree (list nat)) : bool := match shape_len o with Some n => Nat.leb 1 n | None => false end.

(** The output shape of SequentialModel.compile, L129-153. *)
Definition seq_output {M} (out_shape : M -> tree (list nat) -> result (tree (list nat))) (modules : tree M) (s : tree (list nat)) :=
  seq_shapes out_shape len_ok modules s.
(** The output shape of NonSequentialModel.compile, L432-450. *)
Definition graph_output {M} (sep : ascii) (out_shape : M -> tree (list nat) -> result (tree (list nat))) (uuid : nat -> string)
    (modules : tree M) (conns : dict cval) (s : tree (list nat)) : result (tree (list nat)) :=
  let* r := model_shapes sep out_shape uuid modules conns s in
  let o := snd r in
  if len_ok o then Ok o else Err ValueError.
