(** Functions that treat every sample on its own. *)
From Verif Require Import Base TreeUtil NdArray Serial SerialSpec NonSeqSpec ReshapeSpec.
Local Open Scope list_scope.

(** every array has [n] samples *)
Definition samples {V} (n : nat) (t : tree (arr V)) : Prop := forall a, has_leaf t a -> exists s, shp a = n :: s.
(** [b] is sample [i] of [a], as a batch of one *)
Definition sample_of {V} (i : nat) (a b : arr V) : Prop :=
  exists n s, shp a = n :: s /\ b = mk_arr (1 :: s) (firstn (prod s) (skipn (i * prod s) (dat a))).
Definition alike {V} (a b : arr V) : Prop := shp a = shp b.

(** [f] on a batch is [f] on each of its samples ... *)
Record per_sample {V} (f : tree (arr V) -> result (tree (arr V))) : Prop := {
  ps_one : forall n data out i x, 1 <= n -> samples n data -> f data = Ok out -> i < n -> trel (sample_of i) data x ->
    samples n out /\ exists y, f x = Ok y /\ trel (sample_of i) out y;
  ps_all : forall n data, 1 <= n -> samples n data ->
    (forall i x, i < n -> trel (sample_of i) data x -> exists y, f x = Ok y) -> exists out, f data = Ok out
}.
(** ... and the shapes of its result depend on the shapes of its argument. *)
Definition shapes_decide {V} (f : tree (arr V) -> result (tree (arr V))) : Prop :=
  forall a b oa, trel alike a b -> f a = Ok oa -> exists ob, f b = Ok ob /\ trel alike oa ob.
