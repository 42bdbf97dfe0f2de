(** Specification of the small layers: what is at every position of every leaf
    of the output. *)
From Coq Require Import Arith.
From Verif Require Import Base TreeUtil TreeSpec NdArray Serial SerialSpec Reshape ReshapeSpec.
Local Open Scope list_scope.
Local Open Scope nat_scope.

(** [x] is the leaf found by following the keys [ks]. *)
Definition leaf_at {X} (t : tree X) (ks : list string) (x : X) : Prop := walk t ks = Some (Leaf x).

(** Entry [idx] of an array; an array with one number has it everywhere. *)
Definition everywhere {V} (zero : V) (a : arr V) (idx : list nat) : V :=
  match shp a with
  | [] | [1] => hd zero (dat a)
  | _ => entry zero a idx
  end.

(** [out] has the leaves of [data], with [h ks i idx x] at position [idx] of
    sample [i] of the leaf at [ks] where [x] was. *)
Definition pointwise {V} (zero : V) (data out : tree (arr V)) (h : list string -> list nat -> V -> V -> Prop) : Prop :=
  forall ks x, leaf_at data ks x -> exists y, leaf_at out ks y /\ shp y = shp x /\
    forall i idx, valid (shp x) (i :: idx) -> h ks idx (entry zero x (i :: idx)) (entry zero y (i :: idx)).

(** Sample [i] of two batches is the same. *)
Definition same_sample {V} (zero : V) (i : nat) (x y : tree (arr V)) : Prop :=
  forall ks a, leaf_at x ks a -> exists b, leaf_at y ks b /\ shp b = shp a /\
    forall idx, valid (shp a) (i :: idx) -> entry zero a (i :: idx) = entry zero b (i :: idx).

(** The number a single-parameter PReLU multiplies with. *)
Definition the_slope {V} (zero : V) (params : tree (arr V)) (v : V) : Prop :=
  exists a, (params = Tup [Leaf a] \/ params = Lst [Leaf a] \/ params = Leaf a) /\ prod (shp a) = 1 /\ v = hd zero (dat a).
