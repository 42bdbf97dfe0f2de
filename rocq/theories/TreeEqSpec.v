(** What comparisons of trees, and the check of data, should do. *)
From Verif Require Import Base TreeUtil TreeSpec NdArray NonSeqSpec SerialSpec TreeEq.
Local Open Scope list_scope.

(** The same arrays. *)
Definition same_array {V} (a b : arr V) : Prop := shp a = shp b /\ dat a = dat b.
(** Arrays of the same shape whose entries are close. *)
Definition close_arrays {V} (close : V -> V -> bool) (a b : arr V) : Prop :=
  shp a = shp b /\ Forall2 (fun x y => close x y = true) (dat a) (dat b).
(** Data for a model compiled for samples of the shapes [s]: the same
    structure, arrays with a first axis for the samples, of one length. *)
Definition data_for (s X : tree (list nat)) : Prop := exists n, trel (fun sh x => x = n :: sh) s X.
(** No empty tuple anywhere in a tree. *)
Inductive no_unit {X} : tree X -> Prop :=
| nu_leaf x : no_unit (Leaf x)
| nu_none : no_unit NoneT
| nu_lst l : Forall no_unit l -> no_unit (Lst l)
| nu_tup l : l <> [] -> Forall no_unit l -> no_unit (Tup l)
| nu_dict d : Forall (fun kv => no_unit (snd kv)) d -> no_unit (Dict d).
