(** What it means for a scaler to come back. *)
From Verif Require Import Base TreeUtil TreeSpec NonSeqSpec Serial SerialSpec ScalerFile.
Local Open Scope list_scope.

Section Spec.
Context {N : Type} (ofnat : nat -> N).
(** The same value, where a number and an array without axes that holds it are
    the same; dictionaries may list their entries in another order. *)
Inductive number : atom N -> N -> Prop :=
| nu_num x : number (ANum x) x
| nu_int n : number (AInt n) (ofnat n)
| nu_arr x : number (AArr (mk_arr [] [x])) x.
Definition same_atom (a b : atom N) : Prop := a = b \/ exists x, number a x /\ number b x.
Definition same_value : py N -> py N -> Prop := trel same_atom.
(** The shape of a sample may be a tuple of integers or an array of them. *)
Definition shape_tuple (l : list nat) : py N := Tup (map (fun n => Leaf (AInt n)) l).
Definition shape_array (l : list nat) : py N := Leaf (AArr (mk_arr [length l] (map ofnat l))).
Definition same_shape (v v' : py N) : Prop := exists l, v = shape_tuple l /\ v' = shape_array l.
Definition same_leaf (v v' : py N) : Prop := same_value v v' \/ same_shape v v'.

(** What is done at a leaf does not depend on such differences. *)
Definition indifferent {D} (kern : scls -> bool -> list (py N) -> D -> list (py N) -> result D) : Prop :=
  forall c inv ps ps' x vs vs', Forall2 same_leaf ps ps' -> Forall2 same_leaf vs vs' -> kern c inv ps x vs = kern c inv ps' x vs'.

Inductive same_scaler : sobj N -> sobj N -> Prop :=
| ss_standard m s m' s' : same_value m m' -> same_value s s' -> same_scaler (Standard m s) (Standard m' s')
| ss_minmax l h a b l' h' a' b' : same_value l l' -> same_value h h' -> same_value a a' -> same_value b b' ->
    same_scaler (MinMax l h a b) (MinMax l' h' a' b')
| ss_robust l h c s e x m l' h' c' s' e' x' m' : same_value l l' -> same_value h h' -> same_value c c' -> same_value s s' ->
    same_value e e' -> same_value x x' -> same_value m m' -> same_scaler (Robust l h c s e x m) (Robust l' h' c' s' e' x' m')
| ss_onehot u o u' o' : same_value u u' -> same_value o o' -> same_scaler (OneHot u o) (OneHot u' o')
| ss_onehot1 a o o' : same_shape o o' -> same_scaler (OneHot (Leaf a) o) (OneHot (Leaf a) o')
| ss_mixed t t' : trel same_scaler t t' -> same_scaler (Mixed t) (Mixed t').

(** Scalers that exist: keys of dictionaries are distinct, the switches and the
    tolerance of a RobustScaler are not arrays. *)
Definition no_array (v : py N) : Prop := forall a, v <> Leaf (AArr a).
Inductive proper : sobj N -> Prop :=
| pr_standard m s : wf_tree m -> wf_tree s -> proper (Standard m s)
| pr_minmax l h a b : wf_tree l -> wf_tree h -> wf_tree a -> wf_tree b -> proper (MinMax l h a b)
| pr_robust l h c s e x m : wf_tree l -> wf_tree h -> wf_tree c -> wf_tree s -> wf_tree e -> wf_tree x -> wf_tree m ->
    no_array c -> no_array s -> no_array e -> proper (Robust l h c s e x m)
| pr_onehot u o : wf_tree u -> wf_tree o -> proper (OneHot u o)
| pr_mixed t : wf_tree t -> (forall s, has_leaf t s -> proper s) -> proper (Mixed t).

(** Scalers that survive a file: the outermost structure of the data is a
    dictionary, or the data are one array. *)
Definition one_or_dict {A} (t : tree A) : Prop := match t with Lst _ | Tup _ => False | _ => True end.
Definition entry (v : py N) : Prop :=
  one_or_dict v /\ forall a, v = Leaf (AArr a) -> length (a_data a) = fold_right Nat.mul 1%nat (a_shape a).
(** A bound: a number, None, or a dictionary. *)
Definition bound (v : py N) : Prop :=
  v = NoneT \/ (exists d, v = Dict d) \/ exists a x, v = Leaf a /\ number a x.
Definition in_file (s : sobj N) : Prop :=
  match s with
  | Standard m s => entry m /\ entry s
  | MinMax l h a b => bound l /\ bound h /\ entry a /\ entry b
  | Robust l h c s e x m => bound l /\ bound h /\ entry c /\ entry s /\ entry e /\ entry x /\ entry m
  | OneHot u o => entry u /\ (entry o \/ exists a l, u = Leaf (AArr a) /\ a_shape a <> [] /\ o = shape_tuple l)
  | Mixed t => one_or_dict t
  end.
End Spec.
