(** What reshaping should do, independently of the modules. *)
From Coq Require Import ZArith Permutation.
From Verif Require Import Base TreeUtil TreeSpec NonSeqSpec NdArray SerialSpec Reshape.
Local Open Scope list_scope.
Local Open Scope nat_scope.

(** [o] is what the target [t] asks for an array of [n] entries per sample:
    given entries are kept, -1 may be anything, the number of entries fits. *)
Definition solves (n : nat) (t : list Z) (o : list nat) : Prop :=
  Forall2 (fun d k => d = (-1)%Z \/ d = Z.of_nat k) t o /\ prod o = n.
(** Targets numpy understands: sizes and at most one -1. *)
Definition sizes_only (t : list Z) : Prop := forall d, In d t -> (d = -1 \/ 0 <= d)%Z.
Definition one_unknown (t : list Z) : Prop :=
  forall i j, nth_error t i = Some (-1)%Z -> nth_error t j = Some (-1)%Z -> i = j.
(** A target that fits; an unknown is determined by the others and is only
    used for data that are not single numbers. *)
Definition fits (s : list nat) (t : option (list Z)) : Prop :=
  exists l o, t = Some l /\ solves (prod s) l o /\ one_unknown l /\
    (In (-1)%Z l -> s <> [] /\ ~ In 0%Z l).

(** No None and no empty tuple anywhere: those are confused with shapes. *)
Inductive solid {A} : tree A -> Prop :=
| so_leaf a : solid (Leaf a)
| so_dict d : (forall k t, In (k, t) d -> solid t) -> solid (Dict d)
| so_lst l : (forall t, In t l -> solid t) -> solid (Lst l)
| so_tup l : l <> [] -> (forall t, In t l -> solid t) -> solid (Tup l).

(** Data of [b] samples of the given shapes. *)
Definition batch_of {V} (b : nat) (s : list nat) (a : arr V) : Prop := shp a = b :: s.
(** The announced shape is that of the array, in integers. *)
Definition announced {V} (b : nat) (s : option (list dim)) (a : arr V) : Prop :=
  exists l, s = Some (map (fun n => DInt (Z.of_nat n)) l) /\ shp a = b :: l.
(** The same entries in row-major order. *)
Definition same_entries {V} (x y : arr V) : Prop := dat x = dat y.

(** A single array counts as a tuple of one array. *)
Definition boxed {A} (t : tree A) : tree A := match t with Leaf a => Tup [Leaf a] | _ => t end.

(** The entry of an array at a multi-index. *)
Definition entry {V} (d : V) (a : arr V) (idx : list nat) : V := nth (ravel (shp a) idx) (dat a) d.
(** [c] is the arrays of [ars] next to each other along axis [k]: the other axes
    agree, every entry of array number [i] is found again, shifted by the sizes
    of the arrays before it, and [c] has no other entries. *)
Definition joined {V} (d : V) (k : nat) (ars : list (arr V)) (c : arr V) : Prop :=
  exists pre post sizes, length pre = k /\
    Forall2 (fun a n => shp a = pre ++ n :: post) ars sizes /\
    shp c = pre ++ list_sum sizes :: post /\ wf_arr c /\
    (forall i a n, nth_error ars i = Some a -> nth_error sizes i = Some n ->
       forall ip j iq, valid pre ip -> j < n -> valid post iq ->
       entry d c (ip ++ (list_sum (firstn i sizes) + j) :: iq) = entry d a (ip ++ j :: iq)) /\
    (forall J, J < list_sum sizes -> exists i n j, nth_error sizes i = Some n /\ j < n /\ J = list_sum (firstn i sizes) + j).
(** An array with one row of entries per sample. *)
Definition one_row {V} (a : arr V) : arr V := mk_arr [hd 0 (shp a); prod (tl (shp a))] (dat a).
(** The arrays that are joined: those at the given paths, or all of them in the
    order of the leaves. *)
Definition chosen_leaves {V} (sep : ascii) (path_order : option (list string)) (data : tree (arr V)) (ls : list (arr V)) : Prop :=
  match path_order with
  | None => ls = leaves data
  | Some ps => Forall2 (fun p a => walk data (path_keys sep p) = Some (Leaf a)) ps ls
  end.

(** A target that can be met. *)
Definition possible (s : list nat) (t : option (list Z)) : Prop :=
  match t with None => True | Some l => one_unknown l /\ exists o, solves (prod s) l o end.

(** Axes of one sample, counted from zero, and the arrays that are joined along
    them (axis None: one row per sample). *)
Definition inner (axis : option Z) : Prop := match axis with None => True | Some z => (0 <= z)%Z end.
Definition inner_axis (axis : option Z) : nat := match axis with None => 1 | Some z => S (Z.to_nat z) end.
Definition prepared {V} (axis : option Z) (ls : list (arr V)) : list (arr V) := match axis with None => map one_row ls | Some _ => ls end.
