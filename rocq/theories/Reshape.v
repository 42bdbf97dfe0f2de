(** The modules that only rearrange data:
    parametricmatrixmodels/modules/reshape.py, flatten.py, treeflatten.py,
    treekey.py and concatenateleaves.py.

    Simplifications:
    - the entries of arrays are of any type;
    - trees of data have no None nodes; a None in a target tree is [Leaf None];
    - sizes do not overflow (the code multiplies int32 numbers);
    - [jax.tree.map] on trees of different structure raises ValueError here
      (sometimes TypeError from beartype in the code). *)
From Coq Require Import ZArith.
From Verif Require Import Base TreeUtil NdArray NonSeqSpec Serial Scaler.
Local Open Scope string_scope.
Local Open Scope list_scope.
Local Open Scope nat_scope.

(* ------------------------------------------------------------------ *)
(** * np.reshape *)
Definition count_neg1 (s : list Z) : nat := length (filter (Z.eqb (-1)) s).
(** The product of the entries other than -1 (reshape.py L186-189). *)
Definition known_size (s : list Z) : Z := fold_right (fun d p => if (d =? -1)%Z then p else (d * p)%Z) 1%Z s.
Definition fill_in (v : Z) (s : list Z) : list Z := map (fun d => if (d =? -1)%Z then v else d) s.
Definition zprod (s : list Z) : Z := fold_right Z.mul 1%Z s.

(** jax.numpy.reshape: one entry may be -1; other negative entries are invalid. *)
Definition np_reshape {V} (a : arr V) (s : list Z) : result (arr V) :=
  let size := Z.of_nat (prod (shp a)) in
  let done s := Ok (mk_arr (map Z.to_nat s) (dat a)) in
  if existsb (fun d => (d <? -1)%Z) s then Err TypeError
  else match count_neg1 s with
       | 0 => if (zprod s =? size)%Z then done s else Err TypeError
       | 1 => let k := known_size s in
              if (k =? 0)%Z then Err ZeroDivisionError
              else if (size mod k =? 0)%Z then done (fill_in (size / k) s) else Err TypeError
       | _ => Err ValueError
       end.

(* ------------------------------------------------------------------ *)
(** * Reshape *)

(** A target for each leaf, None to leave it alone. *)
Notation target := (tree (option (list Z))).

(** reshape.py L103-112; the batch axis comes first. *)
Definition reshape_array {V} (a : arr V) (t : option (list Z)) : result (arr V) :=
  match t with
  | None => Ok a
  | Some s => match shp a with
              | [] => Err IndexError
              | b :: _ => np_reshape a (Z.of_nat b :: s)
              end
  end.
(** reshape.py L114-130. *)
Definition reshape_call {V} (shape : option target) (data : tree (arr V)) : result (tree (arr V)) :=
  match shape with
  | None => Ok data
  | Some t => jzipM reshape_array data t
  end.

(** A dimension in an announced shape: an int, or a float with an integer value. *)
Inductive dim := DInt (z : Z) | DFloat (z : Z).
(** An announced shape of a leaf; None for None. *)
Notation ashape := (option (list dim)).

(** What counts as a leaf in a tree of shapes (tree_util.py L948-969,
    is_shape_leaf): tuples of ints, also the empty tuple, and None. *)
Fixpoint mark {A} (unit : A) (t : tree A) : tree (option A) :=
  match t with
  | Leaf s => Leaf (Some s)
  | NoneT => Leaf None
  | Dict d => Dict (map (fun kv => (fst kv, mark unit (snd kv))) d)
  | Lst l => Lst (map (mark unit) l)
  | Tup [] => Leaf (Some unit)
  | Tup l => Tup (map (mark unit) l)
  end.

(** [all(isinstance(dim, int) for dim in shape)] (L154, L159): a shape, or
    anything empty. *)
Definition all_ints {A} (t : tree A) : bool :=
  match t with Leaf _ | Dict [] | Lst [] | Tup [] => true | _ => false end.
Definition target_ints (t : target) : bool :=
  match t with Leaf None => false | _ => all_ints t end.

(** [np.prod(np.array(s)).item()]: the product of no numbers is the float 1.0. *)
Definition size_dim (s : list nat) (z : Z) : dim := match s with [] => DFloat z | _ => DInt z end.

(** L172-206. *)
Definition check_leaf (i : option (list nat)) (t : option (list Z)) : result ashape :=
  match t with
  | None => Ok None
  | Some t =>
      match i with
      | None => Err TypeError
      | Some s =>
          let in_size := Z.of_nat (prod s) in
          match count_neg1 t with
          | 0 => if (in_size =? zprod t)%Z then Ok (Some (map DInt t)) else Err AssertionError
          | 1 => let k := known_size t in
                 if (k =? 0)%Z then Err ZeroDivisionError
                 else let inferred := (in_size / k)%Z in
                      if (in_size =? k * inferred)%Z
                      then Ok (Some (map (fun d => if (d =? -1)%Z then size_dim s inferred else DInt d) t))
                      else Err AssertionError
          | _ => Err AssertionError
          end
      end
  end.

(** [None in input_shape] (L142). *)
Definition none_inside {A} (t : tree A) : bool :=
  match t with
  | Lst l | Tup l => existsb (fun u => match u with NoneT => true | _ => false end) l
  | _ => false
  end.
Definition dims (s : list nat) : list dim := map (fun n => DInt (Z.of_nat n)) s.
Definition announce (t : tree (list nat)) : tree ashape := tmap (option_map dims) (mark [] t).

(** L134-217. *)
Definition validate_and_concretify_shape (shape : option target) (input_shape : tree (list nat)) : result (tree ashape) :=
  match shape with
  | None => Ok (announce input_shape)
  | Some t =>
      match input_shape with
      | NoneT => Err AssertionError
      | _ =>
        if none_inside input_shape then Err AssertionError
        else
          let promoted := all_ints input_shape in
          let i := mark [] (if promoted then Tup [input_shape] else input_shape) in
          let s := if target_ints t then Tup [t] else t in
          match tzipM (fun _ _ => Ok tt) i s with
          | Err _ => Err AssertionError
          | Ok _ =>
              let* r := jzipM check_leaf i s in
              if promoted then match r with Tup (x :: _) => Ok x | _ => Err IndexError end else Ok r
          end
      end
  end.

(** compile and get_output_shape (L219-223). *)
Definition reshape_shape := validate_and_concretify_shape.

(* ------------------------------------------------------------------ *)
(** * Flatten *)

(** flatten.py L38-49, L54-65: the target set when compiling and when asked for
    the output shape. *)
Definition flatten_target (input_shape : tree (list nat)) : target :=
  if all_ints input_shape then Leaf (Some [(-1)%Z])
  else tmap (fun _ => Some [(-1)%Z]) (mark [] input_shape).
Definition flatten_shape (input_shape : tree (list nat)) : result (tree ashape) :=
  reshape_shape (Some (flatten_target input_shape)) input_shape.
(** The module compiled for [input_shape], applied to data. *)
Definition flatten_call {V} (input_shape : tree (list nat)) (data : tree (arr V)) : result (tree (arr V)) :=
  reshape_call (Some (flatten_target input_shape)) data.

(* ------------------------------------------------------------------ *)
(** * TreeFlatten (treeflatten.py L39-50) *)
Definition tree_flatten_call {V} (data : tree (arr V)) : tree (arr V) := Lst (map Leaf (leaves data)).
Definition tree_flatten_shape (input_shape : tree (list nat)) : tree (option (list nat)) :=
  Lst (map Leaf (leaves (mark [] input_shape))).

(* ------------------------------------------------------------------ *)
(** * TreeKey (treekey.py L77-135) *)

(** Each path is replaced by the subtree found there. *)
Fixpoint plant {A} (t : tree (tree A)) : tree A :=
  match t with
  | Leaf u => u
  | NoneT => NoneT
  | Dict d => Dict (map (fun kv => (fst kv, plant (snd kv))) d)
  | Lst l => Lst (map plant l)
  | Tup l => Tup (map plant l)
  end.
Definition shape_leaf {A} (t : tree A) : bool := match t with Leaf _ | NoneT | Tup [] => true | _ => false end.
Definition tree_key_shape (sep : ascii) (keypaths : option (tree string)) (input_shape : tree (list nat)) : result (tree (list nat)) :=
  match keypaths with
  | None => Ok input_shape
  | Some kp =>
      match jmapM (fun p => let* r := getitem sep shape_leaf true input_shape p in Ok (fst r)) kp with
      | Ok t => Ok (plant t)
      | Err KeyError | Err IndexError | Err ValueError => Err ValueError
      | Err e => Err e
      end
  end.
Definition tree_key_call {V} (sep : ascii) (keypaths : option (tree string)) (data : tree (arr V)) : result (tree (arr V)) :=
  match keypaths with
  | None => Ok data
  | Some kp =>
      let* t := jmapM (fun p => let* r := getitem sep (fun _ => false) true data p in Ok (fst r)) kp in
      Ok (plant t)
  end.

(* ------------------------------------------------------------------ *)
(** * ConcatenateLeaves *)

(** np.concatenate along a (non-negative) axis: all shapes agree in the other
    axes; the blocks of the arrays follow each other. *)
Definition chunk {V} (n i : nat) (l : list V) : list V := firstn n (skipn (i * n) l).
Definition list_nat_eqb (s t : list nat) : bool := if list_eq_dec Nat.eq_dec s t then true else false.
Definition concat_axis {V} (k : nat) (ars : list (arr V)) : result (arr V) :=
  match ars with
  | [] => Err ValueError
  | a0 :: _ =>
      if length (shp a0) <=? k then Err ValueError
      else
        let pre := firstn k (shp a0) in let post := skipn (S k) (shp a0) in
        if forallb (fun a => list_nat_eqb (shp a) (pre ++ nth k (shp a) 0 :: post)) ars
        then Ok (mk_arr (pre ++ list_sum (map (fun a => nth k (shp a) 0) ars) :: post)
                   (concat (map (fun p => concat (map (fun a => chunk (nth k (shp a) 0 * prod post) p (dat a)) ars)) (seq 0 (prod pre)))))
        else Err TypeError
  end.
(** An axis below zero counts from the end. *)
Definition np_concatenate {V} (axis : Z) (ars : list (arr V)) : result (arr V) :=
  match ars with
  | [] => Err ValueError
  | a0 :: _ =>
      let k := if (axis <? 0)%Z then (axis + Z.of_nat (length (shp a0)))%Z else axis in
      if (k <? 0)%Z then Err ValueError else concat_axis (Z.to_nat k) ars
  end.

(** concatenateleaves.py L86-98: the arrays in the given order. *)
Definition pick_leaves {V} (sep : ascii) (path_order : option (list string)) (data : tree (arr V)) : result (list (tree (arr V))) :=
  match path_order with
  | Some ps => rmapM (fun p => let* r := getitem sep (fun _ => false) false data p in Ok (fst r)) ps
  | None => Ok (map Leaf (leaves data))
  end.
Definition as_array {V} (t : tree (arr V)) : result (arr V) := match t with Leaf a => Ok a | _ => Err TypeError end.
(** L101-115. *)
Definition flat_leaf {V} (a : arr V) : result (arr V) := reshape_array a (Some [(-1)%Z]).
Definition join_leaves {V} (axis : option Z) (ls : list (arr V)) : result (arr V) :=
  match axis with
  | None => let* fs := rmapM flat_leaf ls in np_concatenate (-1) fs
  | Some z => np_concatenate (z + 1) ls
  end.
Definition concat_call {V} (sep : ascii) (axis : option Z) (path_order : option (list string)) (data : tree (arr V)) : result (arr V) :=
  let* ts := pick_leaves sep path_order data in
  let* ls := rmapM as_array ts in
  join_leaves axis ls.

(** L119-174: the shape is that of the result for one sample of zeros; every
    exception becomes ValueError. *)
Definition value_error {A} (r : result A) : result A := match r with Ok a => Ok a | Err _ => Err ValueError end.
Definition zeros (s : list nat) : arr Z := mk_arr (1 :: s) (repeat 0%Z (prod (1 :: s))).
Definition concat_shape (sep : ascii) (axis : option Z) (path_order : option (list string)) (input_shape : tree (list nat)) : result (list nat) :=
  let* dummy := jmapM (fun s => Ok (zeros s)) input_shape in
  let* ts := value_error (pick_leaves sep path_order dummy) in
  let* ls := value_error (rmapM as_array ts) in
  let* c := value_error (join_leaves axis ls) in
  Ok (skipn 1 (shp c)).
