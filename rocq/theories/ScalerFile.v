(** Saving and loading scalers (parametricmatrixmodels/preprocessing/scaler.py
    L146-205 and the [serialize]/[deserialize] of standard_scaler.py L108-145,
    minmax_scaler.py L187-225, robust_scaler.py L237-283, onehot.py L140-177,
    mixed_scaler.py L148-237).

    A Python value is a tree whose leaves are booleans, integers, other numbers,
    strings and arrays.
    Simplifications:
    - numbers are any type with an embedding of the integers; dtypes are dropped
      (so rounding on conversion between dtypes is as well);
    - what one leaf of the data is turned into is an argument ([kern]): it gets
      the class, the direction, the settings used and the values found at the
      place of the leaf;
    - only the built-in scaler classes are known. *)
From Verif Require Import Base TreeUtil Serial.
Local Open Scope string_scope.
Local Open Scope list_scope.
Local Open Scope nat_scope.

Record arr (N : Type) := mk_arr { a_shape : list nat; a_data : list N }.
Arguments mk_arr {N}. Arguments a_shape {N}. Arguments a_data {N}.
Inductive atom (N : Type) := ABool (b : bool) | AInt (n : nat) | ANum (x : N) | AStr (s : string) | AArr (a : arr N).
Arguments ABool {N}. Arguments AInt {N}. Arguments ANum {N}. Arguments AStr {N}. Arguments AArr {N}.
Notation py N := (tree (atom N)).

Inductive scls := CStandard | CMinMax | CRobust | COneHot | CMixed.
(** A scaler object and its attributes: standard_scaler.py L22-23,
    minmax_scaler.py L64-66, robust_scaler.py L103-108, onehot.py L23-26,
    mixed_scaler.py L38 ([NoneT] is [feature_scalers=None]). *)
Inductive sobj (N : Type) :=
| Standard (mean scale : py N)
| MinMax (lo hi dmin dmax : py N)
| Robust (qlow qhigh centering scaling eps scale median : py N)
| OneHot (uniq shapes : py N)
| Mixed (t : tree (sobj N)).
Arguments Standard {N}. Arguments MinMax {N}. Arguments Robust {N}. Arguments OneHot {N}. Arguments Mixed {N}.

Definition cls_of {N} (s : sobj N) : scls :=
  match s with Standard _ _ => CStandard | MinMax _ _ _ _ => CMinMax | Robust _ _ _ _ _ _ _ => CRobust | OneHot _ _ => COneHot | Mixed _ => CMixed end.
(** [__class__.__name__] and [__module__]. *)
Definition cls_name (c : scls) : string :=
  match c with CStandard => "StandardScaler" | CMinMax => "MinMaxScaler" | CRobust => "RobustScaler" | COneHot => "OneHot" | CMixed => "MixedScaler" end.
Definition cls_module (c : scls) : string :=
  match c with
  | CStandard => "parametricmatrixmodels.preprocessing.standard_scaler"
  | CMinMax => "parametricmatrixmodels.preprocessing.minmax_scaler"
  | CRobust => "parametricmatrixmodels.preprocessing.robust_scaler"
  | COneHot => "parametricmatrixmodels.preprocessing.onehot"
  | CMixed => "parametricmatrixmodels.preprocessing.mixed_scaler"
  end.
Definition classes : list scls := [CStandard; CMinMax; CRobust; COneHot; CMixed].

(* ------------------------------------------------------------------ *)
(** * Applying a scaler *)

(** The entries of a list of results, first failure first. *)
Fixpoint seq_list {Y} (l : list (result Y)) : result (list Y) :=
  match l with [] => Ok [] | r :: l' => let* y := r in let* m := seq_list l' in Ok (y :: m) end.
Fixpoint seq_dict {Y} (d : list (string * result Y)) : result (list (string * Y)) :=
  match d with [] => Ok [] | (k, r) :: d' => let* y := r in let* e := seq_dict d' in Ok ((k, y) :: e) end.

Definition is_none {A} (v : tree A) : bool := match v with NoneT => true | _ => false end.
Definition child {A} (k : string) (v : tree A) : tree A :=
  match v with Dict e => match dget e k with Some x => x | None => NoneT end | _ => NoneT end.
Definition elem {A} (i : nat) (v : tree A) : tree A := match v with Lst m | Tup m => nth i m NoneT | _ => NoneT end.
Definition has_keys {A B} (d : list (string * B)) (v : tree A) : bool :=
  match v with Dict e => (length d =? length e) && forallb (fun kv => match dget e (fst kv) with Some _ => true | None => false end) d | _ => false end.
Definition is_lst {A} (n : nat) (v : tree A) : bool := match v with Lst m => length m =? n | _ => false end.
Definition is_tup {A} (n : nat) (v : tree A) : bool := match v with Tup m => length m =? n | _ => false end.

Section NMap.
Context {A D E : Type} (f : D -> list (tree A) -> result E).
(** [jax.tree.map(f, X, *vs)]: the other trees must have the structure of [X],
    and at its leaves anything. *)
Fixpoint nmap (X : tree D) (vs : list (tree A)) : result (tree E) :=
  match X with
  | Leaf x => let* y := f x vs in Ok (Leaf y)
  | NoneT => if forallb is_none vs then Ok NoneT else Err ValueError
  | Dict d =>
      if forallb (has_keys d) vs then
        let* e := seq_dict (sort_kvs (map (fun kv => (fst kv, nmap (snd kv) (map (child (fst kv)) vs))) d)) in Ok (Dict e)
      else Err ValueError
  | Lst l =>
      if forallb (is_lst (length l)) vs then
        let* m := seq_list ((fix go l i := match l with [] => [] | x :: l' => nmap x (map (elem i) vs) :: go l' (S i) end) l 0) in Ok (Lst m)
      else Err ValueError
  | Tup l =>
      if forallb (is_tup (length l)) vs then
        let* m := seq_list ((fix go l i := match l with [] => [] | x :: l' => nmap x (map (elem i) vs) :: go l' (S i) end) l 0) in Ok (Tup m)
      else Err ValueError
  end.
End NMap.

Section Prefix.
Context {A D : Type} (f : A -> tree D -> result (tree D)).
(** mixed_scaler.py L100-105, L138-143: [jax.tree.map] over the tree of scalers,
    in which None is a leaf; each gets the part of the data at its place. *)
Fixpoint pre (t : tree A) (X : tree D) : result (tree D) :=
  match t with
  | Leaf s => f s X
  | NoneT => Ok X
  | Dict d =>
      if has_keys d X then
        let* e := seq_dict (sort_kvs (map (fun kv => (fst kv, pre (snd kv) (child (fst kv) X))) d)) in Ok (Dict e)
      else Err ValueError
  | Lst l =>
      if is_lst (length l) X then
        let* m := seq_list ((fix go l i := match l with [] => [] | x :: l' => pre x (elem i X) :: go l' (S i) end) l 0) in Ok (Lst m)
      else Err ValueError
  | Tup l =>
      if is_tup (length l) X then
        let* m := seq_list ((fix go l i := match l with [] => [] | x :: l' => pre x (elem i X) :: go l' (S i) end) l 0) in Ok (Tup m)
      else Err ValueError
  end.
End Prefix.

Section Apply.
Context {N D : Type} (kern : scls -> bool -> list (py N) -> D -> list (py N) -> result D).
(** [np.isscalar] of jax: arrays without axes are scalars. *)
Definition is_scalar (v : py N) : bool :=
  match v with Leaf (AArr a) => match a_shape a with [] => true | _ => false end | Leaf _ => true | _ => false end.
(** minmax_scaler.py L112-119, L160-167. *)
Definition spread (b s : py N) : result (py N) :=
  match b with
  | Leaf a => if is_scalar b then jmapM (fun _ => Ok a) s else Ok b
  | _ => Ok b
  end.
(** [transform] ([inv] false) and [inverse_transform] ([inv] true):
    standard_scaler.py L66-76, L96-106; minmax_scaler.py L107-135, L155-185;
    robust_scaler.py L187-201, L221-235; onehot.py L84-98, L125-138;
    mixed_scaler.py L90-108, L128-146. *)
Fixpoint apply (inv : bool) (s : sobj N) (X : tree D) {struct s} : result (tree D) :=
  match s with
  | Standard mean scale =>
      if is_none mean || is_none scale then Err RuntimeError else nmap (kern CStandard inv []) X [mean; scale]
  | MinMax lo hi dmin dmax =>
      if is_none dmin || is_none dmax then Err RuntimeError else
      let* min_val := spread lo dmin in
      let* max_val := spread hi dmax in
      nmap (kern CMinMax inv []) X [dmin; dmax; min_val; max_val]
  | Robust _ _ _ _ eps scale median =>
      if is_none scale || is_none median then Err RuntimeError else nmap (kern CRobust inv [eps]) X [median; scale]
  | OneHot uniq shapes =>
      if is_none uniq || inv && is_none shapes then Err RuntimeError
      else nmap (kern COneHot inv []) X (if inv then [uniq; shapes] else [uniq])
  | Mixed NoneT => Ok X
  | Mixed t => pre (apply inv) t X
  end.
End Apply.

(* ------------------------------------------------------------------ *)
(** * Serialising *)

Section JPy.
Context {X N : Type} (f : X -> py N).
(** [jax.tree.map(f, t, is_leaf=lambda x: x is None)], None for None. *)
Fixpoint jpy (t : tree X) : py N :=
  match t with
  | Leaf x => f x
  | NoneT => NoneT
  | Dict d => Dict (sort_kvs (map (fun kv => (fst kv, jpy (snd kv))) d))
  | Lst l => Lst (map jpy l)
  | Tup l => Tup (map jpy l)
  end.
End JPy.

(** standard_scaler.py L119-122, minmax_scaler.py L198-202, robust_scaler.py
    L248-255, onehot.py L150-153, mixed_scaler.py L160-196 ([str(type(s))] is the
    module and the name). *)
Fixpoint ser {N} (s : sobj N) : list (string * py N) :=
  match s with
  | Standard mean scale => [("mean_", mean); ("scale_", scale)]
  | MinMax lo hi dmin dmax => [("feature_range", Tup [lo; hi]); ("data_min_", dmin); ("data_max_", dmax)]
  | Robust qlow qhigh centering scaling eps scale median =>
      [("quantile_range", Tup [qlow; qhigh]); ("with_centering", centering); ("with_scaling", scaling); ("eps", eps);
       ("scale_", scale); ("median_", median)]
  | OneHot uniq shapes => [("unique_vals_", uniq); ("original_shapes_", shapes)]
  | Mixed t =>
      [("feature_scalers", jpy (fun s => Dict (ser s)) t);
       ("scaler_fulltypenames", jpy (fun s => Leaf (AStr (append (cls_module (cls_of s)) (append "." (cls_name (cls_of s)))))) t);
       ("scaler_typenames", jpy (fun s => Leaf (AStr (cls_name (cls_of s)))) t);
       ("scaler_modules", jpy (fun s => Leaf (AStr (cls_module (cls_of s)))) t)]
  end.

(** [getattr(sys.modules[module], name)] — mixed_scaler.py L225-227. *)
Definition class_of {N} (n m : py N) : result scls :=
  match n, m with
  | Leaf (AStr n), Leaf (AStr m) =>
      if existsb (fun c => String.eqb (cls_module c) m) classes then
        match find (fun c => String.eqb (cls_module c) m && String.eqb (cls_name c) n) classes with
        | Some c => Ok c
        | None => Err AttributeError
        end
      else Err KeyError
  | _, Leaf (AStr _) => Err TypeError
  | _, _ => Err KeyError
  end.
Definition need {X} (d : list (string * X)) (k : string) : result X :=
  match dget d k with Some x => Ok x | None => Err KeyError end.
Definition getd {A} (d : list (string * tree A)) (k : string) : tree A :=
  match dget d k with Some x => x | None => NoneT end.
(** [self.min_val, self.max_val = feature_range] in the constructors
    (minmax_scaler.py L64, robust_scaler.py L103), whose annotation admits
    pairs, lists, and arrays of exactly two numbers; anything else is a
    TypeError of the type checker (scaler.py L20-31). *)
Definition unpack2 {N} (v : py N) : result (py N * py N) :=
  match v with
  | Tup [a; b] | Lst [a; b] => Ok (a, b)
  | Lst _ => Err ValueError
  | Leaf (AArr a) =>
      match a_shape a, a_data a with
      | [2], [x; y] => Ok (Leaf (AArr (mk_arr [] [x])), Leaf (AArr (mk_arr [] [y])))
      | _, _ => Err TypeError
      end
  | _ => Err TypeError
  end.
(** [bool | PyTree[bool]] (robust_scaler.py L64-65): no arrays. *)
Definition switch {N} (v : py N) : result (py N) := match v with Leaf (AArr _) => Err TypeError | _ => Ok v end.
(** [deserialize] of the classes other than MixedScaler. *)
Definition simple {N} (c : scls) (d : list (string * py N)) : result (sobj N) :=
  match c with
  | CStandard => let* m := need d "mean_" in let* s := need d "scale_" in Ok (Standard m s)
  | CMinMax =>
      let* r := need d "feature_range" in
      let* lh := unpack2 r in
      let* a := need d "data_min_" in
      let* b := need d "data_max_" in
      Ok (MinMax (fst lh) (snd lh) a b)
  | CRobust =>
      let* r := need d "quantile_range" in
      let* c := need d "with_centering" in
      let* s := need d "with_scaling" in
      let* e := need d "eps" in
      let* lh := unpack2 r in
      let* c := switch c in
      let* s := switch s in
      let* e := switch e in
      let* sc := need d "scale_" in
      let* me := need d "median_" in
      Ok (Robust (fst lh) (snd lh) c s e sc me)
  | COneHot => let* u := need d "unique_vals_" in let* o := need d "original_shapes_" in Ok (OneHot u o)
  | CMixed => Err TypeError
  end.
Definition container {A} (v : tree A) : bool := match v with Dict _ | Lst _ | Tup _ => true | _ => false end.
(** mixed_scaler.py L222-236: [jax.tree.map] over the names, the modules and the
    serialised scalers; a name is turned into the class, whose [deserialize] gets
    the dictionary. *)
Fixpoint walk {N} (s n m : py N) {struct s} : result (tree (sobj N)) :=
  if container n then
    match n, m, s with
    | Dict dn, Dict dm, Dict ds =>
        if (length dn =? length ds) && (length dm =? length ds) then
          let* r := (fix go ds := match ds with
                                  | [] => Ok []
                                  | (k, x) :: ds' =>
                                      match dget dn k, dget dm k with
                                      | Some n', Some m' => let* t := walk x n' m' in let* r := go ds' in Ok ((k, t) :: r)
                                      | _, _ => Err ValueError
                                      end
                                  end) ds in
          Ok (Dict (sort_kvs r))
        else Err ValueError
    | Lst ln, Lst lm, Lst ls =>
        let* r := (fix go ls ln lm := match ls, ln, lm with
                                      | [], [], [] => Ok []
                                      | x :: ls', n' :: ln', m' :: lm' => let* t := walk x n' m' in let* r := go ls' ln' lm' in Ok (t :: r)
                                      | _, _, _ => Err ValueError
                                      end) ls ln lm in
        Ok (Lst r)
    | Tup ln, Tup lm, Tup ls =>
        let* r := (fix go ls ln lm := match ls, ln, lm with
                                      | [], [], [] => Ok []
                                      | x :: ls', n' :: ln', m' :: lm' => let* t := walk x n' m' in let* r := go ls' ln' lm' in Ok (t :: r)
                                      | _, _, _ => Err ValueError
                                      end) ls ln lm in
        Ok (Tup r)
    | _, _, _ => Err ValueError
    end
  else
    match s with
    | NoneT => Ok NoneT
    | Dict d =>
        let* c := class_of n m in
        match c with
        | CMixed =>
            (fix look l := match l with
                           | [] => Ok (Leaf (Mixed NoneT))
                           | (k, x) :: l' =>
                               if String.eqb k "feature_scalers" then
                                 match x with
                                 | NoneT => Ok (Leaf (Mixed NoneT))
                                 | _ => let* t := walk x (getd d "scaler_typenames") (getd d "scaler_modules") in Ok (Leaf (Mixed t))
                                 end
                               else look l'
                           end) d
        | _ => let* o := simple c d in Ok (Leaf o)
        end
    | _ => Err TypeError
    end.
(** [C.deserialize(d)]. *)
Definition deser {N} (c : scls) (d : list (string * py N)) : result (sobj N) :=
  let* t := walk (Dict d) (Leaf (AStr (cls_name c))) (Leaf (AStr (cls_module c))) in
  match t with Leaf o => Ok o | _ => Err TypeError end.

(* ------------------------------------------------------------------ *)
(** * Files *)

Section Files.
Context {N : Type} (ofnat : nat -> N).

(** What [np.asanyarray] makes of a value: nested sequences and arrays are axes
    (ragged ones are a ValueError). *)
Fixpoint nshape (v : py N) : option (list nat) :=
  match v with
  | Lst l | Tup l =>
      match (fix go l := match l with
                         | [] => Some []
                         | x :: l' => match nshape x, go l' with
                                      | Some s, Some ss => Some (s :: ss)
                                      | _, _ => None
                                      end
                         end) l with
      | Some [] => Some [0]
      | Some (s :: ss) => if forallb (fun s' => if list_eq_dec Nat.eq_dec s s' then true else false) ss then Some (length l :: s) else None
      | None => None
      end
  | Leaf (AArr a) => Some (a_shape a)
  | _ => Some []
  end.
Fixpoint atoms (v : py N) : list (py N) :=
  match v with Lst l | Tup l => flat_map atoms l | _ => [v] end.
Definition numbers (v : py N) : option (list N) :=
  match v with
  | Leaf (ABool b) => Some [ofnat (if b then 1 else 0)]
  | Leaf (AInt n) => Some [ofnat n]
  | Leaf (ANum x) => Some [x]
  | Leaf (AArr a) => Some (a_data a)
  | _ => None
  end.
Fixpoint all_numbers (l : list (py N)) : option (list N) :=
  match l with
  | [] => Some []
  | v :: l' => match numbers v, all_numbers l' with Some x, Some y => Some (x ++ y) | _, _ => None end
  end.
Definition is_string (v : py N) : bool := match v with Leaf (AStr _) => true | _ => false end.

(** An entry of the file: an array of numbers, an array of strings with at least
    one axis, or an array of objects, given by what [item()] or [tolist()] makes
    of it. (Lists mixing strings and numbers do not occur.) *)
Inductive npy := Numeric (a : arr N) | Strings | Objects (v : py N).
Fixpoint nest (s : list nat) (l : list N) : py N :=
  match s with
  | [] => match l with x :: _ => Leaf (ANum x) | [] => NoneT end
  | n :: s' => let w := fold_right Nat.mul 1 s' in Lst (map (fun i => nest s' (firstn w (skipn (i * w) l))) (seq 0 n))
  end.
Fixpoint relist (v : py N) : py N :=
  match v with
  | Lst l | Tup l => Lst (map relist l)
  | Leaf (AArr a) => nest (a_shape a) (a_data a)
  | _ => v
  end.
Definition asarray (v : py N) : result npy :=
  match v with
  | Lst _ | Tup _ =>
      match nshape v with
      | None => Err ValueError
      | Some s =>
          match all_numbers (atoms v) with
          | Some l => Ok (Numeric (mk_arr s l))
          | None => Ok (if forallb is_string (atoms v) then Strings else Objects (relist v))
          end
      end
  | Leaf (AArr a) => Ok (Numeric a)
  | _ => Ok (Objects v)
  end.
(** scaler.py L154-157: [onp.savez]. *)
Definition save_file (s : sobj N) : result (list (string * npy)) :=
  seq_dict (map (fun kv => (fst kv, asarray (snd kv))) (ser s)).
(** scaler.py L192-208: numbers without axes are taken out with [item()];
    [jax.numpy.array] refuses strings (TypeError); [jax.tree.map] sorts
    dictionaries. *)
Definition from_npy (x : npy) : result (py N) :=
  match x with
  | Numeric a => match a_shape a, a_data a with
                 | [], [v] => Ok (Leaf (ANum v))
                 | _, _ => Ok (Leaf (AArr a))
                 end
  | Strings => Err TypeError
  | Objects v => jmapM (fun a => Ok a) v
  end.
Definition load_file (c : scls) (f : list (string * npy)) : result (sobj N) :=
  let* d := seq_dict (map (fun kv => (fst kv, from_npy (snd kv))) f) in deser c d.
(** Save and load. *)
Definition refile (s : sobj N) : result (sobj N) := let* f := save_file s in load_file (cls_of s) f.
End Files.
