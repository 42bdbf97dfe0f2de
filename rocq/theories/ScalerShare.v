(** Scaler objects inside mixed scalers
    (parametricmatrixmodels/preprocessing/mixed_scaler.py): the entries of
    [feature_scalers] are references, [fit] fits the objects in place and returns
    them.

    Simplifications:
    - the other scaler classes enter through what [fit] of one of them makes of
      the data ([fit1]: statistics, or an exception) and what [transform] and
      [inverse_transform] make of data with such statistics; [K] stands for the
      class and the constructor arguments;
    - [num] is the number of samples of an array; the annotations of mixed scalers
      ([Data], typing.py L102) are checked as in ScalerTyped.v;
    - a scaler whose own [fit] raises keeps its statistics (RobustScaler may have
      replaced one of two);
    - [fit] of a mixed scaler also replaces [feature_scalers] by a tree with the
      same entries in which dictionaries are sorted (L67-72); nothing looks at
      the order of a dictionary, so this is left out. *)
From Verif Require Import Base TreeUtil ScalerTyped ScalerFile.
Local Open Scope list_scope.

Section Share.
Context {K St A : Type} (num : A -> nat) (fit1 : K -> tree A -> result St).

(** Objects are numbered. standard_scaler.py L16-23 and the other classes: the
    statistics are None until fitted; mixed_scaler.py L20-36. *)
Inductive sobj := Plain (k : K) (s : option St) | Mixed (t : option (tree nat)).
Definition heap := list sobj.
Definition upd (h : heap) (r : nat) (o : sobj) : heap := firstn r h ++ match skipn r h with [] => [] | _ :: h' => o :: h' end.

(** mixed_scaler.py L67-72: [jax.tree.map] with None as a leaf takes the parts of
    the data at the places of the scalers, in the order of sorted keys, before
    the first scaler is called. *)
Fixpoint pairs (t : tree nat) (X : tree A) : result (list (nat * tree A)) :=
  match t with
  | Leaf r => Ok [(r, X)]
  | NoneT => Ok []
  | Dict d =>
      if has_keys d X then
        let* e := seq_dict (sort_kvs (map (fun kv => (fst kv, pairs (snd kv) (child (fst kv) X))) d)) in Ok (concat (map snd e))
      else Err ValueError
  | Lst l =>
      if is_lst (length l) X then
        let* m := seq_list ((fix go l i := match l with [] => [] | x :: l' => pairs x (elem i X) :: go l' (S i) end) l 0) in Ok (concat m)
      else Err ValueError
  | Tup l =>
      if is_tup (length l) X then
        let* m := seq_list ((fix go l i := match l with [] => [] | x :: l' => pairs x (elem i X) :: go l' (S i) end) l 0) in Ok (concat m)
      else Err ValueError
  end.

(** One call after the other, until one raises. *)
Fixpoint each (f : heap -> nat -> tree A -> heap * result unit) (h : heap) (l : list (nat * tree A)) : heap * result unit :=
  match l with
  | [] => (h, Ok tt)
  | (r, X) :: l' => match f h r X with (h1, Ok _) => each f h1 l' | (h1, Err e) => (h1, Err e) end
  end.

(** [fit]: mixed_scaler.py L38-73; standard_scaler.py L25-47, minmax_scaler.py
    L67-88, robust_scaler.py L108-168, onehot.py L29-63. The fuel bounds the
    nesting of mixed scalers. *)
Fixpoint fit (fuel : nat) (h : heap) (r : nat) (X : tree A) : heap * result unit :=
  match fuel with
  | 0 => (h, Err OutOfFuel)
  | S fuel =>
      match nth_error h r with
      | Some (Plain k _) => match fit1 k X with Ok s => (upd h r (Plain k (Some s)), Ok tt) | Err e => (h, Err e) end
      | Some (Mixed t) =>
          if one_number (map num (leaves X)) then
            match t with
            | None => (h, Ok tt)
            | Some t => match pairs t X with Ok l => each (fit fuel) h l | Err e => (h, Err e) end
            end
          else (h, Err TypeError)
      | None => (h, Err AttributeError)
      end
  end.

(** [transform] or [inverse_transform], mixed_scaler.py L75-146; [use] is the
    same method of the other classes. *)
Fixpoint run (use : K -> St -> tree A -> result (tree A)) (fuel : nat) (h : heap) (r : nat) (X : tree A) : result (tree A) :=
  match fuel with
  | 0 => Err OutOfFuel
  | S fuel =>
      match nth_error h r with
      | Some (Plain k (Some s)) => use k s X
      | Some (Plain k None) => Err RuntimeError
      | Some (Mixed None) => call num num (fun X => Ok X) X
      | Some (Mixed (Some t)) => call num num (pre (run use fuel h) t) X
      | None => Err AttributeError
      end
  end.
End Share.
Arguments sobj : clear implicits.
Arguments heap : clear implicits.
