(** Model of the path functions of /repo/parametricmatrixmodels/tree_util.py. *)
From Verif Require Import Base.

(** PyTrees as seen by tree_util.py: a leaf, [None] (an empty node for JAX),
    [dict] (string keys, insertion order), [list], [tuple].
    Simplification: custom registered nodes and non-string dict keys are not
    modelled (a string path can not reach an int dict key). *)
Inductive tree (A : Type) : Type :=
| Leaf (a : A)
| NoneT
| Dict (kvs : list (string * tree A))
| Lst (ts : list (tree A))
| Tup (ts : list (tree A)).
Arguments Leaf {A} a.
Arguments NoneT {A}.
Arguments Dict {A} kvs.
Arguments Lst {A} ts.
Arguments Tup {A} ts.

(** Python [==] on trees, given [==] on leaves (tree_util.py L521, L543 use
    [!=]).  Dictionaries compare as finite maps. *)
Fixpoint tree_eqb {A} (eqA : A -> A -> bool) (t u : tree A) {struct t} : bool :=
  let fix all2 (l m : list (tree A)) {struct l} : bool :=
    match l, m with
    | [], [] => true
    | x :: l', y :: m' => tree_eqb eqA x y && all2 l' m'
    | _, _ => false
    end in
  match t, u with
  | Leaf a, Leaf b => eqA a b
  | NoneT, NoneT => true
  | Lst l, Lst m => all2 l m
  | Tup l, Tup m => all2 l m
  | Dict d, Dict e =>
      (length d =? length e) &&
      (fix alld (l : list (string * tree A)) : bool :=
         match l with
         | [] => true
         | (k, x) :: l' =>
             match dget e k with
             | Some y => tree_eqb eqA x y
             | None => false
             end && alld l'
         end) d
  | _, _ => false
  end.

(* ------------------------------------------------------------------ *)
(** * getitem_by_strpath — tree_util.py L182-289

    Returns the node together with the remainder (the code returns only the
    node when [return_remainder] is false; the node is the same).
    The recursion of the code is on a strictly shorter string; [fuel] is
    [S (len strpath)], see [getitem_unfold] in TreeProofs.v for the equation
    without fuel. *)
Section GetSet.
Context {A : Type}.
Variable sep : ascii.
Variable is_leaf : tree A -> bool.   (* [is_leaf=None] is [fun _ => false] *)

Fixpoint getitem_fuel (early : bool) (fuel : nat) (t : tree A) (path : string)
  : result (tree A * string) :=
  match fuel with
  | 0 => Err OutOfFuel
  | S f =>
    match path with
    | EmptyString => Ok (t, EmptyString)                         (* L248-252 *)
    | _ =>
      if is_leaf t then                                          (* L253-263 *)
        if early then Ok (t, path) else Err TypeError
      else
        let '(key, rest) := split1 sep path in                   (* L265 *)
        let rest' := match rest with Some r => r | None => EmptyString end in
        match t with
        | Dict d =>                                              (* L266-267 *)
            match dget d key with
            | Some t' => getitem_fuel early f t' rest'
            | None => Err KeyError
            end
        | Lst l | Tup l =>                                       (* L268-274 *)
            if isdigit key then
              match nth_error l (int_of key) with
              | Some t' => getitem_fuel early f t' rest'
              | None => Err IndexError
              end
            else Err KeyError
        | Leaf _ | NoneT =>                                      (* L275-281 *)
            if early then Ok (t, path) else Err TypeError
        end
    end
  end.

Definition getitem (early : bool) (t : tree A) (path : string) : result (tree A * string) :=
  getitem_fuel early (S (slen path)) t path.

(** setitem_by_strpath — tree_util.py L292-363.  The code mutates the tree in
    place; the model returns the new tree. *)
Fixpoint setitem_fuel (fuel : nat) (t : tree A) (path : string) (v : tree A)
  : result (tree A) :=
  match fuel with
  | 0 => Err OutOfFuel
  | S f =>
    match path with
    | EmptyString => Err ValueError                              (* L321-322 *)
    | _ =>
      if is_leaf t then Err TypeError                            (* L323-327 *)
      else
        let '(key, rest) := split1 sep path in
        match t with
        | Dict d =>                                              (* L330-340 *)
            match rest with
            | Some r =>
                match dget d key with
                | Some t' =>
                    let* t'' := setitem_fuel f t' r v in Ok (Dict (dset d key t''))
                | None => Err KeyError
                end
            | None => Ok (Dict (dset d key v))
            end
        | Lst l =>                                               (* L341-361 *)
            if isdigit key then
              match rest with
              | Some r =>
                  match nth_error l (int_of key) with
                  | Some t' =>
                      let* t'' := setitem_fuel f t' r v in Ok (Lst (upd l (int_of key) t''))
                  | None => Err IndexError
                  end
              | None =>
                  if int_of key <? length l then Ok (Lst (upd l (int_of key) v))
                  else Err IndexError
              end
            else Err KeyError
        | Tup l =>
            if isdigit key then
              match rest with
              | Some r =>
                  match nth_error l (int_of key) with
                  | Some t' =>
                      let* t'' := setitem_fuel f t' r v in Ok (Tup (upd l (int_of key) t''))
                  | None => Err IndexError
                  end
              | None => Err TypeError                            (* L356-360 *)
              end
            else Err KeyError
        | Leaf _ | NoneT => Err TypeError                        (* L362-363 *)
        end
    end
  end.

Definition setitem (t : tree A) (path : string) (v : tree A) : result (tree A) :=
  setitem_fuel (S (slen path)) t path v.
End GetSet.

Definition no_leaf {A} (_ : tree A) : bool := false.

(* ------------------------------------------------------------------ *)
(** * extend_structure_from_strpaths — tree_util.py L366-576 *)
Section Extend.
Context {A : Type}.
Variable eqA : A -> A -> bool.
Variable sep : ascii.

(** L514-519 / L536-541: a new intermediate node. *)
Definition new_node (next_key : string) : tree A :=
  if isdigit next_key then Lst [] else Dict [].

(** L520-529 / L542-551: the slot already exists and this is the last key. *)
Definition conflict (old fill : tree A) : bool :=
  negb (tree_eqb eqA old fill) && negb (match fill with NoneT => true | _ => false end).

(** L508-509: [while len(node) <= key: node.append(None)]. *)
Definition pad (l : list (tree A)) (n : nat) : list (tree A) :=
  l ++ repeat NoneT (S n - length l).

(** Body of the inner loop L489-552 at one (non-tuple) node: [descend] is the
    rest of the walk below the child, [rec] the tuple paths recorded so far. *)
Definition extend_node (descend : tree A -> result (tree A * list string))
    (key : string) (parts' : list string) (fill : tree A)
    (node : tree A) (rec : list string) : result (tree A * list string) :=
  match node with
  | Dict d =>
      match parts' with
      | [] =>                                                    (* is_last *)
          match dget d key with
          | None => Ok (Dict (dset d key fill), rec)
          | Some old => if conflict old fill then Err ValueError else Ok (Dict d, rec)
          end
      | nk :: _ =>
          let child := match dget d key with
                       | None => new_node nk
                       | Some c => c
                       end in
          let* (child', rec') := descend child in
          Ok (Dict (dset d key child'), rec ++ rec')
      end
  | Lst l0 =>
      if isdigit key then                                        (* L494-499 *)
        let i := int_of key in
        let l := pad l0 i in
        match parts' with
        | [] =>
            match nth i l NoneT with
            | NoneT => Ok (Lst (upd l i fill), rec)
            | old => if conflict old fill then Err ValueError else Ok (Lst l, rec)
            end
        | nk :: _ =>
            let child := match nth i l NoneT with
                         | NoneT => new_node nk
                         | c => c
                         end in
            let* (child', rec') := descend child in
            Ok (Lst (upd l i child'), rec ++ rec')
        end
      else Err KeyError
  | _ => Err TypeError                                           (* L500-503 *)
  end.

(** The inner loop L473-552 for one path, as a recursion that rebuilds the
    node instead of mutating it.  [done] is [path_parts[:i]] (for the recorded
    tuple path, L474, L479); the result carries the tuple paths recorded in
    this walk, in order.  The [setitem_by_strpath] of L482-487 re-attaches the
    list just made from the tuple at its own position, which the rebuilding
    does implicitly; its only observable failure is [ValueError] when the
    current path ends in an empty component (then the remaining string is
    empty), kept here. *)
Fixpoint extend_walk (t : tree A) (done parts : list string) (fill : tree A)
  {struct parts} : result (tree A * list string) :=
  match parts with
  | [] => Ok (t, [])
  | key :: parts' =>
      let descend := fun c => extend_walk c (done ++ [key]) parts' fill in
      match t with
      | Tup l =>                                                 (* L478-487 *)
          if String.eqb (last done EmptyString) EmptyString then Err ValueError
          else extend_node descend key parts' fill (Lst l) [join sep done]
      | _ => extend_node descend key parts' fill t []
      end
  end.

(** L556-572: turn the recorded nodes back into tuples, in recording order. *)
Definition restore_tuples (t : tree A) (paths : list string) : result (tree A) :=
  rfold (fun t path =>
           let* (node, _) := getitem sep no_leaf false t path in
           match node with
           | Lst l => setitem sep no_leaf t path (Tup l)
           | _ => Err RuntimeError
           end) paths t.

(** Fill values: a list/tuple of values or one value (L433-439). *)
Inductive fills : Type := FillList (l : list (tree A)) | FillOne (v : tree A).

Definition extend_structure (base : option (tree A)) (strpaths : list string) (fv : fills)
  : result (tree A) :=
  let fill_values := match fv with
                     | FillList l => l
                     | FillOne v => repeat v (length strpaths)
                     end in
  if negb (length fill_values =? length strpaths) then Err ValueError   (* L442-446 *)
  else
    let base0 := match base with                                        (* L449-456 *)
                 | Some b => b
                 | None =>
                     let first_keys := map (fun p => fst (split1 sep p))
                                         (filter (fun p => negb (String.eqb p EmptyString)) strpaths) in
                     if forallb isdigit first_keys then Lst [] else Dict []
                 end in
    let '(base1, base_tuple) := match base0 with                        (* L459-462 *)
                                | Tup l => (Lst l, true)
                                | b => (b, false)
                                end in
    let* (t, recs) :=                                                   (* L469-552 *)
      rfold (fun '(t, recs) '(p, fill) =>
               let* (t', r) := extend_walk t [] (split sep p) fill in
               Ok (t', recs ++ r))
            (combine strpaths fill_values) (base1, []) in
    let* t2 := restore_tuples t recs in
    Ok (if base_tuple then match t2 with Lst l => Tup l | b => b end    (* L574-575 *)
        else t2).
End Extend.
Arguments FillList {A} l.
Arguments FillOne {A} v.

(* ------------------------------------------------------------------ *)
(** * JAX flattening order

    [jax.tree.leaves] visits dict entries in sorted key order and skips
    [None]; [jax.tree.map] rebuilds dicts with sorted keys.  (This is JAX
    behaviour relied on by the code, not code of /repo.) *)
Fixpoint str_leb (s t : string) : bool :=
  match s, t with
  | EmptyString, _ => true
  | String _ _, EmptyString => false
  | String c s', String d t' =>
      let m := nat_of_ascii c in let n := nat_of_ascii d in
      (m <? n) || ((m =? n) && str_leb s' t')
  end.

Fixpoint insert_kv {V} (kv : string * V) (d : list (string * V)) : list (string * V) :=
  match d with
  | [] => [kv]
  | kv' :: d' => if str_leb (fst kv) (fst kv') then kv :: d else kv' :: insert_kv kv d'
  end.
Definition sort_kvs {V} (d : list (string * V)) : list (string * V) :=
  fold_right insert_kv [] d.

Fixpoint leaves {A} (t : tree A) : list A :=
  match t with
  | Leaf a => [a]
  | NoneT => []
  | Dict d => concat (map snd (sort_kvs
                (map (fun kv => (fst kv, leaves (snd kv))) d)))
  | Lst l | Tup l => concat (map leaves l)
  end.

(** [make_mutable] — tree_util.py L154-179.  One loop iteration maps over the
    tree with tuples treated as leaves, so it converts the outermost tuples;
    [jax.tree.map] sorts dict keys on the way. *)
Fixpoint has_outer_tuple {A} (t : tree A) : bool :=      (* negation of L171-173 *)
  match t with
  | Leaf _ | NoneT => false
  | Tup _ => true
  | Lst l => existsb has_outer_tuple l
  | Dict d => existsb (fun kv => has_outer_tuple (snd kv)) d
  end.

Fixpoint mutable_step {A} (t : tree A) : tree A :=       (* L174-178 *)
  match t with
  | Leaf a => Leaf a
  | NoneT => NoneT
  | Tup l => Lst l
  | Lst l => Lst (map mutable_step l)
  | Dict d => Dict (sort_kvs (map (fun kv => (fst kv, mutable_step (snd kv))) d))
  end.

Fixpoint make_mutable_fuel {A} (fuel : nat) (t : tree A) : result (tree A) :=
  if has_outer_tuple t then
    match fuel with
    | 0 => Err OutOfFuel
    | S f => make_mutable_fuel f (mutable_step t)
    end
  else Ok t.

(** number of nodes, used only as loop fuel *)
Fixpoint tsize {A} (t : tree A) : nat :=
  match t with
  | Leaf _ | NoneT => 1
  | Dict d => S (list_sum (map (fun kv => tsize (snd kv)) d))
  | Lst l | Tup l => S (list_sum (map tsize l))
  end.

Definition make_mutable {A} (t : tree A) : result (tree A) :=
  make_mutable_fuel (tsize t) t.
