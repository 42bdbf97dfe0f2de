(** Model of the connection-dictionary functions of
    /repo/parametricmatrixmodels/graph_util.py (L10-682). *)
From Verif Require Import Base TreeUtil Resolve.

(** [d.setdefault(k, []).append(x)] / the [if k not in d] idiom *)
Definition dpush {V} (d : dict (list V)) (k : string) (x : V) : dict (list V) :=
  dset d k (match dget d k with Some l => l | None => [] end ++ [x]).

Section Conn.
Variable sep : ascii.

(* ------------------------------------------------------------------ *)
(** * concretize_paths — L10-98 *)

(** [p.split(separator) if p else []] (L50). *)
Definition path_parts (p : string) : list string :=
  match p with EmptyString => [] | _ => split sep p end.

(** L59-64: groups by the joined prefix of length [c]; members carry the
    remaining parts and the index of the path. *)
Definition group := list (list string * nat).
Definition add_member (c : nat) (g : dict group) (ip : nat * list string) : dict group :=
  dpush g (join sep (firstn c (snd ip))) (skipn c (snd ip), fst ip).
Definition make_groups (c : nat) (paths : list (list string)) : dict group :=
  fold_left (add_member c) (combine (seq 0 (length paths)) paths) [].

Definition is_nil {A} (l : list A) : bool := match l with [] => true | _ => false end.

(** indices of the members with empty remainder, in order (L77-78, L91-92) *)
Definition blank (g : group) : list nat := map snd (filter (fun m => is_nil (fst m)) g).
(** L73: first keys of the other members (a set in the code; only membership
    and the integer values are used) *)
Definition existing (g : group) : list string :=
  flat_map (fun m => match fst m with k :: _ => [k] | [] => [] end) g.

Fixpoint mem_nat (n : nat) (l : list nat) : bool :=
  match l with [] => false | m :: l' => (n =? m) || mem_nat n l' end.

(** L83-90: the sorted unused numbers below the group size *)
Definition available (g : group) : list nat :=
  filter (fun n => negb (mem_nat n (map int_of (existing g)))) (seq 0 (length g)).

(** L77-80 and L91-94: [paths[i] = paths[i] + [key]] for the blank members;
    running out of indices is [StopIteration] (the [next] of L93). *)
Fixpoint assign (paths : list (list string)) (idx : list nat) (keys : list string)
  : result (list (list string)) :=
  match idx, keys with
  | [], _ => Ok paths
  | i :: idx', k :: keys' => assign (upd paths i (nth i paths [] ++ [k])) idx' keys'
  | _ :: _, [] => Err StopIteration
  end.

(** [uuid n] is the [n]-th value returned by [uuid.uuid4().hex] (L79); the state
    counts the calls made so far. *)
Variable uuid : nat -> string.

(** L69-94, one group *)
Definition process_group (st : nat * list (list string)) (g : string * group)
  : result (nat * list (list string)) :=
  let '(n, paths) := st in
  let mem := snd g in
  if (length mem <=? 1) || negb (existsb (fun m => is_nil (fst m)) mem) then Ok st
  else if existsb (fun k => negb (isdigit k)) (existing mem) then
    let* paths' := assign paths (blank mem) (map uuid (seq n (length (blank mem)))) in
    Ok (n + length (blank mem), paths')
  else
    let* paths' := assign paths (blank mem) (map str_of (available mem)) in
    Ok (n, paths').

(** L56-95, the body of the while loop for one value of [cur_len] *)
Definition level (st : nat * list (list string)) (c : nat)
  : result (nat * list (list string)) :=
  rfold process_group (make_groups c (snd st)) st.

Definition list_min (l : list nat) : nat :=
  match l with [] => 0 | x :: l' => fold_left Nat.min l' x end.
Definition list_max' (l : list nat) : nat := fold_left Nat.max l 0.

(** the whole function; [n] is the number of uuids drawn before. [min] of an
    empty sequence is ValueError (L53). *)
Definition concretize_paths (n : nat) (paths : list string)
  : result (nat * list string) :=
  match paths with
  | [] => Err ValueError
  | _ =>
      let ps := map path_parts paths in
      let lo := list_min (map (@List.length string) ps) in
      let hi := list_max' (map (@List.length string) ps) in
      let* (n', ps') := rfold level (seq lo (S hi - lo)) (n, ps) in
      Ok (n', map (join sep) ps')
  end.

(* ------------------------------------------------------------------ *)
(** * partition_connections_by_tree — L378-534 *)

(** dictionary values are a string or a list/tuple of strings *)
Inductive cval := One (v : string) | Many (vs : list string).
(** L449-454 *)
Definition cval_list (c : cval) : list string :=
  match c with One v => [v] | Many vs => vs end.
Definition normalize (conns : dict cval) : dict (list string) :=
  map (fun kv => (fst kv, cval_list (snd kv))) conns.

Definition sepS : string := String sep EmptyString.
Definition dsep : string := String sep sepS.

Variables in_key out_key : string.

(** [s.startswith(k + separator) or s == k] *)
Definition under (s k : string) : bool :=
  startswith s (append k sepS) || String.eqb s k.

Section WithTree.
Context {A : Type}.
Variable t : tree A.

(** L477-501: [removesuffix(rem).rstrip(sep) + ".." + rem] *)
Definition part_key (key : string) : result string :=
  if under key in_key then
    Ok (append in_key (append dsep (lstrip sep (removeprefix key in_key))))
  else if under key out_key then Err ValueError
  else
    let* (_, rem) := getitem sep no_leaf true t key in
    Ok (append (rstrip sep (removesuffix key rem)) (append dsep rem)).

(** L502-531 *)
Definition part_val (v : string) : result string :=
  if under v out_key then
    Ok (append out_key (append dsep (lstrip sep (removeprefix v out_key))))
  else if under v in_key then Err ValueError
  else
    let* (_, rem) := getitem sep no_leaf true t v in
    Ok (append (removesuffix (removesuffix v rem) sepS) (append dsep rem)).

(** L456-471 *)
Definition check_double (conn : dict (list string)) : bool :=
  existsb (fun kv => has_double sep (fst kv) || existsb (has_double sep) (snd kv)) conn.

Definition part_entry (acc : dict (list string)) (kv : string * list string)
  : result (dict (list string)) :=
  let* k := part_key (fst kv) in
  let* vs := rmapM part_val (snd kv) in
  Ok (dset acc k vs).

Definition partition_connections (conns : dict cval) : result (dict (list string)) :=
  let conn := normalize conns in
  if check_double conn then Err ValueError
  else rfold part_entry conn [].

(* ------------------------------------------------------------------ *)
(** * splitting at the double separator *)

(** [s.split(sep + sep)]: leftmost, non-overlapping *)
Fixpoint split2 (s : string) : list string :=
  match s with
  | EmptyString => [EmptyString]
  | String c s' =>
      match s' with
      | String d s'' =>
          if Ascii.eqb c sep && Ascii.eqb d sep then EmptyString :: split2 s''
          else match split2 s' with
               | p :: ps => String c p :: ps
               | [] => [String c EmptyString]
               end
      | EmptyString => [s]
      end
  end.

(** [outer, inner = v.split(double_sep)]: ValueError unless two parts *)
Definition unpack2 (s : string) : result (string * string) :=
  match split2 s with [a; b] => Ok (a, b) | _ => Err ValueError end.

(** [s.replace(double_sep, separator)] *)
Definition undouble (s : string) : string := join sep (split2 s).

(* ------------------------------------------------------------------ *)
(** * concretize_connections — L101-293 *)

(** L219-225 *)
Definition by_outer_val (key : string) (acc : dict (list (string * string))) (v : string)
  : result (dict (list (string * string))) :=
  let* (outer, inner) := unpack2 v in
  Ok (dpush acc outer (inner, key)).
Definition by_outer (pc : dict (list string)) : result (dict (list (string * string))) :=
  rfold (fun acc kv => rfold (by_outer_val (fst kv)) (snd kv) acc) pc [].

(** L232-236 *)
Definition conc_outer (st : nat * dict (list string)) (e : string * list (string * string))
  : result (nat * dict (list string)) :=
  let* (n', ps) := concretize_paths (fst st) (map fst (snd e)) in
  Ok (n', snd st ++ [(fst e, ps)]).

(** L238-264: the stage that numbers remaining duplicates *)
Definition count_str (p : string) (l : list string) : nat := count_occ string_dec l p.
Fixpoint dedup (all : list string) (idx : dict nat) (ps : list string) : list string :=
  match ps with
  | [] => []
  | p :: ps' =>
      if 1 <? count_str p all then
        let i := match dget idx p with Some i => i | None => 0 end in
        (match p with EmptyString => str_of i
                    | _ => append p (append sepS (str_of i)) end)
        :: dedup all (dset idx p (S i)) ps'
      else p :: dedup all idx ps'
  end.

(** L266-283 *)
Definition rebuild_entry (grouped : dict (list (string * string)))
    (acc : dict (list string)) (e : string * list string) : dict (list string) :=
  let '(outer, inners) := e in
  let keys := match dget grouped outer with Some l => map snd l | None => [] end in
  fold_left (fun acc ik => dpush acc (snd ik) (append outer (append dsep (fst ik))))
            (combine inners keys) acc.

(** L285-293: dictionary comprehension (a later equal key overwrites) *)
Definition tidy (s : string) : string := strip sep (undouble s).

Definition concretize_connections (conns : dict cval)
  : result (dict (list string)) :=
  let* pc := partition_connections conns in
  let* grouped := by_outer pc in
  let* (_, conc) := rfold conc_outer grouped (0, []) in
  let conc' := map (fun e => (fst e, dedup (snd e) [] (snd e))) conc in
  let rebuilt := fold_left (rebuild_entry grouped) conc' [] in
  Ok (fold_left (fun acc kv => dset acc (tidy (fst kv)) (map tidy (snd kv))) rebuilt []).

(* ------------------------------------------------------------------ *)
(** * get_outer_connections_by_tree — L296-375 *)

Definition add_set (l : list string) (x : string) : list string :=
  if mem_str x l then l else l ++ [x].

(** L361-372; the literals "input"/"output" of L363 are in the code *)
Definition outer_entry (acc : graph) (kv : string * list string) : result graph :=
  let '(key, value) := kv in
  let* sk := if startswith key "input"%string || startswith key "output"%string
             then Ok (hd EmptyString (split sep key))
             else let* (o, _) := unpack2 key in Ok o in
  let* vs := rmapM (fun v => let* (o, _) := unpack2 v in Ok o) value in
  Ok (dset acc sk
       (fold_left add_set vs (match dget acc sk with Some l => l | None => [] end))).
Definition get_outer_connections (conns : dict cval) : result graph :=
  let* pc := partition_connections conns in
  rfold outer_entry pc [].

(* ------------------------------------------------------------------ *)
(** * place_connections_in_tree — L537-682 *)

(** L628-643 *)
Definition reverse_conn (cc : dict (list string)) : dict (list string) :=
  fold_left (fun acc kv => fold_left (fun acc v => dpush acc v (fst kv)) (snd kv) acc) cc [].
Definition single_sources (rc : dict (list string)) : result (dict string) :=
  if existsb (fun kv => 1 <? length (snd kv)) rc then Err RuntimeError
  else Ok (map (fun kv => (fst kv, hd EmptyString (snd kv))) rc).

Definition place_connections (conns : dict cval)
  : result (tree string * tree string) :=
  let* cc := concretize_connections conns in
  let* rc := single_sources (reverse_conn cc) in
  let outs := filter (fun kv => startswith (fst kv) out_key) rc in        (* L647 *)
  let* output_remainder :=
    match outs with
    | [(k, src)] =>
        if String.eqb k out_key then Ok (Leaf src)                        (* L651-655 *)
        else extend_structure String.eqb sep None
               (map (fun kv => strip sep (removeprefix (fst kv) (append out_key sepS))) outs)
               (FillList (map (fun kv => Leaf (snd kv)) outs))
    | _ => extend_structure String.eqb sep None
               (map (fun kv => strip sep (removeprefix (fst kv) (append out_key sepS))) outs)
               (FillList (map (fun kv => Leaf (snd kv)) outs))            (* L657-665 *)
    end in
  let ins := filter (fun kv => negb (startswith (fst kv) (append out_key sepS))) rc in
  let* placed_tree :=
    extend_structure String.eqb sep None (map (fun kv => strip sep (fst kv)) ins)
      (FillList (map (fun kv => Leaf (snd kv)) ins)) in                   (* L667-680 *)
  Ok (placed_tree, output_remainder).
End WithTree.
End Conn.
