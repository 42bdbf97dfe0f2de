(** Model of editing the modules of a model: [Model.__setitem__], [insert_module],
    [append_module], [prepend_module], [pop_module_by_index], [pop_module_by_key]
    and [__add__], /repo/parametricmatrixmodels/model.py L1302-1520.
    The outermost container of the modules is a mutable object, so it lives in a
    heap and models hold references to it.  Items of the container (modules or
    nested containers) are values.  Everything [reset] clears (L192-209: shapes,
    callables, optimizer state) is one flag.  Paths as keys are left out. *)
From Coq Require Import ZArith.
From Verif Require Import Base TreeUtil.
Local Open Scope list_scope.

(** *** Python sequences *)
(** the cut point of [l[:i]] and [l[i:]], also of [list.insert(i, x)] *)
Definition cut (n : nat) (i : Z) : nat :=
  if (i <? 0)%Z then Z.to_nat (Z.of_nat n + i) else Nat.min n (Z.to_nat i).
Definition slice_to {A} (l : list A) (i : Z) : list A := firstn (cut (length l) i) l.
Definition slice_from {A} (l : list A) (i : Z) : list A := skipn (cut (length l) i) l.
(** [list.insert] *)
Definition py_insert {A} (l : list A) (i : Z) (x : A) : list A :=
  firstn (cut (length l) i) l ++ x :: skipn (cut (length l) i) l.
(** the position meant by [l[i]] *)
Definition index {A} (l : list A) (i : Z) : result nat :=
  let n := Z.of_nat (length l) in
  let j := if (i <? 0)%Z then (n + i)%Z else i in
  if ((0 <=? j) && (j <? n))%Z then Ok (Z.to_nat j) else Err IndexError.
Definition py_get {A} (l : list A) (i : Z) : result A :=
  let* k := index l i in match nth_error l k with Some x => Ok x | None => Err IndexError end.
(** [list.pop(i)] *)
Definition py_pop {A} (l : list A) (i : Z) : result (A * list A) :=
  let* k := index l i in
  match nth_error l k with Some x => Ok (x, firstn k l ++ skipn (S k) l) | None => Err IndexError end.
(** [l[i] = x] *)
Definition py_set {A} (l : list A) (i : Z) (x : A) : result (list A) :=
  let* k := index l i in Ok (firstn k l ++ x :: skipn (S k) l).
(** [dict(items)]: a repeated key keeps its first place and gets the last value *)
Definition dict_of {V} (items : list (string * V)) : list (string * V) :=
  fold_left (fun d kv => dset d (fst kv) (snd kv)) items [].
Definition ddel {V} (d : list (string * V)) (k : string) : list (string * V) :=
  filter (fun kv => negb (String.eqb (fst kv) k)) d.

Section Edit.
Context {M : Type}.
Definition item := tree M.
Inductive cont := CList (l : list item) | CTup (l : list item) | CDict (d : list (string * item)) | COther (t : item).
Definition to_tree (c : cont) : tree M :=
  match c with CList l => Lst l | CTup l => Tup l | CDict d => Dict d | COther t => t end.

Definition heap := list cont.
Definition hget (h : heap) (r : nat) : cont := nth r h (COther NoneT).
Definition hset (h : heap) (r : nat) (c : cont) : heap := upd h r c.
Definition halloc (h : heap) (c : cont) : heap * nat := (h ++ [c], length h).
(** a model: its container, and whether it holds anything compiled *)
Record model := mk_model { ref : nat; compiled : bool }.

Inductive op :=
| SetKey (k : string) (x : item)           (* model["k"] = x *)
| SetIdx (i : Z) (x : item)                (* model[i] = x *)
| SetAll (c : cont)                        (* model[None] = modules *)
| Insert (i : Z) (x : item) (key : option string)
| Append (x : item) (key : option string)
| Prepend (x : item) (key : option string)
| PopIdx (i : Z)
| PopKey (k : string)
| PopKeyInt (i : Z).

(** an operation returns the new heap, the new model and a value or an exception *)
Definition outcome := (heap * model * result (option item))%type.
(** insert_module, L1340-1381, after [self.reset()]; [uuid] is [uuid.uuid4().hex] *)
Definition insert_module (uuid : string) (h : heap) (m : model) (i : Z) (x : item) (key : option string) : outcome :=
  match hget h (ref m) with
  | CDict d =>
      let k := match key with Some k => k | None => uuid end in
      let '(h', r) := halloc h (CDict (dict_of (py_insert d i (k, x)))) in
      (h', mk_model r false, Ok None)
  | CList l => (hset h (ref m) (CList (py_insert l i x)), mk_model (ref m) false, Ok None)
  | CTup l =>
      let '(h', r) := halloc h (CTup (slice_to l i ++ [x] ++ slice_from l i)) in
      (h', mk_model r false, Ok None)
  | COther _ => (h, mk_model (ref m) false, Err TypeError)
  end.
(** pop_module_by_index, L1433-1466 *)
Definition pop_index (h : heap) (m : model) (i : Z) : outcome :=
  let fail e : outcome := (h, mk_model (ref m) false, Err e) in
  match hget h (ref m) with
  | CDict d =>
      match py_pop d i with
      | Ok (kv, d') => let '(h', r) := halloc h (CDict (dict_of d')) in (h', mk_model r false, Ok (Some (snd kv)))
      | Err e => fail e
      end
  | CList l =>
      match py_pop l i with
      | Ok (x, l') => (hset h (ref m) (CList l'), mk_model (ref m) false, Ok (Some x))
      | Err e => fail e
      end
  | CTup l =>
      match py_get l i with
      | Ok x =>
          let '(h', r) := halloc h (CTup (slice_to l i ++ slice_from l (i + 1))) in
          (h', mk_model r false, Ok (Some x))
      | Err e => fail e
      end
  | COther _ => fail TypeError
  end.

Definition run (uuid : string) (h : heap) (m : model) (o : op) : outcome :=
  let fail e : outcome := (h, mk_model (ref m) false, Err e) in
  match o with
  | SetAll c => let '(h', r) := halloc h c in (h', mk_model r false, Ok None)        (* L1308-1312 *)
  | SetKey k x =>                                                                    (* L1321-1328 *)
      match hget h (ref m) with
      | CDict d => (hset h (ref m) (CDict (dset d k x)), mk_model (ref m) false, Ok None)
      | _ => fail KeyError
      end
  | SetIdx i x =>                                                                    (* L1329-1336 *)
      match hget h (ref m) with
      | CList l =>
          match py_set l i x with
          | Ok l' => (hset h (ref m) (CList l'), mk_model (ref m) false, Ok None)
          | Err e => fail e
          end
      | CTup _ => fail TypeError   (* a tuple does not support item assignment *)
      | _ => fail KeyError
      end
  | Insert i x key => insert_module uuid h m i x key
  | Append x key =>                                                                  (* L1402-1406 *)
      insert_module uuid h m (Z.of_nat (length (leaves (to_tree (hget h (ref m)))))) x key
  | Prepend x key => insert_module uuid h m 0 x key                                  (* L1427-1431 *)
  | PopIdx i => pop_index h m i
  | PopKey k =>                                                                      (* L1483-1490 *)
      match hget h (ref m) with
      | CDict d =>
          match dget d k with
          | Some x => (hset h (ref m) (CDict (ddel d k)), mk_model (ref m) false, Ok (Some x))
          | None => fail KeyError
          end
      | _ => fail KeyError
      end
  | PopKeyInt i =>                                                                   (* L1491-1499 *)
      match hget h (ref m) with
      | CList _ | CTup _ => pop_index h m i
      | _ => fail KeyError
      end
  end.

Fixpoint runs (uuids : nat -> string) (h : heap) (m : model) (os : list op) : heap * model :=
  match os with
  | [] => (h, m)
  | o :: os' => let '(h', m', _) := run (uuids (length os)) h m o in runs uuids h' m' os'
  end.

(** [__add__], L1503-1520: the class is called with the same container object,
    then the other model or module is appended *)
Definition add (uuid : string) (h : heap) (a : model) (other : item) : heap * model :=
  let '(h', m', _) := run uuid h (mk_model (ref a) false) (Append other None) in (h', m').
End Edit.
Arguments item : clear implicits. Arguments cont : clear implicits. Arguments heap : clear implicits. Arguments op : clear implicits.
