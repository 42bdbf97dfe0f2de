(** Base vocabulary shared by all model files: exceptions as values, Python
    strings, Python dictionaries (insertion ordered), list update.

    Simplifications (recorded in DESIGN.md):
    - Python [str] is Coq [string] (ASCII); [str.isdigit] is the ASCII test.
    - a path separator is one character (the code allows any string; the
      default everywhere in /repo is the one character string ".").
    - exception messages are dropped, exception classes are kept. *)
From Coq Require Export String Ascii List Arith Lia Bool.
From Coq Require Import ZifyBool ZifyNat.
Export ListNotations.
Open Scope list_scope.
Open Scope nat_scope.
(* [length] is the list one; [String.length] is written [slen]. *)
Notation length := List.length.
Notation slen := String.length.

(** Python exception classes that the modelled functions raise.
    [OutOfFuel] does not exist in Python: it is the value a model loop returns
    when its fuel is exhausted; theorems exclude it. *)
Inductive err : Type :=
| KeyError | IndexError | TypeError | ValueError | RuntimeError
| ZeroDivisionError | StopIteration | AssertionError | NotImplementedError
| AttributeError | OutOfFuel.

Inductive result (A : Type) : Type :=
| Ok (a : A)
| Err (e : err).
Arguments Ok {A} a.
Arguments Err {A} e.

Definition rbind {A B} (r : result A) (f : A -> result B) : result B :=
  match r with Ok a => f a | Err e => Err e end.
Definition rmap {A B} (f : A -> B) (r : result A) : result B :=
  match r with Ok a => Ok (f a) | Err e => Err e end.
Definition is_ok {A} (r : result A) : bool :=
  match r with Ok _ => true | Err _ => false end.

Notation "'let*' x ':=' e1 'in' e2" :=
  (rbind e1 (fun x => e2))
  (at level 200, x pattern, e1 at level 100, e2 at level 200, right associativity).

(** [for x in l: acc = f(acc, x)] where the body may raise. *)
Fixpoint rfold {A B} (f : A -> B -> result A) (l : list B) (a : A) : result A :=
  match l with
  | [] => Ok a
  | b :: l' => let* a' := f a b in rfold f l' a'
  end.

(** [[f(x) for x in l]] where the body may raise. *)
Fixpoint rmapM {A B} (f : A -> result B) (l : list A) : result (list B) :=
  match l with
  | [] => Ok []
  | a :: l' => let* b := f a in let* bs := rmapM f l' in Ok (b :: bs)
  end.

(* ------------------------------------------------------------------ *)
(** * Strings *)

(** [s.split(sep)] for a one-character separator: always at least one part. *)
Fixpoint split (sep : ascii) (s : string) : list string :=
  match s with
  | EmptyString => [EmptyString]
  | String c s' =>
      if Ascii.eqb c sep then EmptyString :: split sep s'
      else match split sep s' with
           | p :: ps => String c p :: ps
           | [] => [String c EmptyString]   (* unreachable, see split_nonempty *)
           end
  end.

(** [s.split(sep, 1)]: the first key and, if the separator occurs, the rest
    ([key, *rest = s.split(sep, 1)]). *)
Fixpoint split1 (sep : ascii) (s : string) : string * option string :=
  match s with
  | EmptyString => (EmptyString, None)
  | String c s' =>
      if Ascii.eqb c sep then (EmptyString, Some s')
      else let '(k, r) := split1 sep s' in (String c k, r)
  end.

(** [sep.join(parts)]. *)
Fixpoint join (sep : ascii) (ps : list string) : string :=
  match ps with
  | [] => EmptyString
  | [p] => p
  | p :: ps' => append p (String sep (join sep ps'))
  end.

(** [s.startswith(p)]. *)
Fixpoint startswith (s p : string) {struct p} : bool :=
  match p, s with
  | EmptyString, _ => true
  | String c p', String d s' => Ascii.eqb c d && startswith s' p'
  | String _ _, EmptyString => false
  end.

(** [s[n:]]. *)
Fixpoint sdrop (n : nat) (s : string) : string :=
  match n, s with
  | 0, _ => s
  | S n', String _ s' => sdrop n' s'
  | S _, EmptyString => EmptyString
  end.

(** [s[:n]]. *)
Fixpoint stake (n : nat) (s : string) : string :=
  match n, s with
  | 0, _ => EmptyString
  | S n', String c s' => String c (stake n' s')
  | S _, EmptyString => EmptyString
  end.

(** [s.removeprefix(p)]. *)
Definition removeprefix (s p : string) : string :=
  if startswith s p then sdrop (slen p) s else s.

(** [s.endswith(p)]. *)
Definition endswith (s p : string) : bool :=
  (slen p <=? slen s) && String.eqb (sdrop (slen s - slen p) s) p.

(** [s.removesuffix(p)]. *)
Definition removesuffix (s p : string) : string :=
  if endswith s p then stake (slen s - slen p) s else s.

(** [s.lstrip(sep)], [s.rstrip(sep)], [s.strip(sep)] for one character. *)
Fixpoint lstrip (sep : ascii) (s : string) : string :=
  match s with
  | String c s' => if Ascii.eqb c sep then lstrip sep s' else s
  | EmptyString => EmptyString
  end.
Fixpoint rstrip (sep : ascii) (s : string) : string :=
  match s with
  | EmptyString => EmptyString
  | String c s' =>
      match rstrip sep s' with
      | EmptyString => if Ascii.eqb c sep then EmptyString else String c EmptyString
      | r => String c r
      end
  end.
Definition strip (sep : ascii) (s : string) : string := lstrip sep (rstrip sep s).

(** [(sep + sep) in s]. *)
Fixpoint has_double (sep : ascii) (s : string) : bool :=
  match s with
  | String c s' =>
      match s' with
      | String d _ => (Ascii.eqb c sep && Ascii.eqb d sep) || has_double sep s'
      | EmptyString => false
      end
  | EmptyString => false
  end.

Definition is_digit_char (c : ascii) : bool :=
  let n := nat_of_ascii c in (48 <=? n) && (n <=? 57).

Fixpoint all_digits (s : string) : bool :=
  match s with
  | EmptyString => true
  | String c s' => is_digit_char c && all_digits s'
  end.

(** [s.isdigit()]: non-empty and all characters are digits. *)
Definition isdigit (s : string) : bool :=
  match s with EmptyString => false | _ => all_digits s end.

(** [int(s)] for a digit string. *)
Fixpoint int_acc (s : string) (acc : nat) : nat :=
  match s with
  | EmptyString => acc
  | String c s' => int_acc s' (10 * acc + (nat_of_ascii c - 48))
  end.
Definition int_of (s : string) : nat := int_acc s 0.

(** [str(n)] for a natural number. *)
Definition digit_char (d : nat) : ascii := ascii_of_nat (48 + d).
Fixpoint str_aux (fuel n : nat) (acc : string) : string :=
  match fuel with
  | 0 => acc
  | S f =>
      let acc' := String (digit_char (n mod 10)) acc in
      if n <? 10 then acc' else str_aux f (n / 10) acc'
  end.
Definition str_of (n : nat) : string := str_aux (S n) n EmptyString.

(* ------------------------------------------------------------------ *)
(** * Dictionaries: association lists in insertion order *)

Definition dict (V : Type) : Type := list (string * V).

Fixpoint dget {V} (d : dict V) (k : string) : option V :=
  match d with
  | [] => None
  | (k', v) :: d' => if String.eqb k k' then Some v else dget d' k
  end.

(** [d[k] = v]: keeps the position of an existing key, appends a new one. *)
Fixpoint dset {V} (d : dict V) (k : string) (v : V) : dict V :=
  match d with
  | [] => [(k, v)]
  | (k', v') :: d' =>
      if String.eqb k k' then (k', v) :: d' else (k', v') :: dset d' k v
  end.

Definition dkeys {V} (d : dict V) : list string := map fst d.
Definition dmem {V} (d : dict V) (k : string) : bool :=
  match dget d k with Some _ => true | None => false end.

(** [l[i] = v] for [i < len(l)]. *)
Fixpoint upd {A} (l : list A) (i : nat) (v : A) : list A :=
  match l, i with
  | [], _ => []
  | _ :: l', 0 => v :: l'
  | x :: l', S i' => x :: upd l' i' v
  end.

Fixpoint mem_str (x : string) (l : list string) : bool :=
  match l with
  | [] => false
  | y :: l' => String.eqb x y || mem_str x l'
  end.
