(** Model of the texts that describe models: [strfmt_pytree]
    (/repo/parametricmatrixmodels/tree_util.py L1345-1507), [BaseModule.__repr__]
    (modules/basemodule.py L175-200), [Model.__repr__] (model.py L73-83) and
    [NonSequentialModel.__repr__] (nonsequentialmodel.py L273-290).
    [repr] of leaves and of trees that [is_leaf] accepts are arguments, as is the
    text of a number with separators ([f"{n:,}"]).  Keys of dictionaries are
    strings. *)
From Coq Require Import ZArith.
From Verif Require Import Base TreeUtil Edit.
Local Open Scope string_scope.

Definition nl : ascii := ascii_of_nat 10.
(** ["x" * n] for a space *)
Fixpoint spaces (n : nat) : string := match n with 0 => "" | S n' => String " " (spaces n') end.
Fixpoint occurs (c : ascii) (s : string) : bool := match s with "" => false | String d s' => (Ascii.eqb d c || occurs c s')%bool end.
(** [s[:i]] *)
Definition upto (s : string) (i : Z) : string := substring 0 (cut (String.length s) i) s.
(** [",\n".join(items)] *)
Fixpoint commas (items : list string) : string :=
  match items with [] => "" | [x] => x | x :: items' => x ++ "," ++ String nl (commas items') end.

Section Show.
Context {A : Type} (repr : tree A -> string) (is_leaf : tree A -> bool).

(** [truncate_leaf], L1377-1388: by lines if there are several *)
Definition truncate_line (limit : option Z) (s : string) : string :=
  match limit with
  | None => s
  | Some m => if (m <? Z.of_nat (String.length s))%Z then upto s (m - 3) ++ "..." else s
  end.
Definition truncate (limit : option Z) (s : string) : string :=
  match limit with
  | None => s
  | Some m => if occurs nl s then join nl (map (truncate_line limit) (split nl s)) else truncate_line limit s
  end.

Section Options.
Variables (n : nat) (limit : option Z) (base : string).
(** every line of [s] moved to the right, L1413-1417 *)
Definition moved (pre s : string) : string := join nl (map (append pre) (split nl s)).
(** an item of a list or tuple, L1451-1463 *)
Definition seq_item (pre s : string) : string := if occurs nl s then moved pre s else pre ++ s.
(** an entry of a dictionary, L1413-1426 *)
Definition dict_item (pre k s : string) : string :=
  if occurs nl s then (pre ++ k ++ ":") ++ String nl (moved pre s) else pre ++ k ++ ": " ++ s.
(** the last lines of the function: the outermost call adds [base_indent_str] *)
Definition outermost (indent : nat) (s : string) : string := match indent with 0 => base ++ s | _ => s end.
(** [indent_str] and, with the base, what precedes items and closing brackets *)
Definition margin (indent : nat) : string := base ++ spaces (indent * n).
Definition enclose (indent : nat) (o c : string) (items : list string) : string :=
  o ++ String nl (commas items ++ "," ++ String nl (margin indent ++ c)).

(** [strfmt_pytree] *)
Fixpoint fmt (indent : nat) (t : tree A) : string :=
  outermost indent
    (if is_leaf t then truncate limit (repr t) else
     match t with
     | Dict kvs =>
         match kvs with
         | [] => "{}"
         | _ => enclose indent "{" "}" (map (fun kv => dict_item (margin (S indent)) (fst kv) (fmt (S indent) (snd kv))) kvs)
         end
     | Lst ts =>
         match ts with
         | [] => "[]"
         | _ => enclose indent "[" "]" (map (fun x => seq_item (margin (S indent)) (fmt (S indent) x)) ts)
         end
     | Tup ts =>
         match ts with
         | [] => "()"
         | _ => enclose indent "(" ")" (map (fun x => seq_item (margin (S indent)) (fmt (S indent) x)) ts)
         end
     | _ => truncate limit (repr t)
     end).
End Options.

(** [Model.__repr__], model.py L73-83 *)
Definition model_repr (name : string) (modules : tree A) : string :=
  name ++ "(" ++ String nl (fmt 1 None "  " 0 modules ++ String nl ")").
(** [NonSequentialModel.__repr__], nonsequentialmodel.py L273-290; the targets of a
    connection given as one string are a list of one *)
Definition graph_repr (name : string) (modules : tree A) (connections : list (string * list string)) : string :=
  let lines := flat_map (fun kv => map (fun i => fst kv ++ " -> " ++ i) (snd kv)) connections in
  model_repr name modules ++ String nl ("Connections:" ++ String nl
    (match connections with [] => "No connections defined." | _ => join nl lines end)).
End Show.

(** [BaseModule.__repr__], modules/basemodule.py L175-200 *)
Definition module_repr (name : string) (number : nat -> string) (count : option nat) (ready trainable : bool) : string :=
  match count with
  | Some c =>
      if ready then
        if Nat.eqb c 0 then name
        else if negb trainable then name ++ " (trainable floats: " ++ number c ++ ")" ++ " [frozen])"
        else name ++ " (trainable floats: " ++ number c ++ ")"
      else name ++ " (uninitialized)"
  | None => if negb ready then name ++ " (uninitialized)" else name
  end.
