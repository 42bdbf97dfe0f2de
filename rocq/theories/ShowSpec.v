(** Specification of the texts: the lines without indentation. *)
From Coq Require Import ZArith.
From Verif Require Import Base TreeUtil Show.
Local Open Scope string_scope.

Definition lines (s : string) : list string := split nl s.
(** a line and the same line indented *)
Definition indented (line shown : string) : Prop := exists k, line = spaces k ++ shown.
Definition blank (s : string) : Prop := exists k, s = spaces k.

Fixpoint add_last (l : list string) (s : string) : list string :=
  match l with [] => [] | [x] => [x ++ s] | x :: l' => x :: add_last l' s end.
(** what is to be read: brackets on their own lines, every item followed by a comma,
    entries of dictionaries behind their key *)
Definition entry (k : string) (l : list string) : list string :=
  match l with [v] => [k ++ ": " ++ v] | _ => (k ++ ":") :: l end.
Definition block (o c : string) (items : list (list string)) : list string :=
  ((o :: flat_map (fun l => add_last l ",") items) ++ [c])%list.
Fixpoint shown {A} (leaf : tree A -> list string) (is_leaf : tree A -> bool) (t : tree A) : list string :=
  if is_leaf t then leaf t else
  match t with
  | Dict kvs => match kvs with [] => ["{}"] | _ => block "{" "}" (map (fun kv => entry (fst kv) (shown leaf is_leaf (snd kv))) kvs) end
  | Lst ts => match ts with [] => ["[]"] | _ => block "[" "]" (map (shown leaf is_leaf) ts) end
  | Tup ts => match ts with [] => ["()"] | _ => block "(" ")" (map (shown leaf is_leaf) ts) end
  | _ => leaf t
  end.

(** keys stay on one line *)
Fixpoint plain_keys {A} (t : tree A) : Prop :=
  match t with
  | Dict kvs => (fix go kvs := match kvs with [] => True | kv :: kvs' => occurs nl (fst kv) = false /\ plain_keys (snd kv) /\ go kvs' end) kvs
  | Lst ts | Tup ts => (fix go ts := match ts with [] => True | x :: ts' => plain_keys x /\ go ts' end) ts
  | _ => True
  end.

Fixpoint count (c : ascii) (s : string) : nat := match s with "" => 0 | String d s' => (if Ascii.eqb d c then 1 else 0) + count c s' end.
