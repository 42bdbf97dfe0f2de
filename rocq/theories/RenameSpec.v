(** Renaming the modules at the top level of a network. *)
From Verif Require Import Base BaseLemmas TreeUtil Connections.
Local Open Scope string_scope.
Local Open Scope list_scope.

Section Spec.
Variable sep : ascii.
Variable f : string -> string.

(** The first name of a path is replaced. *)
Definition rename_path (p : string) : string :=
  join sep (match split sep p with k :: ks => f k :: ks | [] => [] end).
Definition rename_conns (c : dict cval) : dict cval :=
  map (fun kv => (rename_path (fst kv), match snd kv with One v => One (rename_path v) | Many vs => Many (map rename_path vs) end)) c.
(** The entries at the top level of a tree get other names. *)
Definition rename_top {X} (t : tree X) : tree X :=
  match t with Dict d => Dict (map (fun kv => (f (fst kv), snd kv)) d) | _ => t end.

(** Different names stay different and contain no separator; names that the code
    treats in a special way stay as they are: the empty one, numbers, and
    everything that starts with "input" or "output". *)
Definition kept_name (k : string) : bool :=
  String.eqb k "" || isdigit k || startswith k "input" || startswith k "output".
Record renaming : Prop := {
  ren_inj : forall a b, f a = f b -> a = b;
  ren_sep : forall k, no_sep sep k = true -> no_sep sep (f k) = true;
  ren_kept : forall k, kept_name k = true -> f k = k }.

(** A path that begins with a name. *)
Definition named (p : string) : Prop := hd EmptyString (split sep p) <> EmptyString.
Definition named_conns (c : dict cval) : Prop := Forall (fun kv => named (fst kv) /\ Forall named (cval_list (snd kv))) c.
End Spec.
