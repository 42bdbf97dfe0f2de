(** Independent specification vocabulary for reading PyTrees.  Nothing here
    refers to the functions of TreeUtil.v, only to the tree type. *)
From Verif Require Import Base TreeUtil.

(** The child of a node under one key: dictionary entry, or list/tuple item
    when the key is a decimal index. *)
Definition child {A} (t : tree A) (k : string) : option (tree A) :=
  match t with
  | Dict d => dget d k
  | Lst l | Tup l => if isdigit k then nth_error l (int_of k) else None
  | Leaf _ | NoneT => None
  end.

(** Following a list of keys. *)
Fixpoint walk {A} (t : tree A) (ks : list string) : option (tree A) :=
  match ks with
  | [] => Some t
  | k :: ks' => match child t k with Some t' => walk t' ks' | None => None end
  end.

(** A node in which nothing can be looked up. *)
Definition atomic {A} (t : tree A) : bool :=
  match t with Leaf _ | NoneT => true | _ => false end.

(** The keys a path string stands for: its components at the separator; the
    empty path has none and one trailing separator is ignored. *)
Definition trim_end (ks : list string) : list string :=
  if String.eqb (last ks EmptyString) EmptyString then removelast ks else ks.
Definition path_keys (sep : ascii) (s : string) : list string := trim_end (split sep s).

(** Two keys that can never address the same slot of any container. *)
Definition key_distinct (k1 k2 : string) : Prop :=
  k1 <> k2 /\ (isdigit k1 = true -> isdigit k2 = true -> int_of k1 <> int_of k2).

(** Two key lists that part at some position. *)
Definition diverge (p q : list string) : Prop :=
  exists i k1 k2, nth_error p i = Some k1 /\ nth_error q i = Some k2 /\ key_distinct k1 k2.

(** No tuple anywhere. *)
Inductive tuple_free {A} : tree A -> Prop :=
| tf_leaf a : tuple_free (Leaf a)
| tf_none : tuple_free NoneT
| tf_dict d : Forall (fun kv => tuple_free (snd kv)) d -> tuple_free (Dict d)
| tf_lst l : Forall tuple_free l -> tuple_free (Lst l).

(** Dictionaries have pairwise different keys (true of every Python dict). *)
Inductive wf_tree {A} : tree A -> Prop :=
| wf_leaf a : wf_tree (Leaf a)
| wf_none : wf_tree NoneT
| wf_dict d : NoDup (dkeys d) -> Forall (fun kv => wf_tree (snd kv)) d -> wf_tree (Dict d)
| wf_lst l : Forall wf_tree l -> wf_tree (Lst l)
| wf_tup l : Forall wf_tree l -> wf_tree (Tup l).

(** Two key lists addressing the same slots: componentwise equal, or decimal
    indices with the same value ("0" and "00"). *)
Definition same_key (k1 k2 : string) : Prop :=
  k1 = k2 \/ (isdigit k1 = true /\ isdigit k2 = true /\ int_of k1 = int_of k2).
Definition same_keys (p q : list string) : Prop := Forall2 same_key p q.
