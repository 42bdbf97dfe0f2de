(** Specification of access by path: places in the nested structure. *)
From Coq Require Import ZArith.
From Verif Require Import Base TreeUtil Edit EditSpec Access.
Local Open Scope list_scope.

(** what an object consists of *)
Definition kids (n : node) : list node :=
  match n with Mod _ _ => [] | Mdl _ _ c => [c] | DictN d => map snd d | ListN l | TupN l => l end.
(** a place is a list of positions *)
Fixpoint node_at (n : node) (a : list nat) : option node :=
  match a with [] => Some n | i :: a' => match nth_error (kids n) i with Some c => node_at c a' | None => None end end.

(** dictionaries have every key once *)
Inductive wf : node -> Prop :=
| wf_mod n r : wf (Mod n r)
| wf_mdl i o c : wf c -> wf (Mdl i o c)
| wf_dict d : NoDup (map fst d) -> Forall (fun kv => wf (snd kv)) d -> wf (DictN d)
| wf_list l : Forall wf l -> wf (ListN l)
| wf_tup l : Forall wf l -> wf (TupN l).

(** the key [k] names position [i] of a container *)
Inductive names : node -> key -> nat -> Prop :=
| n_dict d i k x : nth_error d i = Some (k, x) -> names (DictN d) k i
| n_list l z i : points z l i -> names (ListN l) (KI z) i
| n_tup l z i : points z l i -> names (TupN l) (KI z) i.
(** [leads n k a]: from [n] the key leads to the place [a]; a model is entered by
    the keys of its own modules (strings for dictionaries, integers for lists and
    tuples), and [None] stands for all of them *)
Inductive leads : node -> key -> list nat -> Prop :=
| l_item n k i : names n k i -> leads n k [i]
| l_all i o c : leads (Mdl i o c) KN [0]
| l_name i o d s j : names (DictN d) (KS s) j -> leads (Mdl i o (DictN d)) (KS s) [0; j]
| l_list i o l z j : names (ListN l) (KI z) j -> leads (Mdl i o (ListN l)) (KI z) [0; j]
| l_tup i o l z j : names (TupN l) (KI z) j -> leads (Mdl i o (TupN l)) (KI z) [0; j].
Inductive follows : node -> list key -> list nat -> Prop :=
| f_nil n : follows n [] []
| f_cons n k p a n' a' : leads n k a -> node_at n a = Some n' -> follows n' p a' -> follows n (k :: p) (a ++ a').

(** [n'] is [n] with the object in place [a] replaced by [x]; whether the models
    that contain this place are compiled is left open *)
Inductive replaced_at : list nat -> node -> node -> node -> Prop :=
| r_here x n : replaced_at [] x n x
| r_mdl a x i o i' o' c c' : replaced_at a x c c' -> replaced_at (0 :: a) x (Mdl i o c) (Mdl i' o' c')
| r_dict a x p q k c c' : replaced_at a x c c' -> replaced_at (length p :: a) x (DictN (p ++ (k, c) :: q)) (DictN (p ++ (k, c') :: q))
| r_list a x p q c c' : replaced_at a x c c' -> replaced_at (length p :: a) x (ListN (p ++ c :: q)) (ListN (p ++ c' :: q))
| r_tup a x p q c c' : replaced_at a x c c' -> replaced_at (length p :: a) x (TupN (p ++ c :: q)) (TupN (p ++ c' :: q)).

(** the same modules in the same containers *)
Inductive same_modules : node -> node -> Prop :=
| s_mod n r : same_modules (Mod n r) (Mod n r)
| s_mdl i o i' o' c c' : same_modules c c' -> same_modules (Mdl i o c) (Mdl i' o' c')
| s_dict d d' : Forall2 (fun a b => fst a = fst b /\ same_modules (snd a) (snd b)) d d' -> same_modules (DictN d) (DictN d')
| s_list l l' : Forall2 same_modules l l' -> same_modules (ListN l) (ListN l')
| s_tup l l' : Forall2 same_modules l l' -> same_modules (TupN l) (TupN l').

Definition apart (a b : list nat) : Prop := (forall t, b <> a ++ t) /\ (forall t, a <> b ++ t).

(** no model that contains the place [a] counts as compiled *)
Definition none_compiled (a : list nat) (n : node) : Prop :=
  forall b t i o c, a = b ++ t -> t <> [] -> node_at n b = Some (Mdl i o c) -> i = false /\ o = false.

(** all modules inside are usable *)
Inductive usable : node -> Prop :=
| u_mod n : usable (Mod n true)
| u_mdl c : leaves c <> [] -> (forall m, In m (leaves c) -> usable m) -> usable (Mdl true true c).
Definition true_reason (i o : bool) (c : node) (r : reason) : Prop :=
  match r with
  | NoModules => leaves c = []
  | Unready l => l <> [] /\ forall m, In m l <-> In m (leaves c) /\ ~ usable m
  | NoInput => i = false
  | NoOutput => o = false
  | Unknown => False
  end.
