(** What may be asked of module classes. *)
From Verif Require Import Base Subclass.
Local Open Scope string_scope. Local Open Scope list_scope.

Definition positional (p : param) : Prop := p_kind p = PositionalOnly \/ p_kind p = PositionalOrKeyword.
Definition variadic (p : param) : Prop := p_kind p = VarPositional \/ p_kind p = VarKeyword.
(** Python's rule for calling a function with one positional argument (the new
    object) and nothing else: a parameter takes it, the first positional one or
    one like [*args], and the others can do without. *)
Definition takes_object (s : signature) : Prop :=
  (exists p s', s = p :: s' /\ positional p /\ forall q, In q s' -> p_default q = true \/ variadic q) \/
  ((forall p, In p s -> ~ positional p) /\ (exists p, In p s /\ p_kind p = VarPositional) /\ forall q, In q s -> p_default q = true \/ variadic q).
(** Signatures Python accepts (in part): positional parameters come first, and
    names are different. *)
Definition legal (s : signature) : Prop :=
  NoDup (map p_name s) /\
  (forall s1 p q s2, s = s1 ++ p :: s2 -> In q s2 -> positional q -> positional p) /\
  (forall p, In p s -> variadic p -> p_default p = false).
(** As usual: the first parameter is called self. *)
Definition usual (s : signature) : Prop := exists p s', s = p :: s' /\ p_name p = "self" /\ positional p.

(** Classes that come from BaseModule by class statements. *)
Inductive derived (is_version : string -> bool) (root : body) : cls -> Prop :=
| d_root : derived is_version root [root]
| d_define b base c : derived is_version root base -> define is_version b base = Ok c -> derived is_version root c.
(** An object can be made of a class none of whose methods is abstract. *)
Definition concrete (c : cls) : Prop := forall name m, lookup name c = Some m -> abstract m = false.
