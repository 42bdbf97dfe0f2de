(** Specification of editing: operations on the sequence of entries. *)
From Coq Require Import ZArith.
From Verif Require Import Base TreeUtil NonSeqSpec BatchSpec Edit.
Local Open Scope list_scope.

(** the entries of a container in order: name (dictionaries only) and item *)
Definition entries {M} (c : cont M) : list (option string * item M) :=
  match c with
  | CList l | CTup l => map (fun x => (None, x)) l
  | CDict d => map (fun kv => (Some (fst kv), snd kv)) d
  | COther _ => []
  end.
Inductive kind := KList | KTup | KDict | KOther.
Definition kind_of {M} (c : cont M) : kind := match c with CList _ => KList | CTup _ => KTup | CDict _ => KDict | COther _ => KOther end.
(** keys of a dictionary are different *)
Definition wf_cont {M} (c : cont M) : Prop := match c with CDict d => NoDup (dkeys d) | _ => True end.

(** where index [i] points in a sequence of [n] items when something is inserted *)
Definition place (n : nat) (i : Z) (p : nat) : Prop :=
  (0 <= i <= Z.of_nat n -> Z.of_nat p = i)%Z /\ (Z.of_nat n < i -> p = n)%Z /\
  (- Z.of_nat n <= i < 0 -> Z.of_nat p = Z.of_nat n + i)%Z /\ ((i < - Z.of_nat n)%Z -> p = 0).
Definition inserted {A} (i : Z) (x : A) (l l' : list A) : Prop :=
  exists a b, l = a ++ b /\ l' = a ++ x :: b /\ place (length l) i (length a).
(** [i] or [i + n] is the position of an existing item *)
Definition points {A} (i : Z) (l : list A) (p : nat) : Prop :=
  p < length l /\ (Z.of_nat p = i \/ Z.of_nat p = i + Z.of_nat (length l))%Z.
Definition removed {A} (i : Z) (x : A) (l l' : list A) : Prop :=
  exists a b, l = a ++ x :: b /\ l' = a ++ b /\ points i l (length a).
Definition replaced {A} (i : Z) (x : A) (l l' : list A) : Prop :=
  exists a y b, l = a ++ y :: b /\ l' = a ++ x :: b /\ points i l (length a).
Definition in_range {A} (i : Z) (l : list A) : Prop := (- Z.of_nat (length l) <= i < Z.of_nat (length l))%Z.
