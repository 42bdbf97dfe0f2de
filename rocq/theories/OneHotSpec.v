(** One-hot encoding, independently of how it is computed. *)
From Verif Require Import Base TreeUtil TreeSpec OneHot.
Local Open Scope list_scope.
Local Open Scope nat_scope.

(** Lawful numbers: a total order, and 0 and 1 with their sums and products. *)
Record lawful {V} (o : ops V) : Prop := {
  le_total : forall a b, leb o a b = true \/ leb o b a = true;
  le_trans : forall a b c, leb o a b = true -> leb o b c = true -> leb o a c = true;
  le_anti : forall a b, leb o a b = true -> leb o b a = true -> a = b;
  one_zero : one o <> zero o;
  add_0_l : forall a, add o (zero o) a = a;
  add_0_r : forall a, add o a (zero o) = a;
  mul_0_l : forall a, mul o (zero o) a = zero o;
  mul_1_l : forall a, mul o (one o) a = a
}.

(** All rows have the announced number of features. *)
Definition rows_fit {V} (x : odata V) : Prop := Forall (fun r => length r = features x) (o_rows x).

(** A listing of the different rows of the data. *)
Definition listing {V} (x : odata V) (u : list (list V)) : Prop :=
  NoDup u /\ forall r, In r u <-> In r (o_rows x).
(** [c] is the code of [r] with respect to a listing: 1 at its position, 0
    elsewhere. *)
Definition code {V} (o : ops V) (u : list (list V)) (r c : list V) : Prop :=
  length c = length u /\
  forall i v, nth_error u i = Some v -> (v = r -> nth_error c i = Some (one o)) /\ (v <> r -> nth_error c i = Some (zero o)).
(** Exactly one 1 and otherwise 0. *)
Definition one_hot {V} (o : ops V) (c : list V) : Prop :=
  exists l1 l2, c = l1 ++ one o :: l2 /\ forall a, In a (l1 ++ l2) -> a = zero o.

(** Any two rows are comparable entry by entry. *)
Definition row_le {V} (o : ops V) (r s : list V) : Prop := Forall2 (fun a b => leb o a b = true) r s.
Definition chain {V} (o : ops V) (l : list (list V)) : Prop := forall r s, In r l -> In s l -> row_le o r s \/ row_le o s r.
