(** When two shapes agree along axes. *)
From Coq Require Import ZArith.
From Verif Require Import Base TreeUtil Shapes.
Local Open Scope list_scope.

(** Entry number [z], counted from the end if [z] is negative. *)
Definition entry_at (s : list nat) (z : Z) (v : nat) : Prop :=
  (0 <= z /\ nth_error s (Z.to_nat z) = Some v)%Z \/ (z < 0 /\ nth_error (rev s) (Z.to_nat (- z - 1)) = Some v)%Z.
(** Position [i] of a list of length [n] is within a slice. *)
Definition from (n : nat) (b : option Z) (i : nat) : Prop :=
  match b with None => True | Some z => if (z <? 0)%Z then (Z.of_nat n + z <= Z.of_nat i)%Z else (z <= Z.of_nat i)%Z end.
Definition before (n : nat) (b : option Z) (i : nat) : Prop :=
  match b with None => True | Some z => if (z <? 0)%Z then (Z.of_nat i < Z.of_nat n + z)%Z else (Z.of_nat i < z)%Z end.
(** The entries of [s] whose positions are within the slice, in order. *)
Inductive sliced (n : nat) (lo hi : option Z) : nat -> list nat -> list nat -> Prop :=
| sl_nil i : sliced n lo hi i [] []
| sl_in i x s r : from n lo i -> before n hi i -> sliced n lo hi (S i) s r -> sliced n lo hi i (x :: s) (x :: r)
| sl_out i x s r : ~ (from n lo i /\ before n hi i) -> sliced n lo hi (S i) s r -> sliced n lo hi i (x :: s) r.
Definition part_of (lo hi : option Z) (s r : list nat) : Prop := sliced (length s) lo hi 0 s r.

Definition agree (ax : axis) (s r : list nat) : Prop :=
  match ax with
  | All => s = r
  | At z => exists v, entry_at s z v /\ entry_at r z v
  | Ats l => forall z, In z l -> exists v, entry_at s z v /\ entry_at r z v
  | Sl lo hi => exists q, part_of lo hi s q /\ part_of lo hi r q
  end.
(** The axes exist in the shape. *)
Definition has_axes (ax : axis) (s : list nat) : Prop :=
  match ax with
  | At z => exists v, entry_at s z v
  | Ats l => forall z, In z l -> exists v, entry_at s z v
  | _ => True
  end.
