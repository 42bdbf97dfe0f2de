(** Degrees of freedom of a set of vectors: the number of coordinates that
    determine its elements one to one and linearly. *)
From Verif Require Import Base Dof.
Local Open Scope list_scope.

Section Spec.
Context {K : Type} (add mul : K -> K -> K).

Fixpoint vadd (x y : list K) : list K :=
  match x, y with
  | a :: x', b :: y' => add a b :: vadd x' y'
  | _, _ => []
  end.
Definition vscale (c : K) (x : list K) : list K := map (mul c) x.

(** [f] takes coordinates to vectors, [g] back. *)
Record coordinates (S : list K -> Prop) (k : nat) (f g : list K -> list K) : Prop := {
  to_set : forall x, length x = k -> S (f x) /\ g (f x) = x;
  from_set : forall s, S s -> length (g s) = k /\ f (g s) = s;
  sums : forall x y, length x = k -> length y = k -> f (vadd x y) = vadd (f x) (f y);
  multiples : forall c x, length x = k -> f (vscale c x) = vscale c (f x) }.
Definition dof (S : list K -> Prop) (k : nat) : Prop := exists f g, coordinates S k f g.

(** Real and imaginary parts, one after the other. *)
Definition parts (d : list (K * K)) : list K := flat_map (fun z => [fst z; snd z]) d.
(** Vectors that consist of one from each set. *)
Fixpoint all_of (S : list (list K -> Prop)) (s : list K) : Prop :=
  match S with
  | [] => s = []
  | A :: S' => exists a b, s = a ++ b /\ A a /\ all_of S' b
  end.

(** Arrays with as many entries as their shape says, and real entries if they are of a real dtype. *)
Definition proper (zero : K) (a : @carr K) : Prop :=
  length (c_data a) = fold_right Nat.mul 1 (c_shape a) /\ (c_cplx a = false -> Forall (fun z => snd z = zero) (c_data a)).
(** Of the same shape and dtype, as training leaves them. *)
Definition alike (a b : @carr K) : Prop := c_shape b = c_shape a /\ c_cplx b = c_cplx a.
(** The numbers in all the parameters that a module with parameters [ps] accepts. *)
Definition values (zero : K) (accepts : list carr -> Prop) (ps : list (@carr K)) (s : list K) : Prop :=
  exists qs, Forall2 alike ps qs /\ Forall (proper zero) qs /\ accepts qs /\ s = flat_map (fun a => parts (c_data a)) qs.
End Spec.
