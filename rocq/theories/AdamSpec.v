(** Adam as published (Kingma and Ba, Algorithm 1), for one parameter. *)
From Coq Require Import Reals.
From Verif Require Import Base Train.
Local Open Scope R_scope.
Local Open Scope list_scope.

Definition rsum (f : nat -> R) (n : nat) : R := fold_right (fun k s => f k + s) 0 (seq 0 n).
(** The decaying average of [n] numbers [f 0], [f 1], ..., the last one
    weighing most, divided by the sum of the weights. *)
Definition weight (b : R) (n k : nat) : R := b ^ (n - 1 - k).
Definition average (b : R) (n : nat) (f : nat -> R) : R := rsum (fun k => weight b n k * f k) n / rsum (weight b n) n.
(** The parameter after [n] steps with gradients [g 0], [g 1], ... *)
Definition published (lr : nat -> R) (b1 b2 eps x0 : R) (g : nat -> R) (n : nat) : R :=
  x0 - rsum (fun t => lr t * average b1 (S t) g / (sqrt (average b2 (S t) (fun k => g k * g k)) + eps)) n.

(** The numbers between -c and c stay, others become the nearer bound. *)
Definition clipped (c : option R) (x y : R) : Prop :=
  match c with
  | None => y = x
  | Some c => (- c <= x <= c /\ y = x) \/ (c < x /\ y = c) \/ (x < - c /\ y = - c)
  end.
(** Usual parameters. *)
Definition decay (b : R) : Prop := 0 <= b < 1.
Definition usable (b1 b2 eps : R) : Prop := decay b1 /\ decay b2 /\ b1 * b1 < b2 /\ 0 < eps.

(** The states that the functions of an optimizer can produce. *)
Inductive reached {G P MV} (init : list P -> ostate (list P) (list MV)) (update : list G -> ostate (list P) (list MV) -> ostate (list P) (list MV))
  : ostate (list P) (list MV) -> Prop :=
| R_init x0 : reached init update (init x0)
| R_update dx s : length dx = length (ox s) -> reached init update s -> reached init update (update dx s)
| R_direct p s : length p = length (ox s) -> reached init update s -> reached init update (update_params_direct p s)
| R_epoch k s : reached init update s -> reached init update (increment_epoch k s).

(** Complex numbers as pairs. *)
Definition cmul (u z : R * R) : R * R := (fst u * fst z - snd u * snd z, fst u * snd z + snd u * fst z).
Definition conj (z : R * R) : R * R := (fst z, - snd z).
Definition norm2 (z : R * R) : R := fst z * fst z + snd z * snd z.
Definition csub (z w : R * R) : R * R := (fst z - fst w, snd z - snd w).
Definition real_part (x : R) : R * R := (x, 0).
