(** Scores that are not finite in a conformal model
    (parametricmatrixmodels/conformal/conformalizedmodel.py L808-814, L1168-1178,
    L1356-1369): what division by an uncertainty of zero does to the quantile and
    to the intervals.

    Simplifications: real numbers with an infinity and a NaN instead of floats; one
    output number; the sample enters through its residual (target minus prediction)
    and its uncertainty, which is not negative. *)
From Coq Require Import Reals ZArith.
From Verif Require Import Base OneHot Conformal.
Local Open Scope R_scope.
Local Open Scope list_scope.

(** Floats that are not negative infinity. *)
Inductive num := Fin (r : R) | Inf | NaN.
Definition is_nan (x : num) : bool := match x with NaN => true | _ => false end.
(** The order of [np.sort]. *)
Definition nleb (x y : num) : bool :=
  match x, y with
  | Fin a, Fin b => rle a b
  | Fin _, _ => true
  | Inf, Fin _ => false
  | Inf, _ => true
  | NaN, NaN => true
  | NaN, _ => false
  end.
(** Floating-point product with a number that is not negative, and sum. *)
Definition ntimes (x : num) (w : R) : num :=
  match x with Fin a => Fin (a * w) | Inf => if req w 0 then NaN else Inf | NaN => NaN end.
Definition nplus (x y : num) : num :=
  match x, y with
  | NaN, _ | _, NaN => NaN
  | Inf, _ | _, Inf => Inf
  | Fin a, Fin b => Fin (a + b)
  end.

(** L814: [|residual| / u]. *)
Definition score (r u : R) : num :=
  if req u 0 then (if req r 0 then NaN else Inf) else Fin (Rabs r / u).

(** [np.quantile] of jax.numpy as in Conformal.v: NaN if there is a NaN, otherwise
    the sum of both neighbours times their weights. *)
Definition nclamped (a : list num) (z : Z) : num := nth (Z.to_nat (Z.max 0 (Z.min z (Z.of_nat (length a) - 1)))) a NaN.
Definition nposition (a : list num) (t : R) : num :=
  let lo := floor t in let hi := ceil t in let w := t - IZR lo in
  nplus (ntimes (nclamped a lo) (1 - w)) (ntimes (nclamped a hi) w).
Definition nquantile (s : list num) (q : R) : num :=
  if existsb is_nan s then NaN else nposition (isort nleb s) (q * (INR (length s) - 1)).
(** L1168-1178 for one alpha and one feature. *)
Definition nqhat (alpha : R) (s : list num) : num := nquantile s (level (length s) alpha).

(** L1356-1369: is the target between prediction minus and plus [qhat * u]?
    Comparisons with NaN are false. *)
Definition inside (q : num) (r u : R) : bool :=
  match ntimes q u with Fin h => rle (Rabs r) h | Inf => true | NaN => false end.
(** The interval for a sample (residual, uncertainty) after calibration with others. *)
Definition covered (alpha : R) (cal : list (R * R)) (s : R * R) : bool :=
  inside (nqhat alpha (map (fun p => score (fst p) (snd p)) cal)) (fst s) (snd s).
