(** The documented guarantee (conformalizedmodel.py L49-51, L104-110): at least a
    fraction [1 - alpha] of exchangeable samples lie in the interval of a model
    calibrated with the other ones.  For exchangeable samples this counting
    statement is what the probability of coverage comes down to. *)
From Coq Require Import Reals.
From Verif Require Import Base Conformal ConformalSpec Strata Cover.
Local Open Scope R_scope.
Local Open Scope list_scope.

(** The interval for [s] of a model calibrated with [l]. *)
Definition gives (eps : R) (m : mode) (k : nat) (alpha : R) (l : list sample) (s : sample) (lo hi : R) : Prop :=
  exists c, calibrate_with eps m k alpha l = Ok (Calibration c) /\ interval c alpha s = Ok (lo, hi).

Definition guarantee (eps : R) (m : mode) (k : nat) (alpha : R) (l : list sample) : Prop :=
  exists I, NoDup I /\
    (forall i, In i I -> exists s lo hi, nth_error l i = Some s /\ gives eps m k alpha (others i l) s lo hi /\ lo <= s_target s <= hi) /\
    INR (length l) * (1 - alpha) <= INR (length I).

(** Every sample gets an interval from the other ones. *)
Definition all_answered (eps : R) (m : mode) (k : nat) (alpha : R) (l : list sample) : Prop :=
  forall i s, nth_error l i = Some s -> exists lo hi, gives eps m k alpha (others i l) s lo hi.

(** The [k]-th term is not nearly constant on [l]. *)
Definition varied (eps : R) (k : nat) (l : list sample) : Prop :=
  exists s s', In s l /\ In s' l /\ eps <= nth k (s_terms s') 0 - nth k (s_terms s) 0.
