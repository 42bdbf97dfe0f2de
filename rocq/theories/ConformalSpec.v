(** What conformal quantiles and intervals should be. *)
From Coq Require Import Reals.
From Verif Require Import Base TreeUtil TreeSpec NonSeqSpec SerialSpec Conformal.
Local Open Scope R_scope.
Local Open Scope list_scope.

(** All entries but the [i]-th. *)
Definition others {A} (i : nat) (l : list A) : list A := firstn i l ++ skipn (S i) l.

(** Coverage: at least a fraction [1 - alpha] of the entries of [l] do not exceed
    the quantile computed from the other entries. *)
Definition coverage (quantile_of : list R -> R -> Prop) (alpha : R) (l : list R) : Prop :=
  exists I, NoDup I /\
    (forall i, In i I -> (i < length l)%nat /\ exists q, quantile_of (others i l) q /\ nth i l 0 <= q) /\
    INR (length l) * (1 - alpha) <= INR (length I).

(** The quantile reported by a model calibrated with one feature having the
    given scores. *)
Definition one_feature (l : list R) : tree rbatch := Leaf (mk_rbatch 1 (map (fun x => [x]) l)).
Definition reports (alpha : R) (l : list R) (q : R) : Prop :=
  exists c', get_qhat (calibrate (conf_new alpha) (one_feature l)) (AOne alpha) = Ok (QOne (Leaf [q]), c').

(** All leaves have the same, positive number of samples. *)
Definition uniform (n : nat) (s : tree rbatch) : Prop := (0 < n)%nat /\ (exists x, has_leaf s x) /\ forall x, has_leaf s x -> length (rrows x) = n.

(** The order statistics of a list: [v] has rank [k] (counted from 1). *)
Definition lowest_k (k : nat) (l : list R) (v : R) : Prop :=
  In v l /\ (exists a b, Permutation.Permutation l (a ++ b) /\ length a = k /\ (forall x, In x a -> x <= v) /\ (forall x, In x b -> v <= x)).

(** A tree of calibration scores, predictions and scales, leaf by leaf. *)
Record point := mk_point { p_scores : rbatch; p_center : rbatch; p_scale : rbatch }.
Definition full (w n : nat) (x : rbatch) : Prop := rwidth x = w /\ length (rrows x) = n /\ forall r, In r (rrows x) -> length r = w.
(** [n] calibration scores, [m] samples. *)
Definition aligned (n m : nat) (p : point) : Prop := exists w, full w n (p_scores p) /\ full w m (p_center p) /\ full w m (p_scale p).
Definition entry (x : rbatch) (i j : nat) : R := nth j (nth i (rrows x) []) 0.
Definition cell (x : rbatch) (i j : nat) : Prop := (i < length (rrows x))%nat /\ (j < rwidth x)%nat.

(** Between two bounds exactly when the residual is at most the reported
    quantile times the scale. *)
Definition encloses (alpha : R) (p : point) (lo hi : rbatch) : Prop :=
  rwidth lo = rwidth (p_center p) /\ rwidth hi = rwidth (p_center p) /\
  length (rrows lo) = length (rrows (p_center p)) /\ length (rrows hi) = length (rrows (p_center p)) /\
  forall i j, cell (p_center p) i j -> exists q, reports alpha (rcol (p_scores p) j) q /\
    forall v, entry lo i j <= v <= entry hi i j <-> Rabs (v - entry (p_center p) i j) <= q * entry (p_scale p) i j.

Definition views (T : tree point) (s Y U : tree rbatch) : Prop :=
  trel (fun p x => p_scores p = x) T s /\ trel (fun p x => p_center p = x) T Y /\ trel (fun p x => p_scale p = x) T U.

(** Histories of calibrations and queries. *)
Inductive event := Calibrated (s : tree rbatch) | Asked (a : alphas).
Definition step (c : conf) (e : event) : conf :=
  match e with
  | Calibrated s => calibrate c s
  | Asked a => match get_qhat c a with Ok (_, c') => c' | Err _ => c end
  end.
Definition history (alpha0 : R) (h : list event) : conf := fold_left step h (conf_new alpha0).
Definition valid_alpha (a : R) : Prop := 0 < a < 1.
Definition asked (alpha0 : R) (a : alphas) : list R :=
  match a with ADefault => [alpha0] | AOne x => [x] | AMany l => l end.
(** The scores that a query of [alpha] after the history [h] uses: those current
    at the first accepted request of [alpha], or the current ones. *)
Inductive uses (alpha0 alpha : R) : option (tree rbatch) -> list event -> option (tree rbatch) -> Prop :=
| uses_now cur : uses alpha0 alpha cur [] cur
| uses_calibrated cur s h r : uses alpha0 alpha (Some s) h r -> uses alpha0 alpha cur (Calibrated s :: h) r
| uses_asked s a h : In alpha (asked alpha0 a) -> Forall valid_alpha (asked alpha0 a) -> uses alpha0 alpha (Some s) (Asked a :: h) (Some s)
| uses_other cur a h r : ~ (In alpha (asked alpha0 a) /\ Forall valid_alpha (asked alpha0 a) /\ cur <> None) ->
    uses alpha0 alpha cur h r -> uses alpha0 alpha cur (Asked a :: h) r.
Definition nonempty_scores (h : list event) : Prop := forall s, In (Calibrated s) h -> exists x, has_leaf s x.
(** The answer of a newly made model calibrated with [s] only. *)
Definition fresh (alpha0 alpha : R) (s : tree rbatch) (q : qhats) : Prop :=
  exists c', get_qhat (calibrate (conf_new alpha0) s) (AOne alpha) = Ok (q, c').

(** A feature whose values all lie within less than [eps] of each other. *)
Definition flat_feature (eps : R) (x : rbatch) (j : nat) : Prop :=
  forall r r', In r (rrows x) -> In r' (rrows x) -> nth j r 0 - nth j r' 0 < eps.
