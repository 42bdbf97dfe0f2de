(** Calibrating a conformal model and calling it, from the samples to the
    intervals (parametricmatrixmodels/conformal/conformalizedmodel.py): the parts
    modelled in Conformal.v, Strata.v and Uncertainty.v, put together.

    Simplifications:
    - real numbers; scores that would be infinite or NaN (an uncertainty that is
      not positive) are reported as [NotFinite];
    - the model has one output number; the inputs matter through the features
      that select a stratum, the prediction, and the sensitivities before
      normalisation (modelled in Uncertainty.v), which belong to the sample here;
    - the wrapped model and the training data stay the same;
    - no uncertainties of the labels, so no weights (L693-697). *)
From Coq Require Import Reals.
From Verif Require Import Base TreeUtil Serial Scaler OneHot Conformal Strata NdArray Uncertainty.
Local Open Scope R_scope.
Local Open Scope list_scope.

Record sample := mk_sample { s_feats : list R; s_pred : R; s_terms : list R; s_target : R }.
Definition number (x : R) : list R := [x].
Definition column (f : sample -> R) (l : list sample) : tree bdata := Leaf (mk_odata [1%nat] (map (fun s => number (f s)) l)).
Definition inputs (l : list sample) : tree bdata :=
  Leaf (mk_odata [match l with [] => 0%nat | s :: _ => length (s_feats s) end] (map s_feats l)).

(** L699-757: the normalisation of the [k]-th term by its values at the
    calibration data; [None] is infinite. *)
Definition term_norm (eps : R) (l : list sample) (k : nat) : option R :=
  match robust_normalization eps (mk_rbatch 1 (map (fun s => number (nth k (s_terms s) 0)) l)) with
  | Finite [v] => Some v
  | _ => None
  end.
(** L1378-1525: the sum of the normalised terms. *)
Definition width_of (norms : list (option R)) (s : sample) : R :=
  rsum (map (fun p => over (fst p) (snd p)) (combine (s_terms s) norms)).

Record calibrated := mk_cal { k_mode : mode; k_bias : biases; k_norms : list (option R); k_conf : conf }.
Inductive outcome := Calibration (c : calibrated) | NotFinite.
(** The numbers of a column. *)
Definition numbers (t : tree bdata) : list R :=
  match leaves t with [x] => map (fun r => nth 0 r 0) (o_rows x) | _ => [] end.
(** L475-814, for [k] terms. *)
Definition calibrate_with (eps : R) (m : mode) (k : nat) (alpha : R) (l : list sample) : result outcome :=
  let* r := calibrate_bias m (inputs l) (column s_target l) (column s_pred l) in
  let norms := map (term_norm eps l) (seq 0 k) in
  let u := map (width_of norms) l in
  if existsb (fun v => rle v 0) u then Ok NotFinite else
  let scores := zip3r (fun y p v => Rabs (y - p) / v) (map s_target l) (numbers (snd r)) u in
  Ok (Calibration (mk_cal m (fst r) norms (calibrate (conf_new alpha) (Leaf (mk_rbatch 1 (map number scores)))))).
(** L1229-1374 for one sample: the interval. *)
Definition interval (c : calibrated) (alpha : R) (s : sample) : result (R * R) :=
  let* P := apply_bias (k_mode c) (k_bias c) (inputs [s]) (column s_pred [s]) in
  let* r := conf_call (k_conf c) (AOne alpha) true (Leaf (mk_rbatch 1 (map number (numbers P)))) (Leaf (mk_rbatch 1 [number (width_of (k_norms c) s)])) in
  match fst r with
  | IOne (Leaf (mk_rbatch _ [[lo]])) (Leaf (mk_rbatch _ [[hi]])) => Ok (lo, hi)
  | _ => Err ValueError
  end.
