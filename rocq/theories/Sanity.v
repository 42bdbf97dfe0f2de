(** The check of the continuous features in [ConformalizedModel.calibrate]
    (parametricmatrixmodels/conformal/conformalizedmodel.py L361-417).

    Simplifications:
    - real numbers (no NaN); a leaf is a batch of samples with the shape of one
      sample, each sample a flattened row (as in OneHot.v);
    - the order in which [jax.random.permutation] with the fixed key of L375 puts
      [n] samples is an argument ([order]); so are MAX_N and MAX_K (L373-374);
    - [n_unique / n_total > 0.05] is exact (in floats it is the same for at most
      MAX_N samples). *)
From Coq Require Import Reals.
From Verif Require Import Base TreeUtil Serial Scaler OneHot Conformal Strata.
Local Open Scope list_scope.

Section Sanity.
Variables (max_n max_k : nat) (order : nat -> list nat).

(** L377-382 for one leaf: [x[:MAX_N, :MAX_K]] needs an axis besides that of the
    samples. *)
Definition subsample (x : bdata) : result bdata :=
  match o_shape x with
  | [] => Err IndexError
  | k :: rest =>
      let k' := Nat.min max_k k in
      let shuffled := map (fun i => nth i (o_rows x) []) (order (length (o_rows x))) in
      Ok (mk_odata (k' :: rest) (map (firstn (k' * fold_right Nat.mul 1 rest)) (firstn max_n shuffled)))
  end.
(** L387-395. *)
Definition looks_as_said (x : bdata) (is_continuous : bool) : result bool :=
  let n_unique := length (unique_rows rops (o_rows x)) in
  let n_total := length (o_rows x) in
  Ok (Bool.eqb ((10 <? n_unique) && (n_total <? 20 * n_unique)) is_continuous).
(** L361-417: whether the warning is given. *)
Definition warns (skip : bool) (X_cal : tree bdata) (X_train : option (tree bdata)) (continuous : tree bool) : result bool :=
  if skip then Ok false else
  let* d := jmapM subsample (match X_train with Some t => t | None => X_cal end) in
  let* r := jzipM looks_as_said d continuous in
  Ok (negb (forallb (fun b : bool => b) (leaves r))).
End Sanity.
