(** Conformal prediction
    (parametricmatrixmodels/conformal/conformalizedmodel.py): quantiles of the
    calibration scores, intervals, robust normalisation, weighted quantiles.

    Simplifications:
    - real numbers instead of floats; scores, predictions and uncertainties are
      finite, so scores come from positive uncertainties;
    - a leaf is a batch of samples, each a flattened row of features;
    - the wrapped model and the sensitivities only enter through the
      predictions, the uncertainties and the scores they yield, which are
      arguments here;
    - [np.quantile] is jax.numpy's linear interpolation with both neighbours'
      positions clamped to the data; [np.interp] is linear interpolation,
      constant outside. *)
From Coq Require Import Reals ZArith.
From Verif Require Import Base TreeUtil Serial Scaler OneHot.
Local Open Scope R_scope.
Local Open Scope list_scope.

Definition rle (a b : R) : bool := if Rle_dec a b then true else false.
Definition rlt (a b : R) : bool := if Rlt_dec a b then true else false.
Definition req (a b : R) : bool := if Req_EM_T a b then true else false.
Definition floor (x : R) : Z := Int_part x.
Definition ceil (x : R) : Z := (- Int_part (- x))%Z.

(** The entry at a position clamped to the list. *)
Definition at_clamped (a : list R) (z : Z) : R := nth (Z.to_nat (Z.max 0 (Z.min z (Z.of_nat (length a) - 1)))) a 0.
Definition at_position (a : list R) (t : R) : R :=
  let lo := floor t in let hi := ceil t in let w := t - IZR lo in
  at_clamped a lo * (1 - w) + at_clamped a hi * w.
Definition quantile (s : list R) (q : R) : R :=
  at_position (isort rle s) (q * (INR (length s) - 1)).

Record rbatch := mk_rbatch { rwidth : nat; rrows : list (list R) }.
Definition rcol (x : rbatch) (j : nat) : list R := map (fun r => nth j r 0) (rrows x).
Definition rfeatures (f : list R -> R) (x : rbatch) : list R := map (fun j => f (rcol x j)) (seq 0 (rwidth x)).

(** The state used here: L176-182. *)
Record conf := mk_conf { c_alpha : R; c_scores : option (tree rbatch); c_qhats : list (R * tree (list R)) }.
Definition conf_new (alpha : R) : conf := mk_conf alpha None [].

(** L217-814: after its checks and computations, calibrate stores the scores and
    nothing else of this state. *)
Definition calibrate (c : conf) (scores : tree rbatch) : conf := mk_conf (c_alpha c) (Some scores) (c_qhats c).
(** L808-814: [|Y - prediction| / u], one leaf. *)
Fixpoint zip3r (f : R -> R -> R -> R) (l m n : list R) : list R :=
  match l, m, n with x :: l', y :: m', z :: n' => f x y z :: zip3r f l' m' n' | _, _, _ => [] end.

(** L1174: the level for [n] scores. *)
Definition level (n : nat) (alpha : R) : R := IZR (ceil ((INR n + 1) * (1 - alpha))) / INR n.
(** L1168-1178 for one alpha. *)
Definition compute_qhat (s : tree rbatch) (alpha : R) : result (tree (list R)) :=
  match leaves s with
  | [] => Err IndexError
  | x :: _ => jmapM (fun y => Ok (rfeatures (fun l => quantile l (level (length (rrows x)) alpha)) y)) s
  end.

Inductive alphas := ADefault | AOne (a : R) | AMany (l : list R).
Inductive qhats := QOne (q : tree (list R)) | QMany (l : list (tree (list R))).
Definition alpha_list (c : conf) (a : alphas) : list R :=      (* L1132-1142 *)
  match a with ADefault => [c_alpha c] | AOne x => [x] | AMany l => l end.
Fixpoint rget {A} (d : list (R * A)) (a : R) : option A :=
  match d with [] => None | (b, v) :: d' => if req a b then Some v else rget d' a end.
(** L1156-1188: cached levels are looked up, new ones computed and stored. *)
Fixpoint get_new (s : tree rbatch) (old : list (R * tree (list R))) (l : list R) : result (list (tree (list R)) * list (R * tree (list R))) :=
  match l with
  | [] => Ok ([], [])
  | a :: l' =>
      match rget old a with
      | Some q => let* r := get_new s old l' in Ok (q :: fst r, snd r)
      | None => let* q := compute_qhat s a in let* r := get_new s old l' in Ok (q :: fst r, (a, q) :: snd r)
      end
  end.
Definition get_qhat (c : conf) (a : alphas) : result (qhats * conf) :=     (* L1132-1197 *)
  let l := alpha_list c a in
  if existsb (fun x => rle x 0 || rle 1 x) l then Err ValueError else
  match c_scores c with
  | None => Err ValueError
  | Some s =>
      let* r := get_new s (c_qhats c) l in
      let c' := mk_conf (c_alpha c) (c_scores c) (snd r ++ c_qhats c) in
      Ok (match fst r with [q] => QOne q | qs => QMany qs end, c')
  end.

(** L1356-1357, L1368-1369: [Y -/+ qhat * u], one leaf: the row of quantiles is
    used for every sample. *)
Definition bounds_leaf (sign : R) (y u : rbatch) (q : list R) : result rbatch :=
  if (rwidth y =? rwidth u)%nat && (length q =? rwidth u)%nat && (length (rrows y) =? length (rrows u))%nat
  then Ok (mk_rbatch (rwidth y) (map (fun p => zip3r (fun a b c => a + sign * (c * b)) (fst p) (snd p) q) (combine (rrows y) (rrows u))))
  else Err ValueError.
Definition bounds (sign : R) (Y U : tree rbatch) (q : tree (list R)) : result (tree rbatch) :=
  let* uq := jzipM (fun c b => Ok (b, c)) q U in
  jzipM (fun y (p : rbatch * list R) => bounds_leaf sign y (fst p) (snd p)) Y uq.
Inductive intervals := IOne (lo hi : tree rbatch) | IMany (l : list (tree rbatch * tree rbatch)).
Definition both (Y U : tree rbatch) (q : tree (list R)) : result (tree rbatch * tree rbatch) :=
  let* lo := bounds (-1) Y U q in let* hi := bounds 1 Y U q in Ok (lo, hi).
(** L1229-1374. [shapes_ok]: the check of L1244. *)
Definition conf_call (c : conf) (a : alphas) (shapes_ok : bool) (Y U : tree rbatch) : result (intervals * conf) :=
  if existsb (fun x => rle x 0 || rle 1 x) (alpha_list c a) then Err ValueError else
  if negb shapes_ok then Err ValueError else
  match c_scores c with
  | None => Err ValueError
  | Some _ =>
      let* r := get_qhat c (AMany (alpha_list c a)) in
      match fst r with
      | QOne q => let* b := both Y U q in Ok (IOne (fst b) (snd b), snd r)
      | QMany qs => let* bs := rmapM (both Y U) qs in Ok (IMany bs, snd r)
      end
  end.

(* ------------------------------------------------------------------ *)
(** * Robust normalisation *)
Definition median (l : list R) : R := quantile l (1/2).
Definition mad (l : list R) : R := median (map (fun x => Rabs (x - median l)) l).      (* L1806-1808 *)
Definition lmin (l : list R) : R := match l with [] => 0 | x :: l' => fold_left Rmin l' x end.
Definition lmax (l : list R) : R := match l with [] => 0 | x :: l' => fold_left Rmax l' x end.
Definition ptp (l : list R) : R := lmax l - lmin l.
Inductive norm := Finite (l : list R) | Infinite (n : nat).        (* a row of numbers, or of infinities *)
(** L1817-1870 without weights; each fallback replaces the whole row. *)
Definition robust_normalization (eps : R) (x : rbatch) : norm :=
  let small n := existsb (fun v => rlt v eps) n in
  let n := rfeatures mad x in
  let n := if small n then rfeatures (fun l => quantile l (3/4) - quantile l (1/4)) x else n in
  let n := if small n then rfeatures (fun l => quantile l (95/100) - quantile l (5/100)) x else n in
  let n := if small n then rfeatures ptp x else n in
  if small n then Infinite (length n) else Finite n.

(* ------------------------------------------------------------------ *)
(** * Weighted quantiles *)

(** [np.interp(x, xp, fp)] for strictly increasing [xp] (positive weights;
    otherwise jax.numpy may take another neighbour). *)
Fixpoint interp_from (x a fa : R) (l : list (R * R)) : R :=
  match l with
  | [] => fa
  | (b, fb) :: l' => if rlt x b then fa + (x - a) / (b - a) * (fb - fa) else interp_from x b fb l'
  end.
Definition interp (x : R) (l : list (R * R)) : R :=
  match l with [] => 0 | (a, fa) :: l' => if rlt x a then fa else interp_from x a fa l' end.
Fixpoint cumsum_from (s : R) (l : list R) : list R :=
  match l with [] => [] | x :: l' => (s + x) :: cumsum_from (s + x) l' end.
(** L1795-1798 for one-dimensional data: sorted by the weights (a stable sort). *)
Definition weighted_quantile (data weights : list R) (q : R) : R :=
  let p := isort (fun a b => rle (snd a) (snd b)) (combine data weights) in
  let cum := cumsum_from 0 (map snd p) in
  interp (q * last cum 0) (combine cum (map fst p)).
(** Arrays of another number of dimensions: [weights[idxs]] then has more
    dimensions than one, which [np.interp] rejects. *)
Definition weighted_quantile_nd (ndim : nat) (data weights : list R) (q : R) : result R :=
  match ndim with 1%nat => Ok (weighted_quantile data weights q) | _ => Err ValueError end.
