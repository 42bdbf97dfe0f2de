(** Bias corrections of conformal models
    (parametricmatrixmodels/conformal/conformalizedmodel.py, the parts of
    [calibrate] and [__call__] that correct the predictions).

    Simplifications:
    - real numbers instead of floats (no NaN);
    - a leaf is a batch of samples with the shape of one sample, each sample a
      flattened row (as in OneHot.v);
    - the wrapped model only enters through its predictions;
    - a tree [NoneT] of flags is not considered (the annotation excludes it). *)
From Coq Require Import Reals.
From Verif Require Import Base TreeUtil Serial Scaler OneHot Conformal.
Local Open Scope R_scope.
Local Open Scope list_scope.

Definition rops : ops R := mk_ops R 0 1 Rplus Rmult rle.
Definition bdata := odata R.

(** The argument [stratified_bias_corrections]: L324-359. *)
Inductive corrections := CFlag (b : bool) | CTree (t : tree bool).
(** L324-357: [same]: the structures agree (L331-333); [cont]: the continuous
    features. *)
Definition check_corrections (given : option corrections) (same : bool) (cont : tree bool) : result corrections :=
  match given with
  | None => Ok (CFlag false)                                       (* L357 *)
  | Some (CFlag b) => Ok (CFlag b)
  | Some (CTree t) =>
      if negb same then Err ValueError else                        (* L331-339 *)
      let* _ := jzipM (fun (s c : bool) => if s && c then Err ValueError else Ok tt) t cont in      (* L341-354 *)
      Ok (CTree t)
  end.
(** The three cases of L477-479, L549-552, L788-802, L1272-1274, L1323-1326. *)
Inductive mode := MNone | MGlobal | MStrata (t : tree bool).
Definition mode_of (c : corrections) : mode :=
  match c with
  | CFlag true => MGlobal
  | CFlag false => MNone
  | CTree t => if existsb (fun b : bool => b) (leaves t) then MStrata t else MNone
  end.

(** L484-497, L1287-1300: the selected features of every sample, flattened and
    concatenated; the other leaves contribute no columns. *)
Definition hcat (l : list (list (list R))) : result (list (list R)) :=
  match l with
  | [] => Err ValueError                                           (* nothing to concatenate *)
  | m :: _ =>
      if forallb (fun m' => length m' =? length m)%nat l
      then Ok (map (fun i => concat (map (fun m' => nth i m' []) l)) (seq 0 (length m)))
      else Err TypeError
  end.
Definition selected (x : bdata) (s : bool) : list (list R) := if s then o_rows x else map (fun _ => []) (o_rows x).
Definition strata_features (X : tree bdata) (t : tree bool) : result (list (list R)) :=
  let* f := jzipM (fun x s => Ok (selected x s)) X t in hcat (leaves f).

(** L504-515, L1303-1314: the position of the first equal row, or the number of
    rows. *)
Fixpoint index_of (u : list (list R)) (r : list R) : nat :=
  match u with
  | [] => 0
  | v :: u' => if row_eqb rops r v then 0 else S (index_of u' r)
  end.

(** The entries of column [j] of the rows with a true flag ([y[idxs == i]]). *)
Definition keep {A} (f : list bool) (l : list A) : list A := map snd (filter fst (combine f l)).
Definition col_median (w : nat) (rows : list (list R)) : list R := map (fun j => median (map (fun r => nth j r 0) rows)) (seq 0 w).

(** [tree_util.sub] on one leaf with equal shapes, L527-530, L567-570. *)
Definition row_op (f : R -> R -> R) (r s : list R) : list R := map (fun p => f (fst p) (snd p)) (combine r s).
Definition leaf_op (f : R -> R -> R) (x y : bdata) : result bdata :=
  if (if list_eq_dec Nat.eq_dec (o_shape x) (o_shape y) then true else false) && (length (o_rows x) =? length (o_rows y))%nat
  then Ok (mk_odata (o_shape x) (map (fun p => row_op f (fst p) (snd p)) (combine (o_rows x) (o_rows y))))
  else Err TypeError.
Definition residuals (Y P : tree bdata) : result (tree bdata) := jzipM (leaf_op Rminus) Y P.

Inductive biases := BNone | BGlobal (b : tree (list R)) | BStrata (u : list (list R)) (b : tree (list (list R))).
(** L533-544, one leaf: the medians of the strata, then [[0.0]]: the stacked
    rows must all have shape (1,). *)
Definition strata_leaf (k : nat) (idxs : list nat) (y : bdata) : result (list (list R)) :=
  if (if list_eq_dec Nat.eq_dec (o_shape y) [1%nat] then true else false) || (k =? 0)%nat
  then Ok (map (fun i => col_median (features y) (keep (map (Nat.eqb i) idxs) (o_rows y))) (seq 0 k) ++ [[0]])
  else Err ValueError.
(** L475-573. *)
Definition fit_bias (m : mode) (X Y P : tree bdata) : result biases :=
  match m with
  | MNone => Ok BNone
  | MGlobal =>
      let* r := residuals Y P in
      let* b := jmapM (fun y => Ok (col_median (features y) (o_rows y))) r in
      Ok (BGlobal b)
  | MStrata t =>
      let* f := strata_features X t in
      let u := unique_rows rops f in
      let* r := residuals Y P in
      let* b := jmapM (strata_leaf (length u) (map (index_of u) f)) r in
      Ok (BStrata u b)
  end.

(** [bias[idxs]], L794-797, L1315-1318, as a leaf like the predictions. *)
Definition pick (idxs : list nat) (b : list (list R)) : bdata := mk_odata [1%nat] (map (fun i => nth i b []) idxs).
(** L788-806, L1272-1334. *)
Definition apply_bias (m : mode) (b : biases) (X P : tree bdata) : result (tree bdata) :=
  match m, b with
  | MNone, _ => Ok P
  | MGlobal, BGlobal b => jzipM (fun x (v : list R) => leaf_op Rplus x (mk_odata (o_shape x) (map (fun _ => v) (o_rows x)))) P b
  | MStrata t, BStrata u b =>
      let* f := strata_features X t in
      let* c := jmapM (fun v => Ok (pick (map (index_of u) f) v)) b in
      jzipM (leaf_op Rplus) P c
  | _, _ => Err ValueError                                         (* L1275-1283, L1327-1332 *)
  end.
(** Calibration: the biases and the corrected predictions the scores are made
    of (L475-573, L788-808). *)
Definition calibrate_bias (m : mode) (X Y P : tree bdata) : result (biases * tree bdata) :=
  let* b := fit_bias m X Y P in
  let* C := apply_bias m b X P in
  Ok (b, C).
