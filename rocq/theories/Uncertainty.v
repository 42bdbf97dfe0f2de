(** The uncertainty heuristic of conformal models
    (parametricmatrixmodels/conformal/conformalizedmodel.py).

    Simplifications:
    - real numbers; [None] is an entry that is not finite.  Gradients, parameters
      and scales may be complex in the code, which only uses |df x|^2 = |df|^2 |x|^2,
      so an entry stands for itself or its absolute value;
    - the gradients are arguments: a tree like the outputs with a tree like the
      inputs (parameters) at every leaf, an array of shape (samples, output
      shape, input shape) each;
    - a normalisation is positive or infinite ([None]), see [norm_of];
    - zero samples are outside of the model ([jax.vmap] gives arrays without
      entries; here ValueError);
    - the checks of the structure and the shape of X (L1435-1457) are not
      modelled: the data are assumed to have passed them. *)
From Coq Require Import Reals.
From Verif Require Import Base TreeUtil NdArray Serial Scaler Conformal.
Local Open Scope R_scope.
Local Open Scope list_scope.

Definition rarr := arr R.
Definition oarr := arr (option R).
Definition rsum (l : list R) : R := fold_right Rplus 0 l.

(** [handle_naninf] on one leaf: L1779-1786. *)
Definition fin (x : option R) : R := match x with Some v => v | None => 0 end.
Definition finite (a : oarr) : rarr := amap fin a.

(** [np.sum(a, axis=tuple(range(-k, 0)))]. *)
Definition sum_last (k : nat) (a : rarr) : result rarr :=
  let r := length (shp a) in
  if (r <? k)%nat then Err ValueError else
  let out := firstn (r - k) (shp a) in
  let m := prod (skipn (r - k) (shp a)) in
  Ok (mk_arr out (map (fun i => rsum (firstn m (skipn (i * m) (dat a)))) (seq 0 (prod out)))).

Definition radd : rarr -> rarr -> result rarr := abin 0 0 Rplus.
(** [jax.tree.reduce(operator.add, t)]. *)
Fixpoint add_all (a : rarr) (l : list rarr) : result rarr :=
  match l with [] => Ok a | b :: l' => let* c := radd a b in add_all c l' end.
Definition reduce_add (t : tree rarr) : result rarr :=
  match leaves t with [] => Err TypeError | a :: l => add_all a l end.

(** [accumulate_sum_sq_over_output_leaves] for one sample: L1892-1928. *)
Definition sum_sq (df xs : tree rarr) : result rarr :=
  let* p := jzipM (abin 0 0 Rmult) df xs in
  let* s := jzipM (fun d x => sum_last (length (shp x)) (amap (fun v => Rabs v * Rabs v) d)) p xs in
  reduce_add s.

(** [jax.vmap] over axis 0 of [df], nothing else (L1892): one call per sample. *)
Definition slice (i : nat) (a : rarr) : rarr :=
  let m := prod (tl (shp a)) in mk_arr (tl (shp a)) (firstn m (skipn (i * m) (dat a))).
Definition stack (l : list rarr) : result rarr :=
  match l with
  | [] => Err ValueError
  | a :: _ => Ok (mk_arr (length l :: shp a) (concat (map dat l)))
  end.
Fixpoint each {X Y} (f : X -> result Y) (l : list X) : result (list Y) :=
  match l with [] => Ok [] | x :: l' => let* y := f x in let* r := each f l' in Ok (y :: r) end.
Definition leading (a : rarr) : option nat := hd_error (shp a).
Definition batch_size (t : tree rarr) : result nat :=
  match leaves t with
  | [] => Err ValueError
  | a :: l => match leading a with
              | None => Err ValueError
              | Some n => if forallb (fun b => match leading b with Some m => m =? n | None => false end)%nat l then Ok n else Err ValueError
              end
  end.
Definition accumulate (df xs : tree rarr) : result rarr :=
  let* n := batch_size df in
  let* l := each (fun i => let* d := jmapM (fun a => Ok (slice i a)) df in sum_sq d xs) (seq 0 n) in
  stack l.

(** [tree_util.scalar_mul] (tree_util.py L849-869): annotated [" *d"], so all
    leaves must have one shape. *)
Definition one_shape (t : tree rarr) : bool :=
  match leaves t with
  | [] => true
  | a :: l => forallb (fun b => if list_eq_dec Nat.eq_dec (shp a) (shp b) then true else false) l
  end.
Definition scale (r : R) (t : tree rarr) : result (tree rarr) :=
  if one_shape t then jmapM (fun a => Ok (amap (fun v => v * r) a)) t else Err TypeError.
(** L883-893, L953-963: [1.0 / num] with a Python integer. *)
Definition mean_sq (num : nat) (df : tree (tree oarr)) (xs : tree oarr) : result (tree rarr) :=
  let* df := jmapM (fun d => jmapM (fun a => Ok (finite a)) d) df in
  let* xs := jmapM (fun a => Ok (finite a)) xs in
  let* t := jmapM (fun d => accumulate d xs) df in
  if (num =? 0)%nat then Err ZeroDivisionError else
  scale (1 / INR num) t.

(** Division by a normalisation, [tree_util.div]. *)
Definition over (v : R) (n : option R) : R := match n with Some w => v / w | None => 0 end.
Definition normed (t : tree rarr) (n : tree oarr) : result (tree rarr) := jzipM (abin 0 None over) t n.

(** L592-600, L868-874. *)
Definition masked (x : oarr) (s : bool) : oarr := if s then x else amap (fun _ => Some 0) x.
Definition count (xs : tree oarr) (flags : tree bool) : result nat :=
  let* t := jzipM (fun x (s : bool) => Ok (if s then prod (shp x) else 0%nat)) xs flags in
  Ok (fold_right Nat.add 0%nat (leaves t)).
Record param_term := mk_param { p_df : tree (tree oarr); p_params : tree oarr; p_flags : tree bool }.
Definition param_raw (p : param_term) : result (tree rarr) :=
  let* num := count (p_params p) (p_flags p) in
  let* xs := jzipM (fun x s => Ok (masked x s)) (p_params p) (p_flags p) in
  mean_sq num (p_df p) xs.

(** The input term, L577-588, L626-657, L900-996. *)
Definition col_of (a : rarr) (j : nat) : list R :=
  map (fun i => nth (i * prod (tl (shp a)) + j)%nat (dat a) 0) (seq 0 (hd 0%nat (shp a))).
Definition iqr_leaf (x : rarr) (use : bool) : oarr :=
  mk_arr (tl (shp x)) (map (fun j => Some (if use then quantile (col_of x j) (3/4) - quantile (col_of x j) (1/4) else 0)) (seq 0 (prod (tl (shp x))))).
Record input_term := mk_input { i_df : tree (tree oarr); i_train : tree rarr; i_cont : tree bool; i_flags : tree bool; i_unc : option (tree oarr) }.
Definition i_use (p : input_term) : result (tree bool) := jzipM (fun c s => Ok (c && s)) (i_cont p) (i_flags p).
Definition count_features (xs : tree rarr) (use : tree bool) : result nat :=
  let* t := jzipM (fun x (s : bool) => Ok (if s then prod (tl (shp x)) else 0%nat)) xs use in
  Ok (fold_right Nat.add 0%nat (leaves t)).
Definition input_raw (p : input_term) : result (tree rarr) :=
  let* use := i_use p in
  let* num := count_features (i_train p) use in             (* L577: counted in X_cal, whose samples have the shape of those of X_train *)
  let* iqr := jzipM (fun x s => Ok (iqr_leaf x s)) (i_train p) use in
  let* dy := mean_sq num (i_df p) iqr in
  match i_unc p with
  | None => Ok dy
  | Some unc =>
      let* unc := jzipM (fun x s => Ok (masked x s)) unc use in
      let* dy' := mean_sq num (i_df p) unc in               (* L979-989: [unc] still has its axis of samples *)
      jzipM radd dy dy'                                     (* L991 *)
  end.

(** [uncertainty_heuristic] — L1378-1523: the terms that are switched on, with
    their normalisations; the distances (L998-1089) are a column. *)
Record sources := mk_sources { s_par : option (param_term * tree oarr); s_inp : option (input_term * tree oarr); s_dist : option (list R) }.
Definition with_term {T} (raw : T -> result (tree rarr)) (t : option (T * tree oarr)) (u : tree rarr) : result (tree rarr) :=
  match t with
  | None => Ok u
  | Some (p, n) => let* d := raw p in let* d := normed d n in jzipM radd u d
  end.
Definition heuristic (n : nat) (output_shape : tree (list nat)) (s : sources) : result (tree rarr) :=
  let* u := jmapM (fun o => Ok (mk_arr (n :: o) (repeat 0 (n * prod o)%nat))) output_shape in
  let* u := with_term param_raw (s_par s) u in
  let* u := with_term input_raw (s_inp s) u in
  match s_dist s with
  | None => Ok u
  | Some d => jmapM (fun x => radd x (mk_arr [length d; 1%nat] d)) u
  end.

(** [robust_normalization] of a term, L725-727, L743-745, as a row of the shape
    of one sample. *)
Definition rows_of (a : rarr) : rbatch :=
  mk_rbatch (prod (tl (shp a))) (map (fun i => dat (slice i a)) (seq 0 (hd 0%nat (shp a)))).
Definition norm_of (eps : R) (a : rarr) : oarr :=
  mk_arr (tl (shp a)) (match robust_normalization eps (rows_of a) with Finite l => map Some l | Infinite k => repeat None k end).
