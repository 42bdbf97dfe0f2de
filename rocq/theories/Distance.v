(** Distances of conformal models to their training data
    (parametricmatrixmodels/conformal/conformalizedmodel.py L602-703, L998-1123).

    Simplifications:
    - real numbers; [None] is a number that is not finite (division by zero);
    - a leaf is a batch of flattened rows with the shape of one sample;
    - the k-d tree is a list of points and its queries are the exact answers;
      it refuses numbers that are not finite (ValueError), as scipy does;
    - dividing one-hot codes by the range of a categorical leaf (L1103) uses
      broadcasting only if that leaf has one number per sample; other accidental
      cases of broadcasting are a TypeError here. *)
From Coq Require Import Reals.
From Verif Require Import Base TreeUtil Serial Scaler OneHot Conformal Strata.
Local Open Scope R_scope.
Local Open Scope list_scope.

(** L640-650: the ranges of a leaf. *)
Definition range_leaf (x : bdata) (cont : bool) : list R :=
  if cont then map (fun j => ptp (map (fun r => nth j r 0) (o_rows x))) (seq 0 (features x))
  else repeat 2 (features x).
(** L667-677: the encoder of a leaf ([None] leaves it alone), fitted. *)
Definition encoder_leaf (x : bdata) (cont dist : bool) : option (list (list R) * list nat) :=
  if cont || negb dist then None else Some (oh_fit_leaf rops x).
(** L1102: [MixedScaler.transform], one leaf. *)
Definition encode_leaf (enc : option (list (list R) * list nat)) (x : bdata) : result bdata :=
  match enc with
  | None => Ok x
  | Some st =>
      if (features x =? fold_right Nat.mul 1 (snd st))%nat
      then Ok (mk_odata [length (fst st)] (map (encode rops (fst st)) (o_rows x)))
      else Err ValueError
  end.
(** L1103: [tree_util.div], one leaf. *)
Definition odiv (a b : R) : option R := if Req_EM_T b 0 then None else Some (a / b).
Definition scale_leaf (x : bdata) (rg : list nat * list R) : result (list (list (option R))) :=
  if list_eq_dec Nat.eq_dec (o_shape x) (fst rg)
  then Ok (map (fun r => map (fun p => odiv (fst p) (snd p)) (combine r (snd rg))) (o_rows x))
  else match fst rg, o_shape x with
       | [1%nat], [_] => Ok (map (fun r => map (fun v => odiv v (nth 0 (snd rg) 0)) r) (o_rows x))
       | _, _ => Err TypeError
       end.
(** L1108-1122: flatten and concatenate; leaves that are not selected
    contribute no columns. *)
Definition side_by_side {A} (l : list (list (list A))) : result (list (list A)) :=
  match l with
  | [] => Err ValueError
  | m :: _ =>
      if forallb (fun m' => length m' =? length m)%nat l
      then Ok (map (fun i => concat (map (fun m' => nth i m' []) l)) (seq 0 (length m)))
      else Err TypeError
  end.
(** [_prepare_data_for_kdtree] — L1091-1123. *)
Definition prepare (enc : tree (option (list (list R) * list nat))) (rg : tree (list nat * list R)) (dist : tree bool) (X : tree bdata)
  : result (list (list (option R))) :=
  let* e := jzipM encode_leaf enc X in
  let* s := jzipM scale_leaf e rg in
  let* f := jzipM (fun (rows : list (list (option R))) (d : bool) => Ok (if d then rows else map (fun _ => []) rows)) s dist in
  side_by_side (leaves f).
(** What scipy's k-d tree accepts. *)
Fixpoint finite_row (r : list (option R)) : result (list R) :=
  match r with [] => Ok [] | Some v :: r' => let* w := finite_row r' in Ok (v :: w) | None :: _ => Err ValueError end.
Fixpoint finite_rows (l : list (list (option R))) : result (list (list R)) :=
  match l with [] => Ok [] | r :: l' => let* w := finite_row r in let* m := finite_rows l' in Ok (w :: m) end.

(** The distance [p=1]. *)
Definition l1 (a b : list R) : R := fold_right Rplus 0 (map (fun p => Rabs (fst p - snd p)) (combine a b)).
(** L689-703: nearest neighbours of the points ([query] with [k=2] gives infinity
    when there is no second point) and their quantile; [None] is infinity. *)
Definition neighbour (pts : list (list R)) (p : list R) : option R :=
  match isort rle (map (l1 p) pts) with
  | d0 :: d1 :: _ => Some (if Req_EM_T d0 0 then d1 else d0)
  | [d0] => if Req_EM_T d0 0 then None else Some d0
  | [] => None
  end.
Fixpoint all_finite (l : list (option R)) : option (list R) :=
  match l with [] => Some [] | Some v :: l' => match all_finite l' with Some w => Some (v :: w) | None => None end | None :: _ => None end.
Definition cutoff_of (q : R) (pts : list (list R)) : option R :=
  match all_finite (map (neighbour pts) pts) with Some l => Some (quantile l q) | None => None end.

Record dstate := mk_dstate { d_enc : tree (option (list (list R) * list nat)); d_range : tree (list nat * list R); d_dist : tree bool;
  d_points : list (list R); d_cutoff : option R; d_num : nat }.
(** L602-624: the number of features. *)
Definition number_leaf (x : bdata) (cont dist : bool) : nat := if cont && dist then features x else if dist then 1 else 0.
(** L602-703. *)
Definition fit_distance (q : R) (train : tree bdata) (cont dist : tree bool) : result dstate :=
  let* cd := jzipM (fun c d => Ok (c, d)) cont dist in
  let* num := jzipM (fun x (p : bool * bool) => Ok (number_leaf x (fst p) (snd p))) train cd in
  let* rg := jzipM (fun x c => Ok (o_shape x, range_leaf x c)) train cont in
  let* enc := jzipM (fun x (p : bool * bool) => Ok (encoder_leaf x (fst p) (snd p))) train cd in
  let* flat := prepare enc rg dist train in
  let* rows := finite_rows flat in
  let points := unique_rows rops rows in
  Ok (mk_dstate enc rg dist points (cutoff_of q points) (fold_right Nat.add 0%nat (leaves num))).

(** [distance_sensitivity] before normalisation — L1045-1078. *)
Definition within (c : option R) (d : R) : bool := match c with Some r => rle d r | None => true end.
Definition mean_of (l : list R) : R := match l with [] => 0 | _ => fold_right Rplus 0 l / INR (length l) end.
Definition sensitivity (st : dstate) (x : list R) : R :=
  let ds := map (l1 x) (d_points st) in
  Rmax (mean_of (filter (within (d_cutoff st)) ds)) (lmin ds) / INR (d_num st).
Definition distance (st : dstate) (X : tree bdata) : result (list R) :=
  let* flat := prepare (d_enc st) (d_range st) (d_dist st) X in
  let* rows := finite_rows flat in
  Ok (map (sensitivity st) rows).
