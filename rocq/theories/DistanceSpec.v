(** The distance of a sample to the training data. *)
From Coq Require Import Reals.
From Verif Require Import Base TreeUtil TreeSpec Serial SerialSpec OneHot Conformal Strata StrataSpec.
Local Open Scope R_scope.
Local Open Scope list_scope.

Definition sum_of {X} (f : X -> R) (l : list X) : R := fold_right (fun x s => f x + s) 0 l.
Definition sample (x : bdata) (i : nat) : list R := nth i (o_rows x) [].
(** Number [k] of all samples, and its range. *)
Definition numbers (x : bdata) (k : nat) : list R := map (fun i => at_ x i k) (seq 0 (length (o_rows x))).
Definition is_range (l : list R) (v : R) : Prop := (exists a b, In a l /\ In b l /\ v = a - b) /\ forall a b, In a l -> In b l -> a - b <= v.

(** One feature: training data, other data, continuous, selected; with the
    ranges of its numbers in the training data. *)
Record feature := mk_feature { f_train : bdata; f_data : bdata; f_cont : bool; f_sel : bool; f_range : nat -> R }.
(** How far apart sample [i] of the data and training sample [j] are; a category
    that does not occur in the training data counts [w]. *)
Definition seen (f : feature) (i : nat) : bool := if in_dec (list_eq_dec Req_EM_T) (sample (f_data f) i) (o_rows (f_train f)) then true else false.
Definition apart (w : R) (f : feature) (i j : nat) : R :=
  if f_sel f then
    if f_cont f then sum_of (fun k => Rabs (at_ (f_data f) i k - at_ (f_train f) j k) / f_range f k) (seq 0 (features (f_train f)))
    else if list_eq_dec Req_EM_T (sample (f_data f) i) (sample (f_train f) j) then 0 else if seen f i then 1 else w
  else 0.
Definition size (f : feature) : R := if f_sel f then if f_cont f then INR (features (f_train f)) else 1 else 0.
(** The mean over all selected features: Gower's distance if [w] is 1. *)
Definition gower (w : R) (r : list feature) (i j : nat) : R := sum_of (fun f => apart w f i j) r / sum_of size r.
(** ... between training samples *)
Definition among (f : feature) : feature := mk_feature (f_train f) (f_train f) (f_cont f) (f_sel f) (f_range f).
Definition gower_train (r : list feature) : nat -> nat -> R := gower 1 (map among r).

(** Data that can be used: [n] training samples, [m] others. *)
Definition usable (n m : nat) (f : feature) : Prop :=
  batch n (f_train f) /\ batch m (f_data f) /\ o_shape (f_train f) = o_shape (f_data f) /\
  (f_cont f = true -> forall k, (k < features (f_train f))%nat -> is_range (numbers (f_train f) k) (f_range f k)) /\
  (f_sel f = true -> f_cont f = true -> forall k, (k < features (f_train f))%nat -> 0 < f_range f k) /\
  (f_sel f = true -> f_cont f = false -> o_shape (f_train f) = [1%nat]).
Definition all_seen (r : list feature) (i : nat) : Prop := forall f, In f r -> f_sel f = true -> f_cont f = false -> In (sample (f_data f) i) (o_rows (f_train f)).

(** One of each group of training samples that do not differ. *)
Definition representatives (D : nat -> nat -> R) (n : nat) (J : list nat) : Prop :=
  NoDup J /\ (forall j, In j J -> (j < n)%nat) /\ (forall i, (i < n)%nat -> exists j, In j J /\ D i j = 0) /\
  (forall j k, In j J -> In k J -> j <> k -> 0 < D j k).
Definition least (v : R) (l : list R) : Prop := In v l /\ forall w, In w l -> v <= w.
(** The cutoff: the quantile of the distances to the nearest other one, or
    infinite ([None]) if there is no other one. *)
Definition is_cutoff (D : nat -> nat -> R) (q : R) (J : list nat) (c : option R) : Prop :=
  match c with
  | None => length J = 1%nat
  | Some c => exists v, Forall2 (fun j d => least d (map (D j) (remove Nat.eq_dec j J))) J v /\ c = quantile v q
  end.
Definition near (c : option R) (d : R) : bool := match c with None => true | Some c => if Rle_dec d c then true else false end.
(** The mean distance of the near ones, but not less than the distance of the
    nearest one. *)
Definition is_distance (c : option R) (l : list R) (d : R) : Prop :=
  exists v, least v l /\ d = Rmax (match filter (near c) l with [] => 0 | _ => sum_of (fun x => x) (filter (near c) l) / INR (length (filter (near c) l)) end) v.
(** A sample within the ranges of the training data. *)
Definition inside (r : list feature) (i : nat) : Prop :=
  forall f, In f r -> f_sel f = true -> f_cont f = true -> forall k, (k < features (f_train f))%nat ->
    (exists a b, In a (numbers (f_train f) k) /\ In b (numbers (f_train f) k) /\ a <= at_ (f_data f) i k <= b).
