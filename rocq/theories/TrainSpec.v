(** Specification of training, independent of the loop of the code. *)
From Coq Require Import ZArith Permutation.
From Verif Require Import Base TreeUtil NonSeqSpec BatchSpec.
Local Open Scope list_scope.

(** ** order of floating point numbers with NaN *)
Record fl_order {F} (isnan : F -> bool) (flt fle : F -> F -> bool) : Prop := {
  lt_nan : forall x y, flt x y = true -> isnan x = false /\ isnan y = false;
  le_nan : forall x y, fle x y = true -> isnan x = false /\ isnan y = false;
  lt_trans : forall x y z, flt x y = true -> flt y z = true -> flt x z = true;
  lt_irrefl : forall x, flt x x = false;
  lt_between : forall x y z, flt x z = true -> isnan y = false -> flt x y = true \/ flt y z = true;
  le_not_lt : forall x y, isnan x = false -> isnan y = false -> fle x y = negb (flt y x) }.

(** [i] is the first position at which the value is minimal among [vs] (NaN is
    never smaller than anything). *)
Definition first_min {F} (flt fle : F -> F -> bool) (vs : list F) (i : nat) : Prop :=
  exists v, nth_error vs i = Some v /\
    (forall w, In w vs -> flt w v = false) /\
    (forall j w, j < i -> nth_error vs j = Some w -> fle w v = false).

(** ** runs *)
(** one thing after the other *)
Inductive steps {B St} (R : B -> St -> St -> Prop) : list B -> St -> St -> Prop :=
| st_nil s : steps R [] s s
| st_cons b bs s s1 s2 : R b s s1 -> steps R bs s1 s2 -> steps R (b :: bs) s s2.

(** epochs [e], [e+1], ...: every epoch leads from a state to a checkpoint and
    the state for the next one *)
Inductive history {C K} (epoch : nat -> C -> K -> C -> Prop) : nat -> C -> list K -> C -> Prop :=
| h_nil e c : history epoch e c [] c
| h_cons e c k c1 ks c2 : epoch e c k c1 -> history epoch (S e) c1 ks c2 -> history epoch e c (k :: ks) c2.

(** the smallest of the values met so far *)
Fixpoint running {F} (flt : F -> F -> bool) (b : F) (vs : list F) : F :=
  match vs with
  | [] => b
  | v :: vs' => running flt (if flt v b then v else b) vs'
  end.

(** epoch [j] did not improve on the best value before it by the required amount *)
Definition insufficient {F} (flt fle : F -> F -> bool) (fsub : F -> F -> F) (delta v0 : F) (vs : list F) (j : nat) : Prop :=
  exists v, nth_error vs j = Some v /\ fle v (fsub (running flt v0 (firstn j vs)) delta) = false.

(** reasons to stop after [k] epochs: an interrupt was noticed, the requested
    number of epochs is reached, the best loss is not above the target, the last
    [patience] epochs were all insufficient *)
Definition must_stop {F} (flt fle : F -> F -> bool) (fsub : F -> F -> F) (interrupted : nat -> bool)
    (epochs start : nat) (target delta : F) (patience : Z) (v0 : F) (vs : list F) (k : nat) : Prop :=
  interrupted (start + k) = true \/
  epochs <= start + k \/
  flt target (running flt v0 (firstn k vs)) = false \/
  (exists p, (patience <= Z.of_nat p)%Z /\ p <= k /\
     forall j, k - p <= j -> j < k -> insufficient flt fle fsub delta v0 vs j).

(** ** data *)
Definition dataset (S1 S2 S3 : Type) : Type := tree (list S1) * option (tree (list S2)) * option (tree (list S3)).
Definition good_data {S1 S2 S3} (n : nat) (D : dataset S1 S2 S3) : Prop :=
  let '(X, Y, U) := D in
  populated X /\ uniform n X /\ (forall y, Y = Some y -> uniform n y) /\ (forall u, U = Some u -> uniform n u).
(** sample [i] with its target and uncertainty *)
Definition dsample {S1 S2 S3} (D : dataset S1 S2 S3) (i : nat) :=
  let '(X, Y, U) := D in (sample X i, option_map (fun y => sample y i) Y, option_map (fun u => sample u i) U).
Definition same_layout {S1 S2 S3} (D D' : dataset S1 S2 S3) : Prop :=
  let '(X, Y, U) := D in let '(X', Y', U') := D' in
  layout X = layout X' /\ option_map layout Y = option_map layout Y' /\ option_map layout U = option_map layout U'.
(** the same samples in another order *)
Definition reordered {S1 S2 S3} (n : nat) (D D' : dataset S1 S2 S3) : Prop :=
  same_layout D D' /\ good_data n D' /\
  Permutation (map (dsample D') (seq 0 n)) (map (dsample D) (seq 0 n)).
Definition drows {S1 S2 S3} (lo k : nat) (D : dataset S1 S2 S3) : dataset S1 S2 S3 :=
  let '(X, Y, U) := D in (rows lo k X, option_map (rows lo k) Y, option_map (rows lo k) U).
Fixpoint dslices {S1 S2 S3} (lo : nat) (sizes : list nat) (D : dataset S1 S2 S3) : list (dataset S1 S2 S3) :=
  match sizes with
  | [] => []
  | k :: ss => drows lo k D :: dslices (lo + k) ss D
  end.
