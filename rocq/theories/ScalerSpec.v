(** What scalers should do to one feature, and to trees of data. *)
From Coq Require Import Reals.
From Verif Require Import Base TreeUtil TreeSpec NonSeqSpec SerialSpec Scaler.
Local Open Scope R_scope.
Local Open Scope list_scope.

(** A batch of rows of finite numbers, all of the announced width. *)
Definition finite_row (w : nat) (r : list num) : Prop := length r = w /\ forall a, In a r -> a <> None.
Definition finite_batch (x : batch) : Prop := Forall (finite_row (width x)) (rows x).

(** Entry [i, j]. *)
Definition entry (x : batch) (i j : nat) : num := nth j (nth i (rows x) []) None.
Definition shape_like (x y : batch) : Prop := width x = width y /\ length (rows x) = length (rows y).

(** Sum, mean and mean square of a list of reals. *)
Definition total (l : list R) : R := fold_right Rplus 0 l.
Definition average (l : list R) : R := total l / INR (length l).
Definition values (x : batch) (j : nat) (l : list R) : Prop := col x j = map Some l.
Definition constant (l : list R) : Prop := forall a b, In a l -> In b l -> a = b.

(** [y] is [x] with each feature rescaled: the j-th column of [y] is an affine
    function, with a factor satisfying [F], of the j-th column of [x]. *)
Definition rescaled (F : R -> Prop) (x y : batch) : Prop :=
  shape_like x y /\
  forall j, (j < width x)%nat -> exists a c, F a /\
    forall i v, entry x i j = Some v -> entry y i j = Some (a * v + c).

(** Fitted statistics that are usable for a batch: finite, of the right number,
    the second row with property [F]. *)
Definition stat_rows (F : R -> R -> Prop) (w : nat) (a b : list num) : Prop :=
  length a = w /\ length b = w /\
  forall j, (j < w)%nat -> exists p q, nth j a None = Some p /\ nth j b None = Some q /\ F p q.

(** One leaf of data with everything min-max scaling uses for it. *)
Record mmleaf := mk_mmleaf { l_x : batch; l_min : list num; l_max : list num; l_lo : option (list num); l_hi : option (list num) }.
(** Usable for scaling: finite numbers, the two ends in relation [O] (different,
    or increasing) for the data and for the range; or no range at all. *)
Definition mm_usable (O : R -> R -> Prop) (m : mmleaf) : Prop :=
  finite_batch (l_x m) /\
  match l_lo m, l_hi m with
  | Some lo, Some hi =>
      stat_rows O (width (l_x m)) (l_min m) (l_max m) /\ stat_rows O (width (l_x m)) lo hi
  | _, _ => True
  end.
(** A feature range argument that means [o] at each leaf. *)
Inductive bound_is (r : tree mmleaf) (sel : mmleaf -> option (list num)) : bound -> Prop :=
  | bi_all v : (forall m, has_leaf r m -> sel m = Some (repeat (Some v) (length (l_min m)))) -> bound_is r sel (BAll v)
  | bi_tree t : trel (fun m o => sel m = o) r t -> bound_is r sel (BTree t).

(** Leaves on which standard and robust scaling can be undone: the latter only if
    there is no scaling row or at most one feature. *)
Definition std_usable (F : R -> Prop) (x : batch) (ms : list num * list num) : Prop :=
  finite_batch x /\ stat_rows (fun _ q => F q) (width x) (fst ms) (snd ms).
Definition stat_finite (w : nat) (s : rstat) : Prop := match s with RNum _ => True | RRow l => finite_row w l end.
Definition rob_usable (x : batch) (ms : rstat * rstat) : Prop :=
  finite_batch x /\ stat_finite (width x) (fst ms) /\
  (stat_finite (width x) (snd ms) /\ match snd ms with RNum _ => True | RRow _ => (width x <= 1)%nat end).

(** All leaves have [n] samples; a scaler that undoes itself on given data and
    keeps the number of samples, and a tree of scalers each of which does so on
    its part of the data. *)
Definition sampled (n : nat) (X : tree batch) : Prop := forall x, has_leaf X x -> length (rows x) = n.
Definition undone (s : scaler) (X : tree batch) : Prop :=
  exists Y Z, s_tr s X = Ok Y /\ s_inv s Y = Ok Z /\ trel eq X Z /\ forall n, sampled n X -> sampled n Y.
Inductive placed : tree scaler -> tree batch -> Prop :=
  | pl_leaf s X : undone s X -> placed (Leaf s) X
  | pl_none X : placed NoneT X
  | pl_lst l m : Forall2 placed l m -> placed (Lst l) (Lst m)
  | pl_tup l m : Forall2 placed l m -> placed (Tup l) (Tup m)
  | pl_dict d e : NoDup (dkeys d) -> NoDup (dkeys e) -> length d = length e ->
      Forall (fun ks => exists x, dget e (fst ks) = Some x /\ placed (snd ks) x) d -> placed (Dict d) (Dict e).

(** Data that can be normalised: at least one sample, finite, no constant
    feature. *)
Definition varied (x : batch) : Prop :=
  finite_batch x /\ rows x <> [] /\ forall j l, (j < width x)%nat -> values x j l -> ~ constant l.
(** Zero mean and unit variance in every feature. *)
Definition standard (x : batch) : Prop :=
  forall j, (j < width x)%nat -> exists l, values x j l /\ average l = 0 /\ average (map (fun v => v * v) l) = 1.
(** Every feature lies in its range and reaches both ends. *)
Definition spans (lo hi : list num) (x : batch) : Prop :=
  forall j, (j < width x)%nat -> exists l a b, values x j l /\ nth j lo None = Some a /\ nth j hi None = Some b /\
    (forall v, In v l -> a <= v <= b) /\ In a l /\ In b l.
