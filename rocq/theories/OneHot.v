(** One-hot encoding (parametricmatrixmodels/preprocessing/onehot.py).

    Simplifications:
    - the numbers are any type with the operations of [ops] (comparison, zero,
      one, sum, product); the theorems assume they are lawful, so no NaN;
    - a leaf is a batch of flattened rows with the shape of one sample; reshaping
      back only relabels it;
    - transforming data with another number of features than fitted is a
      ValueError (numpy would broadcast a single feature). *)
From Verif Require Import Base TreeUtil Serial Scaler.
Local Open Scope list_scope.
Local Open Scope nat_scope.

Record ops (V : Type) := mk_ops { zero : V; one : V; add : V -> V -> V; mul : V -> V -> V; leb : V -> V -> bool }.
Arguments zero {V}. Arguments one {V}. Arguments add {V}. Arguments mul {V}. Arguments leb {V}.

Section OneHot.
Context {V : Type} (o : ops V).
Definition veqb (a b : V) : bool := leb o a b && leb o b a.
(** [==] of two rows, all entries ([np.all(..., axis=-1)], L91-95). *)
Fixpoint row_eqb (r s : list V) : bool :=
  match r, s with
  | [], [] => true
  | a :: r', b :: s' => veqb a b && row_eqb r' s'
  | _, _ => false
  end.
(** The lexicographic order used by [np.unique(..., axis=0)]. *)
Fixpoint lexb (r s : list V) : bool :=
  match r, s with
  | [], _ => true
  | _ :: _, [] => false
  | a :: r', b :: s' => if veqb a b then lexb r' s' else leb o a b
  end.
Fixpoint insert {A} (le : A -> A -> bool) (x : A) (l : list A) : list A :=
  match l with [] => [x] | y :: l' => if le x y then x :: l else y :: insert le x l' end.
Definition isort {A} (le : A -> A -> bool) (l : list A) : list A := fold_right (insert le) [] l.
Fixpoint dedup (l : list (list V)) : list (list V) :=
  match l with
  | [] => []
  | r :: l' => if existsb (row_eqb r) l' then dedup l' else r :: dedup l'
  end.
Definition unique_rows (l : list (list V)) : list (list V) := isort lexb (dedup l).
(** [np.sort(m, axis=0)]: every column is sorted by itself. *)
Definition column (m : list (list V)) (j : nat) : list V := map (fun r => nth j r (zero o)) m.
Definition sort_columns (w : nat) (m : list (list V)) : list (list V) :=
  let cols := map (fun j => isort (leb o) (column m j)) (seq 0 w) in
  map (fun i => map (fun c => nth i c (zero o)) cols) (seq 0 (length m)).

Record odata := mk_odata { o_shape : list nat; o_rows : list (list V) }.
Definition features (x : odata) : nat := fold_right Nat.mul 1 (o_shape x).
(** L53-58 and L59: the fitted values of a leaf and its sample shape. *)
Definition oh_fit_leaf (x : odata) : list (list V) * list nat :=
  (sort_columns (features x) (unique_rows (o_rows x)), o_shape x).
Definition oh_fit (X : tree odata) : result (tree (list (list V) * list nat)) := jmapM (fun x => Ok (oh_fit_leaf x)) X.
(** L90-98. *)
Definition encode (u : list (list V)) (r : list V) : list V := map (fun v => if row_eqb r v then one o else zero o) u.
Definition oh_transform (s : option (tree (list (list V) * list nat))) (X : tree odata) : result (tree (list (list V))) :=
  match s with
  | None => Err RuntimeError
  | Some s => jzipM (fun x st =>
      if features x =? fold_right Nat.mul 1 (snd st) then Ok (map (encode (fst st)) (o_rows x)) else Err ValueError) X s
  end.
(** L131-138: [x_encoded @ unique_vals], reshaped. *)
Fixpoint dot (a b : list V) : V :=
  match a, b with x :: a', y :: b' => add o (mul o x y) (dot a' b') | _, _ => zero o end.
Definition decode (w : nat) (u : list (list V)) (c : list V) : list V := map (fun j => dot c (column u j)) (seq 0 w).
Definition oh_inverse (s : option (tree (list (list V) * list nat))) (E : tree (list (list V))) : result (tree odata) :=
  match s with
  | None => Err RuntimeError
  | Some s => jzipM (fun e st =>
      if forallb (fun c => length c =? length (fst st)) e
      then Ok (mk_odata (snd st) (map (decode (fold_right Nat.mul 1 (snd st)) (fst st)) e))
      else Err ValueError) E s
  end.
End OneHot.
Arguments odata V : clear implicits.
