(** Matrix products and the operands of a MatMul module, without reference to
    subscripts. *)
From Coq Require Import Permutation Ring_theory.
From Verif Require Import Base TreeUtil TreeSpec NdArray SerialSpec.
Local Open Scope string_scope.
Local Open Scope list_scope.
Local Open Scope nat_scope.

Section Product.
Context {V : Type} (zero : V) (add mul : V -> V -> V).
(** Entry of an array at a multi-index. *)
Definition cell (a : arr V) (idx : list nat) : V := nth (ravel (shp a) idx) (dat a) zero.
(** A vector is a matrix with one column. *)
Definition mat (a : arr V) (i j : nat) : V := match shp a with [_] => cell a [i] | _ => cell a [i; j] end.
Definition rows (a : arr V) : nat := nth 0 (shp a) 0.
Definition cols (a : arr V) : nat := nth 1 (shp a) 0.
Fixpoint total (f : nat -> V) (n : nat) : V := match n with 0 => zero | S k => add (f 0) (total (fun i => f (S i)) k) end.

(** Entry (i, j) of the product of the matrices. *)
Fixpoint product (l : list (arr V)) (i j : nat) : V :=
  match l with
  | [] => zero
  | [a] => mat a i j
  | a :: l' => total (fun k => mul (mat a i k) (product l' k j)) (cols a)
  end.
(** Matrices, except that the last one may be a vector, with agreeing sizes. *)
Fixpoint compatible (l : list (arr V)) : Prop :=
  match l with
  | [] => True
  | [a] => length (shp a) = 2 \/ length (shp a) = 1
  | a :: (b :: _) as l' => length (shp a) = 2 /\ cols a = rows b /\ compatible l'
  end.
(** The shape of the product and its entries. *)
Definition is_product (l : list (arr V)) (c : arr V) : Prop :=
  exists first last, nth_error l 0 = Some first /\ nth_error l (length l - 1) = Some last /\
  match shp last with
  | [_] => shp c = [rows first] /\ forall i, i < rows first -> cell c [i] = product l i 0
  | _ => shp c = [rows first; cols last] /\ forall i j, i < rows first -> j < cols last -> cell c [i; j] = product l i j
  end.
(** The operands: parameters and leaves, or as the paths say, with the parameters
    at the place of the double separator. *)
Definition chosen (sep : ascii) (order : option (list string)) (par : option (arr V)) (data : tree (arr V)) (ops : list (arr V)) : Prop :=
  match order with
  | None => ops = match par with Some a => [a] | None => [] end ++ leaves data
  | Some ps => Forall2 (fun p a => if String.eqb p (String sep (String sep "")) then par = Some a
                                   else walk data (path_keys sep p) = Some (Leaf a)) ps ops
  end.
(** One sample of batched data. *)
Definition sample_of (beta : nat) (d x : arr V) : Prop :=
  (exists n, shp d = n :: shp x) /\ forall idx, valid (shp x) idx -> cell x idx = cell d (beta :: idx).
End Product.

(** No dictionary has a key that looks like a number. *)
Definition named_dicts {X} (t : tree X) : Prop :=
  forall ks e k v, walk t ks = Some (Dict e) -> dget e k = Some v -> isdigit k = false.
(** A path that does not end in a separator. *)
Definition full_path (sep : ascii) (p : string) : Prop := last (split sep p) "" <> "".
