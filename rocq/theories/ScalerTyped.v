(** The methods of scalers as they are called: their annotations are checked
    (parametricmatrixmodels/preprocessing/scaler.py L20-31: [__init_subclass__]
    wraps the methods of every scaler class with jaxtyping and beartype). A name
    of a dimension stands for one number in one call, over all arguments and the
    result; a name with a question mark for one number per leaf. A violation is
    a TypeError.

    Simplifications:
    - checked here are the dimensions shared by the leaves ([batch_size], [n] and
      [num_unique]) only; the bodies in Scaler.v and OneHot.v keep structure and
      features, so those checks pass, and the types of numbers are not modelled
      (one-hot and mixed scalers refuse arrays of integers);
    - [y] is None;
    - a batch of codes without samples has no width here. *)
From Verif Require Import Base TreeUtil Scaler OneHot.
Local Open Scope list_scope.

Definition one_number (l : list nat) : bool := match l with [] => true | n :: l' => forallb (Nat.eqb n) l' end.

(** [fit(self, X: RealDataFixed, y)]: typing.py L113-116, standard_scaler.py
    L25-27, minmax_scaler.py L68-70, robust_scaler.py L110-112, onehot.py L28-32,
    mixed_scaler.py L40. *)
Definition call_fit {A S} (na : A -> nat) (f : tree A -> result S) (X : tree A) : result S :=
  if one_number (map na (leaves X)) then f X else Err TypeError.
(** [transform] and [inverse_transform] have the same dimension in the argument
    and the result: typing.py L102 and L113-116, standard_scaler.py L49-51
    and L78-80, minmax_scaler.py L90-92 and L137-139, robust_scaler.py L170-172
    and L203-205, mixed_scaler.py L75 and L110-112. *)
Definition call {A B} (na : A -> nat) (nb : B -> nat) (f : tree A -> result (tree B)) (X : tree A) : result (tree B) :=
  if one_number (map na (leaves X)) then
    let* Y := f X in
    if one_number (map na (leaves X) ++ map nb (leaves Y)) then Ok Y else Err TypeError
  else Err TypeError.
Definition nrows (x : batch) : nat := length (rows x).
Definition scaler_fit {S} (f : tree batch -> result S) := call_fit nrows f.
Definition scaler_call (f : tree batch -> result (tree batch)) := call nrows nrows f.

(** onehot.py L63-67: the result is [PyTree[Inexact[Array, "n num_unique"], " Data"]]. *)
Definition one_width {V} (E : tree (list (list V))) : bool := one_number (map (@length V) (concat (leaves E))).
Definition onehot_fit {V} (o : ops V) : tree (odata V) -> _ := call_fit (fun x => length (o_rows x)) (oh_fit o).
Definition onehot_transform {V} (o : ops V) s : tree (odata V) -> result (tree (list (list V))) :=
  call (fun x => length (o_rows x)) (@length (list V))
    (fun X => let* E := oh_transform o s X in if one_width E then Ok E else Err TypeError).
(** onehot.py L100-104: so is the argument of the inverse. *)
Definition onehot_inverse {V} (o : ops V) s : tree (list (list V)) -> result (tree (odata V)) :=
  call (@length (list V)) (fun x => length (o_rows x))
    (fun E => if one_width E then oh_inverse o s E else Err TypeError).
