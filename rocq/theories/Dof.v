(** How many numbers the matrix modules say they have: [get_num_trainable_floats]
    and [set_params] of AffineHermitianMatrix, LowRankAffineHermitianMatrix,
    AffineTensor, ExpectationValueSum, TransitionAmplitudeSum
    (parametricmatrixmodels/modules) and of modules without an own count
    (basemodule.py).

    Simplifications: numbers are the elements of a field, complex numbers are
    pairs of them, [np.allclose] is equality, the attributes a method does not
    look at are left out; the sizes given to the constructors are not None. *)
From Verif Require Import Base.
Local Open Scope list_scope.
Local Open Scope nat_scope.

(** The classes with the sizes that [set_params] looks at; [Other]: a class
    with the count of basemodule.py whose [set_params] asks for the shapes only. *)
Inductive kind := Herm (n : nat) | Low (n r : nat) | Tensor (sh : list nat) (real : bool) | Sum (q l : nat) | Other.

Definition size (s : list nat) : nat := fold_right Nat.mul 1 s.
Fixpoint shape_eqb (s t : list nat) : bool :=
  match s, t with
  | [], [] => true
  | m :: s', n :: t' => (m =? n) && shape_eqb s' t'
  | _, _ => false
  end.

Section Dof.
Context {K : Type} (zero : K) (opp : K -> K) (eqb : K -> K -> bool).

(** An array: the shape, whether its dtype is complex, the entries in row-major order. *)
Record carr := mk_carr { c_shape : list nat; c_cplx : bool; c_data : list (K * K) }.

Definition conj (z : K * K) : K * K := (fst z, opp (snd z)).
Definition c_eqb (z w : K * K) : bool := eqb (fst z) (fst w) && eqb (snd z) (snd w).
(** The position of the entry that the exchange of the last two axes, both of
    length [n], puts at position [e]. *)
Definition swap (n e : nat) : nat := e / (n * n) * (n * n) + (e mod n) * n + (e / n) mod n.
(** [M.conj().transpose((0, 2, 1))], [D.conj().transpose((0, 1, 3, 2))]. *)
Definition adjoint (n : nat) (d : list (K * K)) : list (K * K) :=
  map (fun e => conj (nth (swap n e) d (zero, zero))) (seq 0 (length d)).
Fixpoint all_close (d e : list (K * K)) : bool :=
  match d, e with
  | [], [] => true
  | z :: d', w :: e' => c_eqb z w && all_close d' e'
  | _, _ => false
  end.

(** [set_params] of a module that has the parameters [cur]: affinehermitianmatrix.py
    L289-314, lowrankaffinehermitianmatrix.py L292-332, affinetensor.py L245-262,
    expectationvaluesum.py L311-340 (transitionamplitudesum.py L311-340 is the
    same). The result are the new parameters. *)
Definition first (cur new : list carr) (i : nat) : nat :=
  match nth_error cur i with
  | Some c => hd 0 (c_shape c)
  | None => match nth_error new i with Some c => hd 0 (c_shape c) | None => 0 end
  end.
Definition set_params (k : kind) (cur new : list carr) : result (list carr) :=
  match k, new with
  | Herm n, [m] =>
      if negb (shape_eqb (c_shape m) [first cur new 0; n; n]) then Err ValueError
      else if negb (all_close (c_data m) (adjoint n (c_data m))) then Err ValueError
      else Ok new
  | Low n r, [ls; us] =>
      if negb (shape_eqb (c_shape us) [first cur new 1; n; r]) then Err ValueError
      else if negb (shape_eqb (c_shape ls) [first cur new 0; r]) then Err ValueError
      else Ok new
  | Tensor sh _, [m] => if negb (shape_eqb (c_shape m) (first cur new 0 :: sh)) then Err ValueError else Ok new
  | Sum q l, [d] =>
      match c_shape d with
      | [_; _; n; _] =>
          if negb (shape_eqb (c_shape d) [q; l; n; n]) then Err ValueError
          else if negb (all_close (c_data d) (adjoint n (c_data d))) then Err ValueError
          else Ok new
      | _ => Err ValueError
      end
  | Other, _ => if forallb (fun p => shape_eqb (c_shape (fst p)) (c_shape (snd p))) (combine cur new) && (length cur =? length new) then Ok new else Err ValueError
  | _, _ => Err ValueError
  end.

(** [get_num_trainable_floats]: affinehermitianmatrix.py L129-138,
    lowrankaffinehermitianmatrix.py L126-130, expectationvaluesum.py L158-166,
    transitionamplitudesum.py L158-166, and basemodule.py L222-249 (AffineTensor
    and the other classes). [None]: not ready. *)
Definition floats (k : kind) (cur : option (list carr)) : option nat :=
  match cur with
  | None => None
  | Some ps =>
      match k, ps with
      | Herm _, [m] => Some (size (c_shape m))
      | Low _ _, [ls; us] => Some (2 * size (c_shape us) + size (c_shape ls))
      | Sum _ _, [d] => match c_shape d with [q; l; n; _] => Some (q * l * n * n) | _ => None end
      | _, _ => Some (fold_left (fun s a => s + (if c_cplx a then 2 else 1) * size (c_shape a)) ps 0)
      end
  end.

(** Shapes and dtypes drawn by [compile] if there are no parameters yet, for
    [d] features (for the sums: matrices of size [d]): affinehermitianmatrix.py
    L221-253, lowrankaffinehermitianmatrix.py L227-259, affinetensor.py L178-209,
    expectationvaluesum.py L247-273, transitionamplitudesum.py L247-273. *)
Definition drawn (k : kind) (bias_term : bool) (d : nat) : list (list nat * bool) :=
  let p := if bias_term then S d else d in
  match k with
  | Herm n => [([p; n; n], true)]
  | Low n r => [([p; r], false); ([p; n; r], true)]
  | Tensor sh real => [(p :: sh, negb real)]
  | Sum q l => [([q; l; d; d], true)]
  | Other => []
  end.
End Dof.
Arguments mk_carr {K}. Arguments c_shape {K}. Arguments c_cplx {K}. Arguments c_data {K}.
