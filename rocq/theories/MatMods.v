(** The life of a matrix module: AffineHermitianMatrix,
    LowRankAffineHermitianMatrix, AffineTensor, ExpectationValueSum and
    TransitionAmplitudeSum (parametricmatrixmodels/modules), seen through the
    shapes of their parameters and of the data. Constructors, [set_params] and
    most of [compile] are those of Modules.v; here are the rest of [compile],
    [get_output_shape] and the shapes in the callables.

    Simplifications: the entries of arrays are opaque (only their shape and
    whether they are Hermitian matter), data are inexact arrays (so the dtype
    half of the annotations holds), a value of the wrong Python type is an
    error. No method changes the module before it raises, so failing calls are
    no-ops. *)
From Coq Require Import ZArith.
From Verif Require Import Base TreeUtil Serial Modules Composite.
Local Open Scope string_scope.
Local Open Scope list_scope.
Local Open Scope nat_scope.

Inductive mkind := KHerm | KLow | KTensor | KExp | KTrans.

Section Herm.
Context (herm : arr -> bool).

(** lowrankaffinehermitianmatrix.py L92-113. *)
Definition lr_init (n r : option nat) (smoothing mag : nat) (bias_term : bool) : result obj :=
  match n, r with
  | Some 0, _ => Err ValueError
  | _, Some 0 => Err ValueError
  | Some n', Some r' => if n' <? r' then Err ValueError else Ok (lr_obj n r smoothing bias_term None mag true)
  | _, _ => Ok (lr_obj n r smoothing bias_term None mag true)
  end.

(** lowrankaffinehermitianmatrix.py L228-259 for one axis of length [d]; the
    random draws with None among the sizes fail. Only [us] is compared. *)
Definition lr_compile (draw : list nat -> arr) (o : obj) (d : nat) : result obj :=
  let* bias := attr o "bias_term" in
  let* u := attr o "us" in
  let* l := attr o "ls" in
  let* n := attr o "matrix_size" in
  let* r := attr o "matrix_rank" in
  let p := if truthy bias then S d else d in
  match u, l with
  | VArr u, VArr _ => if Nat.eqb (hd 0 (a_shape u)) p then Ok o else Err ValueError
  | _, _ => match nat_of_v n, nat_of_v r with
            | Some n, Some r => Ok (setattr (setattr o "us" (VArr (draw [p; n; r]))) "ls" (VArr (draw [p; r])))
            | _, _ => Err TypeError
            end
  end.

Definition mod_cls (k : mkind) : cls :=
  match k with
  | KHerm => ahm_cls herm
  | KLow => lr_cls
  | KTensor => at_cls
  | KExp | KTrans => evs_cls herm
  end.

(** [compile]: affinehermitianmatrix.py L210-253, affinetensor.py L164-209,
    lowrankaffinehermitianmatrix.py L215-259, expectationvaluesum.py L210-273,
    transitionamplitudesum.py L211-273. The sums ask for their two sizes before
    they look at the shape; both are a ValueError. *)
Definition compile (k : mkind) (draw : list nat -> arr) (o : obj) (t : tree (list nat)) : result obj :=
  match k, single_leaf t with
  | KHerm, Some [d] => ahm_compile draw o d
  | KLow, Some [d] => lr_compile draw o d
  | KTensor, Some [d] => at_compile draw o d
  | (KExp | KTrans), Some [n; _] => evs_compile draw o n
  | _, _ => Err ValueError
  end.

(** A size as announced: None stays None. *)
Definition size_of (v : pv) : option nat := nat_of_v v.

(** [get_output_shape]: affinehermitianmatrix.py L255-268 (and the low rank
    class L261-274), affinetensor.py L211-224, expectationvaluesum.py L275-289,
    transitionamplitudesum.py L276-290. A leaf None is Python's None. *)
Definition out_shape (k : mkind) (o : obj) (t : tree (list nat)) : result (tree (option (list (option nat)))) :=
  match k, single_leaf t with
  | (KHerm | KLow), Some [_] =>
      let* n := attr o "matrix_size" in
      jmapM (fun _ => Ok (Some [size_of n; size_of n])) t
  | KTensor, Some [_] =>
      let* sh := attr o "tensor_shape" in
      jmapM (fun _ => Ok (match sh with VTup l => Some (map size_of l) | _ => None end)) t
  | (KExp | KTrans), Some [a; _] =>
      let* q := attr o "output_size" in
      let* cur := attr o "Ds" in
      if match cur with VArr m => Nat.eqb (nth 2 (a_shape m) 0) a | _ => true end
      then jmapM (fun _ => Ok (Some [size_of q])) t else Err ValueError
  | _, _ => Err ValueError
  end.

(** Broadcasting of one axis; [einsum] treats axes of the same letter so. *)
Definition axis (a b : nat) : option nat :=
  if Nat.eqb a b then Some a else if Nat.eqb a 1 then Some b else if Nat.eqb b 1 then Some a else None.

(** affinehermitianmatrix.py L151-203: the annotations "p n n" and "b p-1" (or
    "b p") are checked when the inner function is called. *)
Definition affine_leaf (bias : bool) (Ms x : list nat) : result (list nat) :=
  match Ms, x with
  | [p; n; n'], [b; q] =>
      if Nat.eqb n n' && Nat.eqb (if bias then S q else q) p then Ok [b; n; n] else Err TypeError
  | _, _ => Err TypeError
  end.
(** affinetensor.py L113-142: "p ..." and "b p-1" (or "b p"). *)
Definition tensor_leaf (bias : bool) (Ms x : list nat) : result (list nat) :=
  match Ms, x with
  | p :: l, [b; q] => if Nat.eqb (if bias then S q else q) p then Ok (b :: l) else Err TypeError
  | _, _ => Err TypeError
  end.
(** lowrankaffinehermitianmatrix.py L173-183: "p n r" and "p r". *)
Definition low_rank (ls us : list nat) : result (list nat) :=
  match us, ls with
  | [p; n; r], [p'; r'] => if Nat.eqb p p' && Nat.eqb r r' then Ok [p; n; n] else Err TypeError
  | _, _ => Err TypeError
  end.
(** expectationvaluesum.py L169-207, transitionamplitudesum.py L169-208: the
    observables plus their transpose, then "ai,klab,bi->k" (or "klij", summed)
    on every sample. *)
Definition sum_leaf (Ds x : list nat) : result (list nat) :=
  match Ds, x with
  | [q; l; c; d], [b; n; r] =>
      match axis c d with
      | Some m => match axis m n with Some _ => Ok [b; q] | None => Err TypeError end
      | None => Err TypeError
      end
  | _, _ => Err TypeError
  end.

(** The callables: shapes of the outputs for a tree of shapes with the batch
    axis first. *)
Definition call (k : mkind) (o : obj) (x : tree (list nat)) : result (tree (list nat)) :=
  match k with
  | KHerm =>
      let* b := attr o "bias_term" in
      let* p := attr o "Ms" in
      match p with VArr m => jmapM (affine_leaf (truthy b) (a_shape m)) x | _ => Err TypeError end
  | KTensor =>
      let* b := attr o "bias_term" in
      let* p := attr o "Ms" in
      match p with VArr m => jmapM (tensor_leaf (truthy b) (a_shape m)) x | _ => Err TypeError end
  | KLow =>
      let* b := attr o "bias_term" in
      let* l := attr o "ls" in
      let* u := attr o "us" in
      match l, u with
      | VArr l, VArr u => let* m := low_rank (a_shape l) (a_shape u) in jmapM (affine_leaf (truthy b) m) x
      | _, _ => Err TypeError
      end
  | KExp | KTrans =>
      let* p := attr o "Ds" in
      match p with VArr m => jmapM (sum_leaf (a_shape m)) x | _ => Err TypeError end
  end.

(** [is_ready] of the classes. *)
Definition ready (k : mkind) (o : obj) : bool :=
  match k with
  | KHerm | KTensor => match attr o "Ms" with Ok (VArr _) => true | _ => false end
  | KLow => match attr o "us", attr o "ls" with Ok (VArr _), Ok (VArr _) => true | _, _ => false end
  | KExp | KTrans => match attr o "Ds" with Ok (VArr _) => true | _ => false end
  end.
End Herm.
