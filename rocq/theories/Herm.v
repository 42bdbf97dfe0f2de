(* Model of the modules that build the primary matrix and evaluate the
   observables of a parametric matrix model:

     parametricmatrixmodels/modules/_smoothing.py            (whole file)
     parametricmatrixmodels/modules/affinehermitianmatrix.py L140-210, L94-116,
                                                             L289-311
     parametricmatrixmodels/modules/lowrankaffinehermitianmatrix.py L132-213
     parametricmatrixmodels/modules/affinetensor.py          L109-164
     parametricmatrixmodels/modules/expectationvaluesum.py   L168-208
     parametricmatrixmodels/modules/transitionamplitudesum.py L168-209

   Simplifications.
   - Numbers are the elements of an arbitrary closed field with a conjugation
     and an order on its real part (mathcomp's numClosedFieldType, e.g. the
     algebraic complex numbers); rounding of float32/complex64 is not modelled.
   - dtypes are not modelled ([Ms.astype(dtype)] is the identity here).  A real
     array is an array all of whose entries are real.
   - An array of shape (p, n, n) is a sequence of p matrices of size n; the
     batch axis is a sequence of samples.
   - The data tree has a single leaf (the modules' [compile] accepts nothing
     else), so [jax.tree.map] is application to that leaf.
   - Shape annotations checked by jaxtyping at call time are modelled by
     returning None. *)
From mathcomp Require Import all_ssreflect all_algebra.
Set Implicit Arguments.
Unset Strict Implicit.
Unset Printing Implicit Defensive.
Import GRing.Theory Num.Theory.
Local Open Scope ring_scope.

Section Model.
Variable C : numClosedFieldType.

(* conj().transpose of a matrix (affinehermitianmatrix.py L197, with axes
   (0, 2, 1): the leading axis is kept). *)
Definition conj_transpose (m n : nat) (A : 'M[C]_(m, n)) : 'M[C]_(n, m) :=
  (map_mx conjC A)^T.

(* _smoothing.py L8-15, commutator: A @ B - B @ A. *)
Definition commutator (n : nat) (A B : 'M[C]_n) : 'M[C]_n :=
  A *m B - B *m A.

(* _smoothing.py L20-25, scan_Ms_comms: one step of the scan. *)
Definition scan_Ms_comms (n : nat) (acc : 'M[C]_n)
    (Mi_Mcs_im1 : 'M[C]_n * 'M[C]_n) : 'M[C]_n :=
  let (Mi, Mcs_im1) := Mi_Mcs_im1 in acc + commutator Mi Mcs_im1.

(* np.cumsum(_, axis=0) (_smoothing.py L73): running sums, the first entry
   being the first matrix itself. *)
Fixpoint cumsum_from (n : nat) (acc : 'M[C]_n) (Ms : seq 'M[C]_n) :
    seq 'M[C]_n :=
  match Ms with
  | [::] => [::]
  | M :: rest => (acc + M) :: cumsum_from (acc + M) rest
  end.

Definition cumsum (n : nat) (Ms : seq 'M[C]_n) : seq 'M[C]_n :=
  cumsum_from 0 Ms.

(* _smoothing.py L28-84, exact_smoothing_matrix.  [Ms[:-1]] is [take], [Ms[1:]]
   is [behead], jax.lax.scan over the pair of arrays is [foldl] over [zip],
   starting from zeros. *)
Definition exact_smoothing_matrix (n : nat) (Ms : seq 'M[C]_n) : 'M[C]_n :=
  let Ms_cumsum := cumsum (take (size Ms).-1 Ms) in
  let scan_input := zip (behead Ms) Ms_cumsum in
  'i *: foldl (@scan_Ms_comms n) 0 scan_input.

(* np.einsum("ni,ijk->njk", features, Ms) for one sample n
   (affinehermitianmatrix.py L155-157, L177). *)
Definition einsum_features (n : nat) (features : seq C) (Ms : seq 'M[C]_n) :
    'M[C]_n :=
  \matrix_(j, k) \sum_(i < size Ms) features`_i * (nth 0 Ms i) j k.

(* affinehermitianmatrix.py L144-163 and L167-183: the two versions of
   make_affine_hermitian_matrix for one sample.  The shapes "b p-1" / "b p" are
   the jaxtyping annotations of [features]. *)
Definition make_affine_hermitian_matrix (n : nat) (bias_term : bool)
    (smoothing : C) (Ms : seq 'M[C]_n) (features : seq C) :
    option 'M[C]_n :=
  if bias_term then
    if (0 < size Ms)%N && (size features == (size Ms).-1) then
      let M := head 0 Ms + einsum_features features (behead Ms) in
      Some (if smoothing != 0
            then M + smoothing *: exact_smoothing_matrix Ms else M)
    else None
  else
    if size features == size Ms then
      let M := einsum_features features Ms in
      Some (if smoothing != 0
            then M + smoothing *: exact_smoothing_matrix Ms else M)
    else None.

(* affinehermitianmatrix.py L197: Ms = (Ms + Ms.conj().transpose(..)) / 2.0 *)
Definition symmetrise (n : nat) (M : 'M[C]_n) : 'M[C]_n :=
  2%:R^-1 *: (M + conj_transpose M).

(* affinehermitianmatrix.py L185-208: the callable, for a batch of samples. *)
Definition affine_hermitian_matrix (n : nat) (bias_term : bool)
    (smoothing : C) (params : seq 'M[C]_n) (data : seq (seq C)) :
    seq (option 'M[C]_n) :=
  let Ms := map (@symmetrise n) params in
  map (make_affine_hermitian_matrix bias_term smoothing Ms) data.

(* lowrankaffinehermitianmatrix.py L177-186, make_low_rank_matrices:
   np.einsum("pr,pnr,pmr->pnm", ls, us, us.conj()), for each p. *)
Definition make_low_rank_matrix (n r : nat) (u : 'M[C]_(n, r)) (l : 'rV[C]_r) :
    'M[C]_n :=
  \matrix_(a, b) \sum_(k < r) l 0 k * u a k * conjC (u b k).

(* lowrankaffinehermitianmatrix.py L188-211: the callable. *)
Definition low_rank_affine_hermitian_matrix (n r : nat) (bias_term : bool)
    (smoothing : C) (params : seq ('rV[C]_r * 'M[C]_(n, r)))
    (data : seq (seq C)) : seq (option 'M[C]_n) :=
  let Ms := map (fun lu => make_low_rank_matrix lu.2 lu.1) params in
  let Ms := map (@symmetrise n) Ms in
  map (make_affine_hermitian_matrix bias_term smoothing Ms) data.

(* expectationvaluesum.py L171-184, L197: one sample, output component k; [Ds]
   are the observables D_k1 .. D_kl of that component, [V] has the state
   vectors as its columns, and
   np.einsum("ai,klab,bi->k", V.conj(), Ds, V).real.  The centring term (L178)
   calls np.linalg.norm(.., ord=2), here the argument [norm2]. *)
Definition expectation_single (n r : nat) (norm2 : 'M[C]_n -> C)
    (centered : bool) (Ds : seq 'M[C]_n) (V : 'M[C]_(n, r)) : C :=
  let Z := 'Re (\sum_(D <- Ds) \sum_(i < r) \sum_(a < n) \sum_(b < n)
                  conjC (V a i) * D a b * V b i) in
  if centered
  then Z - 2%:R^-1 * \sum_(D <- Ds) norm2 D ^+ 2
  else Z.

(* expectationvaluesum.py L186-206: params of shape (q, l, n, n), a batch of
   inputs. *)
Definition expectation_value_sum (n r : nat) (norm2 : 'M[C]_n -> C)
    (centered : bool) (params : seq (seq 'M[C]_n)) (data : seq 'M[C]_(n, r)) :
    seq (seq C) :=
  let Ds := map (map (@symmetrise n)) params in
  map (fun V => map (fun D => expectation_single norm2 centered D V) Ds) data.

(* transitionamplitudesum.py L171-185: np.einsum("ai,klab,bj->klij", ..),
   then the sum of the squared absolute values over l, i, j. *)
Definition transition_single (n r : nat) (norm2 : 'M[C]_n -> C)
    (centered : bool) (Ds : seq 'M[C]_n) (V : 'M[C]_(n, r)) : C :=
  let Z := \sum_(D <- Ds) \sum_(i < r) \sum_(j < r)
             `| \sum_(a < n) \sum_(b < n)
                  conjC (V a i) * D a b * V b j | ^+ 2 in
  if centered
  then Z - 2%:R^-1 * \sum_(D <- Ds) norm2 D ^+ 2
  else Z.

(* transitionamplitudesum.py L187-207. *)
Definition transition_amplitude_sum (n r : nat) (norm2 : 'M[C]_n -> C)
    (centered : bool) (params : seq (seq 'M[C]_n)) (data : seq 'M[C]_(n, r)) :
    seq (seq C) :=
  let Ds := map (map (@symmetrise n)) params in
  map (fun V => map (fun D => transition_single norm2 centered D V) Ds) data.

(* affinetensor.py L109-142, make_affine_tensor: same contraction, for tensors
   of any shape; a tensor of shape s is a function from flat positions below
   [d] (the product of s) to numbers, i.e. a row vector. *)
Definition make_affine_tensor (d : nat) (bias_term : bool)
    (Ms : seq 'rV[C]_d) (features : seq C) : option 'rV[C]_d :=
  if bias_term then
    if (0 < size Ms)%N && (size features == (size Ms).-1) then
      Some (head 0 Ms
            + \row_k \sum_(i < size (behead Ms))
                features`_i * (nth 0 (behead Ms) i) 0 k)
    else None
  else
    if size features == size Ms then
      Some (\row_k \sum_(i < size Ms) features`_i * (nth 0 Ms i) 0 k)
    else None.

End Model.
