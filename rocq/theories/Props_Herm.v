(* C47, C48, C61, C62, C63: the matrix-valued modules. *)
From mathcomp Require Import all_ssreflect all_algebra all_field.
From Verif Require Import Herm HermSpec HermProofs HermExamples.
Set Implicit Arguments.
Unset Strict Implicit.
Unset Printing Implicit Defensive.
Import GRing.Theory Num.Theory.
Local Open Scope ring_scope.

(* The theorems hold for every closed field with conjugation; there is one. *)
Check ([numClosedFieldType of algC]).

(* ---------------- C48: the smoothing matrix ---------------- *)

(* The scan over cumulative sums is i times the sum over all pairs. *)
Theorem C48_pairs : forall (C : numClosedFieldType) n (Ms : seq 'M[C]_n),
  exact_smoothing_matrix Ms = smoothing_spec Ms.
Proof. exact: smoothing_eq. Qed.

Theorem C48_hermitian : forall (C : numClosedFieldType) n (Ms : seq 'M[C]_n),
  (forall M, M \in Ms -> hermitian M) -> hermitian (exact_smoothing_matrix Ms).
Proof. by move=> C n Ms h; rewrite C48_pairs; apply: smoothing_hermitian. Qed.

Theorem C48_commuting : forall (C : numClosedFieldType) n (Ms : seq 'M[C]_n),
  (forall A B, A \in Ms -> B \in Ms -> A *m B = B *m A) ->
  exact_smoothing_matrix Ms = 0.
Proof. by move=> C n Ms h; rewrite C48_pairs; apply: smoothing_commuting. Qed.

(* Two of the Pauli matrices, sigma_x and sigma_y: the smoothing matrix is
   2 sigma_z. *)
Example C48_example (C : numClosedFieldType) :
  exact_smoothing_matrix [:: mk 0 1 1 0; mk 0 (- 'i) 'i 0] =
  mk (2%:R : C) 0 0 (- 2%:R).
Proof.
rewrite C48_pairs /smoothing_spec /=.
rewrite !big_ord_recl big_ord0 /=.
rewrite [X in X + _]big_pred0 // [X in X + 0]big_mkcond /=.
rewrite !big_ord_recl big_ord0 /= !addr0 add0r.
rewrite !mkM !mkN mkD mkZ.
rewrite !(mul0r, mulr0, mulr1, mul1r, add0r, addr0, subr0, sub0r, opprK).
have ii : 'i * 'i = -1 :> C by rewrite -expr2 sqrCi.
by rewrite oppr0 mulr0 !mulrDr mulrN ii opprK -mulNrn.
Qed.

Example C48_example_hermitian (C : numClosedFieldType) :
  forall M, M \in [:: mk 0 1 1 0; mk 0 (- 'i) ('i : C) 0] -> hermitian M.
Proof.
move=> M; rewrite !inE => /orP [] /eqP ->; apply/hermitianP; rewrite mk_ct.
  by rewrite rmorph0 rmorph1.
by rewrite rmorphN /= conjCi opprK rmorph0.
Qed.

(* ---------------- C47: the primary matrix is Hermitian ---------------- *)

(* What the module returns, and when. *)
Theorem C47_value : forall (C : numClosedFieldType) n (bias : bool) (s : C)
    (params : seq 'M[C]_n) data k M, (k < size data)%N ->
  nth None (affine_hermitian_matrix bias s params data) k = Some M <->
  (size params = (size (nth [::] data k) + bias)%N /\
   M = affine_spec bias s (map (@herm_part C n) params) (nth [::] data k)).
Proof. exact: affine_callable. Qed.

Theorem C47_hermitian : forall (C : numClosedFieldType) n (bias : bool) (s : C)
    (params : seq 'M[C]_n) data k M,
  s \is Num.real -> (k < size data)%N -> all_real (nth [::] data k) ->
  nth None (affine_hermitian_matrix bias s params data) k = Some M ->
  hermitian M.
Proof.
move=> C n bias s params data k M rs lk rf /(affine_callable _ _ _ _ lk) [sz ->].
apply: affine_spec_hermitian; rewrite ?size_map //.
by move=> A /mapP [B _ ->]; apply: herm_part_hermitian.
Qed.

Theorem C47_eigenvalues : forall (C : numClosedFieldType) n (bias : bool) (s : C)
    (params : seq 'M[C]_n) data k M a,
  s \is Num.real -> (k < size data)%N -> all_real (nth [::] data k) ->
  nth None (affine_hermitian_matrix bias s params data) k = Some M ->
  has_eigenvalue M a -> a \is Num.real.
Proof.
move=> C n bias s params data k M a rs lk rf e.
by apply/eigenvalue_real/(C47_hermitian rs lk rf e).
Qed.

(* Parameters that are Hermitian already are used as they are. *)
Theorem C47_hermitian_params : forall (C : numClosedFieldType) n (A : 'M[C]_n),
  hermitian A -> herm_part A = A.
Proof. exact: herm_part_id. Qed.

Theorem C47_low_rank : forall (C : numClosedFieldType) n r (bias : bool) (s : C)
    (params : seq ('rV[C]_r * 'M[C]_(n, r))) data k M,
  s \is Num.real -> (k < size data)%N -> all_real (nth [::] data k) ->
  nth None (low_rank_affine_hermitian_matrix bias s params data) k = Some M ->
  hermitian M /\ forall a, has_eigenvalue M a -> a \is Num.real.
Proof.
move=> C n r bias s params data k M rs lk rf.
move=> /(low_rank_callable _ _ _ _ lk) [sz ->].
have h : hermitian (affine_spec bias s
         [seq herm_part (make_low_rank_matrix lu.2 lu.1) | lu <- params]
         (nth [::] data k)).
  apply: affine_spec_hermitian; rewrite ?size_map //.
  by move=> A /mapP [B _ ->]; apply: herm_part_hermitian.
by split=> // a; apply: eigenvalue_real.
Qed.

(* Without smoothing the rank is bounded by (number of matrices) * (rank). *)
Theorem C47_low_rank_bound : forall (C : numClosedFieldType) n r (bias : bool)
    (params : seq ('rV[C]_r * 'M[C]_(n, r))) data k M,
  (k < size data)%N ->
  nth None (low_rank_affine_hermitian_matrix bias 0 params data) k = Some M ->
  (\rank M <= size params * r)%N.
Proof.
move=> C n r bias params data k M lk /(low_rank_callable _ _ _ _ lk) [sz ->].
rewrite /affine_spec scale0r addr0.
set Ms := [seq _ | _ <- _].
have -> : size params = #|'I_(size Ms)| by rewrite card_ord size_map.
apply: rank_sum_le => i; have li := ltn_ord i; rewrite {2}size_map in li.
rewrite (nth_map (0, 0)) //; exact: low_rank_bound.
Qed.

(* Non-Hermitian parameters, one feature of value 1, smoothing 1: the result
   mixes sigma_x, sigma_y and the smoothing term 2 sigma_z. *)
Example C47_example (C : numClosedFieldType) :
  affine_hermitian_matrix true (1 : C)
    [:: mk 0 2%:R 0 0; mk 0 (- 'i * 2%:R) 0 0] [:: [:: 1]] =
  [:: Some (mk 2%:R (1 - 'i) (1 + 'i) (- 2%:R))].
Proof.
have two : (2%:R : C) != 0 by rewrite pnatr_eq0.
have e := @affine_callable C 2 true 1
  [:: mk 0 2%:R 0 0; mk 0 (- 'i * 2%:R) 0 0] [:: [:: 1]] 0
  (mk 2%:R (1 - 'i) (1 + 'i) (- 2%:R)) isT.
have {}e := proj2 e; rewrite /= in e.
congr (_ :: _); apply: e; split=> //; rewrite /affine_spec scale1r.
rewrite !mk_herm !rmorphM !rmorphN /= conjCi !rmorph_nat rmorph0.
rewrite !(addr0, add0r, mul0r) opprK !mulfK // divff //.
rewrite -C48_pairs C48_example !big_ord_recl big_ord0 /= !scale1r.
by rewrite addr0 !mkD !(addr0, add0r).
Qed.

(* With a complex feature the matrix need not be Hermitian. *)
Example C47_complex_feature (C : numClosedFieldType) :
  affine_hermitian_matrix false (0 : C) [:: 1%:M : 'M[C]_1] [:: [:: 'i]] =
    [:: Some ('i *: 1%:M)] /\ ~ hermitian ('i *: 1%:M : 'M[C]_1).
Proof.
split.
  have e := proj2 (@affine_callable C 1 false 0 [:: 1%:M] [:: [:: 'i]] 0
                     ('i *: 1%:M) isT).
  rewrite /= in e; congr (_ :: _); apply: e; split=> //.
  rewrite /affine_spec scale0r addr0 !big_ord_recl big_ord0 addr0 /=.
  by rewrite herm_part_id //; apply/hermitianP; rewrite ct1.
move=> /(_ 0 0); rewrite !mxE /= mulr1 conjCi => /eqP.
by rewrite -addr_eq0 -mulr2n mulrn_eq0 /= (negPf (neq0Ci C)).
Qed.

(* ---------------- C61: observables ---------------- *)

(* The output is the real number documented: the sum of <v_i|D|v_i> over the
   Hermitian parts D of the observables and over the state vectors (minus the
   centring term). *)
Theorem C61_expectation : forall (C : numClosedFieldType) n r norm2 centered
    (params : seq (seq 'M[C]_n)) (data : seq 'M[C]_(n, r)),
  expectation_value_sum norm2 centered params data =
  [seq [seq \sum_(D <- Ds) (\sum_(i < r) amplitude (col i V) (herm_part D) (col i V))
            - (if centered
               then 2%:R^-1 * \sum_(D <- Ds) norm2 (herm_part D) ^+ 2 else 0)
       | Ds <- params] | V <- data].
Proof.
move=> C n r norm2 cen params data; rewrite /expectation_value_sum.
apply: eq_map => V; rewrite -map_comp; apply: eq_map => Ds /=.
rewrite (eq_map (@symmetriseE C n)) expectationE.
  rewrite !big_map; congr (_ - _); apply: eq_bigr => D _.
  by apply: eq_bigr => i _; rewrite amplitude_entry.
by move=> D /mapP [D' _ ->]; apply: herm_part_hermitian.
Qed.

Theorem C61_transition : forall (C : numClosedFieldType) n r norm2 centered
    (params : seq (seq 'M[C]_n)) (data : seq 'M[C]_(n, r)),
  transition_amplitude_sum norm2 centered params data =
  [seq [seq \sum_(D <- Ds) (\sum_(i < r) \sum_(j < r)
              `| amplitude (col i V) (herm_part D) (col j V) | ^+ 2)
            - (if centered
               then 2%:R^-1 * \sum_(D <- Ds) norm2 (herm_part D) ^+ 2 else 0)
       | Ds <- params] | V <- data].
Proof.
move=> C n r norm2 cen params data; rewrite /transition_amplitude_sum.
apply: eq_map => V; rewrite -map_comp; apply: eq_map => Ds /=.
rewrite (eq_map (@symmetriseE C n)) transitionE.
rewrite !big_map; congr (_ - _); apply: eq_bigr => D _.
rewrite -frob; apply: eq_bigr => i _; apply: eq_bigr => j _.
by rewrite amplitude_entry.
Qed.

(* Every expectation value is real although the parameters are arbitrary. *)
Theorem C61_real : forall (C : numClosedFieldType) n r (D : 'M[C]_n)
    (V : 'M[C]_(n, r)) i,
  amplitude (col i V) (herm_part D) (col i V) \is Num.real.
Proof.
move=> C n r D V i; rewrite amplitude_entry.
exact/herm_diag_real/herm_gram/herm_part_hermitian.
Qed.

(* Another orthonormal basis of the space spanned by the state vectors (other
   phases, another order, another basis of a degenerate eigenspace) gives the
   same output. *)
Theorem C61_basis : forall (C : numClosedFieldType) n r norm2 centered
    (params : seq (seq 'M[C]_n)) (data : seq 'M[C]_(n, r)) (U : 'M[C]_r),
  orthonormal_cols U ->
  expectation_value_sum norm2 centered params [seq V *m U | V <- data] =
    expectation_value_sum norm2 centered params data /\
  transition_amplitude_sum norm2 centered params [seq V *m U | V <- data] =
    transition_amplitude_sum norm2 centered params data.
Proof.
move=> C n r norm2 cen params data U e; split.
  rewrite /expectation_value_sum -map_comp; apply: eq_map => V /=.
  rewrite -!map_comp; apply: eq_map => Ds /=.
  have h D : D \in map (@symmetrise C n) Ds -> hermitian D.
    by move=> /mapP [D' _ ->]; rewrite symmetriseE; apply: herm_part_hermitian.
  rewrite !expectationE //; congr (_ - _); apply: eq_bigr => D _.
  exact: trace_change.
rewrite /transition_amplitude_sum -map_comp; apply: eq_map => V /=.
rewrite -!map_comp; apply: eq_map => Ds /=.
rewrite !transitionE; congr (_ - _); apply: eq_bigr => D _.
exact: frob_change.
Qed.

(* Changing the phases of the state vectors one by one is such a change. *)
Theorem C61_phases : forall (C : numClosedFieldType) r (p : 'rV[C]_r),
  (forall i, `|p 0 i| = 1) -> orthonormal_cols (diag_mx p).
Proof.
move=> C r p h; apply/matrixP => i j; rewrite mul_mx_diag !mxE.
case: (eqVneq i j) => [_|_]; last by rewrite mulr0n rmorph0 mul0r.
by rewrite mulr1n -normCKC h expr1n.
Qed.

(* The phase i is one; sigma_y swaps two vectors and changes their phases. *)
Example C61_example_phase (C : numClosedFieldType) :
  orthonormal_cols (diag_mx (\row_(k < 3) (if k == 0 then 'i else -1 : C))).
Proof.
apply: C61_phases => i; rewrite mxE; case: eqP => _; first exact: normCi.
exact: normrN1.
Qed.

Example C61_example_swap (C : numClosedFieldType) :
  orthonormal_cols (mk 0 (- 'i) ('i : C) 0).
Proof.
rewrite /orthonormal_cols -/(conj_transpose _) mk_ct mkM rmorphN /= conjCi.
rewrite opprK rmorph0 !(mulr0, mul0r, addr0, add0r) mulNr mulrN.
have -> : 'i * 'i = -1 :> C by rewrite -expr2 sqrCi.
by rewrite opprK; apply: mx2P; rewrite !mxE.
Qed.

(* |<e0|sigma_x|e1>|^2 + |<e1|sigma_x|e0>|^2 = 2. *)
Example C61_example_value (C : numClosedFieldType) :
  transition_amplitude_sum (fun _ => 0 : C) false [:: [:: mk 0 1 1 0]]
    [:: 1%:M] = [:: [:: 2%:R]] /\
  expectation_value_sum (fun _ => 0 : C) false [:: [:: mk 1 5%:R 5%:R 2%:R]]
    [:: 1%:M] = [:: [:: 3%:R]].
Proof.
have two : (2%:R : C) != 0 by rewrite pnatr_eq0.
split.
  have -> : transition_amplitude_sum (fun _ => 0 : C) false
      [:: [:: mk 0 1 1 0]] [:: 1%:M] =
    [:: [:: transition_single (fun _ => 0 : C) false
              [:: symmetrise (mk 0 1 1 0)] 1%:M]] by [].
  rewrite transitionE subr0 big_seq1 -frob.
  rewrite symmetriseE herm_part_id; last first.
    by apply/hermitianP; rewrite mk_ct rmorph0 rmorph1.
  rewrite ct1 mul1mx mulmx1 !big_ord_recl !big_ord0 !mxE /=.
  by rewrite !addr0 !normr0 normr1 expr0n expr1n add0r addr0.
have -> : expectation_value_sum (fun _ => 0 : C) false
    [:: [:: mk 1 5%:R 5%:R 2%:R]] [:: 1%:M] =
  [:: [:: expectation_single (fun _ => 0 : C) false
            [:: symmetrise (mk 1 5%:R 5%:R 2%:R)] 1%:M]] by [].
rewrite expectationE; last first.
  by move=> D; rewrite inE symmetriseE => /eqP ->; apply: herm_part_hermitian.
rewrite subr0 big_seq1 symmetriseE herm_part_id; last first.
  by apply/hermitianP; rewrite mk_ct !rmorph_nat rmorph1.
rewrite ct1 mul1mx mulmx1 /mxtrace !big_ord_recl !big_ord0 !mxE /=.
by rewrite addr0 -(natrD _ 1 2).
Qed.

(* ---------------- C62: change of basis of the parameters ---------------- *)

Theorem C62_conjugate : forall (C : numClosedFieldType) n (bias : bool) (s : C)
    (params : seq 'M[C]_n) (U : 'M[C]_n) data,
  orthonormal_cols U ->
  affine_hermitian_matrix bias s [seq conj_transpose U *m A *m U | A <- params]
    data =
  [seq omap (fun M => conj_transpose U *m M *m U) o
  | o <- affine_hermitian_matrix bias s params data].
Proof.
move=> C n bias s params U data e; apply: (@eq_from_nth _ None).
  by rewrite !size_map.
move=> k; rewrite size_map => lk.
rewrite [RHS](nth_map None) ?size_map //.
have v M := @affine_callable C n bias s params data k M lk.
have w M := @affine_callable C n bias s
  [seq conj_transpose U *m A *m U | A <- params] data k M lk.
case E: (nth None (affine_hermitian_matrix bias s params data) k) => [M|] /=.
  have [sz ->] := (v M).1 E; apply/w; rewrite size_map; split=> //.
  rewrite -affine_change // -!map_comp; congr affine_spec.
  by apply: eq_map => A /=; rewrite herm_part_change.
case F: (nth None _ k) => [M|] //.
have [] := (w M).1 F; rewrite size_map => sz _.
by have := (v _).2 (conj sz erefl); rewrite E.
Qed.

Theorem C62_spectrum : forall (C : numClosedFieldType) n (bias : bool) (s : C)
    (params : seq 'M[C]_n) (U : 'M[C]_n) data k M a,
  orthonormal_cols U -> (k < size data)%N ->
  nth None (affine_hermitian_matrix bias s params data) k = Some M ->
  exists M',
    nth None (affine_hermitian_matrix bias s
      [seq conj_transpose U *m A *m U | A <- params] data) k = Some M' /\
    (has_eigenvalue M' a <-> has_eigenvalue M a).
Proof.
move=> C n bias s params U data k M a e lk E.
exists (conj_transpose U *m M *m U); split; last exact: eigenvalue_change.
by rewrite C62_conjugate // (nth_map None) ?size_map // E.
Qed.

Example C62_example (C : numClosedFieldType) :
  orthonormal_cols (mk 0 (- 'i) ('i : C) 0) /\
  has_eigenvalue (mk (2%:R : C) 0 0 5%:R) 5%:R.
Proof.
split; first exact: C61_example_swap.
exists (\col_i (if i == 0 then 0 else 1)); split.
  apply/eqP => /matrixP /(_ 1 0); rewrite !mxE /= => /eqP.
  by rewrite oner_eq0.
apply/matrixP => i j; rewrite !mxE !big_ord_recl big_ord0 !mxE /=.
by case: i => [] [|[|i]] li //=; rewrite ?mulr0 ?mulr1 ?addr0 ?add0r.
Qed.

(* ---------------- C63: affine dependence on the features ---------------- *)

Theorem C63_matrix : forall (C : numClosedFieldType) n (bias : bool) (s t : C)
    (params : seq 'M[C]_n) x y Mx My,
  affine_hermitian_matrix bias s params [:: x; y] = [:: Some Mx; Some My] ->
  affine_hermitian_matrix bias s params [:: mix t x y] =
    [:: Some ((1 - t) *: Mx + t *: My)].
Proof.
move=> C n bias s t params x y Mx My e.
have vx := @affine_callable C n bias s params [:: x; y] 0 Mx isT.
have vy := @affine_callable C n bias s params [:: x; y] 1 My isT.
rewrite e /= in vx vy.
have [sx ex] := vx.1 erefl; have [sy ey] := vy.1 erefl.
have sxy : size x = size y by apply: (@addIn bias); rewrite -sx -sy.
congr (_ :: _).
have vz := @affine_callable C n bias s params [:: mix t x y] 0
  ((1 - t) *: Mx + t *: My) isT.
apply: vz.2; rewrite /= size_mix //; split=> //.
by rewrite affine_mix // -ex -ey.
Qed.

Theorem C63_tensor : forall (C : numClosedFieldType) d (bias : bool) (t : C)
    (Ms : seq 'rV[C]_d) x y Tx Ty,
  make_affine_tensor bias Ms x = Some Tx ->
  make_affine_tensor bias Ms y = Some Ty ->
  make_affine_tensor bias Ms (mix t x y) = Some ((1 - t) *: Tx + t *: Ty).
Proof.
move=> C d bias t Ms x y Tx Ty /tensorE [ex sx] /tensorE [ey sy].
have sxy : size x = size y by apply: (@addIn bias); rewrite -sx -sy.
case E: make_affine_tensor => [T|].
  have [-> _] := tensorE E; congr Some.
  rewrite ex ey !scaler_sumr -big_split /=; apply: eq_bigr => k _.
  by rewrite nth_mix_bias // scalerDl !scalerA.
by case/tensorN: E; rewrite size_mix.
Qed.

(* When the number of features does not fit, nothing is computed. *)
Theorem C63_shape : forall (C : numClosedFieldType) d (bias : bool)
    (Ms : seq 'rV[C]_d) x,
  make_affine_tensor bias Ms x = None <-> size Ms <> (size x + bias)%N.
Proof. exact: tensorN. Qed.

Example C63_example (C : numClosedFieldType) :
  make_affine_tensor true [:: (const_mx 1 : 'rV[C]_3); const_mx 2%:R] [:: 3%:R]
    = Some (const_mx 7%:R).
Proof.
have [T E] : exists T, make_affine_tensor true
    [:: (const_mx 1 : 'rV[C]_3); const_mx 2%:R] [:: 3%:R] = Some T.
  by eexists.
have [e _] := tensorE E; rewrite E e; congr Some.
rewrite !big_ord_recl big_ord0 /= scale1r addr0.
by apply/rowP => k; rewrite !mxE -natrM -(natrD _ 1 6).
Qed.

Print Assumptions C48_pairs.
Print Assumptions C48_hermitian.
Print Assumptions C48_commuting.
Print Assumptions C47_value.
Print Assumptions C47_hermitian.
Print Assumptions C47_eigenvalues.
Print Assumptions C47_hermitian_params.
Print Assumptions C47_low_rank.
Print Assumptions C47_low_rank_bound.
Print Assumptions C61_expectation.
Print Assumptions C61_transition.
Print Assumptions C61_real.
Print Assumptions C61_basis.
Print Assumptions C61_phases.
Print Assumptions C62_conjugate.
Print Assumptions C62_spectrum.
Print Assumptions C63_matrix.
Print Assumptions C63_tensor.
Print Assumptions C63_shape.
