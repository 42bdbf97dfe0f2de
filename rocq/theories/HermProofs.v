(* Facts about the matrix-valued modules. *)
From mathcomp Require Import all_ssreflect all_algebra.
From Verif Require Import Herm HermSpec.
Set Implicit Arguments.
Unset Strict Implicit.
Unset Printing Implicit Defensive.
Import Order.Theory GRing.Theory Num.Theory.
Local Open Scope ring_scope.

Section Facts.
Variable C : numClosedFieldType.

Local Notation "A ^H" := (conj_transpose A) (at level 8, format "A ^H").

(* ---- conjugate transpose ---- *)
Lemma ctE m n (A : 'M[C]_(m, n)) i j : A^H i j = (A j i)^*.
Proof. by rewrite /conj_transpose !mxE. Qed.

Lemma ctK m n (A : 'M[C]_(m, n)) : A^H^H = A.
Proof. by apply/matrixP => i j; rewrite !ctE conjCK. Qed.

Lemma ctD m n (A B : 'M[C]_(m, n)) : (A + B)^H = A^H + B^H.
Proof. by apply/matrixP => i j; rewrite !mxE rmorphD. Qed.

Lemma ctN m n (A : 'M[C]_(m, n)) : (- A)^H = - A^H.
Proof. by apply/matrixP => i j; rewrite !mxE rmorphN. Qed.

Lemma ctB m n (A B : 'M[C]_(m, n)) : (A - B)^H = A^H - B^H.
Proof. by rewrite ctD ctN. Qed.

Lemma ctZ m n (a : C) (A : 'M[C]_(m, n)) : (a *: A)^H = a^* *: A^H.
Proof. by apply/matrixP => i j; rewrite !mxE rmorphM. Qed.

Lemma ctM m n p (A : 'M[C]_(m, n)) (B : 'M[C]_(n, p)) :
  (A *m B)^H = B^H *m A^H.
Proof.
apply/matrixP => i j; rewrite ctE !mxE rmorph_sum.
by apply: eq_bigr => k _; rewrite !ctE rmorphM mulrC.
Qed.

Lemma ct0 m n : (0 : 'M[C]_(m, n))^H = 0.
Proof. by apply/matrixP => i j; rewrite !mxE rmorph0. Qed.

Lemma ct1 n : (1%:M : 'M[C]_n)^H = 1%:M.
Proof.
by apply/matrixP => i j; rewrite !mxE eq_sym; case: eqP => _;
   rewrite ?rmorph1 ?rmorph0.
Qed.

Lemma ct_sum (I : Type) (r : seq I) (P : pred I) m n (F : I -> 'M[C]_(m, n)) :
  (\sum_(i <- r | P i) F i)^H = \sum_(i <- r | P i) (F i)^H.
Proof.
by elim/big_rec2: _ => [|i x y _ <-]; rewrite ?ct0 ?ctD.
Qed.

Lemma hermitianP n (A : 'M[C]_n) : hermitian A <-> A^H = A.
Proof.
split=> [h|h j k].
  by apply/matrixP => j k; rewrite ctE -h.
by rewrite -{1}h ctE.
Qed.

Lemma herm0 n : hermitian (0 : 'M[C]_n).
Proof. by apply/hermitianP; rewrite ct0. Qed.

Lemma hermD n (A B : 'M[C]_n) : hermitian A -> hermitian B -> hermitian (A + B).
Proof. by move=> /hermitianP a /hermitianP b; apply/hermitianP; rewrite ctD a b. Qed.

Lemma hermZ n (a : C) (A : 'M[C]_n) :
  a \is Num.real -> hermitian A -> hermitian (a *: A).
Proof.
by move=> r /hermitianP h; apply/hermitianP; rewrite ctZ h conj_Creal.
Qed.

Lemma herm_sum (I : Type) (r : seq I) (P : pred I) n (F : I -> 'M[C]_n) :
  (forall i, P i -> hermitian (F i)) -> hermitian (\sum_(i <- r | P i) F i).
Proof.
move=> h; elim/big_ind: _ => //; [exact: herm0|exact: hermD].
Qed.

Lemma symmetriseE n (A : 'M[C]_n) : symmetrise A = herm_part A.
Proof. by apply/matrixP => j k; rewrite !mxE mulrC. Qed.

Lemma herm_part_hermitian n (A : 'M[C]_n) : hermitian (herm_part A).
Proof.
move=> j k; rewrite !mxE rmorphM rmorphD fmorphV rmorph_nat conjCK.
by rewrite addrC.
Qed.

Lemma herm_part_id n (A : 'M[C]_n) : hermitian A -> herm_part A = A.
Proof.
move=> h; apply/matrixP => j k; rewrite !mxE -h -mulr2n -[A j k *+ 2]mulr_natr.
by rewrite mulfK // pnatr_eq0.
Qed.

(* ---- eigenvalues of Hermitian matrices are real ---- *)
Lemma norm_sq_gt0 n (v : 'cV[C]_n) : v != 0 -> 0 < (v^H *m v) 0 0.
Proof.
move=> nz; have E : (v^H *m v) 0 0 = \sum_i `|v i 0| ^+ 2.
  by rewrite mxE; apply: eq_bigr => i _; rewrite ctE normCKC.
rewrite E lt_neqAle sumr_ge0 ?andbT; last by move=> i _; rewrite exprn_ge0.
apply/negP => /eqP h0; case/negP: nz; apply/eqP/matrixP => i j.
rewrite (ord1 j) mxE.
have H : \sum_i `|v i 0| ^+ 2 == 0 by rewrite -h0.
rewrite psumr_eq0 in H; last by move=> k _; rewrite exprn_ge0.
have := allP H i; rewrite mem_index_enum => /(_ isT) /=.
by rewrite expf_eq0 /= normr_eq0 => /eqP.
Qed.

Lemma eigenvalue_real n (A : 'M[C]_n) a :
  hermitian A -> has_eigenvalue A a -> a \is Num.real.
Proof.
move=> /hermitianP h [v [nz e]].
pose s := (v^H *m v) 0 0.
have s0 : s != 0 by rewrite gt_eqF // norm_sq_gt0.
have e1 : v^H *m (A *m v) = a *: (v^H *m v) by rewrite e -scalemxAr.
have e2 : (v^H *m A) *m v = a^* *: (v^H *m v).
  have -> : v^H *m A = (A *m v)^H by rewrite ctM h.
  by rewrite e ctZ -scalemxAl.
have E : a^* * s = a * s.
  have Z b (M : 'M[C]_1) : (b *: M) 0 0 = b * M 0 0 by rewrite mxE.
  by rewrite /s -!Z -e1 -e2 mulmxA.
by rewrite CrealE; apply/eqP; apply: (mulIf s0).
Qed.

(* ---- the smoothing matrix ---- *)
Lemma commutatorDr n (A B D : 'M[C]_n) :
  commutator A (B + D) = commutator A B + commutator A D.
Proof. by rewrite /commutator mulmxDr mulmxDl opprD addrACA. Qed.

Lemma commutator0r n (A : 'M[C]_n) : commutator A 0 = 0.
Proof. by rewrite /commutator mulmx0 mul0mx subrr. Qed.

Lemma commutator_sumr n (A : 'M[C]_n) (I : Type) (r : seq I) (P : pred I)
    (F : I -> 'M[C]_n) :
  commutator A (\sum_(i <- r | P i) F i) =
  \sum_(i <- r | P i) commutator A (F i).
Proof.
elim/big_rec2: _ => [|i x y _ <-]; first exact: commutator0r.
by rewrite commutatorDr.
Qed.

Lemma foldl_scan n (rest : seq 'M[C]_n) : forall acc b M0,
  foldl (@scan_Ms_comms C n) acc
    (zip rest (cumsum_from b (take (size rest) (M0 :: rest)))) =
  acc + \sum_(k < size rest)
          commutator rest`_k (b + \sum_(j < k.+1) (M0 :: rest)`_j).
Proof.
elim: rest => [|M1 r IH] acc b M0 /=; first by rewrite big_ord0 addr0.
rewrite IH big_ord_recl /= -addrA; congr (_ + (_ + _)).
  by rewrite big_ord_recl big_ord0 addr0.
apply: eq_bigr => k _; congr commutator.
by rewrite [in RHS]big_ord_recl /= addrA.
Qed.

Lemma smoothing_eq n (Ms : seq 'M[C]_n) :
  exact_smoothing_matrix Ms = smoothing_spec Ms.
Proof.
rewrite /exact_smoothing_matrix /smoothing_spec; congr (_ *: _).
case: Ms => [|M0 rest]; first by rewrite big_ord0.
rewrite /cumsum [behead _]/= [(size _).-1]/= foldl_scan add0r.
rewrite [size (_ :: _)]/= [in RHS]big_ord_recl [X in _ = X + _]big_pred0 // add0r.
apply: eq_bigr => k _; rewrite add0r commutator_sumr /=.
have le : (k.+1 <= (size rest).+1)%N by rewrite ltnS ltnW.
rewrite (big_ord_widen _ (fun j => commutator rest`_k (M0 :: rest)`_j) le).
by apply: eq_bigl => j; rewrite /bump leq0n add1n.
Qed.

Lemma commutator_ct n (A B : 'M[C]_n) :
  hermitian A -> hermitian B -> (commutator A B)^H = - commutator A B.
Proof.
move=> /hermitianP a /hermitianP b.
by rewrite /commutator ctB !ctM a b opprB.
Qed.

Lemma smoothing_hermitian n (Ms : seq 'M[C]_n) :
  (forall M, M \in Ms -> hermitian M) -> hermitian (smoothing_spec Ms).
Proof.
move=> h; apply/hermitianP; rewrite /smoothing_spec ctZ conjCi ct_sum.
rewrite scaleNr -scalerN -sumrN; congr (_ *: _); apply: eq_bigr => k _.
rewrite ct_sum -sumrN; apply: eq_bigr => j _.
have -> : Ms`_k *m Ms`_j - Ms`_j *m Ms`_k = commutator Ms`_k Ms`_j by [].
by rewrite commutator_ct ?opprK //; apply: h; apply: mem_nth.
Qed.

Lemma smoothing_single n (M : 'M[C]_n) : smoothing_spec [:: M] = 0.
Proof.
by rewrite /smoothing_spec big_ord_recl big_ord0 addr0 big_pred0 ?scaler0.
Qed.

Lemma smoothing_nil n : smoothing_spec ([::] : seq 'M[C]_n) = 0.
Proof. by rewrite /smoothing_spec big_ord0 scaler0. Qed.

(* Commuting matrices need no smoothing. *)
Lemma smoothing_commuting n (Ms : seq 'M[C]_n) :
  (forall A B, A \in Ms -> B \in Ms -> A *m B = B *m A) ->
  smoothing_spec Ms = 0.
Proof.
move=> h; rewrite /smoothing_spec big1 ?scaler0 // => k _.
by rewrite big1 // => j _; rewrite h ?subrr // mem_nth.
Qed.

(* ---- the affine combination ---- *)
Lemma einsum_featuresE n (c : seq C) (Ms : seq 'M[C]_n) :
  einsum_features c Ms = \sum_(k < size Ms) c`_k *: Ms`_k.
Proof.
apply/matrixP => j k; rewrite mxE summxE.
by apply: eq_bigr => i _; rewrite mxE.
Qed.

Lemma make_affine_some n (bias : bool) (s : C) (Ms : seq 'M[C]_n) c M :
  make_affine_hermitian_matrix bias s Ms c = Some M ->
  M = affine_spec bias s Ms c /\ size Ms = (size c + bias)%N.
Proof.
have S A : (if s != 0 then A + s *: exact_smoothing_matrix Ms else A) =
           A + s *: smoothing_spec Ms.
  by rewrite smoothing_eq; case: eqP => [->|//]; rewrite /= scale0r addr0.
rewrite /make_affine_hermitian_matrix /affine_spec.
case: bias; last first.
  case: eqP => // e [<-]; rewrite S einsum_featuresE; split=> //.
  by rewrite addn0.
case: Ms S => [|M0 rest] S //=; case: eqP => // e [<-].
rewrite S einsum_featuresE big_ord_recl /= scale1r; split=> //.
by rewrite e addn1.
Qed.

Lemma make_affine_none n (bias : bool) (s : C) (Ms : seq 'M[C]_n) c :
  make_affine_hermitian_matrix bias s Ms c = None <->
  size Ms <> (size c + bias)%N.
Proof.
rewrite /make_affine_hermitian_matrix; case: bias; last first.
  rewrite addn0; case: eqP => e; split=> //; first by rewrite e.
  by move=> _ h; apply: e.
case: Ms => [|M0 rest] /=; first by rewrite addn1; split.
rewrite addn1; case: eqP => e; split=> //; first by rewrite e.
by move=> _ [h]; apply: e.
Qed.

Lemma affine_spec_hermitian n (bias : bool) (s : C) (Ms : seq 'M[C]_n) c :
  (forall M, M \in Ms -> hermitian M) -> all_real c -> s \is Num.real ->
  size Ms = (size c + bias)%N ->
  hermitian (affine_spec bias s Ms c).
Proof.
move=> h rc rs sz; apply: hermD; last first.
  by apply: hermZ => //; apply: smoothing_hermitian.
apply: herm_sum => k _; apply: hermZ; last by apply/h/mem_nth.
case: bias sz => sz.
  case: k => [] [|k] lk /=; first exact: real1.
  by apply/rc/mem_nth; move: lk; rewrite sz addn1.
by apply/rc/mem_nth; have := ltn_ord k; rewrite {2}sz addn0.
Qed.

Lemma affine_callable n (bias : bool) (s : C) (params : seq 'M[C]_n) data k M :
  (k < size data)%N ->
  nth None (affine_hermitian_matrix bias s params data) k = Some M <->
  (size params = (size (nth [::] data k) + bias)%N /\
   M = affine_spec bias s (map (@herm_part C n) params) (nth [::] data k)).
Proof.
move=> lk; rewrite /affine_hermitian_matrix (nth_map [::]) //.
rewrite (eq_map (@symmetriseE n)); split.
  by case/make_affine_some => -> ; rewrite size_map.
case=> sz ->; case E: make_affine_hermitian_matrix => [A|].
  by case: (make_affine_some E) => ->.
by case/make_affine_none: E; rewrite size_map.
Qed.

Lemma low_rank_callable n r (bias : bool) (s : C) (params : seq ('rV[C]_r * 'M[C]_(n, r)))
    data k M :
  (k < size data)%N ->
  nth None (low_rank_affine_hermitian_matrix bias s params data) k = Some M <->
  (size params = (size (nth [::] data k) + bias)%N /\
   M = affine_spec bias s
         [seq herm_part (make_low_rank_matrix lu.2 lu.1) | lu <- params]
         (nth [::] data k)).
Proof.
move=> lk; have := @affine_callable n bias s
  [seq make_low_rank_matrix lu.2 lu.1 | lu <- params] data k M lk.
by rewrite size_map -map_comp.
Qed.

(* ---- low rank ---- *)
Lemma herm_part_low_rank n r (u : 'M[C]_(n, r)) (l : 'rV[C]_r) :
  herm_part (make_low_rank_matrix u l) =
  u *m diag_mx (map_mx (fun x => 'Re x) l) *m u^H.
Proof.
rewrite mul_mx_diag; apply/matrixP => a b.
rewrite !mxE rmorph_sum -big_split /= mulr_suml; apply: eq_bigr => k _.
rewrite !mxE !rmorphM conjCK ReE /=.
move: (l 0 k) (u a k) (u b k)^* => x y z.
rewrite -[x * y * z]mulrA -[x^* * z * y]mulrA [z * y]mulrC -mulrDl.
by rewrite mulrAC [RHS]mulrAC [RHS]mulrC.
Qed.

Lemma low_rank_bound n r (u : 'M[C]_(n, r)) (l : 'rV[C]_r) :
  (\rank (herm_part (make_low_rank_matrix u l)) <= r)%N.
Proof. by rewrite herm_part_low_rank -mulmxA mulmx_max_rank. Qed.

Lemma rank_sum_le n r (I : finType) (F : I -> 'M[C]_n) (c : I -> C) :
  (forall i, \rank (F i) <= r)%N ->
  (\rank (\sum_i c i *: F i)%R <= #|I| * r)%N.
Proof.
move=> h; have -> : (#|I| * r = \sum_(i : I) r)%N by rewrite sum_nat_const.
apply: (big_rec2 (fun (M : 'M[C]_n) k => (\rank M <= k)%N)).
  by rewrite mxrank0.
move=> i A k _ ha; apply: (leq_trans (mxrank_add _ _)); rewrite leq_add //.
exact: leq_trans (mxrank_scale _ _) (h i).
Qed.

(* ---- change of basis ---- *)
Lemma conj_unitary_mul n (U A B : 'M[C]_n) :
  U^H *m U = 1%:M ->
  (U^H *m A *m U) *m (U^H *m B *m U) = U^H *m (A *m B) *m U.
Proof.
move=> /mulmx1C e; rewrite !mulmxA; congr (_ *m _); congr (_ *m _).
by rewrite -[_ *m U *m U^H]mulmxA e mulmx1.
Qed.

Lemma smoothing_change n (U : 'M[C]_n) (Ms : seq 'M[C]_n) :
  U^H *m U = 1%:M ->
  smoothing_spec [seq U^H *m A *m U | A <- Ms] =
  U^H *m smoothing_spec Ms *m U.
Proof.
move=> e; rewrite /smoothing_spec -scalemxAr -scalemxAl; congr (_ *: _).
rewrite size_map mulmx_sumr mulmx_suml; apply: eq_bigr => k _.
rewrite mulmx_sumr mulmx_suml; apply: eq_bigr => j _.
by rewrite !(nth_map 0) // !conj_unitary_mul // mulmxBr mulmxBl.
Qed.

Lemma affine_change n (bias : bool) (s : C) (U : 'M[C]_n) (Ms : seq 'M[C]_n) c :
  U^H *m U = 1%:M ->
  affine_spec bias s [seq U^H *m A *m U | A <- Ms] c =
  U^H *m affine_spec bias s Ms c *m U.
Proof.
move=> e; rewrite /affine_spec smoothing_change // mulmxDr mulmxDl.
congr (_ + _).
  2: by move: (smoothing_spec Ms) => S; rewrite -scalemxAr -scalemxAl.
rewrite size_map mulmx_sumr mulmx_suml; apply: eq_bigr => k _.
by rewrite !(nth_map 0) // -scalemxAr -scalemxAl.
Qed.

Lemma herm_partE n (A : 'M[C]_n) : herm_part A = 2%:R^-1 *: (A + A^H).
Proof. by apply/matrixP => i j; rewrite !mxE mulrC. Qed.

Lemma herm_part_change n (U A : 'M[C]_n) :
  herm_part (U^H *m A *m U) = U^H *m herm_part A *m U.
Proof.
rewrite !herm_partE -scalemxAr -scalemxAl; congr (_ *: _).
by rewrite mulmxDr mulmxDl !ctM ctK mulmxA.
Qed.

Lemma eigenvalue_change n (U A : 'M[C]_n) a :
  U^H *m U = 1%:M ->
  has_eigenvalue (U^H *m A *m U) a <-> has_eigenvalue A a.
Proof.
move=> e; have e' := mulmx1C e; split=> [[v [nz h]]|[v [nz h]]].
  exists (U *m v); split.
    apply: contra nz => /eqP z.
    by rewrite -[v]mul1mx -e -mulmxA z mulmx0.
  by rewrite scalemxAr -h !mulmxA e' mul1mx.
exists (U^H *m v); split.
  apply: contra nz => /eqP z.
  by rewrite -[v]mul1mx -e' -mulmxA z mulmx0.
by rewrite scalemxAr -h !mulmxA -[_ *m U *m U^H]mulmxA e' mulmx1.
Qed.

(* ---- observables ---- *)
Lemma gram_entry n r (D : 'M[C]_n) (V : 'M[C]_(n, r)) i j :
  \sum_(a < n) \sum_(b < n) (V a i)^* * D a b * V b j =
  (V^H *m D *m V) i j.
Proof.
rewrite mxE exchange_big /=; apply: eq_bigr => b _.
by rewrite mxE mulr_suml; apply: eq_bigr => a _; rewrite ctE.
Qed.

Lemma amplitude_entry n r (D : 'M[C]_n) (V : 'M[C]_(n, r)) i j :
  amplitude (col i V) D (col j V) = (V^H *m D *m V) i j.
Proof.
rewrite /amplitude mxE [RHS]mxE; apply: eq_bigr => b _.
rewrite mxE [in RHS]mxE [(col j V) b 0]mxE; congr (_ * _).
by apply: eq_bigr => a _; rewrite !mxE.
Qed.

Lemma herm_gram n r (D : 'M[C]_n) (V : 'M[C]_(n, r)) :
  hermitian D -> (V^H *m D *m V)^H = V^H *m D *m V.
Proof. by move=> /hermitianP h; rewrite !ctM ctK h mulmxA. Qed.

Lemma herm_diag_real n (A : 'M[C]_n) i : A^H = A -> A i i \is Num.real.
Proof. by move=> h; rewrite CrealE -{2}h ctE. Qed.

Lemma expectationE n r norm2 centered (Ds : seq 'M[C]_n) (V : 'M[C]_(n, r)) :
  (forall D, D \in Ds -> hermitian D) ->
  expectation_single norm2 centered Ds V =
  \sum_(D <- Ds) \tr (V^H *m D *m V)
  - (if centered then 2%:R^-1 * \sum_(D <- Ds) norm2 D ^+ 2 else 0).
Proof.
move=> h; rewrite /expectation_single.
have E : 'Re (\sum_(D <- Ds) \sum_(i < r) \sum_(a < n) \sum_(b < n)
                (V a i)^* * D a b * V b i) =
         \sum_(D <- Ds) \tr (V^H *m D *m V).
  have F : \sum_(D <- Ds) \sum_(i < r) \sum_(a < n) \sum_(b < n)
                (V a i)^* * D a b * V b i = \sum_(D <- Ds) \tr (V^H *m D *m V).
    apply: eq_bigr => D _; apply: eq_bigr => i _; exact: gram_entry.
  rewrite F; apply/Creal_ReP; rewrite big_seq; apply: rpred_sum => D iD.
  by apply: rpred_sum => i _; apply/herm_diag_real/herm_gram/h.
by rewrite E; case: centered; rewrite ?subr0.
Qed.

Lemma trace_change n r (D : 'M[C]_n) (V : 'M[C]_(n, r)) (U : 'M[C]_r) :
  U^H *m U = 1%:M ->
  \tr ((V *m U)^H *m D *m (V *m U)) = \tr (V^H *m D *m V).
Proof.
move=> /mulmx1C e; rewrite ctM mxtrace_mulC !mulmxA.
by rewrite -[V *m U *m _]mulmxA e mulmx1 -mulmxA mxtrace_mulC.
Qed.

Lemma frob n (W : 'M[C]_n) :
  \sum_(i < n) \sum_(j < n) `|W i j| ^+ 2 = \tr (W *m W^H).
Proof.
apply: eq_bigr => i _; rewrite mxE; apply: eq_bigr => j _.
by rewrite ctE normCK.
Qed.

Lemma transitionE n r norm2 centered (Ds : seq 'M[C]_n) (V : 'M[C]_(n, r)) :
  transition_single norm2 centered Ds V =
  \sum_(D <- Ds) \tr ((V^H *m D *m V) *m (V^H *m D *m V)^H)
  - (if centered then 2%:R^-1 * \sum_(D <- Ds) norm2 D ^+ 2 else 0).
Proof.
rewrite /transition_single.
have E : \sum_(D <- Ds) \sum_(i < r) \sum_(j < r)
             `| \sum_(a < n) \sum_(b < n) (V a i)^* * D a b * V b j | ^+ 2 =
         \sum_(D <- Ds) \tr ((V^H *m D *m V) *m (V^H *m D *m V)^H).
  apply: eq_bigr => D _; rewrite -frob; apply: eq_bigr => i _.
  by apply: eq_bigr => j _; rewrite gram_entry.
by rewrite E; case: centered; rewrite ?subr0.
Qed.

Lemma frob_change n r (D : 'M[C]_n) (V : 'M[C]_(n, r)) (U : 'M[C]_r) :
  U^H *m U = 1%:M ->
  let W := (V *m U)^H *m D *m (V *m U) in
  let W' := V^H *m D *m V in
  \tr (W *m W^H) = \tr (W' *m W'^H).
Proof.
move=> e W W'.
have -> : W = U^H *m W' *m U by rewrite /W /W' ctM !mulmxA.
clearbody W'.
have -> : (U^H *m W' *m U)^H = U^H *m W'^H *m U by rewrite !ctM ctK mulmxA.
by rewrite conj_unitary_mul // mxtrace_mulC !mulmxA (mulmx1C e) mul1mx.
Qed.

(* ---- affine in the features ---- *)
Lemma size_mix (t : C) x y : size x = size y -> size (mix t x y) = size x.
Proof. by move=> e; rewrite size_map size_zip e minnn. Qed.

Lemma nth_mix (t : C) x y k : size x = size y ->
  (mix t x y)`_k = (1 - t) * x`_k + t * y`_k.
Proof.
move=> e; case: (ltnP k (size x)) => lk.
  by rewrite (nth_map (0, 0)) ?size_zip -?e ?minnn // nth_zip.
rewrite !nth_default ?size_mix -?e //.
by rewrite !mulr0 addr0.
Qed.

Lemma nth_mix_bias (t : C) x y (bias : bool) k : size x = size y ->
  (if bias then 1 :: mix t x y else mix t x y)`_k =
  (1 - t) * (if bias then 1 :: x else x)`_k
  + t * (if bias then 1 :: y else y)`_k.
Proof.
move=> e; case: bias; last exact: nth_mix.
case: k => [|k] /=; first by rewrite !mulr1 subrK.
exact: nth_mix.
Qed.

Lemma affine_mix n (bias : bool) (s t : C) (Ms : seq 'M[C]_n) x y :
  size x = size y ->
  affine_spec bias s Ms (mix t x y) =
  (1 - t) *: affine_spec bias s Ms x + t *: affine_spec bias s Ms y.
Proof.
move=> e; rewrite /affine_spec !scalerDr addrACA -scalerDl subrK scale1r.
congr (_ + _); rewrite !scaler_sumr -big_split /=; apply: eq_bigr => k _.
by rewrite nth_mix_bias // scalerDl !scalerA.
Qed.

Lemma tensorE d (bias : bool) (Ms : seq 'rV[C]_d) c T :
  make_affine_tensor bias Ms c = Some T ->
  T = \sum_(k < size Ms) (if bias then 1 :: c else c)`_k *: Ms`_k /\
  size Ms = (size c + bias)%N.
Proof.
have R (Ns : seq 'rV[C]_d) :
  \row_k (\sum_(i < size Ns) c`_i * Ns`_i 0 k) = \sum_(k < size Ns) c`_k *: Ns`_k.
  apply/rowP => k; rewrite mxE summxE; by apply: eq_bigr => i _; rewrite mxE.
rewrite /make_affine_tensor; case: bias; last first.
  by case: eqP => // e [<-]; rewrite R addn0.
case: Ms => [|M0 rest] //=; case: eqP => // e [<-].
by rewrite R big_ord_recl /= scale1r addn1 e.
Qed.

Lemma tensorN d (bias : bool) (Ms : seq 'rV[C]_d) c :
  make_affine_tensor bias Ms c = None <-> size Ms <> (size c + bias)%N.
Proof.
rewrite /make_affine_tensor; case: bias; last first.
  rewrite addn0; case: eqP => e; split=> //; first by rewrite e.
  by move=> _ h; apply: e.
case: Ms => [|M0 rest] /=; first by rewrite addn1; split.
rewrite addn1; case: eqP => e; split=> //; first by rewrite e.
by move=> _ [h]; apply: e.
Qed.

End Facts.
