(** Lemmas about distances to the training data. *)
From Coq Require Import Reals ZArith Lra Lia Permutation Sorted Bool.
From Verif Require Import Base BaseLemmas TreeUtil TreeSpec NonSeqSpec NonSeqProofs TrainArgsProofs Serial SerialSpec SerialProofs Scaler ScalerProofs OneHot OneHotSpec OneHotProofs
  Conformal ConformalProofs ReshapeProofs ReshapeMain BatchProofs LayersSpec LayersProofs Strata StrataSpec StrataProofs StrataMain Distance DistanceSpec.
Local Open Scope R_scope.
Local Open Scope list_scope.

(** * Sums *)
Lemma sum_cons {X} (f : X -> R) x l : sum_of f (x :: l) = f x + sum_of f l.
Proof. reflexivity. Qed.
Lemma sum_ext {X} (f g : X -> R) l : (forall x, In x l -> f x = g x) -> sum_of f l = sum_of g l.
Proof. induction l as [|x l IH]; [reflexivity|]. intros H. rewrite !sum_cons, (H x), IH; [reflexivity| |left; reflexivity]. intros y Hy. apply H. right. exact Hy. Qed.
Lemma sum_nonneg {X} (f : X -> R) l : (forall x, In x l -> 0 <= f x) -> 0 <= sum_of f l.
Proof. induction l as [|x l IH]; intros H; rewrite ?sum_cons; [cbn; lra|]. assert (0 <= f x) by (apply H; left; reflexivity). assert (0 <= sum_of f l) by (apply IH; intros; apply H; right; assumption). lra. Qed.
Lemma sum_le {X} (f g : X -> R) l : (forall x, In x l -> f x <= g x) -> sum_of f l <= sum_of g l.
Proof. induction l as [|x l IH]; intros H; rewrite ?sum_cons; [cbn; lra|]. assert (f x <= g x) by (apply H; left; reflexivity). assert (sum_of f l <= sum_of g l) by (apply IH; intros; apply H; right; assumption). lra. Qed.
Lemma sum_map {X Y} (h : X -> Y) (f : Y -> R) l : sum_of f (map h l) = sum_of (fun x => f (h x)) l.
Proof. induction l as [|x l IH]; [reflexivity|]. cbn. f_equal. exact IH. Qed.
Lemma sum_plus {X} (f g : X -> R) l : sum_of (fun x => f x + g x) l = sum_of f l + sum_of g l.
Proof. induction l as [|x l IH]; rewrite ?sum_cons; [cbn; lra|]. rewrite IH. lra. Qed.
Lemma sum_scale {X} (f : X -> R) k l : sum_of (fun x => k * f x) l = k * sum_of f l.
Proof. induction l as [|x l IH]; rewrite ?sum_cons; [cbn; lra|]. rewrite IH. lra. Qed.
Lemma sum_const {X} (l : list X) : sum_of (fun _ => 1) l = INR (length l).
Proof. induction l as [|x l IH]; [reflexivity|]. cbn [length]. rewrite S_INR, <- IH, sum_cons. lra. Qed.

(** * The distance of rows *)
Lemma l1_cons x a y b : l1 (x :: a) (y :: b) = Rabs (x - y) + l1 a b.
Proof. reflexivity. Qed.
Lemma l1_app a a' b b' : length a = length b -> l1 (a ++ a') (b ++ b') = l1 a b + l1 a' b'.
Proof. revert b. induction a as [|x a IH]; intros [|y b] H; try discriminate; cbn [app]; [unfold l1 at 2; cbn; lra|]. rewrite !l1_cons, IH by (cbn in H; lia). lra. Qed.
Lemma l1_map {X} (g h : X -> R) l : l1 (map g l) (map h l) = sum_of (fun k => Rabs (g k - h k)) l.
Proof. induction l as [|x l IH]; [reflexivity|]. cbn [map]. rewrite l1_cons, IH. reflexivity. Qed.
Lemma l1_concat {X} (g h : X -> list R) l : (forall f, In f l -> length (g f) = length (h f)) -> l1 (concat (map g l)) (concat (map h l)) = sum_of (fun f => l1 (g f) (h f)) l.
Proof.
  induction l as [|x l IH]; [reflexivity|]. intros H. cbn [map concat]. rewrite l1_app by (apply H; left; reflexivity). rewrite IH; [reflexivity|]. intros f Hf. apply H. right. exact Hf.
Qed.
Lemma l1_nonneg a b : 0 <= l1 a b.
Proof. revert b. induction a as [|x a IH]; intros [|y b]; try (unfold l1; cbn; lra). rewrite l1_cons. pose proof (Rabs_pos (x - y)). specialize (IH b). lra. Qed.
Lemma l1_refl a : l1 a a = 0.
Proof. induction a as [|x a IH]; [reflexivity|]. rewrite l1_cons, IH. replace (x - x) with 0 by ring. rewrite Rabs_R0. lra. Qed.
Lemma l1_zero a b : length a = length b -> l1 a b = 0 -> a = b.
Proof.
  revert b. induction a as [|x a IH]; intros [|y b] L H; try discriminate; [reflexivity|]. rewrite l1_cons in H. pose proof (Rabs_pos (x - y)). pose proof (l1_nonneg a b).
  rewrite (IH b); [|cbn in L; lia|lra]. f_equal. destruct (Req_dec (x - y) 0) as [E|E]; [lra|]. apply Rabs_pos_lt in E. lra.
Qed.

(** * Finite rows *)
Lemma finite_row_some r : finite_row (map Some r) = Ok r.
Proof. induction r as [|x r IH]; [reflexivity|]. cbn. rewrite IH. reflexivity. Qed.
Lemma finite_rows_some {X} (F : X -> list R) l : finite_rows (map (fun i => map Some (F i)) l) = Ok (map F l).
Proof. induction l as [|x l IH]; [reflexivity|]. cbn [map finite_rows]. rewrite finite_row_some. cbn [rbind]. rewrite IH. reflexivity. Qed.

(** * One leaf *)
Lemma numbers_col x k : numbers x k = map (fun r => nth k r 0) (o_rows x).
Proof. unfold numbers, at_. rewrite (list_as_map [] (o_rows x)) at 2. rewrite map_map. reflexivity. Qed.
Lemma range_ptp l v : is_range l v -> ptp l = v.
Proof.
  intros [(a & b & Ha & Hb & ->) H]. assert (N : l <> []) by (intros ->; destruct Ha). destruct (lmin_spec2 l N) as [A A2]. destruct (lmax_spec2 l N) as [B B2].
  unfold ptp. specialize (H _ _ B2 A2). specialize (A b Hb). specialize (B a Ha). lra.
Qed.
Definition values (f : feature) : list (list R) := unique_rows rops (o_rows (f_train f)).
Definition piece (f : feature) (x : bdata) (i : nat) : list R :=
  if f_sel f then
    if f_cont f then map (fun k => at_ x i k / f_range f k) (seq 0 (features (f_train f)))
    else map (fun v => (if row_eqb rops (sample x i) v then 1 else 0) / 2) (values f)
  else [].
Definition leaf_rows (f : feature) (x : bdata) : result (list (list (option R))) :=
  let* e := encode_leaf (encoder_leaf (f_train f) (f_cont f) (f_sel f)) x in
  scale_leaf e (o_shape (f_train f), range_leaf (f_train f) (f_cont f)).

Lemma odiv_ok a b : b <> 0 -> odiv a b = Some (a / b).
Proof. unfold odiv. destruct (Req_EM_T b 0); [contradiction|reflexivity]. Qed.
Lemma combine_seq {A B} (r : list A) (g : nat -> B) d : combine r (map g (seq 0 (length r))) = map (fun k => (nth k r d, g k)) (seq 0 (length r)).
Proof.
  rewrite (list_as_map d r) at 1. generalize (seq 0 (length r)). intros l. induction l as [|k l IH]; [reflexivity|]. cbn. f_equal. exact IH.
Qed.
Lemma repeat_map {A} (v : A) n : repeat v n = map (fun _ => v) (seq 0 n).
Proof. generalize 0%nat. induction n as [|n IH]; intros s; [reflexivity|]. cbn. f_equal. apply IH. Qed.
Definition range_at (x : bdata) (c : bool) (k : nat) : R := if c then ptp (map (fun r => nth k r 0) (o_rows x)) else 2.
Lemma range_leaf_map x c : range_leaf x c = map (range_at x c) (seq 0 (features x)).
Proof. unfold range_leaf, range_at. destruct c; [reflexivity|]. apply repeat_map. Qed.

Lemma leaf_ok n m (f : feature) x : usable n m f -> (exists m', batch m' x) -> o_shape (f_train f) = o_shape x ->
  exists s, leaf_rows f x = Ok s /\ (if f_sel f then s else map (fun _ => []) s) = map (fun i => map Some (piece f x i)) (seq 0 (length (o_rows x))).
Proof.
  intros (BT & BD & SH & RG & POS & CAT) [m' BX] SX. unfold leaf_rows, encoder_leaf.
  assert (FX : features x = features (f_train f)) by (unfold features; rewrite SX; reflexivity).
  destruct (f_sel f) eqn:Sel; [destruct (f_cont f) eqn:Con|].
  - cbn [orb negb encode_leaf rbind]. unfold scale_leaf. cbn [fst snd]. destruct (list_eq_dec Nat.eq_dec (o_shape x) (o_shape (f_train f))) as [_|C]; [|congruence].
    eexists. split; [reflexivity|]. rewrite (list_as_map [] (o_rows x)) at 1. rewrite map_map. apply map_ext_in. intros i Hi. apply in_seq in Hi.
    unfold piece. rewrite Sel, Con. rewrite range_leaf_map. assert (L : length (nth i (o_rows x) []) = features (f_train f)) by (rewrite <- FX; apply BX, nth_In; lia).
    rewrite <- L, (combine_seq _ _ 0), !map_map. apply map_ext_in. intros k Hk. apply in_seq in Hk. cbn [fst snd].
    assert (E : range_at (f_train f) true k = f_range f k) by (unfold range_at; rewrite <- numbers_col; apply range_ptp, RG; [reflexivity|lia]).
    rewrite E. apply odiv_ok. apply Rgt_not_eq, POS; auto. lia.
  - cbn [orb negb]. pose proof (CAT eq_refl eq_refl) as S1. cbn [encode_leaf].
    assert (F1 : features (f_train f) = 1%nat) by (unfold features; rewrite S1; reflexivity).
    unfold oh_fit_leaf at 1. cbn [snd]. rewrite FX. fold (features (f_train f)). rewrite Nat.eqb_refl. cbn [rbind].
    assert (U : fst (oh_fit_leaf rops (f_train f)) = values f).
    { apply (fit_chain rops rops_lawful); [apply Forall_forall; intros r Hr; apply BT; exact Hr|]. apply (chain_one rops rops_lawful). apply Forall_forall. intros r Hr. rewrite <- F1. apply BT. exact Hr. }
    rewrite U. unfold scale_leaf. cbn [fst snd o_shape o_rows]. rewrite S1. unfold range_leaf. rewrite F1. cbn [repeat].
    assert (P : forall i, map Some (piece f x i) = map (fun v => odiv v 2) (encode rops (values f) (nth i (o_rows x) []))).
    { intros i. unfold piece. rewrite Sel, Con. unfold encode. rewrite !map_map. apply map_ext. intros v. rewrite odiv_ok by lra. reflexivity. }
    destruct (list_eq_dec Nat.eq_dec [length (values f)] [1%nat]) as [E|_].
    + eexists. split; [reflexivity|]. rewrite map_map. rewrite (list_as_map [] (o_rows x)) at 1. rewrite map_map. apply map_ext. intros i. rewrite P.
      injection E as E. assert (L : length (encode rops (values f) (nth i (o_rows x) [])) = 1%nat) by (unfold encode; rewrite map_length; exact E).
      destruct (encode rops (values f) (nth i (o_rows x) [])) as [|v [|]]; try discriminate. reflexivity.
    + eexists. split; [reflexivity|]. rewrite map_map. rewrite (list_as_map [] (o_rows x)) at 1. rewrite map_map. apply map_ext. intros i. rewrite P. reflexivity.
  - rewrite orb_true_r. cbn [encode_leaf rbind]. unfold scale_leaf. cbn [fst snd]. destruct (list_eq_dec Nat.eq_dec (o_shape x) (o_shape (f_train f))) as [_|C]; [|congruence].
    eexists. split; [reflexivity|]. rewrite map_map. rewrite (list_as_map [] (o_rows x)) at 1. rewrite map_map. apply map_ext. intros i. unfold piece. rewrite Sel. reflexivity.
Qed.

(** * Categories *)
Lemma row_eqb_dec a b : row_eqb rops a b = if list_eq_dec Req_EM_T a b then true else false.
Proof.
  destruct (list_eq_dec Req_EM_T a b) as [ -> |N]; [apply (row_eqb_spec rops rops_lawful); reflexivity|].
  destruct (row_eqb rops a b) eqn:E; [|reflexivity]. apply (row_eqb_spec rops rops_lawful) in E. contradiction.
Qed.
Definition ind (a v : list R) : R := if row_eqb rops a v then 1 else 0.
Lemma ind_none a u : ~ In a u -> sum_of (ind a) u = 0.
Proof.
  induction u as [|v u IH]; [reflexivity|]. intros H. rewrite sum_cons. unfold ind at 1. rewrite row_eqb_dec. destruct (list_eq_dec Req_EM_T a v) as [ -> |N]; [exfalso; apply H; left; reflexivity|].
  rewrite IH; [lra|]. intros ?. apply H. right. assumption.
Qed.
Lemma ind_one a u : NoDup u -> In a u -> sum_of (ind a) u = 1.
Proof.
  induction 1 as [|v u N ND IH]; [intros []|]. intros H. rewrite sum_cons. unfold ind at 1. rewrite row_eqb_dec. destruct (list_eq_dec Req_EM_T a v) as [ -> |Ne].
  - rewrite (ind_none v u N). lra.
  - destruct H as [ -> |H]; [contradiction|]. rewrite (IH H). lra.
Qed.
Lemma category_distance a b u : NoDup u -> In a u -> In b u ->
  sum_of (fun v => Rabs (ind a v / 2 - ind b v / 2)) u = if list_eq_dec Req_EM_T a b then 0 else 1.
Proof.
  intros N Ha Hb. destruct (list_eq_dec Req_EM_T a b) as [ -> |Ne].
  - rewrite (sum_ext _ (fun v => 0 * ind b v)), sum_scale; [lra|]. intros v _. replace (ind b v / 2 - ind b v / 2) with 0 by ring. rewrite Rabs_R0. ring.
  - rewrite (sum_ext _ (fun v => / 2 * (ind a v + ind b v))), sum_scale, sum_plus, (ind_one a u N Ha), (ind_one b u N Hb); [lra|]. intros v _. unfold ind. rewrite !row_eqb_dec.
    destruct (list_eq_dec Req_EM_T a v) as [E1|_]; destruct (list_eq_dec Req_EM_T b v) as [E2|_]; try congruence.
    + replace (1 / 2 - 0 / 2) with (/ 2) by field. rewrite Rabs_pos_eq by lra. lra.
    + replace (0 / 2 - 1 / 2) with (- / 2) by field. rewrite Rabs_Ropp, Rabs_pos_eq by lra. lra.
    + replace (0 / 2 - 0 / 2) with 0 by field. rewrite Rabs_R0. lra.
Qed.

Lemma category_unseen a b u : NoDup u -> ~ In a u -> In b u -> sum_of (fun v => Rabs (ind a v / 2 - ind b v / 2)) u = 1 / 2.
Proof.
  intros N Ha Hb. rewrite (sum_ext _ (fun v => / 2 * ind b v)), sum_scale, (ind_one b u N Hb); [lra|]. intros v Hv. unfold ind. rewrite !row_eqb_dec.
  destruct (list_eq_dec Req_EM_T a v) as [ -> |_]; [contradiction|]. destruct (list_eq_dec Req_EM_T b v) as [E2|_].
  - replace (0 / 2 - 1 / 2) with (- / 2) by field. rewrite Rabs_Ropp, Rabs_pos_eq by lra. lra.
  - replace (0 / 2 - 0 / 2) with 0 by field. rewrite Rabs_R0. lra.
Qed.
Lemma sample_in n (x : bdata) j : batch n x -> (j < n)%nat -> In (sample x j) (o_rows x).
Proof. intros [L _] H. apply nth_In. lia. Qed.
Lemma piece_length f x y i j : length (piece f x i) = length (piece f y j).
Proof. unfold piece. destruct (f_sel f); [|reflexivity]. destruct (f_cont f); rewrite !map_length; reflexivity. Qed.
Lemma piece_apart n m f i j : usable n m f -> (i < m)%nat -> (j < n)%nat -> l1 (piece f (f_data f) i) (piece f (f_train f) j) = apart (1 / 2) f i j.
Proof.
  intros (BT & BD & SH & RG & POS & CAT) Hi Hj. unfold piece, apart. destruct (f_sel f) eqn:Sel; [|reflexivity]. destruct (f_cont f) eqn:Con.
  - rewrite l1_map. apply sum_ext. intros k Hk. apply in_seq in Hk. assert (P : 0 < f_range f k) by (apply POS; auto; lia).
    replace (at_ (f_data f) i k / f_range f k - at_ (f_train f) j k / f_range f k) with ((at_ (f_data f) i k - at_ (f_train f) j k) / f_range f k) by (field; lra).
    unfold Rdiv. rewrite Rabs_mult, (Rabs_pos_eq (/ _)); [reflexivity|]. apply Rlt_le, Rinv_0_lt_compat. exact P.
  - rewrite l1_map. assert (Ij : In (sample (f_train f) j) (values f)) by (apply unique_in; eapply sample_in; eauto). unfold seen.
    destruct (in_dec (list_eq_dec Req_EM_T) (sample (f_data f) i) (o_rows (f_train f))) as [I|I].
    + apply category_distance; [apply unique_nodup|apply unique_in; exact I|exact Ij].
    + destruct (list_eq_dec Req_EM_T (sample (f_data f) i) (sample (f_train f) j)) as [E|_]; [exfalso; apply I; rewrite E; eapply sample_in; eauto|].
      apply category_unseen; [apply unique_nodup| |exact Ij]. intros C. apply I, unique_in. exact C.
Qed.
Lemma apart_seen w w' f i j : (f_sel f = true -> f_cont f = false -> In (sample (f_data f) i) (o_rows (f_train f))) -> apart w f i j = apart w' f i j.
Proof.
  intros H. unfold apart, seen. destruct (f_sel f); [|reflexivity]. destruct (f_cont f); [reflexivity|].
  destruct (in_dec (list_eq_dec Req_EM_T) (sample (f_data f) i) (o_rows (f_train f))) as [I|I]; [reflexivity|]. exfalso. apply I. auto.
Qed.
Lemma gower_seen w w' L i j : all_seen L i -> gower w L i j = gower w' L i j.
Proof. intros H. unfold gower. f_equal. apply sum_ext. intros f Hf. apply apart_seen. apply H. exact Hf. Qed.
Lemma among_usable n m f : usable n m f -> usable n n (among f).
Proof. intros (BT & BD & SH & RG & POS & CAT). unfold usable, among; cbn. auto 8. Qed.
