(** Conformal quantiles and intervals: C42-C46. *)
From Coq Require Import Reals Lra Permutation.
From Verif Require Import Base TreeUtil TreeSpec NonSeqSpec Serial SerialSpec OneHot Conformal ConformalSpec ConformalProofs.
Local Open Scope R_scope.
Local Open Scope list_scope.

(* ------------------------------------------------------------------ *)
(** * C42: coverage *)

(** What holds: for [alpha >= 1/(n+1)], the coverage guarantee. *)
Theorem C42_coverage_partial : forall n alpha l, length l = S n -> (1 <= n)%nat -> valid_alpha alpha -> / (INR n + 1) <= alpha ->
  coverage (reports alpha) alpha l.
Proof. exact (fun n alpha l L N V H => proj2 (coverage_reports alpha l V) (coverage_ok n alpha l L N V H)). Qed.
Example C42_coverage_example : coverage (reports (1/2)) (1/2) [3; 1; 2].
Proof. apply (C42_coverage_partial 2); try reflexivity; try lia; [unfold valid_alpha; lra|]. cbn [INR]. lra. Qed.

(** And only for those: the exact condition. *)
Theorem C42_condition : forall n alpha, (1 <= n)%nat -> valid_alpha alpha ->
  (forall l, length l = S n -> coverage (reports alpha) alpha l) <-> / (INR n + 1) <= alpha.
Proof.
  intros n alpha N V. split.
  - intros H. destruct (Rle_lt_dec (/ (INR n + 1)) alpha) as [?|L]; [assumption|]. exfalso.
    apply (coverage_fails n alpha N (proj1 V) L). apply (coverage_reports alpha _ V). apply H. rewrite map_length, seq_length. reflexivity.
  - intros H l L. exact (C42_coverage_partial n alpha l L N V H).
Qed.
Example C42_condition_example : / (INR 3 + 1) <= 1/4.
Proof. cbn [INR]. lra. Qed.

(** The property without the condition fails. *)
Definition C42_always : Prop := forall n alpha l, length l = S n -> (1 <= n)%nat -> valid_alpha alpha -> coverage (reports alpha) alpha l.
Theorem C42_refuted : exists n alpha l, length l = S n /\ (1 <= n)%nat /\ valid_alpha alpha /\ ~ coverage (reports alpha) alpha l.
Proof.
  exists 1%nat, (1/4), [0; 1]. split; [reflexivity|]. split; [lia|]. assert (V : valid_alpha (1/4)) by (unfold valid_alpha; lra). split; [exact V|].
  intros H. apply (coverage_reports _ _ V) in H. apply (coverage_fails 1 (1/4)); [lia|lra|cbn [INR]; lra|]. exact H.
Qed.
Theorem C42_always_refuted : ~ C42_always.
Proof. intros H. destruct C42_refuted as (n & a & l & L & N & V & F). exact (F (H n a l L N V)). Qed.

(** On a tree of features, every feature gets the quantile of its own scores. *)
Theorem C42_features : forall n s alpha a0, wf_tree s -> uniform n s -> valid_alpha alpha ->
  exists q c', get_qhat (calibrate (conf_new a0) s) (AOne alpha) = Ok (QOne q, c') /\
    trel (fun x r => length r = rwidth x /\ forall j, (j < rwidth x)%nat -> reports alpha (rcol x j) (nth j r 0)) s q.
Proof. exact tree_value. Qed.
Example C42_features_example :
  let s := Dict [("b"%string, Leaf (mk_rbatch 2 [[1; 2]; [3; 4]])); ("a"%string, Leaf (mk_rbatch 1 [[7]; [8]]))] in wf_tree s /\ uniform 2 s.
Proof.
  split.
  - constructor; [repeat constructor; cbn; intuition discriminate|]. repeat constructor.
  - split; [lia|]. split; [eexists; eapply hl_dict; [left; reflexivity|constructor]|].
    intros x H. inversion H as [|? ? ? ? Hin Hl| |]; subst. destruct Hin as [[= <- <-]|[[= <- <-]|[]]]; inversion Hl; reflexivity.
Qed.

(** The quantile lies between the k-th and the next smallest score for
    [k = ceil ((n + 1) (1 - alpha))], and the order of the samples is
    irrelevant. *)
Theorem C42_rank : forall alpha l k q, valid_alpha alpha -> reports alpha l q -> (1 <= k <= length l)%nat ->
  INR k - 1 < (INR (length l) + 1) * (1 - alpha) <= INR k ->
  (exists v, lowest_k k l v /\ v <= q) /\ ((k < length l)%nat -> exists v, lowest_k (S k) l v /\ q <= v).
Proof. exact reported_rank. Qed.
Theorem C42_order : forall alpha l m q, valid_alpha alpha -> Permutation l m -> reports alpha l q -> reports alpha m q.
Proof. exact reported_order. Qed.
Example C42_rank_example : reports (1/2) [2; 1] 2 /\ INR 2 - 1 < (INR 2 + 1) * (1 - 1/2) <= INR 2.
Proof.
  split; [|cbn [INR]; lra]. assert (Q : qhat1 (1/2) [2; 1] = 2); [|pose proof (reports_val (1/2) [2; 1] ltac:(unfold valid_alpha; lra)) as H; rewrite Q in H; exact H].
  unfold qhat1, quantile. rewrite at_position_seg. unfold level. cbn [length]. rewrite (ceil_unique _ 2) by (cbn [INR]; lra).
  replace (2 / INR 2 * (INR 2 - 1)) with (IZR 1) by (cbn [INR]; lra). rewrite seg_int.
  cbn [isort fold_right insert]. assert (E : rle 2 1 = false) by (unfold rle; destruct (Rle_dec 2 1); [lra|reflexivity]). rewrite E. reflexivity.
Qed.

(* ------------------------------------------------------------------ *)
(** * C43: intervals *)
Theorem C43_inside : forall a0 alpha n m T s Y U, wf_tree T -> views T s Y U -> uniform n s -> valid_alpha alpha ->
  (forall p, has_leaf T p -> aligned n m p) ->
  exists lo hi c' lower upper, conf_call (calibrate (conf_new a0) s) (AOne alpha) true Y U = Ok (IOne lo hi, c') /\
    trel (fun p x => x = lower p) T lo /\ trel (fun p x => x = upper p) T hi /\
    forall p, has_leaf T p -> encloses alpha p (lower p) (upper p).
Proof. exact call_encloses. Qed.
(** For a positive scale the condition is on the normalised residual. *)
Theorem C43_normalised : forall r u q, 0 < u -> r <= q * u <-> r / u <= q.
Proof.
  intros r u q H. split; intros E.
  - apply (Rmult_le_reg_r u); [exact H|]. unfold Rdiv. rewrite Rmult_assoc, Rinv_l by lra. lra.
  - apply (Rmult_le_compat_r u) in E; [|lra]. unfold Rdiv in E. rewrite Rmult_assoc, Rinv_l in E by lra. lra.
Qed.
Theorem C43_nested : forall a0 alpha alpha' n m T s Y U, wf_tree T -> views T s Y U -> uniform n s -> valid_alpha alpha -> valid_alpha alpha' -> alpha <= alpha' ->
  (forall p, has_leaf T p -> aligned n m p /\ forall i j, cell (p_scale p) i j -> 0 <= entry (p_scale p) i j) ->
  exists lo hi lo' hi' c c' lower upper lower' upper',
    conf_call (calibrate (conf_new a0) s) (AOne alpha) true Y U = Ok (IOne lo hi, c) /\
    conf_call (calibrate (conf_new a0) s) (AOne alpha') true Y U = Ok (IOne lo' hi', c') /\
    trel (fun p x => x = lower p) T lo /\ trel (fun p x => x = upper p) T hi /\
    trel (fun p x => x = lower' p) T lo' /\ trel (fun p x => x = upper' p) T hi' /\
    forall p, has_leaf T p -> forall i j, cell (p_center p) i j ->
      entry (lower p) i j <= entry (lower' p) i j /\ entry (upper' p) i j <= entry (upper p) i j.
Proof. exact call_nested. Qed.
Definition C43_point : point := mk_point (mk_rbatch 2 [[1; 2]; [3; 4]; [5; 6]]) (mk_rbatch 2 [[10; 20]]) (mk_rbatch 2 [[1; 3]]).
Example C43_example : views (Leaf C43_point) (Leaf (p_scores C43_point)) (Leaf (p_center C43_point)) (Leaf (p_scale C43_point)) /\
  uniform 3 (Leaf (p_scores C43_point)) /\ aligned 3 1 C43_point /\ (forall i j, cell (p_scale C43_point) i j -> 0 <= entry (p_scale C43_point) i j).
Proof.
  split; [split; [|split]; constructor; reflexivity|]. split.
  - split; [lia|]. split; [eexists; constructor|]. intros x H. inversion H. reflexivity.
  - split.
    + exists 2%nat. assert (F : forall w n r, rwidth r = w -> length (rrows r) = n -> Forall (fun x => length x = w) (rrows r) -> full w n r) by (intros w n r A B C; split; [exact A|split; [exact B|apply Forall_forall; exact C]]).
      split; [|split]; apply F; repeat constructor.
    + intros i j [Hi Hj]. cbn in Hi, Hj. destruct i as [|i]; [|lia]. destruct j as [|[|j]]; unfold entry; cbn; try lra; lia.
Qed.
Theorem C43_rejected : forall c a Y U ok, (~ Forall valid_alpha (alpha_list c a) \/ c_scores c = None) ->
  conf_call c a ok Y U = Err ValueError /\ get_qhat c a = Err ValueError.
Proof. exact call_rejects. Qed.
Example C43_rejected_example : ~ Forall valid_alpha (alpha_list (conf_new (1/10)) (AMany [1/2; 1])) /\ c_scores (conf_new (1/10)) = None.
Proof. split; [|reflexivity]. intros H. inversion H as [|? ? _ H2]; subst. inversion H2 as [|? ? H3 _]; subst. unfold valid_alpha in H3. lra. Qed.

(* ------------------------------------------------------------------ *)
(** * C44: recalibration *)

(** What holds: a level not asked for before the latest calibration. *)
Theorem C44_first_request_partial : forall a0 alpha h s, valid_alpha alpha -> nonempty_scores (h ++ [Calibrated s]) ->
  (forall a, In (Asked a) h -> ~ In alpha (asked a0 a)) ->
  exists q c', get_qhat (history a0 (h ++ [Calibrated s])) (AOne alpha) = Ok (q, c') /\ fresh a0 alpha s q.
Proof. exact (fun a0 alpha h s V N H => history_uses a0 alpha _ (Some s) V N (uses_latest a0 alpha s h H None)). Qed.
Definition C44_s1 : tree rbatch := one_feature [1].
Definition C44_s2 : tree rbatch := one_feature [2].
Lemma C44_nonempty h : (forall s, In (Calibrated s) h -> s = C44_s1 \/ s = C44_s2) -> nonempty_scores h.
Proof. intros H s Hs. destruct (H s Hs) as [ -> | -> ]; eexists; constructor. Qed.
Example C44_first_request_example : let h := [Calibrated C44_s1; Asked (AOne (1/4))] in
  nonempty_scores (h ++ [Calibrated C44_s2]) /\ (forall a, In (Asked a) h -> ~ In (1/2) (asked (1/10) a)).
Proof.
  split.
  - apply C44_nonempty. intros s. cbn. intuition congruence.
  - intros a [H|[[= <-]|[]]]; [discriminate|]. cbn. intros [H|[]]. lra.
Qed.

(** Which scores are used in general: those current when the level was first
    asked for. *)
Theorem C44_exact : forall a0 alpha h u, valid_alpha alpha -> nonempty_scores h -> uses a0 alpha None h u ->
  match u with
  | None => get_qhat (history a0 h) (AOne alpha) = Err ValueError
  | Some s => exists q c', get_qhat (history a0 h) (AOne alpha) = Ok (q, c') /\ fresh a0 alpha s q
  end.
Proof. exact history_uses. Qed.
Theorem C44_exact_total : forall a0 alpha h, exists u, uses a0 alpha None h u.
Proof. exact (fun a0 alpha h => uses_total a0 alpha h None). Qed.
Example C44_exact_example : uses (1/10) (1/2) None [Calibrated C44_s1; Asked (AOne (1/2)); Calibrated C44_s2] (Some C44_s1).
Proof. constructor. apply uses_asked; [left; reflexivity|]. repeat constructor; lra. Qed.

Definition C44_always : Prop := forall a0 alpha h s q c', valid_alpha alpha -> nonempty_scores (h ++ [Calibrated s]) ->
  get_qhat (history a0 (h ++ [Calibrated s])) (AOne alpha) = Ok (q, c') -> fresh a0 alpha s q.
Theorem C44_refuted : exists a0 alpha h s q c', valid_alpha alpha /\ nonempty_scores (h ++ [Calibrated s]) /\
  get_qhat (history a0 (h ++ [Calibrated s])) (AOne alpha) = Ok (q, c') /\ ~ fresh a0 alpha s q.
Proof.
  assert (V : valid_alpha (1/2)) by (unfold valid_alpha; lra).
  assert (N : nonempty_scores ([Calibrated C44_s1; Asked (AOne (1/2))] ++ [Calibrated C44_s2])) by (apply C44_nonempty; intros s; cbn; intuition congruence).
  destruct (C44_exact (1/10) (1/2) ([Calibrated C44_s1; Asked (AOne (1/2))] ++ [Calibrated C44_s2]) (Some C44_s1) V N C44_exact_example) as (q & c' & E & F).
  exists (1/10), (1/2), [Calibrated C44_s1; Asked (AOne (1/2))], C44_s2, q, c'. split; [exact V|]. split; [exact N|]. split; [exact E|].
  intros F2. apply fresh_single in F; [|exact V]. apply fresh_single in F2; [|exact V]. rewrite F in F2. injection F2 as F2. lra.
Qed.
Theorem C44_always_refuted : ~ C44_always.
Proof. intros H. destruct C44_refuted as (a0 & al & h & s & q & c' & V & N & E & F). exact (F (H a0 al h s q c' V N E)). Qed.

(* ------------------------------------------------------------------ *)
(** * C45: robust normalisation *)
Theorem C45_usable : forall eps x l, rrows x <> [] -> robust_normalization eps x = Finite l ->
  length l = rwidth x /\ forall j, (j < rwidth x)%nat -> eps <= nth j l 0 /\
    exists r r', In r (rrows x) /\ In r' (rrows x) /\ nth j l 0 <= nth j r 0 - nth j r' 0.
Proof. exact robust_usable. Qed.
Theorem C45_infinite : forall eps x, rrows x <> [] ->
  robust_normalization eps x = Infinite (rwidth x) <-> exists j, (j < rwidth x)%nat /\ flat_feature eps x j.
Proof. exact robust_infinite. Qed.
(** There is no third outcome. *)
Theorem C45_cases : forall eps x, rrows x <> [] ->
  robust_normalization eps x = Infinite (rwidth x) \/ exists l, robust_normalization eps x = Finite l.
Proof.
  intros eps x N. pose proof (robust_ok eps x N) as H. destruct (robust_normalization eps x) as [l|n]; [right; eauto|left]. destruct H as [ -> _]. reflexivity.
Qed.
(** One nearly constant feature switches the normalisation off for all. *)
Example C45_example : let x := mk_rbatch 2 [[0; 5]; [100; 5]; [200; 5]] in flat_feature (1/1000) x 1 /\ ~ flat_feature (1/1000) x 0 /\
  robust_normalization (1/1000) x = Infinite 2.
Proof.
  set (x := mk_rbatch 2 [[0; 5]; [100; 5]; [200; 5]]).
  assert (F : flat_feature (1/1000) x 1) by (intros r r' [ <- |[ <- |[ <- |[]]]] [ <- |[ <- |[ <- |[]]]]; cbn; lra).
  split; [exact F|]. split.
  - intros H. specialize (H [200; 5] [0; 5] ltac:(cbn; auto) ltac:(cbn; auto)). cbn in H. lra.
  - apply (proj2 (C45_infinite (1/1000) x ltac:(discriminate))). exists 1%nat. split; [cbn; lia|exact F].
Qed.
Example C45_example_finite : exists l, robust_normalization (1/1000) (mk_rbatch 2 [[0; 5]; [100; 7]; [200; 9]]) = Finite l.
Proof.
  destruct (C45_cases (1/1000) (mk_rbatch 2 [[0; 5]; [100; 7]; [200; 9]]) ltac:(discriminate)) as [H|H]; [|exact H].
  exfalso. apply C45_infinite in H; [|discriminate]. destruct H as (j & Hj & F). cbn in Hj. specialize (F [200; 9] [0; 5] ltac:(cbn; auto) ltac:(cbn; auto)).
  destruct j as [|[|j]]; cbn in F; lra || lia.
Qed.

(* ------------------------------------------------------------------ *)
(** * C46: weighted quantiles *)
Theorem C46_range : forall data weights q, length data = length weights -> data <> [] -> Forall (Rlt 0) weights ->
  exists a b, In a data /\ In b data /\ a <= weighted_quantile data weights q <= b.
Proof. intros data weights q L N _. exact (wq_range data weights q L N). Qed.
Example C46_range_example : length [5; 2; 9] = length [1; 3; 1] /\ [5; 2; 9] <> [] /\ Forall (Rlt 0) [1; 3; 1].
Proof. split; [reflexivity|]. split; [discriminate|]. repeat (constructor; [lra|]). constructor. Qed.
(** With pairwise different weights the order of the samples is irrelevant. *)
Theorem C46_distinct_weights_partial : forall data weights data' weights' q,
  length data = length weights -> length data' = length weights' -> Permutation (combine data weights) (combine data' weights') -> NoDup weights -> Forall (Rlt 0) weights ->
  weighted_quantile data weights q = weighted_quantile data' weights' q.
Proof. intros data weights data' weights' q L L' P N _. exact (wq_distinct data weights data' weights' q L L' P N). Qed.
Example C46_distinct_weights_example : Permutation (combine [5; 2] [1; 3]) (combine [2; 5] [3; 1]) /\ NoDup [1; 3] /\ Forall (Rlt 0) [1; 3].
Proof. split; [apply perm_swap|]. split; [constructor; [intros [H|[]]; lra|]; constructor; [intros []|constructor]|]. repeat (constructor; [lra|]). constructor. Qed.
(** With equal weights it matters. *)
Definition C46_always : Prop := forall data data' w q, 0 < w -> 0 <= q <= 1 -> Permutation data data' ->
  weighted_quantile data (map (fun _ => w) data) q = weighted_quantile data' (map (fun _ => w) data') q.
Lemma C46_two : forall a b, weighted_quantile [a; b] [1; 1] (1/2) = a.
Proof.
  intros a b. unfold weighted_quantile. cbn [combine isort fold_right insert snd]. assert (E : rle 1 1 = true) by (apply rle_spec; lra). rewrite E.
  cbn [map fst snd cumsum_from combine last interp]. assert (E1 : rlt (1/2 * (0 + 1 + 1)) (0 + 1) = false) by (unfold rlt; destruct (Rlt_dec _ _); [lra|reflexivity]). rewrite E1.
  cbn [interp_from]. assert (E2 : rlt (1/2 * (0 + 1 + 1)) (0 + 1 + 1) = true) by (apply rlt_spec; lra). rewrite E2. lra.
Qed.
Theorem C46_refuted : exists data data' w q, 0 < w /\ 0 <= q <= 1 /\ Permutation data data' /\
  weighted_quantile data (map (fun _ => w) data) q <> weighted_quantile data' (map (fun _ => w) data') q.
Proof.
  exists [0; 10], [10; 0], 1, (1/2). split; [lra|]. split; [lra|]. split; [apply perm_swap|]. cbn [map]. rewrite !C46_two. lra.
Qed.
Theorem C46_always_refuted : ~ C46_always.
Proof. intros H. destruct C46_refuted as (d & d' & w & q & A & B & C & F). exact (F (H d d' w q A B C)). Qed.
(** Arrays of two or more dimensions, the only ones it is called with, are
    rejected. *)
Theorem C46_matrices_rejected : forall ndim data weights q, ndim <> 1%nat -> weighted_quantile_nd ndim data weights q = Err ValueError.
Proof. intros [|[|n]] d w q H; try reflexivity. contradiction. Qed.

Print Assumptions C42_coverage_partial.
Print Assumptions C42_condition.
Print Assumptions C42_always_refuted.
Print Assumptions C42_features.
Print Assumptions C42_rank.
Print Assumptions C42_order.
Print Assumptions C43_inside.
Print Assumptions C43_normalised.
Print Assumptions C43_nested.
Print Assumptions C43_rejected.
Print Assumptions C44_first_request_partial.
Print Assumptions C44_exact.
Print Assumptions C44_exact_total.
Print Assumptions C44_always_refuted.
Print Assumptions C45_usable.
Print Assumptions C45_infinite.
Print Assumptions C45_cases.
Print Assumptions C46_range.
Print Assumptions C46_distinct_weights_partial.
Print Assumptions C46_always_refuted.
Print Assumptions C46_matrices_rejected.
