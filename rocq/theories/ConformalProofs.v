From Coq Require Import Reals ZArith Lra Lia Permutation Sorted.
From Verif Require Import Base BaseLemmas TreeUtil TreeSpec NonSeqSpec NonSeqProofs TrainArgsProofs Serial SerialSpec SerialProofs Scaler ScalerProofs ScalerStats OneHot OneHotProofs Conformal ConformalSpec.
Local Open Scope R_scope.
Local Open Scope list_scope.

Lemma rle_spec a b : rle a b = true <-> a <= b.
Proof. unfold rle. destruct (Rle_dec a b); split; intros; auto; try discriminate; contradiction. Qed.
Lemma rlt_spec a b : rlt a b = true <-> a < b.
Proof. unfold rlt. destruct (Rlt_dec a b); split; intros; auto; try discriminate; contradiction. Qed.
Lemma req_spec a b : req a b = true <-> a = b.
Proof. unfold req. destruct (Req_EM_T a b); split; intros; auto; try discriminate; contradiction. Qed.
Lemma rle_total a b : rle a b = true \/ rle b a = true.
Proof. rewrite !rle_spec. lra. Qed.
Lemma rle_trans a b c : rle a b = true -> rle b c = true -> rle a c = true.
Proof. rewrite !rle_spec. lra. Qed.

Lemma floor_bound x : IZR (floor x) <= x < IZR (floor x) + 1.
Proof. unfold floor. pose proof (base_Int_part x). lra. Qed.
Lemma ceil_bound x : IZR (ceil x) - 1 < x <= IZR (ceil x).
Proof. unfold ceil. rewrite opp_IZR. pose proof (base_Int_part (- x)). lra. Qed.
Lemma floor_unique x z : IZR z <= x < IZR z + 1 -> floor x = z.
Proof.
  intros H. pose proof (floor_bound x). assert (floor x < z + 1)%Z by (apply lt_IZR; rewrite plus_IZR; lra).
  assert (z < floor x + 1)%Z by (apply lt_IZR; rewrite plus_IZR; lra). lia.
Qed.
Lemma floor_mono x y : x <= y -> (floor x <= floor y)%Z.
Proof. intros H. pose proof (floor_bound x). pose proof (floor_bound y). assert (floor x < floor y + 1)%Z by (apply lt_IZR; rewrite plus_IZR; lra). lia. Qed.
Lemma ceil_mono x y : x <= y -> (ceil x <= ceil y)%Z.
Proof. intros H. pose proof (ceil_bound x). pose proof (ceil_bound y). assert (ceil x - 1 < ceil y)%Z by (apply lt_IZR; rewrite minus_IZR; lra). lia. Qed.
Lemma ceil_floor x : x = IZR (floor x) \/ ceil x = (floor x + 1)%Z.
Proof.
  pose proof (floor_bound x) as F. pose proof (ceil_bound x) as C. destruct (Req_dec x (IZR (floor x))); [auto|]. right.
  assert (floor x < ceil x)%Z by (apply lt_IZR; lra). assert (ceil x < floor x + 2)%Z by (apply lt_IZR; rewrite plus_IZR; lra). lia.
Qed.

(** Positions in a sorted list. *)
Definition sortedR := StronglySorted (fun a b => rle a b = true).
Lemma at_clamped_mono a y z : sortedR a -> (y <= z)%Z -> at_clamped a y <= at_clamped a z.
Proof.
  intros S H. unfold at_clamped. destruct a as [|x a]; [destruct (Z.to_nat _), (Z.to_nat _); cbn; lra|]. set (l := x :: a) in *.
  assert (0 < length l)%nat by (cbn; lia).
  apply rle_spec. apply (sorted_nth (fun a b => rle a b = true)); auto.
  - intros v. apply rle_spec. lra.
  - lia.
  - lia.
Qed.
Definition seg (a : list R) (t : R) : R := let lo := floor t in at_clamped a lo + (t - IZR lo) * (at_clamped a (lo + 1) - at_clamped a lo).
Lemma at_position_seg a t : at_position a t = seg a t.
Proof.
  unfold at_position, seg. destruct (ceil_floor t) as [E|E].
  - rewrite <- E. ring.
  - rewrite E. ring.
Qed.
Lemma seg_between a t : sortedR a -> at_clamped a (floor t) <= seg a t <= at_clamped a (floor t + 1).
Proof.
  intros S. unfold seg. pose proof (floor_bound t). pose proof (at_clamped_mono a (floor t) (floor t + 1) S ltac:(lia)).
  set (p := at_clamped a (floor t)) in *. set (q := at_clamped a (floor t + 1)) in *. set (w := t - IZR (floor t)). assert (0 <= w < 1) by (unfold w; lra).
  assert (0 <= w * (q - p)) by (apply Rmult_le_pos; lra). assert (w * (q - p) <= 1 * (q - p)) by (apply Rmult_le_compat_r; lra). lra.
Qed.
Lemma seg_mono a t t' : sortedR a -> t <= t' -> seg a t <= seg a t'.
Proof.
  intros S H. pose proof (floor_mono t t' H). destruct (Z.eq_dec (floor t) (floor t')) as [E|E].
  - unfold seg. rewrite E. pose proof (at_clamped_mono a (floor t') (floor t' + 1) S ltac:(lia)).
    apply Rplus_le_compat_l. apply Rmult_le_compat_r; lra.
  - pose proof (seg_between a t S). pose proof (seg_between a t' S). pose proof (at_clamped_mono a (floor t + 1) (floor t') S ltac:(lia)). lra.
Qed.
Lemma seg_int a z : seg a (IZR z) = at_clamped a z.
Proof. unfold seg. rewrite (floor_unique (IZR z) z) by lra. ring. Qed.

Lemma sorted_isort l : sortedR (isort rle l).
Proof. apply isort_sorted; [exact rle_total|exact rle_trans]. Qed.
Lemma isort_length {A} (le : A -> A -> bool) l : length (isort le l) = length l.
Proof. symmetry. apply Permutation_length, isort_perm. Qed.

Lemma len1 {A} (l : list A) : l <> [] -> 1 <= INR (length l).
Proof. destruct l; [congruence|]. intros _. change 1 with (INR 1). apply le_INR. cbn. lia. Qed.

Lemma quantile_mono l p q : l <> [] -> p <= q -> quantile l p <= quantile l q.
Proof.
  intros N H. unfold quantile. rewrite !at_position_seg. apply seg_mono; [apply sorted_isort|]. pose proof (len1 l N). apply Rmult_le_compat_r; lra.
Qed.
Lemma at_clamped_in a z : a <> [] -> In (at_clamped a z) a.
Proof. intros N. unfold at_clamped. apply nth_In. destruct a; [congruence|]. cbn [length]. lia. Qed.
Lemma quantile_bounds l q lo hi : l <> [] -> (forall x, In x l -> lo <= x <= hi) -> lo <= quantile l q <= hi.
Proof.
  intros N H. unfold quantile. rewrite at_position_seg. set (a := isort rle l). set (t := q * _).
  assert (G : forall z, lo <= at_clamped a z <= hi).
  { intros z. apply H. apply (Permutation_in _ (Permutation_sym (isort_perm rle l))). apply at_clamped_in. intros E. apply N.
    apply length_zero_iff_nil. rewrite <- (isort_length rle l). rewrite E. reflexivity. }
  pose proof (seg_between a t (sorted_isort l)). pose proof (G (floor t)). pose proof (G (floor t + 1)%Z). lra.
Qed.
Lemma sort_perm_eq l m : Permutation l m -> isort rle l = isort rle m.
Proof.
  intros P. assert (Q : Permutation (isort rle l) (isort rle m)) by (eapply perm_trans; [symmetry; apply isort_perm|]; eapply perm_trans; [exact P|apply isort_perm]).
  pose proof (sorted_isort l) as A. pose proof (sorted_isort m) as B. revert A B Q. generalize (isort rle l) as u, (isort rle m) as v. clear.
  induction u as [|x l IH]; intros [|y m] A B Q.
  - reflexivity.
  - apply Permutation_nil in Q. discriminate.
  - apply Permutation_sym, Permutation_nil in Q. discriminate.
  - inversion A as [|? ? A1 A2]; subst. inversion B as [|? ? B1 B2]; subst. rewrite Forall_forall in A2, B2.
    assert (x = y).
    { assert (x <= y). { assert (In y (x :: l)) as [ -> |Hy] by (eapply Permutation_in; [symmetry; exact Q|left; reflexivity]); [lra|]. apply rle_spec. auto. }
      assert (y <= x). { assert (In x (y :: m)) as [ -> |Hx] by (eapply Permutation_in; [exact Q|left; reflexivity]); [lra|]. apply rle_spec. auto. } lra. }
    subst y. f_equal. apply IH; auto. eapply Permutation_cons_inv. exact Q.
Qed.
Lemma quantile_perm l m q : Permutation l m -> quantile l q = quantile m q.
Proof. intros P. unfold quantile. rewrite (sort_perm_eq l m P), (Permutation_length P). reflexivity. Qed.

(* ------------------------------------------------------------------ *)
(** * Order statistics and coverage *)
Definition below (t : R) (l : list R) : nat := length (filter (fun x => rlt x t) l).
Definition upto (t : R) (l : list R) : nat := length (filter (fun x => rle x t) l).
Lemma filter_perm {A} (f : A -> bool) l m : Permutation l m -> length (filter f l) = length (filter f m).
Proof. induction 1; cbn; auto; try (destruct (f x); cbn; congruence); [|congruence]. destruct (f x), (f y); reflexivity. Qed.
Lemma filter_all {A} (f : A -> bool) l : (forall x, In x l -> f x = true) -> filter f l = l.
Proof. induction l as [|x l IH]; cbn; intros H; [reflexivity|]. rewrite (H x) by auto. rewrite IH; auto. Qed.
Lemma filter_none {A} (f : A -> bool) l : (forall x, In x l -> f x = false) -> filter f l = [].
Proof. induction l as [|x l IH]; cbn; intros H; [reflexivity|]. rewrite (H x) by auto. apply IH; auto. Qed.
Lemma filter_le {A} (f : A -> bool) l : (length (filter f l) <= length l)%nat.
Proof. induction l as [|x l IH]; cbn; [lia|]. destruct (f x); cbn; lia. Qed.

Lemma sorted_below s j : sortedR s -> (j < length s)%nat -> (below (nth j s 0%R) s <= j)%nat.
Proof.
  intros S Hj. unfold below. rewrite <- (firstn_skipn j s) at 1. rewrite filter_app, app_length.
  rewrite (filter_none _ (skipn j s)).
  - pose proof (filter_le (fun x => rlt x (nth j s 0)) (firstn j s)). rewrite firstn_length in *. cbn. lia.
  - intros x Hx. apply (In_nth _ _ 0) in Hx as (i & Hi & <-). rewrite skipn_length in Hi.
    assert (nth j s 0 <= nth i (skipn j s) 0).
    { replace (nth i (skipn j s) 0) with (nth (j + i) s 0).
      - apply rle_spec. apply (sorted_nth (fun a b => rle a b = true)); auto; try lia. intros v. apply rle_spec. lra.
      - clear. revert s. induction j as [|j IH]; intros s; [reflexivity|]. destruct s; cbn; [destruct i; reflexivity|]. apply IH. }
    destruct (rlt _ _) eqn:E; [apply rlt_spec in E; lra|reflexivity].
Qed.
Lemma sorted_upto s j : sortedR s -> (j < length s)%nat -> (S j <= upto (nth j s 0%R) s)%nat.
Proof.
  intros S Hj. unfold upto. rewrite <- (firstn_skipn (Datatypes.S j) s) at 1. rewrite filter_app, app_length.
  rewrite (filter_all _ (firstn (Datatypes.S j) s)); [rewrite firstn_length; lia|].
  intros x Hx. apply (In_nth _ _ 0) in Hx as (i & Hi & <-). rewrite firstn_length in Hi.
  replace (nth i (firstn (Datatypes.S j) s) 0) with (nth i s 0).
  - apply (sorted_nth (fun a b => rle a b = true)); auto; try lia. intros v. apply rle_spec. lra.
  - assert (i < Datatypes.S j)%nat as Hi' by lia. clear - Hi'. revert i Hi' s. generalize (Datatypes.S j). induction n as [|n IH]; intros i Hi s; [lia|].
    destruct s; [destruct i; reflexivity|]. cbn. destruct i; [reflexivity|]. apply IH. lia.
Qed.
Lemma sorted_above s j t : sortedR s -> (j < length s)%nat -> (below t s <= j)%nat -> t <= nth j s 0.
Proof.
  intros S Hj H. destruct (Rle_lt_dec t (nth j s 0)) as [?|Hlt]; [assumption|]. exfalso.
  assert (Datatypes.S j <= below t s)%nat; [|lia].
  pose proof (sorted_upto s j S Hj) as U. unfold upto in U. unfold below.
  assert (G : forall l : list R, (length (filter (fun x => rle x (nth j s 0%R)) l) <= length (filter (fun x => rlt x t) l))%nat).
  { induction l as [|x l IH]; cbn; [lia|]. destruct (rle x (nth j s 0)) eqn:E.
    - apply rle_spec in E. rewrite (proj2 (rlt_spec x t)) by lra. cbn. lia.
    - destruct (rlt x t); cbn; lia. }
  specialize (G s). lia.
Qed.

Lemma others_perm {A} (l : list A) d i : (i < length l)%nat -> Permutation l (nth i l d :: others i l).
Proof.
  revert i. induction l as [|x l IH]; intros i Hi; cbn in Hi; [lia|]. destruct i as [|i].
  - unfold others. cbn. reflexivity.
  - unfold others in *. cbn [firstn skipn app nth]. rewrite perm_swap. apply perm_skip. apply IH. lia.
Qed.
Lemma below_others t l i : (i < length l)%nat -> (below t (others i l) <= below t l)%nat.
Proof.
  intros Hi. unfold below. rewrite (filter_perm _ _ _ (others_perm l 0 i Hi)). cbn. destruct (rlt _ _); cbn; lia.
Qed.
Lemma others_length {A} (l : list A) i : (i < length l)%nat -> length (others i l) = (length l - 1)%nat.
Proof. intros Hi. unfold others. rewrite app_length, firstn_length, skipn_length. lia. Qed.

(** The value reported for one feature. *)
Definition qhat1 (alpha : R) (l : list R) : R := quantile l (level (length l) alpha).

(** At least the k-th smallest score. *)
Lemma qhat1_above alpha l k : (1 <= k <= length l)%nat -> (Z.of_nat k <= ceil ((INR (length l) + 1) * (1 - alpha)))%Z ->
  nth (k - 1) (isort rle l) 0 <= qhat1 alpha l.
Proof.
  intros Hk Hc. set (n := length l) in *. assert (Hn : 1 <= INR n) by (change 1 with (INR 1); apply le_INR; lia).
  unfold qhat1, quantile. rewrite at_position_seg. fold n.
  set (K := ceil ((INR n + 1) * (1 - alpha))) in *.
  assert (HkR : INR k <= INR n) by (apply le_INR; lia). assert (HkR0 : 1 <= INR k) by (change 1 with (INR 1); apply le_INR; lia).
  assert (HK : INR k <= IZR K) by (rewrite INR_IZR_INZ; apply IZR_le; exact Hc).
  assert (IZR (Z.of_nat (k - 1)) <= level n alpha * (INR n - 1)) as Ht.
  { unfold level. fold K. rewrite <- INR_IZR_INZ, minus_INR by lia. change (INR 1) with 1.
    assert (INR k - 1 <= INR k / INR n * (INR n - 1)).
    { assert (E : INR k / INR n * (INR n - 1) = INR k - INR k / INR n) by (field; lra). rewrite E.
      assert (INR k / INR n <= 1); [|lra]. apply (Rmult_le_reg_r (INR n)); [lra|]. unfold Rdiv. rewrite Rmult_assoc, Rinv_l by lra. lra. }
    assert (INR k / INR n * (INR n - 1) <= IZR K / INR n * (INR n - 1)); [|lra].
    apply Rmult_le_compat_r; [lra|]. apply Rmult_le_compat_r; [left; apply Rinv_0_lt_compat; lra|exact HK]. }
  pose proof (seg_mono (isort rle l) _ _ (sorted_isort l) Ht) as M. rewrite seg_int in M.
  eapply Rle_trans; [|exact M]. right. unfold at_clamped. rewrite isort_length. fold n. f_equal. lia.
Qed.

Lemma idx_filter (f : R -> bool) l : length (filter (fun i => f (nth i l 0)) (seq 0 (length l))) = length (filter f l).
Proof.
  assert (E : map (fun i => nth i l 0) (seq 0 (length l)) = l).
  { apply (list_nth_eq 0); rewrite map_length, seq_length; [reflexivity|]. intros j Hj. rewrite (map_nth_lt _ _ 0%nat 0) by (rewrite seq_length; exact Hj). rewrite seq_nth by exact Hj. reflexivity. }
  transitivity (length (filter f (map (fun i => nth i l 0) (seq 0 (length l))))); [|rewrite E; reflexivity].
  generalize (seq 0 (length l)) as s0. induction s0 as [|i s IH]; cbn; [reflexivity|]. destruct (f (nth i l 0)); cbn; rewrite IH; reflexivity.
Qed.

Lemma coverage_ok n alpha l : length l = S n -> (1 <= n)%nat -> 0 < alpha < 1 -> / (INR n + 1) <= alpha ->
  coverage (fun m q => q = qhat1 alpha m) alpha l.
Proof.
  intros Hl Hn Ha Hb. assert (HnR : 1 <= INR n) by (change 1 with (INR 1); apply le_INR; lia).
  set (K := ceil ((INR n + 1) * (1 - alpha))). pose proof (ceil_bound ((INR n + 1) * (1 - alpha))) as Bc. fold K in Bc.
  assert (K1 : (1 <= K)%Z).
  { assert (0 < K)%Z; [|lia]. apply lt_IZR. assert (0 < (INR n + 1) * (1 - alpha)) by (apply Rmult_lt_0_compat; lra). lra. }
  assert (Kn : (K <= Z.of_nat n)%Z).
  { assert (K < Z.of_nat n + 1)%Z; [|lia]. apply lt_IZR. rewrite plus_IZR, <- INR_IZR_INZ.
    assert (1 <= (INR n + 1) * alpha). { assert (E1 : (INR n + 1) * / (INR n + 1) = 1) by (field; lra). pose proof (Rmult_le_compat_l (INR n + 1) _ _ ltac:(lra) Hb). lra. } lra. }
  set (k := Z.to_nat K). assert (Hk : (1 <= k <= n)%nat) by (unfold k; lia).
  set (s := isort rle l). assert (Ls : length s = S n) by (unfold s; rewrite isort_length; exact Hl).
  set (t := nth (k - 1) s 0).
  exists (filter (fun i => rle (nth i l 0) t) (seq 0 (length l))). split; [apply NoDup_filter, seq_NoDup|]. split.
  - intros i Hi. apply filter_In in Hi as [Hi Hle]. apply in_seq in Hi. split; [lia|]. eexists; split; [reflexivity|].
    apply rle_spec in Hle. eapply Rle_trans; [exact Hle|].
    assert (Lo : length (others i l) = n) by (rewrite others_length; lia).
    eapply Rle_trans; [|apply (qhat1_above alpha (others i l) k); [lia|rewrite Lo; fold K; lia]].
    apply sorted_above; [apply sorted_isort|rewrite isort_length; lia|].
    assert (Bs : (below t (isort rle (others i l)) = below t (others i l))%nat) by (apply filter_perm; symmetry; apply isort_perm).
    assert (Bl : (below t s = below t l)%nat) by (apply filter_perm; symmetry; apply isort_perm).
    pose proof (below_others t l i ltac:(lia)). pose proof (sorted_below s (k - 1) (sorted_isort l) ltac:(lia)). fold t in H0. lia.
  - rewrite (idx_filter (fun x => rle x t) l). pose proof (sorted_upto s (k - 1) (sorted_isort l) ltac:(lia)) as U. fold t in U.
    assert (E : upto t s = upto t l) by (apply filter_perm; symmetry; apply isort_perm). unfold upto in E at 2. rewrite <- E.
    apply Rle_trans with (IZR K); [rewrite Hl, S_INR; apply Bc|]. rewrite INR_IZR_INZ. apply IZR_le. unfold k in *. lia.
Qed.

(** For smaller alpha: distinct scores are not covered. *)
Lemma coverage_fails n alpha : (1 <= n)%nat -> 0 < alpha -> alpha < / (INR n + 1) ->
  ~ coverage (fun m q => q = qhat1 alpha m) alpha (map INR (seq 0 (S n))).
Proof.
  intros Hn Ha Hb (I & ND & HI & HL). set (l := map INR (seq 0 (S n))) in *. assert (Ll : length l = S n) by (unfold l; rewrite map_length, seq_length; reflexivity).
  assert (HnR : 1 <= INR n) by (change 1 with (INR 1); apply le_INR; lia).
  assert (Nn : forall i, (i < S n)%nat -> nth i l 0 = INR i).
  { intros i Hi. unfold l. rewrite (map_nth_lt _ _ 0%nat 0) by (rewrite seq_length; exact Hi). rewrite seq_nth by exact Hi. reflexivity. }
  assert (~ In n I) as NI.
  { intros Hin. destruct (HI n Hin) as (_ & q & -> & Hq). rewrite Nn in Hq by lia.
    assert (others n l = map INR (seq 0 n)) as Eo.
    { unfold others. rewrite skipn_all2 by lia. rewrite app_nil_r. unfold l. rewrite seq_S, map_app. rewrite firstn_app, map_length, seq_length.
      rewrite Nat.sub_diag. cbn. rewrite app_nil_r. rewrite firstn_all2; [reflexivity|rewrite map_length, seq_length; lia]. }
    assert (qhat1 alpha (others n l) <= INR n - 1).
    { rewrite Eo. apply (quantile_bounds _ _ 0 (INR n - 1)).
      - intros E. apply (f_equal (@length R)) in E. rewrite map_length, seq_length in E. cbn in E. lia.
      - intros x Hx. apply in_map_iff in Hx as (i & <- & Hi). apply in_seq in Hi. split; [apply pos_INR|].
        assert (INR (S i) <= INR n) by (apply le_INR; lia). rewrite S_INR in H. lra. }
    lra. }
  assert (length I <= n)%nat.
  { replace n with (length (seq 0 n)) by apply seq_length. apply NoDup_incl_length; [exact ND|]. intros i Hi. destruct (HI i Hi) as [H _]. rewrite Ll in H.
    apply in_seq. assert (i <> n) by (intros ->; auto). lia. }
  assert (INR (length I) <= INR n) by (apply le_INR; exact H).
  rewrite Ll, S_INR in HL. assert ((INR n + 1) * alpha < 1).
  { assert (E1 : (INR n + 1) * / (INR n + 1) = 1) by (field; lra). pose proof (Rmult_lt_compat_l (INR n + 1) _ _ ltac:(lra) Hb). lra. }
  lra.
Qed.
(* ==== TREES ==== *)
(* ------------------------------------------------------------------ *)
(** * The reported quantiles *)
Lemma leaves_one n s : uniform n s -> exists x l, leaves s = x :: l /\ length (rrows x) = n.
Proof.
  intros (_ & (x & Hx) & H). apply leaves_has_leaf in Hx. destruct (leaves s) as [|y l] eqn:E; [destruct Hx|].
  exists y, l. split; [reflexivity|]. apply H, leaves_has_leaf. rewrite E. left. reflexivity.
Qed.
Definition qrow (alpha : R) (n : nat) (x : rbatch) : list R := rfeatures (fun l => quantile l (level n alpha)) x.
Lemma compute_ok n s alpha : wf_tree s -> uniform n s ->
  exists q, compute_qhat s alpha = Ok q /\ trel (fun x r => length (rrows x) = n /\ r = qrow alpha n x) s q.
Proof.
  intros W U. destruct (leaves_one n s U) as (x & l & E & Hn). unfold compute_qhat. rewrite E, Hn.
  destruct (jm_trel (fun y => Ok (rfeatures (fun l0 => quantile l0 (level n alpha)) y)) eq (fun y r => length (rrows y) = n /\ r = qrow alpha n y) s) with (u := s) as (v & Ev & T).
  - intros y z Hy <-. eexists; split; [reflexivity|]. split; [apply U; exact Hy|reflexivity].
  - apply trel_refl.
  - exists v. split; assumption.
Qed.
Lemma valid_check a : valid_alpha a <-> (rle a 0 || rle 1 a)%bool = false.
Proof.
  unfold valid_alpha. rewrite orb_false_iff. split.
  - intros H. split; destruct (rle _ _) eqn:E; auto; apply rle_spec in E; lra.
  - intros [H1 H2]. destruct (Rle_lt_dec a 0) as [L|L]; [apply rle_spec in L; congruence|]. destruct (Rle_lt_dec 1 a) as [M|M]; [apply rle_spec in M; congruence|]. lra.
Qed.
Lemma valid_check_all l : Forall valid_alpha l <-> existsb (fun x => rle x 0 || rle 1 x)%bool l = false.
Proof.
  induction l as [|a l IH]; cbn [existsb]; [split; auto|]. rewrite orb_false_iff, <- IH, <- valid_check. split.
  - intros H. inversion H; auto.
  - intros [A B]. constructor; auto.
Qed.
Lemma get_fresh a0 alpha s q : valid_alpha alpha -> compute_qhat s alpha = Ok q ->
  get_qhat (calibrate (conf_new a0) s) (AOne alpha) = Ok (QOne q, mk_conf a0 (Some s) [(alpha, q)]).
Proof.
  intros V E. unfold get_qhat. cbn [alpha_list calibrate conf_new c_alpha c_scores c_qhats].
  rewrite (proj1 (valid_check_all [alpha])) by (constructor; auto). cbn [get_new rget]. rewrite E. reflexivity.
Qed.
Lemma rcol_one l : rcol (mk_rbatch 1 (map (fun x => [x]) l)) 0 = l.
Proof. unfold rcol. cbn [rrows]. rewrite map_map. cbn [nth]. apply map_id. Qed.
Lemma reports_val alpha l : valid_alpha alpha -> reports alpha l (qhat1 alpha l).
Proof.
  intros V. eexists. rewrite (get_fresh alpha alpha (one_feature l) (Leaf [qhat1 alpha l])); [reflexivity|exact V|].
  unfold compute_qhat, one_feature. cbn [leaves jmapM rbind rrows]. rewrite map_length. unfold rfeatures. cbn [rwidth seq map]. rewrite rcol_one. reflexivity.
Qed.
Lemma reports_fun alpha l q : valid_alpha alpha -> reports alpha l q -> q = qhat1 alpha l.
Proof. intros V (c & E). destruct (reports_val alpha l V) as (c2 & E2). congruence. Qed.
Lemma coverage_reports alpha l : valid_alpha alpha -> coverage (reports alpha) alpha l <-> coverage (fun m q => q = qhat1 alpha m) alpha l.
Proof.
  intros V. split; intros (I & ND & HI & HL); exists I; (split; [exact ND|split; [|exact HL]]); intros i Hi; destruct (HI i Hi) as (Hl & q & Hq & Hle); (split; [exact Hl|]).
  - exists q. split; [apply reports_fun; assumption|exact Hle].
  - exists q. split; [subst q; apply reports_val; exact V|exact Hle].
Qed.

Lemma rcol_length x j : length (rcol x j) = length (rrows x).
Proof. apply map_length. Qed.
Lemma qrow_nth alpha n x j : length (rrows x) = n -> (j < rwidth x)%nat -> nth j (qrow alpha n x) 0 = qhat1 alpha (rcol x j).
Proof.
  intros Hn Hj. unfold qrow, rfeatures. rewrite (map_nth_lt _ _ 0%nat 0) by (rewrite seq_length; exact Hj). rewrite seq_nth by exact Hj. unfold qhat1. rewrite rcol_length, Hn. reflexivity.
Qed.
Lemma qrow_length alpha n x : length (qrow alpha n x) = rwidth x.
Proof. unfold qrow, rfeatures. rewrite map_length, seq_length. reflexivity. Qed.

Lemma tree_value n s alpha a0 : wf_tree s -> uniform n s -> valid_alpha alpha ->
  exists q c', get_qhat (calibrate (conf_new a0) s) (AOne alpha) = Ok (QOne q, c') /\
    trel (fun x r => length r = rwidth x /\ forall j, (j < rwidth x)%nat -> reports alpha (rcol x j) (nth j r 0)) s q.
Proof.
  intros W U V. destruct (compute_ok n s alpha W U) as (q & E & T). exists q. eexists. split; [apply get_fresh; assumption|].
  eapply trel_impl; [|exact T]. intros x r [Hn ->]. split; [apply qrow_length|]. intros j Hj. rewrite qrow_nth by auto. apply reports_val. exact V.
Qed.

(** Between which of the sorted scores the reported one lies. *)
Lemma lowest_sorted l k : (1 <= k <= length l)%nat -> lowest_k k l (nth (k - 1) (isort rle l) 0).
Proof.
  intros Hk. set (s := isort rle l). assert (Ls : length s = length l) by apply isort_length. assert (Ps : Permutation l s) by apply isort_perm.
  split; [apply (Permutation_in _ (Permutation_sym Ps)), nth_In; lia|].
  exists (firstn k s), (skipn k s). split; [rewrite firstn_skipn; exact Ps|]. split; [rewrite firstn_length; lia|].
  assert (R0 : forall v, rle v v = true) by (intros v; apply rle_spec; lra).
  assert (F : forall i j (u : list R), (i < j)%nat -> nth i (firstn j u) 0 = nth i u 0).
  { intros i j u. revert i j. induction u as [|x u IH]; intros i j H; [rewrite firstn_nil; reflexivity|]. destruct j; [lia|]. destruct i; [reflexivity|]. cbn. apply IH. lia. }
  assert (G : forall i j (u : list R), nth i (skipn j u) 0 = nth (j + i) u 0).
  { intros i j u. revert j. induction u as [|x u IH]; intros j; destruct j; cbn; auto; destruct i; reflexivity. }
  split; intros x Hx; apply (In_nth _ _ 0) in Hx as (i & Hi & <-); apply rle_spec.
  - rewrite firstn_length in Hi. rewrite F by lia. apply (sorted_nth (fun a b => rle a b = true)); auto; [apply sorted_isort|lia|lia].
  - rewrite skipn_length in Hi. rewrite G. apply (sorted_nth (fun a b => rle a b = true)); auto; [apply sorted_isort|lia|lia].
Qed.
Lemma ceil_unique x z : IZR z - 1 < x <= IZR z -> ceil x = z.
Proof.
  intros H. pose proof (ceil_bound x). assert (ceil x - 1 < z)%Z by (apply lt_IZR; rewrite minus_IZR; lra).
  assert (z - 1 < ceil x)%Z by (apply lt_IZR; rewrite minus_IZR; lra). lia.
Qed.
Lemma qhat1_below alpha l k : (1 <= k < length l)%nat -> ceil ((INR (length l) + 1) * (1 - alpha)) = Z.of_nat k ->
  qhat1 alpha l <= nth k (isort rle l) 0.
Proof.
  intros Hk Hc. set (n := length l) in *. assert (HkR0 : 1 <= INR k) by (change 1 with (INR 1); apply le_INR; lia).
  assert (HkR : INR k < INR n) by (apply lt_INR; lia).
  unfold qhat1, quantile. rewrite at_position_seg. fold n. unfold level. rewrite Hc, <- INR_IZR_INZ.
  assert (Ht : INR k / INR n * (INR n - 1) <= IZR (Z.of_nat k)).
  { rewrite <- INR_IZR_INZ. replace (INR k / INR n * (INR n - 1)) with (INR k - INR k / INR n) by (field; lra).
    assert (0 < INR k / INR n) by (apply Rdiv_lt_0_compat; lra). lra. }
  pose proof (seg_mono (isort rle l) _ _ (sorted_isort l) Ht) as M. rewrite seg_int in M. eapply Rle_trans; [exact M|]. right.
  unfold at_clamped. rewrite isort_length. fold n. f_equal. lia.
Qed.
Lemma reported_rank alpha l k q : valid_alpha alpha -> reports alpha l q -> (1 <= k <= length l)%nat ->
  INR k - 1 < (INR (length l) + 1) * (1 - alpha) <= INR k ->
  (exists v, lowest_k k l v /\ v <= q) /\ ((k < length l)%nat -> exists v, lowest_k (S k) l v /\ q <= v).
Proof.
  intros V Hq Hk Hc. apply reports_fun in Hq; [|exact V]. subst q. rewrite INR_IZR_INZ in Hc at 1. rewrite (INR_IZR_INZ k) in Hc. apply ceil_unique in Hc.
  split.
  - exists (nth (k - 1) (isort rle l) 0). split; [apply lowest_sorted; lia|]. apply qhat1_above; lia.
  - intros Hlt. exists (nth k (isort rle l) 0). split; [|apply qhat1_below; [lia|exact Hc]].
    replace k with (S k - 1)%nat at 2 by lia. apply lowest_sorted. lia.
Qed.
Lemma reported_order alpha l m q : valid_alpha alpha -> Permutation l m -> reports alpha l q -> reports alpha m q.
Proof.
  intros V P Hq. apply reports_fun in Hq; [|exact V]. subst q. replace (qhat1 alpha l) with (qhat1 alpha m); [apply reports_val; exact V|].
  unfold qhat1. rewrite (Permutation_length P). symmetry. apply quantile_perm. exact P.
Qed.
Lemma reported_mono alpha alpha' l q q' : valid_alpha alpha -> valid_alpha alpha' -> l <> [] -> alpha <= alpha' ->
  reports alpha l q -> reports alpha' l q' -> q' <= q.
Proof.
  intros V V' N H Hq Hq'. apply reports_fun in Hq; [|exact V]. apply reports_fun in Hq'; [|exact V']. subst. apply quantile_mono; [exact N|].
  pose proof (len1 l N). unfold level. apply Rmult_le_compat_r; [left; apply Rinv_0_lt_compat; lra|]. apply IZR_le, ceil_mono. apply Rmult_le_compat_l; lra.
Qed.

(* ------------------------------------------------------------------ *)
(** * Intervals *)
Definition bound_val (sign alpha : R) (n : nat) (p : point) : rbatch :=
  mk_rbatch (rwidth (p_center p)) (map (fun q => zip3r (fun a b c => a + sign * (c * b)) (fst q) (snd q) (qrow alpha n (p_scores p))) (combine (rrows (p_center p)) (rrows (p_scale p)))).
Lemma bounds_leaf_ok sign alpha n m p : aligned n m p ->
  bounds_leaf sign (p_center p) (p_scale p) (qrow alpha n (p_scores p)) = Ok (bound_val sign alpha n p).
Proof.
  intros (w & (A1 & A2 & A3) & (B1 & B2 & B3) & (C1 & C2 & C3)). unfold bounds_leaf. rewrite qrow_length, A1, B1, C1, B2, C2, !Nat.eqb_refl. cbn [andb]. unfold bound_val. rewrite B1. reflexivity.
Qed.
Lemma zip3r_nth f : forall l m n j, length m = length l -> length n = length l -> (j < length l)%nat ->
  nth j (zip3r f l m n) 0 = f (nth j l 0) (nth j m 0) (nth j n 0).
Proof.
  induction l as [|x l IH]; intros [|y m] [|z n] [|j] H1 H2 Hj; cbn in *; try lia; auto. apply IH; lia.
Qed.
Lemma combine_nth_lt {A B} (l : list A) (m : list B) i da db : length l = length m -> nth i (combine l m) (da, db) = (nth i l da, nth i m db).
Proof. intros H. apply combine_nth. exact H. Qed.
Lemma bound_entry sign alpha n m p i j : aligned n m p -> cell (p_center p) i j ->
  entry (bound_val sign alpha n p) i j = entry (p_center p) i j + sign * (qhat1 alpha (rcol (p_scores p) j) * entry (p_scale p) i j).
Proof.
  intros (w & (A1 & A2 & A3) & (B1 & B2 & B3) & (C1 & C2 & C3)) [Hi Hj]. unfold entry, bound_val. cbn [rrows].
  rewrite (map_nth_lt _ _ ([], []) []) by (rewrite combine_length; lia). rewrite combine_nth_lt by lia. cbn [fst snd].
  assert (Li : length (nth i (rrows (p_center p)) []) = w) by (apply B3, nth_In; lia).
  assert (Lu : length (nth i (rrows (p_scale p)) []) = w) by (apply C3, nth_In; lia).
  rewrite zip3r_nth; [|lia|rewrite qrow_length; lia|lia]. rewrite qrow_nth by lia. reflexivity.
Qed.
Lemma bound_encloses alpha n m p : valid_alpha alpha -> aligned n m p ->
  encloses alpha p (bound_val (-1) alpha n p) (bound_val 1 alpha n p).
Proof.
  intros V A. pose proof A as (w & (A1 & A2 & A3) & (B1 & B2 & B3) & (C1 & C2 & C3)).
  unfold encloses. split; [reflexivity|split; [reflexivity|]]. cbn [bound_val rrows]. rewrite !map_length, !combine_length, B2, C2, Nat.min_id.
  split; [reflexivity|split; [reflexivity|]]. intros i j Hc. exists (qhat1 alpha (rcol (p_scores p) j)). split; [apply reports_val; exact V|].
  fold (bound_val (-1) alpha n p). fold (bound_val 1 alpha n p).
  intros v. rewrite !(bound_entry _ alpha n m p i j A Hc). set (c := entry (p_center p) i j). set (d := _ * entry (p_scale p) i j). split; intros H.
  - apply Rabs_le. lra.
  - unfold Rabs in H; destruct (Rcase_abs (v - c)); lra.
Qed.

Lemma compute_root alpha n T s : uniform n s -> trel (fun p x => p_scores p = x) T s ->
  exists q, compute_qhat s alpha = Ok q /\ trel (fun p r => r = qrow alpha n (p_scores p)) T q.
Proof.
  intros U Ts. destruct (leaves_one n s U) as (x & l & E & Hn). unfold compute_qhat. rewrite E, Hn.
  apply (jm_trel _ (fun p x => p_scores p = x)); [|exact Ts]. intros p y _ <-. eexists; split; reflexivity.
Qed.
Lemma bounds_ok sign alpha n m T Y U q : wf_tree T -> trel (fun p x => p_center p = x) T Y -> trel (fun p x => p_scale p = x) T U ->
  (forall p, has_leaf T p -> aligned n m p) -> trel (fun p r => r = qrow alpha n (p_scores p)) T q ->
  exists b, bounds sign Y U q = Ok b /\ trel (fun p x => x = bound_val sign alpha n p) T b.
Proof.
  intros W TY TU Al Tq. unfold bounds.
  destruct (jzip3 (fun (c : list R) (b : rbatch) => Ok (b, c)) (fun p r => r = qrow alpha n (p_scores p)) (fun p x => p_scale p = x)
              (fun p x => x = (p_scale p, qrow alpha n (p_scores p))) T W) with (u := q) (p := U) as (v & E & Tv); auto.
  { intros p y z _ -> <-. eexists; split; reflexivity. }
  rewrite E. cbn [rbind].
  apply (jzip3 _ (fun p x => p_center p = x) (fun p x => x = (p_scale p, qrow alpha n (p_scores p))) _ T W); auto.
  intros p y z Hp <- ->. eexists. split; [apply (bounds_leaf_ok sign alpha n m); auto|reflexivity].
Qed.
Lemma call_ok a0 alpha n m T s Y U : wf_tree T -> views T s Y U -> uniform n s -> valid_alpha alpha ->
  (forall p, has_leaf T p -> aligned n m p) ->
  exists lo hi c', conf_call (calibrate (conf_new a0) s) (AOne alpha) true Y U = Ok (IOne lo hi, c') /\
    trel (fun p x => x = bound_val (-1) alpha n p) T lo /\ trel (fun p x => x = bound_val 1 alpha n p) T hi.
Proof.
  intros W (Ts & TY & TU) Un V Al. destruct (compute_root alpha n T s Un Ts) as (q & E & Tq).
  destruct (bounds_ok (-1) alpha n m T Y U q W TY TU Al Tq) as (lo & Elo & Tlo). destruct (bounds_ok 1 alpha n m T Y U q W TY TU Al Tq) as (hi & Ehi & Thi).
  exists lo, hi. eexists. split; [|split; assumption]. unfold conf_call. cbn [alpha_list]. rewrite (proj1 (valid_check_all [alpha])) by (constructor; auto). change (c_scores (calibrate (conf_new a0) s)) with (Some s). cbn [negb].
  assert (G : get_qhat (calibrate (conf_new a0) s) (AMany [alpha]) = Ok (QOne q, mk_conf a0 (Some s) [(alpha, q)])) by exact (get_fresh a0 alpha s q V E).
  rewrite G. cbn [rbind fst snd]. unfold both. rewrite Elo. cbn [rbind]. rewrite Ehi. reflexivity.
Qed.

Lemma call_encloses a0 alpha n m T s Y U : wf_tree T -> views T s Y U -> uniform n s -> valid_alpha alpha ->
  (forall p, has_leaf T p -> aligned n m p) ->
  exists lo hi c' lower upper, conf_call (calibrate (conf_new a0) s) (AOne alpha) true Y U = Ok (IOne lo hi, c') /\
    trel (fun p x => x = lower p) T lo /\ trel (fun p x => x = upper p) T hi /\
    forall p, has_leaf T p -> encloses alpha p (lower p) (upper p).
Proof.
  intros W Vw Un V Al. destruct (call_ok a0 alpha n m T s Y U W Vw Un V Al) as (lo & hi & c' & E & T1 & T2).
  exists lo, hi, c', (bound_val (-1) alpha n), (bound_val 1 alpha n). split; [exact E|]. split; [exact T1|]. split; [exact T2|].
  intros p Hp. apply (bound_encloses alpha n m); auto.
Qed.
Lemma call_nested a0 alpha alpha' n m T s Y U : wf_tree T -> views T s Y U -> uniform n s -> valid_alpha alpha -> valid_alpha alpha' -> alpha <= alpha' ->
  (forall p, has_leaf T p -> aligned n m p /\ forall i j, cell (p_scale p) i j -> 0 <= entry (p_scale p) i j) ->
  exists lo hi lo' hi' c c' lower upper lower' upper',
    conf_call (calibrate (conf_new a0) s) (AOne alpha) true Y U = Ok (IOne lo hi, c) /\
    conf_call (calibrate (conf_new a0) s) (AOne alpha') true Y U = Ok (IOne lo' hi', c') /\
    trel (fun p x => x = lower p) T lo /\ trel (fun p x => x = upper p) T hi /\
    trel (fun p x => x = lower' p) T lo' /\ trel (fun p x => x = upper' p) T hi' /\
    forall p, has_leaf T p -> forall i j, cell (p_center p) i j ->
      entry (lower p) i j <= entry (lower' p) i j /\ entry (upper' p) i j <= entry (upper p) i j.
Proof.
  intros W Vw Un V V' Ha Al.
  destruct (call_ok a0 alpha n m T s Y U W Vw Un V ltac:(intros; apply Al; auto)) as (lo & hi & c & E & T1 & T2).
  destruct (call_ok a0 alpha' n m T s Y U W Vw Un V' ltac:(intros; apply Al; auto)) as (lo' & hi' & c' & E' & T1' & T2').
  exists lo, hi, lo', hi', c, c', (bound_val (-1) alpha n), (bound_val 1 alpha n), (bound_val (-1) alpha' n), (bound_val 1 alpha' n).
  split; [exact E|]. split; [exact E'|]. split; [exact T1|]. split; [exact T2|]. split; [exact T1'|]. split; [exact T2'|].
  intros p Hp i j Hc. destruct (Al p Hp) as [A Hpos]. rewrite !(bound_entry _ _ n m p i j A Hc).
  assert (Hu : 0 <= entry (p_scale p) i j).
  { apply Hpos. destruct A as (w & A1 & (B1 & B2 & _) & (C1 & C2 & _)). destruct Hc. split; [rewrite C2, <- B2|rewrite C1, <- B1]; assumption. }
  assert (Hq : qhat1 alpha' (rcol (p_scores p) j) <= qhat1 alpha (rcol (p_scores p) j)).
  { apply (reported_mono alpha alpha' (rcol (p_scores p) j)); auto; try (apply reports_val; assumption).
    intros E0. apply (f_equal (@length R)) in E0. rewrite rcol_length in E0. destruct A as (w & (A1 & A2 & _) & _). destruct Un as [Un _]. cbn in E0. lia. }
  pose proof (Rmult_le_compat_r _ _ _ Hu Hq). lra.
Qed.
Lemma call_rejects c a Y U ok : (~ Forall valid_alpha (alpha_list c a) \/ c_scores c = None) -> conf_call c a ok Y U = Err ValueError /\ get_qhat c a = Err ValueError.
Proof.
  intros H. unfold conf_call, get_qhat. destruct (existsb _ _) eqn:E; [auto|]. apply valid_check_all in E. destruct H as [H|H]; [contradiction|].
  rewrite H. destruct ok; auto.
Qed.

(* ------------------------------------------------------------------ *)
(** * Histories *)
Lemma rget_app {A} (d e : list (R * A)) a : rget (d ++ e) a = match rget d a with Some v => Some v | None => rget e a end.
Proof. induction d as [|[b v] d IH]; cbn; [reflexivity|]. destruct (req a b); auto. Qed.
Lemma compute_leaf s alpha : (exists x, has_leaf s x) -> exists q, compute_qhat s alpha = Ok q.
Proof.
  intros (x & Hx). apply leaves_has_leaf in Hx. unfold compute_qhat. destruct (leaves s) as [|y l]; [destruct Hx|].
  destruct (jm_trel (fun y0 => Ok (rfeatures (fun l0 => quantile l0 (level (length (rrows y)) alpha)) y0)) eq (fun _ _ => True) s) with (u := s) as (v & E & _).
  - intros. eexists. split; [reflexivity|exact I].
  - apply trel_refl.
  - eauto.
Qed.
Lemma get_new_ok s old : (exists x, has_leaf s x) -> forall l, exists r, get_new s old l = Ok r /\
  forall a, (In a l -> rget old a = None -> exists q, compute_qhat s a = Ok q /\ rget (snd r) a = Some q) /\ (~ In a l \/ rget old a <> None -> rget (snd r) a = None).
Proof.
  intros Hs. induction l as [|b l (r & E & H)]; cbn [get_new].
  - eexists; split; [reflexivity|]. intros a. split; [intros []|reflexivity].
  - destruct (rget old b) as [q|] eqn:Eb.
    + rewrite E. cbn [rbind]. eexists; split; [reflexivity|]. cbn [snd]. intros a. destruct (H a) as [H1 H2]. split.
      * intros [ -> |Hin] Hn; [congruence|auto].
      * intros [Hn|Hn]; apply H2; [left; intros Hi; apply Hn; right; exact Hi|right; exact Hn].
    + destruct (compute_leaf s b Hs) as (q & Eq). rewrite Eq, E. cbn [rbind]. eexists; split; [reflexivity|]. cbn [snd rget]. intros a. destruct (H a) as [H1 H2].
      destruct (req a b) eqn:Eab.
      * apply req_spec in Eab. subst b. split; [intros _ _; exists q; auto|]. intros [Hn|Hn]; [exfalso; apply Hn; left; reflexivity|congruence].
      * assert (a <> b) by (intros ->; rewrite (proj2 (req_spec b b) eq_refl) in Eab; discriminate). split.
        -- intros [ -> |Hin] Hn; [contradiction|auto].
        -- intros [Hn|Hn]; apply H2; [left; intros Hi; apply Hn; right; exact Hi|right; exact Hn].
Qed.
(** The state after a history: the current scores and, per alpha, the cached
    quantile. *)
Definition state_is (a0 alpha : R) (cur : option (tree rbatch)) (cached : option (tree (list R))) (c : conf) : Prop :=
  c_alpha c = a0 /\ c_scores c = cur /\ rget (c_qhats c) alpha = cached.
Lemma one_query a0 alpha cur cached c : valid_alpha alpha -> state_is a0 alpha cur cached c -> (forall s, cur = Some s -> exists x, has_leaf s x) ->
  match cur with
  | None => get_qhat c (AOne alpha) = Err ValueError
  | Some s => exists q c', get_qhat c (AOne alpha) = Ok (QOne q, c') /\ match cached with Some q' => q = q' | None => compute_qhat s alpha = Ok q end
  end.
Proof.
  intros V (E1 & E2 & E3) Hs. unfold get_qhat. cbn [alpha_list]. rewrite (proj1 (valid_check_all [alpha])) by (constructor; auto). rewrite E2.
  destruct cur as [s|]; [|reflexivity]. cbn [get_new]. rewrite E3. destruct cached as [q|].
  - cbn [rbind]. eexists _, _. split; reflexivity.
  - destruct (compute_leaf s alpha (Hs s eq_refl)) as (q & E). rewrite E. cbn [rbind]. eexists _, _. split; reflexivity.
Qed.
Lemma ask_step a0 alpha s cached c a : Forall valid_alpha (asked a0 a) -> (exists x, has_leaf s x) -> state_is a0 alpha (Some s) cached c ->
  exists q, (In alpha (asked a0 a) -> cached = None -> compute_qhat s alpha = Ok q) /\
  state_is a0 alpha (Some s) (match cached with Some v => Some v | None => if in_dec Req_EM_T alpha (asked a0 a) then Some q else None end) (step c (Asked a)).
Proof.
  intros V Hs (E1 & E2 & E3). cbn [step]. unfold get_qhat.
  assert (El : alpha_list c a = asked a0 a) by (unfold alpha_list, asked; rewrite E1; reflexivity).
  rewrite El, (proj1 (valid_check_all _) V), E2. destruct (get_new_ok s (c_qhats c) Hs (asked a0 a)) as (r & Er & Hr). rewrite Er. cbn [rbind].
  destruct (Hr alpha) as [H1 H2]. destruct (compute_leaf s alpha Hs) as (q & Eq). exists q. split; [auto|]. split; [exact E1|]. split; [reflexivity|].
  cbn [c_qhats]. rewrite rget_app. destruct cached as [v|].
  - rewrite H2 by (right; congruence). exact E3.
  - destruct (in_dec _ _ _) as [Hin|Hn].
    + destruct (H1 Hin E3) as (q2 & Eq2 & ->). congruence.
    + rewrite H2 by auto. exact E3.
Qed.
Lemma ask_fail a0 alpha cur cached c a : (~ Forall valid_alpha (asked a0 a) \/ cur = None) -> state_is a0 alpha cur cached c -> step c (Asked a) = c.
Proof.
  intros H (E1 & E2 & E3). cbn [step]. assert (El : alpha_list c a = asked a0 a) by (unfold alpha_list, asked; rewrite E1; reflexivity).
  destruct (call_rejects c a NoneT NoneT true) as [_ ->]; [|reflexivity]. rewrite El, E2. exact H.
Qed.
(** Once cached, always the cached value. *)
Lemma cached_stays a0 alpha q h : nonempty_scores h -> forall cur c, (forall s, cur = Some s -> exists x, has_leaf s x) -> cur <> None ->
  state_is a0 alpha cur (Some q) c -> exists cur', cur' <> None /\ (forall s, cur' = Some s -> exists x, has_leaf s x) /\ state_is a0 alpha cur' (Some q) (fold_left step h c).
Proof.
  induction h as [|e h IH]; intros Hh cur c Hc Hn S; [exists cur; auto|]. cbn [fold_left].
  assert (Hh' : nonempty_scores h) by (intros s Hs; apply Hh; right; exact Hs).
  destruct e as [s|a].
  - apply (IH Hh' (Some s)); [intros ? [= <-]; apply Hh; left; reflexivity|discriminate|]. destruct S as (E1 & E2 & E3). split; [exact E1|split; [reflexivity|exact E3]].
  - apply (IH Hh' cur); auto. destruct cur as [s|]; [|congruence].
    destruct (existsb (fun x => rle x 0 || rle 1 x)%bool (asked a0 a)) eqn:V.
    + rewrite (ask_fail a0 alpha (Some s) (Some q)); auto. left. rewrite valid_check_all. congruence.
    + apply valid_check_all in V. destruct (ask_step a0 alpha s (Some q) c a V (Hc s eq_refl) S) as (q' & _ & S'). exact S'.
Qed.
Lemma uses_state a0 alpha cur h u : valid_alpha alpha -> uses a0 alpha cur h u -> nonempty_scores h -> (forall s, cur = Some s -> exists x, has_leaf s x) ->
  forall c, state_is a0 alpha cur None c ->
  match u with
  | None => get_qhat (fold_left step h c) (AOne alpha) = Err ValueError
  | Some s => exists q c', get_qhat (fold_left step h c) (AOne alpha) = Ok (QOne q, c') /\ compute_qhat s alpha = Ok q
  end.
Proof.
  intros V. induction 1 as [cur|cur s h r Hu IH|s a h Hin Hv|cur a h r Hno Hu IH]; intros Hh Hc c S.
  - cbn [fold_left]. apply (one_query a0 alpha cur None c V S Hc).
  - cbn [fold_left]. apply IH; [intros s' Hs; apply Hh; right; exact Hs|intros ? [= <-]; apply Hh; left; reflexivity|].
    destruct S as (E1 & E2 & E3). split; [exact E1|split; [reflexivity|exact E3]].
  - cbn [fold_left]. destruct (ask_step a0 alpha s None c a Hv (Hc s eq_refl) S) as (q & Hq & S'). destruct (in_dec _ _ _) as [_|N]; [|contradiction].
    specialize (Hq Hin eq_refl). destruct (cached_stays a0 alpha q h ltac:(intros s' Hs; apply Hh; right; exact Hs) (Some s) _ Hc ltac:(discriminate) S') as (cur' & Hn & Hc' & S2).
    pose proof (one_query a0 alpha cur' (Some q) _ V S2 Hc') as Q. destruct cur' as [s'|]; [|congruence]. destruct Q as (q2 & c' & E & ->). eauto.
  - cbn [fold_left]. apply IH; auto; [intros s' Hs; apply Hh; right; exact Hs|].
    destruct cur as [s|].
    + destruct (existsb (fun x => rle x 0 || rle 1 x)%bool (asked a0 a)) eqn:Va.
      * rewrite (ask_fail a0 alpha (Some s) None); auto. left. rewrite valid_check_all. congruence.
      * apply valid_check_all in Va. destruct (ask_step a0 alpha s None c a Va (Hc s eq_refl) S) as (q & _ & S').
        destruct (in_dec _ _ _) as [Hin|_]; [|exact S']. exfalso. apply Hno. split; [exact Hin|split; [exact Va|discriminate]].
    + rewrite (ask_fail a0 alpha None None); auto.
Qed.
Lemma fresh_compute a0 alpha s q : valid_alpha alpha -> compute_qhat s alpha = Ok q -> fresh a0 alpha s (QOne q).
Proof. intros V E. eexists. apply get_fresh; assumption. Qed.
Lemma history_uses a0 alpha h u : valid_alpha alpha -> nonempty_scores h -> uses a0 alpha None h u ->
  match u with
  | None => get_qhat (history a0 h) (AOne alpha) = Err ValueError
  | Some s => exists q c', get_qhat (history a0 h) (AOne alpha) = Ok (q, c') /\ fresh a0 alpha s q
  end.
Proof.
  intros V Hh Hu. pose proof (uses_state a0 alpha None h u V Hu Hh ltac:(discriminate) (conf_new a0) ltac:(split; [reflexivity|split; reflexivity])) as H.
  destruct u as [s|]; [|exact H]. destruct H as (q & c' & E & Eq). exists (QOne q), c'. split; [exact E|]. apply fresh_compute; assumption.
Qed.
Lemma uses_total a0 alpha h : forall cur, exists u, uses a0 alpha cur h u.
Proof.
  induction h as [|[s|a] h IH]; intros cur.
  - exists cur. constructor.
  - destruct (IH (Some s)) as (u & H). exists u. constructor. exact H.
  - destruct cur as [s|]; [|destruct (IH None) as (u & H); exists u; apply uses_other; [intros (_ & _ & N); congruence|exact H]].
    destruct (in_dec Req_EM_T alpha (asked a0 a)) as [Hin|N]; [|destruct (IH (Some s)) as (u & H); exists u; apply uses_other; [intros (? & _); contradiction|exact H]].
    destruct (existsb (fun x => rle x 0 || rle 1 x)%bool (asked a0 a)) eqn:Va.
    + destruct (IH (Some s)) as (u & H); exists u; apply uses_other; [|exact H]. intros (_ & F & _). apply valid_check_all in F. congruence.
    + apply valid_check_all in Va. exists (Some s). apply uses_asked; assumption.
Qed.
Lemma uses_latest a0 alpha s h : (forall a, In (Asked a) h -> ~ In alpha (asked a0 a)) -> forall cur, uses a0 alpha cur (h ++ [Calibrated s]) (Some s).
Proof.
  induction h as [|[s'|a] h IH]; intros H cur; cbn [app].
  - constructor. constructor.
  - constructor. apply IH. intros a Ha. apply H. right. exact Ha.
  - apply uses_other.
    + intros (Hin & _). apply (H a); [left; reflexivity|exact Hin].
    + apply IH. intros b Hb. apply H. right. exact Hb.
Qed.
Lemma quantile_single x q : quantile [x] q = x.
Proof. pose proof (quantile_bounds [x] q x x ltac:(discriminate)) as H. assert (x <= quantile [x] q <= x) by (apply H; intros y [ <- |[]]; lra). lra. Qed.
Lemma fresh_single a0 alpha x q : valid_alpha alpha -> fresh a0 alpha (one_feature [x]) q -> q = QOne (Leaf [x]).
Proof.
  intros V (c' & E). rewrite (get_fresh a0 alpha (one_feature [x]) (Leaf [x]) V) in E; [congruence|].
  unfold compute_qhat, one_feature. cbn [leaves jmapM rbind rrows map length]. unfold rfeatures. cbn [rwidth seq map rcol rrows]. unfold rcol. cbn [rrows map nth]. rewrite quantile_single. reflexivity.
Qed.

(* ------------------------------------------------------------------ *)
(** * Robust normalisation *)
Lemma lmin_spec2 l : l <> [] -> (forall v, In v l -> lmin l <= v) /\ In (lmin l) l.
Proof.
  destruct l as [|x l]; [congruence|]. intros _. cbn [lmin]. destruct (fold_min l x) as (A & B & C). split.
  - intros v [ <- |Hv]; auto.
  - destruct C as [ -> |C]; [left; reflexivity|right; exact C].
Qed.
Lemma lmax_spec2 l : l <> [] -> (forall v, In v l -> v <= lmax l) /\ In (lmax l) l.
Proof.
  destruct l as [|x l]; [congruence|]. intros _. cbn [lmax]. destruct (fold_max l x) as (A & B & C). split.
  - intros v [ <- |Hv]; auto.
  - destruct C as [ -> |C]; [left; reflexivity|right; exact C].
Qed.
Lemma spread l p q : l <> [] -> quantile l p - quantile l q <= ptp l.
Proof.
  intros N. destruct (lmin_spec2 l N) as [A _]. destruct (lmax_spec2 l N) as [B _]. unfold ptp.
  pose proof (quantile_bounds l p (lmin l) (lmax l) N ltac:(auto)). pose proof (quantile_bounds l q (lmin l) (lmax l) N ltac:(auto)). lra.
Qed.
Lemma mad_ptp l : l <> [] -> mad l <= ptp l.
Proof.
  intros N. destruct (lmin_spec2 l N) as [A _]. destruct (lmax_spec2 l N) as [B _]. unfold mad, median, ptp.
  pose proof (quantile_bounds l (1/2) (lmin l) (lmax l) N ltac:(auto)) as Q. set (m := quantile l (1/2)) in *.
  apply (quantile_bounds _ _ 0); [destruct l; [congruence|discriminate]|].
  intros x Hx. apply in_map_iff in Hx as (v & <- & Hv). split; [apply Rabs_pos|]. apply Rabs_le. specialize (A v Hv). specialize (B v Hv). lra.
Qed.
Definition spreads (f : list R -> R) : Prop := forall l, l <> [] -> f l <= ptp l.
Lemma features_nth f x j : (j < rwidth x)%nat -> nth j (rfeatures f x) 0 = f (rcol x j).
Proof. intros Hj. unfold rfeatures. rewrite (map_nth_lt _ _ 0%nat 0) by (rewrite seq_length; exact Hj). rewrite seq_nth by exact Hj. reflexivity. Qed.
Lemma features_length f x : length (rfeatures f x) = rwidth x.
Proof. unfold rfeatures. rewrite map_length, seq_length. reflexivity. Qed.
Lemma small_spec eps l : existsb (fun v => rlt v eps) l = true <-> exists j, (j < length l)%nat /\ nth j l 0 < eps.
Proof.
  rewrite existsb_exists. split.
  - intros (v & Hv & E). apply rlt_spec in E. apply (In_nth _ _ 0) in Hv as (j & Hj & <-). eauto.
  - intros (j & Hj & E). exists (nth j l 0). split; [apply nth_In; exact Hj|apply rlt_spec; exact E].
Qed.
Lemma rcol_nonempty x j : rrows x <> [] -> rcol x j <> [].
Proof. unfold rcol. destruct (rrows x); [congruence|discriminate]. Qed.
Lemma robust_ok eps x : rrows x <> [] ->
  match robust_normalization eps x with
  | Finite l => length l = rwidth x /\ (forall j, (j < rwidth x)%nat -> eps <= nth j l 0 <= ptp (rcol x j))
  | Infinite n => n = rwidth x /\ exists j, (j < rwidth x)%nat /\ ptp (rcol x j) < eps
  end.
Proof.
  intros N. unfold robust_normalization.
  set (G := fun n : list R => exists f, spreads f /\ n = rfeatures f x).
  set (n1 := rfeatures mad x). assert (G1 : G n1) by (exists mad; split; [exact mad_ptp|reflexivity]). clearbody n1.
  set (n2 := if existsb _ n1 then _ else n1). assert (G2 : G n2).
  { unfold n2. destruct (existsb _ n1); [|exact G1]. eexists; split; [|reflexivity]. intros l Hl. apply spread. exact Hl. } clearbody n2.
  set (n3 := if existsb _ n2 then _ else n2). assert (G3 : G n3).
  { unfold n3. destruct (existsb _ n2); [|exact G2]. eexists; split; [|reflexivity]. intros l Hl. apply spread. exact Hl. } clearbody n3.
  destruct (existsb _ n3) eqn:E3.
  - destruct (existsb _ (rfeatures ptp x)) eqn:E4.
    + split; [apply features_length|]. apply small_spec in E4 as (j & Hj & Hlt). rewrite features_length in Hj. exists j. split; [exact Hj|]. rewrite features_nth in Hlt by exact Hj. exact Hlt.
    + split; [apply features_length|]. intros j Hj. rewrite features_nth by exact Hj. split; [|lra].
      destruct (Rle_lt_dec eps (ptp (rcol x j))) as [?|Hlt]; [assumption|]. exfalso. assert (existsb (fun v => rlt v eps) (rfeatures ptp x) = true); [|congruence].
      apply small_spec. exists j. rewrite features_length, features_nth by exact Hj. auto.
  - destruct G3 as (f & Hf & ->). rewrite E3. split; [apply features_length|]. intros j Hj. rewrite features_nth by exact Hj. split; [|apply Hf, rcol_nonempty; exact N].
    destruct (Rle_lt_dec eps (f (rcol x j))) as [?|Hlt]; [assumption|]. exfalso. assert (existsb (fun v => rlt v eps) (rfeatures f x) = true); [|congruence].
    apply small_spec. exists j. rewrite features_length, features_nth by exact Hj. auto.
Qed.
Lemma ptp_flat eps x j : rrows x <> [] -> ptp (rcol x j) < eps <-> flat_feature eps x j.
Proof.
  intros N. pose proof (rcol_nonempty x j N) as Nc. destruct (lmin_spec2 _ Nc) as [A A2]. destruct (lmax_spec2 _ Nc) as [B B2]. unfold ptp. split.
  - intros H r r' Hr Hr'. pose proof (B (nth j r 0) (in_map (fun r => nth j r 0) _ _ Hr)). pose proof (A (nth j r' 0) (in_map (fun r => nth j r 0) _ _ Hr')). lra.
  - intros H. apply in_map_iff in A2 as (r' & E' & Hr'). apply in_map_iff in B2 as (r & E & Hr). specialize (H r r' Hr Hr'). rewrite E, E' in H. exact H.
Qed.
Lemma robust_usable eps x l : rrows x <> [] -> robust_normalization eps x = Finite l ->
  length l = rwidth x /\ forall j, (j < rwidth x)%nat -> eps <= nth j l 0 /\ exists r r', In r (rrows x) /\ In r' (rrows x) /\ nth j l 0 <= nth j r 0 - nth j r' 0.
Proof.
  intros N E. pose proof (robust_ok eps x N) as H. rewrite E in H. destruct H as [Hl H]. split; [exact Hl|]. intros j Hj. destruct (H j Hj) as [H1 H2]. split; [exact H1|].
  pose proof (rcol_nonempty x j N) as Nc. destruct (lmin_spec2 _ Nc) as [_ A]. destruct (lmax_spec2 _ Nc) as [_ B].
  apply in_map_iff in A as (r' & E' & Hr'). apply in_map_iff in B as (r & Er & Hr). exists r, r'. split; [exact Hr|]. split; [exact Hr'|].
  unfold ptp in H2. fold (rcol x j) in Er, E'. rewrite E', Er. exact H2.
Qed.
Lemma robust_infinite eps x : rrows x <> [] ->
  robust_normalization eps x = Infinite (rwidth x) <-> exists j, (j < rwidth x)%nat /\ flat_feature eps x j.
Proof.
  intros N. pose proof (robust_ok eps x N) as H. split.
  - intros E. rewrite E in H. destruct H as (_ & j & Hj & Hlt). exists j. split; [exact Hj|]. apply ptp_flat; assumption.
  - intros (j & Hj & F). apply ptp_flat in F; [|exact N]. destruct (robust_normalization eps x) as [l|n].
    + destruct H as [_ H]. specialize (H j Hj). lra.
    + destruct H as [ -> _]. reflexivity.
Qed.

(* ------------------------------------------------------------------ *)
(** * Weighted quantiles *)
Lemma interp_from_bounds lo hi x l : forall a fa, a <= x -> lo <= fa <= hi -> (forall p, In p l -> lo <= snd p <= hi) -> lo <= interp_from x a fa l <= hi.
Proof.
  induction l as [|[b fb] l IH]; intros a fa Ha Hf Hl; cbn [interp_from]; [exact Hf|]. destruct (rlt x b) eqn:E.
  - apply rlt_spec in E. pose proof (Hl (b, fb) (or_introl eq_refl)) as Hb. cbn in Hb. set (w := (x - a) / (b - a)).
    assert (0 <= w <= 1).
    { unfold w. split; [apply Rmult_le_pos; [lra|left; apply Rinv_0_lt_compat; lra]|]. apply (Rmult_le_reg_r (b - a)); [lra|]. unfold Rdiv. rewrite Rmult_assoc, Rinv_l by lra. lra. }
    assert (0 <= w * (fb - lo)) by (apply Rmult_le_pos; lra). assert (0 <= (1 - w) * (fa - lo)) by (apply Rmult_le_pos; lra).
    assert (0 <= w * (hi - fb)) by (apply Rmult_le_pos; lra). assert (0 <= (1 - w) * (hi - fa)) by (apply Rmult_le_pos; lra). lra.
  - apply IH; [|apply (Hl (b, fb)); left; reflexivity|intros p Hp; apply Hl; right; exact Hp].
    destruct (Rlt_le_dec x b) as [L|L]; [apply rlt_spec in L; congruence|exact L].
Qed.
Lemma interp_bounds lo hi x l : l <> [] -> (forall p, In p l -> lo <= snd p <= hi) -> lo <= interp x l <= hi.
Proof.
  intros N H. destruct l as [|[a fa] l]; [congruence|]. cbn [interp]. pose proof (H (a, fa) (or_introl eq_refl)) as Ha. cbn in Ha. destruct (rlt x a) eqn:E; [exact Ha|].
  apply interp_from_bounds; auto; [|intros p Hp; apply H; right; exact Hp]. destruct (Rlt_le_dec x a) as [L|L]; [apply rlt_spec in L; congruence|exact L].
Qed.
Lemma cumsum_length l : forall s, length (cumsum_from s l) = length l.
Proof. induction l as [|x l IH]; intros s; cbn; auto. Qed.
Lemma wq_bounds data weights q lo hi : length data = length weights -> data <> [] -> (forall x, In x data -> lo <= x <= hi) ->
  lo <= weighted_quantile data weights q <= hi.
Proof.
  intros L N H. unfold weighted_quantile. set (p := isort _ (combine data weights)).
  assert (Pp : Permutation (combine data weights) p) by apply isort_perm.
  assert (Lp : length p = length data) by (rewrite <- (Permutation_length Pp), combine_length; lia).
  apply interp_bounds.
  - intros E. apply (f_equal (@length _)) in E. rewrite combine_length, cumsum_length, !map_length in E. cbn in E. destruct data; [congruence|cbn in *; lia].
  - intros [a b] Hin. apply in_combine_r in Hin. cbn [snd]. apply in_map_iff in Hin as ([d w] & <- & Hd). cbn [fst]. apply H.
    apply (Permutation_in _ (Permutation_sym Pp)) in Hd. apply in_combine_l in Hd. exact Hd.
Qed.
Lemma wq_range data weights q : length data = length weights -> data <> [] ->
  exists a b, In a data /\ In b data /\ a <= weighted_quantile data weights q <= b.
Proof.
  intros L N. destruct (lmin_spec2 data N) as [A A2]. destruct (lmax_spec2 data N) as [B B2]. exists (lmin data), (lmax data). split; [exact A2|]. split; [exact B2|].
  apply wq_bounds; auto.
Qed.
Lemma wsort_unique (l m : list (R * R)) : Permutation l m -> NoDup (map snd l) ->
  isort (fun a b => rle (snd a) (snd b)) l = isort (fun a b => rle (snd a) (snd b)) m.
Proof.
  intros P ND. set (le := fun a b : R * R => rle (snd a) (snd b)).
  assert (tot : forall a b, le a b = true \/ le b a = true) by (intros; apply rle_total).
  assert (tr : forall a b c, le a b = true -> le b c = true -> le a c = true) by (intros a b c; apply rle_trans).
  assert (Q : Permutation (isort le l) (isort le m)) by (eapply perm_trans; [symmetry; apply isort_perm|]; eapply perm_trans; [exact P|apply isort_perm]).
  pose proof (isort_sorted le tot tr l) as A. pose proof (isort_sorted le tot tr m) as B.
  assert (ND' : NoDup (map snd (isort le l))) by (eapply Permutation_NoDup; [apply Permutation_map, isort_perm|exact ND]).
  revert A B Q ND'. generalize (isort le l) as u, (isort le m) as v. clear P ND l m.
  induction u as [|x u IH]; intros [|y v] A B Q ND.
  - reflexivity.
  - apply Permutation_nil in Q. discriminate.
  - apply Permutation_sym, Permutation_nil in Q. discriminate.
  - inversion A as [|? ? A1 A2]; subst. inversion B as [|? ? B1 B2]; subst. rewrite Forall_forall in A2, B2. cbn [map] in ND. inversion ND as [|? ? N1 N2]; subst.
    assert (x = y).
    { assert (Iy : In y (x :: u)) by (eapply Permutation_in; [symmetry; exact Q|left; reflexivity]).
      assert (Ix : In x (y :: v)) by (eapply Permutation_in; [exact Q|left; reflexivity]).
      destruct Iy as [ -> |Iy]; [reflexivity|]. destruct Ix as [ -> |Ix]; [reflexivity|].
      exfalso. apply N1. specialize (A2 y Iy). specialize (B2 x Ix). unfold le in A2, B2. apply rle_spec in A2. apply rle_spec in B2.
      replace (snd x) with (snd y) by lra. apply in_map. exact Iy. }
    subst y. f_equal. apply IH; auto. eapply Permutation_cons_inv. exact Q.
Qed.
Lemma wq_distinct data weights data' weights' q :
  length data = length weights -> length data' = length weights' -> Permutation (combine data weights) (combine data' weights') -> NoDup weights ->
  weighted_quantile data weights q = weighted_quantile data' weights' q.
Proof.
  intros L L' P ND. unfold weighted_quantile. rewrite (wsort_unique _ _ P); [reflexivity|].
  replace (map snd (combine data weights)) with weights; [exact ND|]. clear -L. revert weights L. induction data as [|x d IH]; intros [|w ws] L; cbn in *; try discriminate; auto. f_equal. apply IH. lia.
Qed.
