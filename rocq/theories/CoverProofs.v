(** Lemmas on the intervals of a calibrated model. *)
From Coq Require Import Reals Lra Lia Permutation.
From Verif Require Import Base TreeUtil Serial Scaler OneHot Conformal ConformalSpec ConformalProofs Strata NdArray Uncertainty Cover CoverSpec.
Local Open Scope R_scope.
Local Open Scope list_scope.

(* ------------------------------------------------------------------ *)
(** * Scaling a list scales its quantiles *)
Lemma insert_scale c x l : 0 < c -> map (Rmult c) (insert rle x l) = insert rle (c * x) (map (Rmult c) l).
Proof.
  intros C. induction l as [|y l IH]; [reflexivity|]. cbn [insert map].
  assert (E : rle (c * x) (c * y) = rle x y).
  { unfold rle. destruct (Rle_dec (c * x) (c * y)) as [A|A], (Rle_dec x y) as [B|B]; try reflexivity; exfalso.
    - apply B. apply (Rmult_le_reg_l c); assumption.
    - apply A. apply Rmult_le_compat_l; lra. }
  rewrite E. destruct (rle x y); cbn [map]; [reflexivity|]. rewrite IH. reflexivity.
Qed.
Lemma isort_scale c l : 0 < c -> isort rle (map (Rmult c) l) = map (Rmult c) (isort rle l).
Proof. intros C. unfold isort. induction l as [|x l IH]; [reflexivity|]. cbn [fold_right map]. rewrite IH, insert_scale by exact C. reflexivity. Qed.
Lemma at_clamped_scale c l z : at_clamped (map (Rmult c) l) z = c * at_clamped l z.
Proof.
  unfold at_clamped. rewrite map_length. generalize (Z.to_nat (Z.max 0 (Z.min z (Z.of_nat (length l) - 1)))) as n.
  intros n. rewrite <- (map_nth (Rmult c)). f_equal. lra.
Qed.
Lemma quantile_scale c l q : 0 < c -> quantile (map (Rmult c) l) q = c * quantile l q.
Proof.
  intros C. unfold quantile. rewrite isort_scale, map_length by exact C. unfold at_position. cbv zeta. rewrite !at_clamped_scale. lra.
Qed.
Lemma qhat1_scale c alpha l : 0 < c -> qhat1 alpha (map (Rmult c) l) = c * qhat1 alpha l.
Proof. intros C. unfold qhat1. rewrite map_length. apply quantile_scale. exact C. Qed.

(* ------------------------------------------------------------------ *)
(** * The columns *)
Lemma numbers_column f l : numbers (column f l) = map f l.
Proof. unfold numbers, column. cbn [leaves o_rows]. rewrite map_map. reflexivity. Qed.
Lemma combine_same {A B C} (f : A -> B) (g : A -> C) l : combine (map f l) (map g l) = map (fun x => (f x, g x)) l.
Proof. induction l as [|x l IH]; [reflexivity|]. cbn. rewrite IH. reflexivity. Qed.
Lemma leaf_op_column h f g l :
  leaf_op h (mk_odata [1%nat] (map (fun s : sample => number (f s)) l)) (mk_odata [1%nat] (map (fun s => number (g s)) l))
  = Ok (mk_odata [1%nat] (map (fun s => number (h (f s) (g s))) l)).
Proof.
  unfold leaf_op. cbn [o_shape o_rows]. destruct (list_eq_dec Nat.eq_dec [1%nat] [1%nat]) as [_|N]; [|congruence].
  rewrite !map_length, Nat.eqb_refl. cbn [andb]. rewrite combine_same, map_map. reflexivity.
Qed.

Lemma jzip_leaf {X Y Z} (f : X -> Y -> result Z) x y : jzipM f (Leaf x) (Leaf y) = let* z := f x y in Ok (Leaf z).
Proof. unfold jzipM. cbn. destruct (f x y); reflexivity. Qed.

(** The correction [b] fitted to [l]. *)
Definition fitted (m : mode) (l : list sample) (b : R) : Prop :=
  exists B, calibrate_bias m (inputs l) (column s_target l) (column s_pred l) = Ok (B, column (fun s => s_pred s + b) l) /\
    forall s, apply_bias m B (inputs [s]) (column s_pred [s]) = Ok (column (fun s => s_pred s + b) [s]).
Lemma column_ext f g l : (forall s, f s = g s) -> column f l = column g l.
Proof. intros E. unfold column. do 2 f_equal. apply map_ext. intros s. rewrite E. reflexivity. Qed.
Lemma fitted_none l : fitted MNone l 0.
Proof.
  exists BNone. unfold calibrate_bias. cbn [fit_bias apply_bias rbind]. rewrite (column_ext (fun s => s_pred s + 0) s_pred) by (intros; apply Rplus_0_r).
  split; [reflexivity|]. intros s. rewrite (column_ext (fun s => s_pred s + 0) s_pred) by (intros; apply Rplus_0_r). reflexivity.
Qed.
Lemma apply_global b l : apply_bias MGlobal (BGlobal (Leaf [b])) (inputs l) (column s_pred l) = Ok (column (fun s => s_pred s + b) l).
Proof.
  unfold apply_bias, column. rewrite jzip_leaf. cbn [o_shape o_rows]. rewrite map_map.
  change (map (fun _ : sample => [b]) l) with (map (fun s : sample => number ((fun _ => b) s)) l). rewrite leaf_op_column. reflexivity.
Qed.
Lemma fitted_global l : fitted MGlobal l (median (map (fun s => s_target s - s_pred s) l)).
Proof.
  exists (BGlobal (Leaf [median (map (fun s => s_target s - s_pred s) l)])). split; [|intros s; apply apply_global].
  unfold calibrate_bias. cbn [fit_bias]. unfold residuals. unfold column at 1 2. rewrite jzip_leaf, leaf_op_column. cbn [rbind jmapM].
  unfold col_median, features. cbn [o_shape o_rows fold_right Nat.mul Nat.add seq map]. rewrite map_map. cbn [nth number].
  rewrite apply_global. reflexivity.
Qed.

(* ------------------------------------------------------------------ *)
(** * The interval *)
Lemma call_one alpha scores p u : valid_alpha alpha ->
  exists c', conf_call (calibrate (conf_new alpha) (Leaf (mk_rbatch 1 (map number scores)))) (AOne alpha) true (Leaf (mk_rbatch 1 [[p]])) (Leaf (mk_rbatch 1 [[u]]))
  = Ok (IOne (Leaf (mk_rbatch 1 [[p + -1 * (qhat1 alpha scores * u)]])) (Leaf (mk_rbatch 1 [[p + 1 * (qhat1 alpha scores * u)]])), c').
Proof.
  intros V. unfold conf_call. cbn [alpha_list]. rewrite (proj1 (valid_check_all [alpha])) by (constructor; auto).
  cbn [negb calibrate conf_new c_scores].
  change (get_qhat _ (AMany [alpha])) with (get_qhat (calibrate (conf_new alpha) (Leaf (mk_rbatch 1 (map number scores)))) (AOne alpha)).
  rewrite (get_fresh alpha alpha _ (Leaf [qhat1 alpha scores])); [|exact V|].
  - cbn [rbind fst snd]. unfold both, bounds. cbn. eexists. reflexivity.
  - unfold compute_qhat. cbn [leaves jmapM rbind rrows]. rewrite map_length. unfold rfeatures. cbn [rwidth seq map].
    change number with (fun x : R => [x]). rewrite rcol_one. reflexivity.
Qed.
Lemma zip3r_map {A} f (a b c : A -> R) l : zip3r f (map a l) (map b l) (map c l) = map (fun s => f (a s) (b s) (c s)) l.
Proof. induction l as [|s l IH]; [reflexivity|]. cbn. rewrite IH. reflexivity. Qed.

Definition norms_of (eps : R) (k : nat) (l : list sample) : list (option R) := map (term_norm eps l) (seq 0 k).
Definition score_of (norms : list (option R)) (b : R) (s : sample) : R := Rabs (s_target s - (s_pred s + b)) / width_of norms s.

Lemma gives_iff eps m k alpha l b s lo hi : valid_alpha alpha -> fitted m l b -> (forall s', In s' l -> 0 < width_of (norms_of eps k l) s') ->
  let q := qhat1 alpha (map (score_of (norms_of eps k l) b) l) in let u := width_of (norms_of eps k l) s in
  gives eps m k alpha l s lo hi <-> lo = s_pred s + b - q * u /\ hi = s_pred s + b + q * u.
Proof.
  intros V (B & FB & AB) P q u.
  assert (C : calibrate_with eps m k alpha l = Ok (Calibration (mk_cal m B (norms_of eps k l)
     (calibrate (conf_new alpha) (Leaf (mk_rbatch 1 (map number (map (score_of (norms_of eps k l) b) l)))))))).
  { unfold calibrate_with. rewrite FB. cbn [rbind fst snd]. fold (norms_of eps k l). rewrite numbers_column, zip3r_map.
    assert (E : existsb (fun v => rle v 0) (map (width_of (norms_of eps k l)) l) = false).
    { apply not_true_is_false. intros E. apply existsb_exists in E. destruct E as (v & Iv & Lv). apply in_map_iff in Iv. destruct Iv as (s' & <- & Is).
      apply rle_spec in Lv. specialize (P s' Is). lra. }
    rewrite E. reflexivity. }
  assert (I : interval (mk_cal m B (norms_of eps k l) (calibrate (conf_new alpha) (Leaf (mk_rbatch 1 (map number (map (score_of (norms_of eps k l) b) l)))))) alpha s
     = Ok (s_pred s + b + -1 * (q * u), s_pred s + b + 1 * (q * u))).
  { unfold interval. cbn [k_mode k_bias k_norms k_conf]. rewrite AB. cbn [rbind]. rewrite numbers_column. cbn [map]. unfold number at 2 3.
    destruct (call_one alpha (map (score_of (norms_of eps k l) b) l) (s_pred s + b) (width_of (norms_of eps k l) s) V) as (c' & ->). reflexivity. }
  unfold gives. split.
  - intros (c & Ec & Ei). rewrite C in Ec. injection Ec as <-. rewrite I in Ei. injection Ei as <- <-. split; lra.
  - intros [ -> -> ]. eexists. split; [exact C|]. rewrite I. do 2 f_equal; lra.
Qed.
Lemma covered_iff eps m k alpha l b s : valid_alpha alpha -> fitted m l b -> (forall s', In s' l -> 0 < width_of (norms_of eps k l) s') ->
  (exists lo hi, gives eps m k alpha l s lo hi /\ lo <= s_target s <= hi) <->
  Rabs (s_target s - (s_pred s + b)) <= qhat1 alpha (map (score_of (norms_of eps k l) b) l) * width_of (norms_of eps k l) s.
Proof.
  intros V F P. pose proof (gives_iff eps m k alpha l b s) as G. cbv zeta in G. split.
  - intros (lo & hi & Gs & Hs). apply (G lo hi V F P) in Gs. destruct Gs as [ -> -> ]. apply Rabs_le. lra.
  - intros H. do 2 eexists. split; [apply (G _ _ V F P); split; reflexivity|]. unfold Rabs in H. destruct (Rcase_abs (s_target s - (s_pred s + b))) in H; lra.
Qed.

(* ------------------------------------------------------------------ *)
(** * One term without corrections *)
Lemma others_map {A B} (f : A -> B) i l : others i (map f l) = map f (others i l).
Proof. unfold others. rewrite map_app, firstn_map, skipn_map. reflexivity. Qed.
Lemma others_in {A} i (l : list A) x : In x (others i l) -> In x l.
Proof.
  intros H. unfold others in H. apply in_app_or in H. rewrite <- (firstn_skipn i l). apply in_or_app. destruct H as [H|H]; [left; exact H|right].
  assert (E : skipn (S i) l = skipn 1 (skipn i l)) by (clear; revert l; induction i as [|i IH]; intros [|y l]; try reflexivity; apply IH).
  rewrite E in H. rewrite <- (firstn_skipn 1 (skipn i l)). apply in_or_app. right. exact H.
Qed.
Lemma norm_varied eps k l : 0 < eps -> varied eps k l -> exists w, term_norm eps l k = Some w /\ eps <= w.
Proof.
  intros E (s & s' & I & I' & D). unfold term_norm. set (x := mk_rbatch 1 (map (fun s => number (nth k (s_terms s) 0)) l)).
  assert (N : rrows x <> []). { destruct l; [destruct I|discriminate]. }
  destruct (robust_normalization eps x) as [v|n] eqn:R.
  - destruct (robust_usable eps x v N R) as [L U]. cbn [x rwidth] in L. destruct v as [|w [|w' v]]; try discriminate. exists w. split; [reflexivity|].
    exact (proj1 (U 0%nat ltac:(cbn; lia))).
  - exfalso. pose proof (robust_ok eps x N) as O. rewrite R in O. destruct O as [O _]. cbn [x rwidth] in O. subst n.
    destruct (proj1 (robust_infinite eps x N) R) as (j & Lj & F). cbn [x rwidth] in Lj. assert (j = 0%nat) by lia. subst j.
    assert (M : forall s, In s l -> In (number (nth k (s_terms s) 0)) (rrows x)).
    { intros a Ia. cbn [x rrows]. apply in_map_iff. exists a. auto. }
    specialize (F _ _ (M s' I') (M s I)). cbn [number nth] in F. lra.
Qed.
Definition only_term (s : sample) (t : R) : Prop := s_terms s = [t] /\ 0 < t.
Definition term0 (s : sample) : R := nth 0 (s_terms s) 0.
Lemma width_one w s t : 0 < w -> only_term s t -> width_of [Some w] s = t / w /\ 0 < t / w /\ t = term0 s.
Proof.
  intros W [E T]. unfold width_of, term0. rewrite E. cbn [combine map fst snd over rsum fold_right nth]. split; [lra|]. split; [|reflexivity].
  apply Rdiv_lt_0_compat; assumption.
Qed.
Definition plain_score (b : R) (s : sample) : R := Rabs (s_target s - (s_pred s + b)) / term0 s.
Lemma one_term_iff eps m alpha l b s : 0 < eps -> valid_alpha alpha -> fitted m l b -> varied eps 0 l ->
  (forall s', In s' (s :: l) -> exists t, only_term s' t) ->
  (exists lo hi, gives eps m 1 alpha l s lo hi /\ lo <= s_target s <= hi) <->
  Rabs (s_target s - (s_pred s + b)) <= qhat1 alpha (map (plain_score b) l) * term0 s.
Proof.
  intros E V F D O. destruct (norm_varied eps 0 l E D) as (w & N & W). assert (W0 : 0 < w) by lra.
  assert (NE : norms_of eps 1 l = [Some w]) by (unfold norms_of; cbn [seq map]; rewrite N; reflexivity).
  rewrite (covered_iff eps m 1 alpha l b s V F).
  - rewrite NE. assert (ES : map (score_of [Some w] b) l = map (Rmult w) (map (plain_score b) l)).
    { rewrite map_map. apply map_ext_in. intros s' I. destruct (O s' (or_intror I)) as (t & Ot). destruct (width_one w s' t W0 Ot) as (Ws & _ & Et).
      unfold score_of, plain_score. rewrite Ws, <- Et. destruct Ot as [_ T]. field. lra. }
    rewrite ES, qhat1_scale by exact W0. destruct (O s (or_introl eq_refl)) as (t & Ot). destruct (width_one w s t W0 Ot) as (Ws & _ & Et).
    rewrite Ws, <- Et. replace (w * qhat1 alpha (map (plain_score b) l) * (t / w)) with (qhat1 alpha (map (plain_score b) l) * t) by (field; lra). reflexivity.
  - intros s' I. rewrite NE. destruct (O s' (or_intror I)) as (t & Ot). destruct (width_one w s' t W0 Ot) as (-> & P & _). exact P.
Qed.
Lemma one_term_answered eps m alpha l b s : 0 < eps -> valid_alpha alpha -> fitted m l b -> varied eps 0 l ->
  (forall s', In s' l -> exists t, only_term s' t) -> exists lo hi, gives eps m 1 alpha l s lo hi.
Proof.
  intros E V F D O. destruct (norm_varied eps 0 l E D) as (w & N & W). assert (W0 : 0 < w) by lra.
  do 2 eexists. eapply (gives_iff eps m 1 alpha l b s); [exact V|exact F| |split; reflexivity].
  intros s' I. unfold norms_of. cbn [seq map]. rewrite N. destruct (O s' I) as (t & Ot). destruct (width_one w s' t W0 Ot) as (-> & P & _). exact P.
Qed.
Lemma one_term_value eps m alpha l b s lo hi : 0 < eps -> valid_alpha alpha -> fitted m l b -> varied eps 0 l ->
  (forall s', In s' (s :: l) -> exists t, only_term s' t) ->
  gives eps m 1 alpha l s lo hi <-> exists q, reports alpha (map (plain_score b) l) q /\ lo = s_pred s + b - q * term0 s /\ hi = s_pred s + b + q * term0 s.
Proof.
  intros E V F D O. destruct (norm_varied eps 0 l E D) as (w & N & W). assert (W0 : 0 < w) by lra.
  assert (NE : norms_of eps 1 l = [Some w]) by (unfold norms_of; cbn [seq map]; rewrite N; reflexivity).
  assert (ES : map (score_of [Some w] b) l = map (Rmult w) (map (plain_score b) l)).
  { rewrite map_map. apply map_ext_in. intros s' I. destruct (O s' (or_intror I)) as (t & Ot). destruct (width_one w s' t W0 Ot) as (Ws & _ & Et).
    unfold score_of, plain_score. rewrite Ws, <- Et. destruct Ot as [_ T]. field. lra. }
  assert (P : forall s', In s' l -> 0 < width_of (norms_of eps 1 l) s').
  { intros s' I. rewrite NE. destruct (O s' (or_intror I)) as (t & Ot). destruct (width_one w s' t W0 Ot) as (-> & Q & _). exact Q. }
  pose proof (gives_iff eps m 1 alpha l b s lo hi V F P) as G. cbv zeta in G. rewrite NE, ES, qhat1_scale in G by exact W0.
  destruct (O s (or_introl eq_refl)) as (t & Ot). destruct (width_one w s t W0 Ot) as (Ws & _ & Et). rewrite Ws, Et in G.
  replace (w * qhat1 alpha (map (plain_score b) l) * (term0 s / w)) with (qhat1 alpha (map (plain_score b) l) * term0 s) in G by (field; lra).
  rewrite G. split.
  - intros [ -> -> ]. exists (qhat1 alpha (map (plain_score b) l)). split; [apply reports_val; exact V|]. split; reflexivity.
  - intros (q & Rq & Hlo & Hhi). apply reports_fun in Rq; [|exact V]. subst q. split; assumption.
Qed.
Lemma one_term_guarantee eps n alpha l : 0 < eps -> length l = S n -> (1 <= n)%nat -> valid_alpha alpha -> / (INR n + 1) <= alpha ->
  (forall s, In s l -> exists t, only_term s t) -> (forall i, (i < length l)%nat -> varied eps 0 (others i l)) ->
  guarantee eps MNone 1 alpha l.
Proof.
  intros E L N V A O D. destruct (coverage_ok n alpha (map (plain_score 0) l) ltac:(rewrite map_length; exact L) N V A) as (I & ND & C & K).
  exists I. split; [exact ND|]. rewrite map_length in *. split; [|exact K].
  intros i Ii. destruct (C i Ii) as (Li & q & -> & Q). rewrite others_map in Q.
  destruct (nth_error l i) as [s|] eqn:Es; [|apply nth_error_None in Es; lia]. exists s.
  assert (Is : In s l) by (eapply nth_error_In; exact Es).
  assert (Qs : plain_score 0 s <= qhat1 alpha (map (plain_score 0) (others i l))).
  { rewrite (nth_indep _ 0 (plain_score 0 s)) in Q by (rewrite map_length; exact Li). rewrite map_nth in Q. rewrite (nth_error_nth l i s Es) in Q. exact Q. }
  assert (G : exists lo hi, gives eps MNone 1 alpha (others i l) s lo hi /\ lo <= s_target s <= hi).
  { apply (one_term_iff eps MNone alpha (others i l) 0 s E V (fitted_none _) (D i Li)).
    - intros s' [ <- | J]; [apply O; exact Is|apply O; eapply others_in; exact J].
    - destruct (O s Is) as (t & St & T). unfold plain_score in Qs. assert (T0 : term0 s = t) by (unfold term0; rewrite St; reflexivity). rewrite T0 in *.
      apply (Rmult_le_compat_r t) in Qs; [|lra]. replace (Rabs (s_target s - (s_pred s + 0)) / t * t) with (Rabs (s_target s - (s_pred s + 0))) in Qs by (field; lra). exact Qs. }
  destruct G as (lo & hi & G & H). exists lo, hi. auto.
Qed.
Lemma one_term_all eps m alpha l : 0 < eps -> valid_alpha alpha -> (forall i, (i < length l)%nat -> exists b, fitted m (others i l) b) ->
  (forall s, In s l -> exists t, only_term s t) -> (forall i, (i < length l)%nat -> varied eps 0 (others i l)) -> all_answered eps m 1 alpha l.
Proof.
  intros E V F O D i s Es. assert (Li : (i < length l)%nat) by (apply nth_error_Some; rewrite Es; discriminate).
  destruct (F i Li) as (b & Fb). apply (one_term_answered eps m alpha (others i l) b s E V Fb (D i Li)).
  intros s' J. apply O. eapply others_in; exact J.
Qed.

(* ------------------------------------------------------------------ *)
(** * Two calibration samples *)
Lemma sort_two a b : isort rle [a; b] = [Rmin a b; Rmax a b].
Proof. unfold isort. cbn [fold_right insert]. unfold rle, Rmin, Rmax. destruct (Rle_dec a b); reflexivity. Qed.
Lemma median_two a b : median [a; b] = (a + b) / 2.
Proof.
  unfold median, quantile. rewrite sort_two. cbn [length INR]. replace (1 / 2 * (1 + 1 - 1)) with (1/2) by lra. unfold at_position. cbv zeta.
  rewrite (floor_unique _ 0) by lra. rewrite (ceil_unique _ 1) by lra. unfold at_clamped. cbn [length Z.of_nat Pos.of_succ_nat Pos.succ].
  change (Z.to_nat (Z.max 0 (Z.min 0 (2 - 1)))) with 0%nat. change (Z.to_nat (Z.max 0 (Z.min 1 (2 - 1)))) with 1%nat. cbn [nth].
  unfold Rmin, Rmax. destruct (Rle_dec a b); lra.
Qed.
Lemma mad_two a b : mad [a; b] = Rabs (a - b) / 2.
Proof.
  unfold mad. rewrite median_two. cbn [map]. rewrite median_two. unfold Rabs. repeat destruct (Rcase_abs _); lra.
Qed.
Lemma norm_two eps k s s' w : Rabs (nth k (s_terms s) 0 - nth k (s_terms s') 0) / 2 = w -> eps <= w -> term_norm eps [s; s'] k = Some w.
Proof.
  intros E L. unfold term_norm. cbn [map]. set (x := mk_rbatch 1 _).
  assert (M : rfeatures mad x = [w]) by (unfold rfeatures; cbn [x rwidth seq map]; unfold rcol; cbn [x rrows map number nth]; rewrite mad_two, E; reflexivity).
  unfold robust_normalization. rewrite M. clearbody x. cbn [existsb].
  assert (R : rlt w eps = false) by (unfold rlt; destruct (Rlt_dec w eps); [lra|reflexivity]). repeat (rewrite R; cbn). reflexivity.
Qed.
Lemma qhat1_two a b : qhat1 (1/3) [a; b] = Rmax a b.
Proof.
  unfold qhat1, quantile, level. cbn [length INR]. rewrite (ceil_unique _ 2) by lra. replace (2 / (1 + 1) * (1 + 1 - 1)) with (IZR 1) by lra.
  rewrite at_position_seg, seg_int, sort_two. reflexivity.
Qed.
Lemma uncovered_two eps m k s1 s2 s b : let ns := norms_of eps k [s1; s2] in let r x := Rabs (s_target x - (s_pred x + b)) in
  fitted m [s1; s2] b -> 0 < width_of ns s1 -> 0 < width_of ns s2 ->
  r s1 * width_of ns s < r s * width_of ns s1 -> r s2 * width_of ns s < r s * width_of ns s2 ->
  ~ exists lo hi, gives eps m k (1/3) [s1; s2] s lo hi /\ lo <= s_target s <= hi.
Proof.
  intros ns r F P1 P2 H1 H2 G. apply (covered_iff eps m k (1/3) [s1; s2] b s ltac:(unfold valid_alpha; lra) F) in G.
  - fold ns in G. cbn [map] in G. rewrite qhat1_two in G. fold (r s) in G. unfold score_of in G. fold (r s1) (r s2) in G.
    assert (X : forall a u v, 0 < v -> a * u < r s * v -> a / v * u < r s).
    { intros a u v Pv Hv. apply (Rmult_lt_reg_r v); [exact Pv|]. replace (a / v * u * v) with (a * u) by (field; lra). exact Hv. }
    pose proof (X _ _ _ P1 H1). pose proof (X _ _ _ P2 H2). unfold Rmax in G. destruct (Rle_dec _ _) in G; lra.
  - intros s' [ <- | [ <- | []]]; assumption.
Qed.
