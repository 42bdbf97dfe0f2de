(** C113: the coverage of the intervals of a calibrated model. *)
From Coq Require Import Reals Lra Lia.
From Verif Require Import Base TreeUtil Conformal ConformalSpec ConformalProofs Strata NdArray Uncertainty Cover CoverSpec CoverProofs CoverStrata.
Local Open Scope R_scope.
Local Open Scope list_scope.

(** The documented guarantee, for the levels [alpha] that can be reached with the
    number of samples at all (C42). *)
Definition C113_always : Prop := forall eps m k n alpha l, 0 < eps -> length l = S n -> (1 <= n)%nat -> valid_alpha alpha -> / (INR n + 1) <= alpha ->
  all_answered eps m k alpha l -> guarantee eps m k alpha l.

(** It holds with one term and no bias correction. *)
Theorem C113_one_term_partial : forall eps n alpha l, 0 < eps -> length l = S n -> (1 <= n)%nat -> valid_alpha alpha -> / (INR n + 1) <= alpha ->
  (forall s, In s l -> exists t, s_terms s = [t] /\ 0 < t) -> (forall i, (i < length l)%nat -> varied eps 0 (others i l)) ->
  guarantee eps MNone 1 alpha l /\ all_answered eps MNone 1 alpha l.
Proof.
  intros eps n alpha l E L N V A O D. split; [exact (one_term_guarantee eps n alpha l E L N V A O D)|].
  apply one_term_all; auto. intros i _. exists 0. apply fitted_none.
Qed.

(** With one term the interval does not depend on the normalisation: it is the
    corrected prediction and, to both sides, the term times the quantile of the
    residuals divided by the term.  The correction is none, the median of the
    residuals, or the median of the residuals of the stratum (none for a stratum
    that does not occur). *)
Definition median_residual (l : list sample) : R := median (map (fun s => s_target s - s_pred s) l).
Definition group (s : sample) (l : list sample) : list sample :=
  filter (fun s' => if list_eq_dec Req_EM_T (s_feats s') (s_feats s) then true else false) l.
Definition corrects (m : mode) (l : list sample) (g : sample -> R) : Prop :=
  match m with
  | MNone => forall s, g s = 0
  | MGlobal => forall s, g s = median_residual l
  | MStrata t => t = Leaf true /\ forall s, (group s l = [] -> g s = 0) /\ (group s l <> [] -> g s = median_residual (group s l))
  end.
Lemma fitted_ext m l g h : (forall s, g s = h s) -> fitted_by m l g -> fitted_by m l h.
Proof.
  intros E (B & F & A). exists B. rewrite (column_ext (fun s => s_pred s + h s) (fun s => s_pred s + g s)) by (intros; rewrite E; reflexivity).
  split; [exact F|]. intros s. rewrite (column_ext (fun s => s_pred s + h s) (fun s => s_pred s + g s)) by (intros; rewrite E; reflexivity). apply A.
Qed.
Lemma corrects_fitted m l g : corrects m l g -> fitted_by m l g.
Proof.
  destruct m as [| |t]; cbn [corrects]; intros C.
  - apply (fitted_ext _ _ (fun _ => 0)); [intros; symmetry; apply C|apply fitted_const, fitted_none].
  - apply (fitted_ext _ _ (fun _ => median_residual l)); [intros; symmetry; apply C|apply fitted_const, fitted_global].
  - destruct C as [-> C]. apply (fitted_ext _ _ (strata_by true l)); [|apply fitted_strata]. intros s. rewrite strata_by_value. destruct (C s) as [C0 C1].
    change (filter (alike s) l) with (group s l). destruct (group s l) as [|x G]; [symmetry; apply C0; reflexivity|symmetry; apply C1; discriminate].
Qed.
Theorem C113_interval : forall eps m alpha l g s lo hi, 0 < eps -> valid_alpha alpha -> corrects m l g -> varied eps 0 l ->
  (forall s', In s' (s :: l) -> exists t, s_terms s' = [t] /\ 0 < t) ->
  gives eps m 1 alpha l s lo hi <->
  exists q, reports alpha (map (fun s' => Rabs (s_target s' - (s_pred s' + g s')) / nth 0 (s_terms s') 0) l) q /\
    lo = s_pred s + g s - q * nth 0 (s_terms s) 0 /\ hi = s_pred s + g s + q * nth 0 (s_terms s) 0.
Proof. intros eps m alpha l g s lo hi E V C D O. apply one_term_by; auto. apply corrects_fitted. exact C. Qed.

(** What does hold always, with any number of terms and any corrections: of the
    samples used for the calibration, at least the fraction [1 - alpha] lie in
    the intervals that the model gives for them. *)
Theorem C113_calibration_data : forall eps m k alpha l c, valid_alpha alpha -> calibrate_with eps m k alpha l = Ok (Calibration c) ->
  exists I, NoDup I /\
    (forall i, In i I -> exists s lo hi, nth_error l i = Some s /\ interval c alpha s = Ok (lo, hi) /\ lo <= s_target s <= hi) /\
    INR (length l) * (1 - alpha) <= INR (length I).
Proof. exact in_sample. Qed.

Definition three (a b c : sample) : list sample := [a; b; c].
(** Same predictions, targets 0, 1, 2. *)
Definition line : list sample := three (mk_sample [] 0 [100] 0) (mk_sample [] 0 [102] 1) (mk_sample [] 0 [104] 2).
Lemma line_terms s : In s line -> exists t, s_terms s = [t] /\ 0 < t.
Proof. intros [ <- | [ <- | [ <- | []]]]; eexists; (split; [reflexivity|lra]). Qed.
Lemma line_varied eps i : eps <= 1 -> (i < length line)%nat -> varied eps 0 (others i line).
Proof.
  intros E L. cbn in L. destruct i as [|[|[|i]]]; [| | |lia].
  - exists (mk_sample [] 0 [102] 1), (mk_sample [] 0 [104] 2). cbn. repeat split; auto. lra.
  - exists (mk_sample [] 0 [100] 0), (mk_sample [] 0 [104] 2). cbn. repeat split; auto. lra.
  - exists (mk_sample [] 0 [100] 0), (mk_sample [] 0 [102] 1). cbn. repeat split; auto. lra.
Qed.
Example C113_one_term_example : guarantee 1 MNone 1 (1/3) line.
Proof.
  apply (C113_one_term_partial 1 2 (1/3) line); [lra|reflexivity|lia|unfold valid_alpha; lra|cbn [INR]; lra|exact line_terms|].
  intros i L. apply line_varied; [lra|exact L].
Qed.

Definition two_strata : list sample := [mk_sample [7] 0 [102] 1; mk_sample [8] 0 [104] 2; mk_sample [7] 0 [103] 3].
Example C113_interval_example : corrects (MStrata (Leaf true)) two_strata (strata_by true two_strata) /\ varied 1 0 two_strata /\ strata_by true two_strata (mk_sample [7] 0 [100] 0) = 2.
Proof.
  split; [|split].
  - split; [reflexivity|]. intros s. rewrite strata_by_value. change (filter (alike s) two_strata) with (group s two_strata).
    split; intros H; [rewrite H; reflexivity|]. destruct (group s two_strata); [congruence|reflexivity].
  - exists (mk_sample [7] 0 [102] 1), (mk_sample [8] 0 [104] 2). cbn. repeat split; auto. lra.
  - assert (Y : forall x : list R, (if list_eq_dec Req_EM_T x x then true else false) = true) by (intros x; destruct (list_eq_dec _ x x); congruence).
    assert (N : (if list_eq_dec Req_EM_T [8] [7] then true else false) = false) by (destruct (list_eq_dec _ _ _) as [E|E]; [injection E as E; lra|reflexivity]).
    rewrite strata_by_value. unfold two_strata, alike. cbn [filter s_feats]. rewrite N, Y. cbn [map s_target s_pred]. rewrite median_two. lra.
Qed.
Example C113_calibration_data_example : exists c, calibrate_with 1 (MStrata (Leaf true)) 1 (1/3) two_strata = Ok (Calibration c).
Proof.
  destruct (calibrate_by 1 (MStrata (Leaf true)) 1 (1/3) two_strata _ (fitted_strata true two_strata)) as (c & E & _); [|exists c; exact E].
  assert (D : varied 1 0 two_strata) by (exists (mk_sample [7] 0 [102] 1), (mk_sample [8] 0 [104] 2); cbn; repeat split; auto; lra).
  destruct (norm_varied 1 0 two_strata ltac:(lra) D) as (w & N & W). intros s' I. unfold norms_of. cbn [seq map]. rewrite N.
  destruct I as [ <- | [ <- | [ <- | []]]]; unfold width_of; cbn [s_terms combine map fst snd over rsum fold_right]; rewrite Rplus_0_r; apply Rdiv_lt_0_compat; lra.
Qed.

Lemma only_one j (P : nat -> Prop) I : NoDup I -> (forall i, In i I -> P i) -> (forall i, P i -> i = j) -> (length I <= 1)%nat.
Proof.
  intros N H U. destruct I as [|a [|b I]]; cbn [length]; try lia. exfalso. inversion N as [|x y NI _]; subst. apply NI.
  rewrite (U a), (U b) by (apply H; cbn; auto). left. reflexivity.
Qed.
Lemma one_covered eps m k a b c j :
  (forall i s, nth_error (three a b c) i = Some s -> i <> j -> ~ exists lo hi, gives eps m k (1/3) (others i (three a b c)) s lo hi /\ lo <= s_target s <= hi) ->
  ~ guarantee eps m k (1/3) (three a b c).
Proof.
  intros H (I & N & C & K). cbn [length three INR] in K.
  assert (L : (length I <= 1)%nat).
  { apply (only_one j (fun i => exists s lo hi, nth_error (three a b c) i = Some s /\ gives eps m k (1/3) (others i (three a b c)) s lo hi /\ lo <= s_target s <= hi) I N C).
    intros i (s & lo & hi & E & G). destruct (Nat.eq_dec i j) as [?|D]; [assumption|]. exfalso. apply (H i s E D). exists lo, hi. exact G. }
  apply le_INR in L. cbn [INR] in L. lra.
Qed.

(** With the global bias correction: only one of three samples is covered,
    although two are promised. *)
Theorem C113_bias_refuted : forall eps, 0 < eps <= 1 -> / (INR 2 + 1) <= 1/3 /\ all_answered eps MGlobal 1 (1/3) line /\ ~ guarantee eps MGlobal 1 (1/3) line.
Proof.
  intros eps [E E1]. split; [cbn [INR]; lra|]. split.
  - apply one_term_all; auto; [unfold valid_alpha; lra| |exact line_terms|intros i L; apply line_varied; assumption].
    intros i _. eexists. apply fitted_global.
  - apply (one_covered _ _ _ _ _ _ 1). intros i s Es D. destruct i as [|[|[|i]]]; cbn in Es; [|congruence| |destruct i; discriminate].
    + injection Es as <-. change (others 0 _) with [mk_sample [] 0 [102] 1; mk_sample [] 0 [104] 2].
      pose proof (fitted_global [mk_sample [] 0 [102] 1; mk_sample [] 0 [104] 2]) as F. cbn [map s_target s_pred] in F. rewrite median_two in F.
      assert (NE : norms_of eps 1 [mk_sample [] 0 [102] 1; mk_sample [] 0 [104] 2] = [Some 1]).
      { unfold norms_of. cbn [seq map]. rewrite (norm_two eps 0 _ _ 1); [reflexivity| |exact E1]. cbn [s_terms nth]. rewrite Rabs_left by lra. lra. }
      apply (uncovered_two _ _ _ _ _ _ _ F); rewrite NE; unfold width_of; cbn [s_terms s_target s_pred combine map fst snd over rsum fold_right];
        unfold Rabs; repeat destruct (Rcase_abs _); lra.
    + injection Es as <-. change (others 2 _) with [mk_sample [] 0 [100] 0; mk_sample [] 0 [102] 1].
      pose proof (fitted_global [mk_sample [] 0 [100] 0; mk_sample [] 0 [102] 1]) as F. cbn [map s_target s_pred] in F. rewrite median_two in F.
      assert (NE : norms_of eps 1 [mk_sample [] 0 [100] 0; mk_sample [] 0 [102] 1] = [Some 1]).
      { unfold norms_of. cbn [seq map]. rewrite (norm_two eps 0 _ _ 1); [reflexivity| |exact E1]. cbn [s_terms nth]. rewrite Rabs_left by lra. lra. }
      apply (uncovered_two _ _ _ _ _ _ _ F); rewrite NE; unfold width_of; cbn [s_terms s_target s_pred combine map fst snd over rsum fold_right];
        unfold Rabs; repeat destruct (Rcase_abs _); lra.
Qed.

(** Without corrections, but with two terms (of which the first is large where
    the second is small): again one of three. *)
Definition crossed : list sample := three (mk_sample [] 0 [20; 200] 1) (mk_sample [] 0 [200; 20] 1) (mk_sample [] 0 [198; 202] 1).
Lemma crossed_norms eps : eps <= 1 ->
  norms_of eps 2 (others 0 crossed) = [Some 1; Some 91] /\ norms_of eps 2 (others 1 crossed) = [Some 89; Some 1] /\ norms_of eps 2 (others 2 crossed) = [Some 90; Some 90].
Proof.
  intros E. repeat split; unfold norms_of, others, crossed, three; cbn [seq map firstn skipn app];
    (erewrite (norm_two eps 0), (norm_two eps 1); [reflexivity| | | |];
     [cbn [s_terms nth]; unfold Rabs; destruct (Rcase_abs _); lra|lra|cbn [s_terms nth]; unfold Rabs; destruct (Rcase_abs _); lra|lra]).
Qed.
Theorem C113_terms_refuted : forall eps, 0 < eps <= 1 -> / (INR 2 + 1) <= 1/3 /\ all_answered eps MNone 2 (1/3) crossed /\ ~ guarantee eps MNone 2 (1/3) crossed.
Proof.
  intros eps [E E1]. split; [cbn [INR]; lra|]. destruct (crossed_norms eps E1) as (N0 & N1 & N2). split.
  - intros i s Es. do 2 eexists. eapply (gives_iff eps MNone 2 (1/3) (others i crossed) 0 s); [unfold valid_alpha; lra|apply fitted_none| |split; reflexivity].
    destruct i as [|[|[|i]]]; [rewrite N0|rewrite N1|rewrite N2|destruct i; discriminate];
      intros s' I; cbn in I; destruct I as [ <- | [ <- | []]]; unfold width_of; cbn [s_terms combine map fst snd over rsum fold_right]; lra.
  - apply (one_covered _ _ _ _ _ _ 2). intros i s Es D. fold crossed. destruct i as [|[|[|i]]]; cbn in Es; [| |congruence|destruct i; discriminate].
    + injection Es as <-. change (others 0 crossed) with [mk_sample [] 0 [200; 20] 1; mk_sample [] 0 [198; 202] 1] in *.
      apply (uncovered_two _ _ _ _ _ _ 0 (fitted_none _)); rewrite N0; unfold width_of; cbn [s_terms s_target s_pred combine map fst snd over rsum fold_right];
        unfold Rabs; repeat destruct (Rcase_abs _); lra.
    + injection Es as <-. change (others 1 crossed) with [mk_sample [] 0 [20; 200] 1; mk_sample [] 0 [198; 202] 1] in *.
      apply (uncovered_two _ _ _ _ _ _ 0 (fitted_none _)); rewrite N1; unfold width_of; cbn [s_terms s_target s_pred combine map fst snd over rsum fold_right];
        unfold Rabs; repeat destruct (Rcase_abs _); lra.
Qed.
Theorem C113_refuted : ~ C113_always.
Proof.
  intros H. destruct (C113_terms_refuted 1 ltac:(lra)) as (A & B & C). apply C. apply (H 1 MNone 2%nat 2%nat); try lra; try lia; try reflexivity; [unfold valid_alpha; lra|exact B].
Qed.
(** Also not without further terms, if a bias is corrected. *)
Theorem C113_one_term_refuted : ~ (forall eps m n alpha l, 0 < eps -> length l = S n -> (1 <= n)%nat -> valid_alpha alpha -> / (INR n + 1) <= alpha ->
  all_answered eps m 1 alpha l -> guarantee eps m 1 alpha l).
Proof.
  intros H. destruct (C113_bias_refuted 1 ltac:(lra)) as (A & B & C). apply C. apply (H 1 MGlobal 2%nat); try lra; try lia; try reflexivity; [unfold valid_alpha; lra|exact B].
Qed.

Print Assumptions C113_one_term_partial.
Print Assumptions C113_interval.
Print Assumptions C113_calibration_data.
Print Assumptions C113_bias_refuted.
Print Assumptions C113_terms_refuted.
Print Assumptions C113_refuted.
Print Assumptions C113_one_term_refuted.
