(** C138: samples without uncertainty in the calibration data. *)
From Coq Require Import Reals ZArith Lra Permutation.
From Verif Require Import Base TreeUtil Serial OneHot OneHotProofs Conformal ConformalSpec ConformalProofs InfScores.
Local Open Scope R_scope.
Local Open Scope list_scope.

(** The documented guarantee: of any samples at least the fraction [1 - alpha] lie
    within the interval that the model gives after calibration with the others. *)
Definition guaranteed (alpha : R) (l : list (R * R)) : Prop :=
  exists I, NoDup I /\ (forall i, In i I -> exists s, nth_error l i = Some s /\ covered alpha (others i l) s = true) /\
    INR (length l) * (1 - alpha) <= INR (length I).
(** Residuals and uncertainties of samples. *)
Definition proper (l : list (R * R)) : Prop := forall s, In s l -> 0 <= snd s.
(** No sample is predicted exactly with an uncertainty of zero. *)
Definition defined (l : list (R * R)) : Prop := ~ In (0, 0) l.

(* ------------------------------------------------------------------ *)
(** * Numbers with a large real for infinity *)
Definition emb (B : R) (x : num) : R := match x with Fin a => a | _ => B end.
Definition below_B (B : R) (x : num) : Prop := match x with Fin a => a < B | Inf => True | NaN => False end.

Lemma nleb_emb B x y : below_B B x -> below_B B y -> nleb x y = rle (emb B x) (emb B y).
Proof.
  destruct x as [a| |], y as [b| |]; cbn; intros Hx Hy; try contradiction; try reflexivity; symmetry.
  - apply rle_spec. lra.
  - unfold rle. destruct (Rle_dec B b); [lra|reflexivity].
  - apply rle_spec. lra.
Qed.
Lemma insert_map {A} (le : A -> A -> bool) (f : A -> R) x l : (forall y, In y l -> le x y = rle (f x) (f y)) ->
  map f (insert le x l) = insert rle (f x) (map f l).
Proof.
  induction l as [|y l IH]; intros H; cbn [insert map]; [reflexivity|].
  rewrite (H y (or_introl eq_refl)). destruct (rle (f x) (f y)); cbn [map]; [reflexivity|]. rewrite IH; [reflexivity|].
  intros z Hz. apply H. right. exact Hz.
Qed.
Lemma insert_in {A} (le : A -> A -> bool) (x y : A) l : In y (insert le x l) -> y = x \/ In y l.
Proof.
  induction l as [|z l IH]; cbn [insert]; [intros [ <- |[]]; auto|]. destruct (le x z).
  - intros [ <- | H]; auto.
  - intros [ <- | H]; [right; left; reflexivity|]. destruct (IH H); [auto|right; right; assumption].
Qed.
Lemma isort_in {A} (le : A -> A -> bool) (y : A) l : In y (isort le l) -> In y l.
Proof.
  unfold isort. induction l as [|x l IH]; cbn [fold_right]; [intros []|]. intros H. apply insert_in in H as [ -> | H]; [left; reflexivity|right; auto].
Qed.
Lemma isort_map B l : (forall x, In x l -> below_B B x) -> map (emb B) (isort nleb l) = isort rle (map (emb B) l).
Proof.
  unfold isort. induction l as [|x l IH]; intros H; cbn [fold_right map]; [reflexivity|].
  rewrite insert_map, IH; [reflexivity| |].
  - intros y Hy. apply H. right. exact Hy.
  - intros y Hy. apply nleb_emb; apply H; [left; reflexivity|]. right. apply (isort_in nleb). exact Hy.
Qed.
Lemma clamp_map B l z : l <> [] -> at_clamped (map (emb B) l) z = emb B (nclamped l z).
Proof.
  intros N. unfold at_clamped, nclamped. rewrite map_length. destruct l as [|x l]; [contradiction|].
  rewrite (nth_indep (map (emb B) (x :: l)) 0 (emb B NaN)); [apply map_nth|]. rewrite map_length. cbn [length]. lia.
Qed.
Lemma clamped_in l z : l <> [] -> In (nclamped l z) l.
Proof. intros N. unfold nclamped. apply nth_In. destruct l; [contradiction|]. cbn [length]. lia. Qed.
Lemma isort_nonempty {A} (le : A -> A -> bool) l : l <> [] -> isort le l <> [].
Proof. intros N E. apply N. apply length_zero_iff_nil. rewrite <- (isort_length le l), E. reflexivity. Qed.

(** A real number above all finite entries. *)
Lemma some_bound (l : list num) : exists B, forall a, In (Fin a) l -> a < B.
Proof.
  induction l as [|x l (B & IH)]; [exists 0; intros a []|]. destruct x as [a| |].
  - exists (Rmax B (a + 1)). intros b [[= <-]|Hb]; [pose proof (Rmax_r B (a + 1)); lra|]. pose proof (Rmax_l B (a + 1)). pose proof (IH b Hb). lra.
  - exists B. intros b [H|Hb]; [discriminate|exact (IH b Hb)].
  - exists B. intros b [H|Hb]; [discriminate|exact (IH b Hb)].
Qed.

(* ------------------------------------------------------------------ *)
(** * The quantile *)

(** Strictly between two positions both weights count. *)
Lemma quantile_ext B l q x : l <> [] -> (forall y, In y l -> below_B B y) -> below_B B x ->
  (let t := q * (INR (length l) - 1) in 0 < t - IZR (floor t)) ->
  emb B x <= quantile (map (emb B) l) q ->
  match nquantile l q with NaN => False | Inf => True | Fin v => match x with Fin a => a <= v | _ => False end end.
Proof.
  intros N Hl Hx W H. unfold nquantile. assert (NN : existsb is_nan l = false).
  { destruct (existsb is_nan l) eqn:E; [|reflexivity]. apply existsb_exists in E as (y & Hy & Hn). specialize (Hl y Hy). destruct y; try discriminate. destruct Hl. }
  rewrite NN. unfold quantile in H. rewrite map_length in H. rewrite <- (isort_map B l Hl) in H. set (s := isort nleb l) in *.
  assert (Ns : s <> []) by (apply isort_nonempty; exact N). set (t := q * (INR (length l) - 1)) in *. cbv zeta in W.
  unfold at_position in H. rewrite !(clamp_map B s _ Ns) in H. unfold nposition. set (w := t - IZR (floor t)) in *.
  assert (W1 : w < 1) by (pose proof (floor_bound t); unfold w; lra).
  assert (Lo : below_B B (nclamped s (floor t))) by (apply Hl, (isort_in nleb), clamped_in; exact Ns).
  assert (Hi : below_B B (nclamped s (ceil t))) by (apply Hl, (isort_in nleb), clamped_in; exact Ns).
  assert (R1 : req (1 - w) 0 = false) by (unfold req; destruct (Req_EM_T (1 - w) 0); [lra|reflexivity]).
  assert (R2 : req w 0 = false) by (unfold req; destruct (Req_EM_T w 0); [lra|reflexivity]).
  destruct (nclamped s (floor t)) as [a| |], (nclamped s (ceil t)) as [b| |]; cbn [below_B emb ntimes nplus] in *; try contradiction;
    rewrite ?R1, ?R2; cbn [nplus]; auto.
  destruct x as [c| |]; cbn [emb below_B] in *; [exact H| |contradiction].
  assert (a * (1 - w) < B * (1 - w)) by (apply Rmult_lt_compat_r; lra). assert (b * w < B * w) by (apply Rmult_lt_compat_r; lra). lra.
Qed.

(** The position of the quantile for [alpha >= 2 / (n + 1)]. *)
Lemma between n alpha : (1 <= n)%nat -> valid_alpha alpha -> 2 / (INR n + 1) <= alpha ->
  let t := level n alpha * (INR n - 1) in 0 < t - IZR (floor t).
Proof.
  intros N [A0 A1] A2 t. assert (Nr : 1 <= INR n) by (change 1 with (INR 1); apply le_INR; lia).
  set (K := ceil ((INR n + 1) * (1 - alpha))). pose proof (ceil_bound ((INR n + 1) * (1 - alpha))) as Bc. fold K in Bc.
  assert (P : 0 < (INR n + 1) * (1 - alpha)) by (apply Rmult_lt_0_compat; lra).
  assert (Q : 2 <= (INR n + 1) * alpha).
  { apply Rle_trans with ((INR n + 1) * (2 / (INR n + 1))); [right; field; lra|]. apply Rmult_le_compat_l; lra. }
  assert (K1 : (1 <= K)%Z) by (assert (0 < K)%Z; [apply lt_IZR; lra|lia]).
  assert (Kn : (K <= Z.of_nat n - 1)%Z).
  { assert (K < Z.of_nat n)%Z; [|lia]. apply lt_IZR. rewrite <- INR_IZR_INZ. lra. }
  assert (KR : 1 <= IZR K <= INR n - 1).
  { split; [apply IZR_le in K1; exact K1|]. apply IZR_le in Kn. rewrite minus_IZR, <- INR_IZR_INZ in Kn. exact Kn. }
  assert (E : t = IZR K - IZR K / INR n) by (unfold t, level; fold K; field; lra).
  assert (D : 0 < IZR K / INR n < 1).
  { split; [apply Rdiv_lt_0_compat; lra|]. apply (Rmult_lt_reg_r (INR n)); [lra|]. unfold Rdiv. rewrite Rmult_assoc, Rinv_l by lra. lra. }
  assert (F : floor t = (K - 1)%Z) by (apply floor_unique; rewrite minus_IZR; lra).
  rewrite F, minus_IZR. lra.
Qed.

(* ------------------------------------------------------------------ *)
(** * The guarantee *)
Definition the_scores (l : list (R * R)) : list num := map (fun p => score (fst p) (snd p)) l.
Lemma others_map {A B} (f : A -> B) i l : others i (map f l) = map f (others i l).
Proof. unfold others. rewrite map_app, firstn_map, skipn_map. reflexivity. Qed.
Lemma others_in {A} (x : A) i l : In x (others i l) -> In x l.
Proof.
  unfold others. intros H. apply in_app_or in H as [H|H].
  - rewrite <- (firstn_skipn i l). apply in_or_app. left. exact H.
  - rewrite <- (firstn_skipn (S i) l). apply in_or_app. right. exact H.
Qed.
Lemma scores_below B l : defined l -> (forall a, In (Fin a) (the_scores l) -> a < B) -> forall x, In x (the_scores l) -> below_B B x.
Proof.
  intros D H x Hx. destruct x as [a| |]; cbn; [exact (H a Hx)|exact I|]. apply in_map_iff in Hx as ((r & u) & E & Hp). cbn [fst snd] in E. unfold score in E.
  destruct (req u 0) eqn:Eu; [|discriminate]. destruct (req r 0) eqn:Er; [|discriminate]. apply req_spec in Eu, Er. subst. exact (D Hp).
Qed.
Lemma inside_finite v r u : 0 < u -> inside (Fin v) r u = true <-> Rabs r / u <= v.
Proof.
  intros U. unfold inside, ntimes. rewrite rle_spec. split; intros H.
  - apply (Rmult_le_reg_r u); [exact U|]. unfold Rdiv. rewrite Rmult_assoc, Rinv_l by lra. lra.
  - apply (Rmult_le_compat_r u) in H; [|lra]. unfold Rdiv in H. rewrite Rmult_assoc, Rinv_l in H by lra. lra.
Qed.

(** Unless a sample is predicted exactly with an uncertainty of zero, and for
    [alpha >= 2 / (n + 1)], uncertainties of zero do no harm to the other samples: at
    least the fraction [1 - alpha] of the samples are within their intervals or have
    an uncertainty of zero themselves.  Missing: smaller alpha and exact samples, for
    which it is false (below). *)
Theorem C138_partial : forall n alpha l, length l = S n -> (1 <= n)%nat -> valid_alpha alpha -> 2 / (INR n + 1) <= alpha ->
  proper l -> defined l ->
  exists I, NoDup I /\
    (forall i, In i I -> exists s, nth_error l i = Some s /\ (snd s = 0 \/ covered alpha (others i l) s = true)) /\
    INR (length l) * (1 - alpha) <= INR (length I).
Proof.
  intros n alpha l L N V A P D. destruct (some_bound (the_scores l)) as (B & HB).
  pose proof (scores_below B l D HB) as SB. assert (Nr : 1 <= INR n) by (change 1 with (INR 1); apply le_INR; lia).
  assert (A1 : / (INR n + 1) <= alpha).
  { eapply Rle_trans; [|exact A]. unfold Rdiv. assert (0 < / (INR n + 1)) by (apply Rinv_0_lt_compat; lra). lra. }
  set (e := map (emb B) (the_scores l)). assert (Le : length e = S n) by (unfold e, the_scores; rewrite !map_length; exact L).
  destruct (coverage_ok n alpha e Le N V A1) as (I & ND & HI & C). exists I. split; [exact ND|]. split; [|rewrite L, <- Le; exact C].
  intros i Hi. destruct (HI i Hi) as (Hlt & q & -> & Hq). rewrite Le in Hlt. rewrite <- L in Hlt.
  destruct (nth_error l i) as [[r u]|] eqn:E; [|apply nth_error_None in E; lia]. exists (r, u). split; [reflexivity|]. cbn [snd].
  assert (In (r, u) l) as Hin by (eapply nth_error_In; exact E).
  destruct (Req_EM_T u 0) as [U|U]; [left; exact U|right]. assert (U0 : 0 < u) by (pose proof (P _ Hin) as HP; cbn in HP; lra).
  assert (Sx : score r u = Fin (Rabs r / u)) by (unfold score; destruct (req u 0) eqn:Eu; [apply req_spec in Eu; contradiction|reflexivity]).
  assert (En : nth i e 0 = emb B (score r u)).
  { unfold e, the_scores. rewrite map_map. apply nth_error_nth. rewrite nth_error_map, E. reflexivity. }
  rewrite En in Hq. unfold e in Hq. rewrite others_map in Hq. unfold qhat1 in Hq. rewrite map_length in Hq.
  set (o := others i (the_scores l)) in *. assert (Lo : length o = n).
  { unfold o. rewrite others_length; unfold the_scores; rewrite map_length; lia. }
  rewrite Lo in Hq.
  assert (Q := quantile_ext B o (level n alpha) (score r u)).
  unfold covered. cbn [fst snd]. replace (map (fun p => score (fst p) (snd p)) (others i l)) with o by (unfold o, the_scores; apply others_map).
  unfold nqhat. rewrite Lo. rewrite Sx in Q.
  assert (Qr : match nquantile o (level n alpha) with NaN => False | Inf => True | Fin v => Rabs r / u <= v end).
  { apply Q.
    - intros Eo. rewrite Eo in Lo. cbn in Lo. lia.
    - intros y Hy. apply SB. exact (others_in y i _ Hy).
    - rewrite <- Sx. apply SB. unfold the_scores. apply in_map_iff. exists (r, u). split; [reflexivity|exact Hin].
    - rewrite Lo. exact (between n alpha N V A).
    - rewrite <- Sx. exact Hq. }
  destruct (nquantile o (level n alpha)) as [v| |]; [apply inside_finite; assumption| |contradiction].
  unfold inside, ntimes. destruct (req u 0) eqn:Eu; [apply req_spec in Eu; contradiction|reflexivity].
Qed.

(** If every uncertainty is positive all scores are finite, the quantile is that of
    Conformal.v, and the guarantee proper holds as in C42. *)
Lemma finite_quantile l q : l <> [] -> nquantile (map Fin l) q = Fin (quantile l q).
Proof.
  intros N. unfold nquantile. assert (NN : existsb is_nan (map Fin l) = false) by (clear; induction l; [reflexivity|exact IHl]). rewrite NN.
  assert (S : isort nleb (map Fin l) = map Fin (isort rle l)).
  { clear. unfold isort. induction l as [|x l IH]; [reflexivity|]. cbn [map fold_right]. rewrite IH. generalize (fold_right (insert rle) [] l) as m.
    induction m as [|y m IHm]; [reflexivity|]. cbn [map insert nleb]. destruct (rle x y); [reflexivity|]. cbn [map]. rewrite <- IHm. reflexivity. }
  rewrite S, map_length. unfold quantile, nposition, at_position. set (s := isort rle l). assert (Ns : s <> []) by (apply isort_nonempty; exact N).
  assert (C : forall z, nclamped (map Fin s) z = Fin (at_clamped s z)).
  { intros z. unfold nclamped, at_clamped. rewrite map_length, (nth_indep _ NaN (Fin 0)); [apply map_nth|]. rewrite map_length. destruct s; [contradiction|]. cbn [length]. lia. }
  rewrite !C. reflexivity.
Qed.
Theorem C138_positive : forall n alpha l, length l = S n -> (1 <= n)%nat -> valid_alpha alpha -> / (INR n + 1) <= alpha ->
  (forall s, In s l -> 0 < snd s) -> guaranteed alpha l.
Proof.
  intros n alpha l L N V A P. set (f := fun p : R * R => Rabs (fst p) / snd p).
  assert (F : forall m, (forall s, In s m -> 0 < snd s) -> map (fun p => score (fst p) (snd p)) m = map Fin (map f m)).
  { intros m Hm. rewrite map_map. apply map_ext_in. intros s Hs. unfold score. destruct (req (snd s) 0) eqn:E; [|reflexivity].
    apply req_spec in E. specialize (Hm s Hs). lra. }
  assert (Lf : length (map f l) = S n) by (rewrite map_length; exact L).
  destruct (coverage_ok n alpha (map f l) Lf N V A) as (I & ND & HI & C). exists I. split; [exact ND|]. split; [|rewrite L, <- Lf; exact C].
  intros i Hi. destruct (HI i Hi) as (Hlt & q & -> & Hq). rewrite map_length in Hlt.
  destruct (nth_error l i) as [s|] eqn:E; [|apply nth_error_None in E; lia]. exists s. split; [reflexivity|].
  rewrite (nth_error_nth (map f l) i (x := f s)) in Hq by (rewrite nth_error_map, E; reflexivity).
  unfold covered. rewrite F by (intros s' Hs; apply P; exact (others_in _ i l Hs)). unfold nqhat. rewrite map_length.
  rewrite others_map in Hq. unfold qhat1 in Hq. rewrite finite_quantile.
  - apply inside_finite; [apply P; eapply nth_error_In; exact E|exact Hq].
  - intros E0. apply (f_equal (@length R)) in E0. rewrite map_length, others_length in E0 by lia. cbn in E0. lia.
Qed.

(** One calibration sample that is predicted exactly with an uncertainty of zero: no
    interval contains anything, whatever the other samples and alpha. *)
Theorem C138_exact_sample : forall alpha cal s, In (0, 0) cal -> covered alpha cal s = false.
Proof.
  intros alpha cal s H. unfold covered, nqhat, nquantile.
  assert (E : existsb is_nan (map (fun p => score (fst p) (snd p)) cal) = true).
  { apply existsb_exists. exists NaN. split; [|reflexivity]. apply in_map_iff. exists (0, 0). split; [|exact H]. cbn [fst snd]. unfold score.
    assert (Z : req 0 0 = true) by (apply req_spec; reflexivity). rewrite Z. reflexivity. }
  rewrite E. reflexivity.
Qed.

Lemma nothing_covered alpha l : valid_alpha alpha -> (1 <= length l)%nat -> (forall i s, nth_error l i = Some s -> covered alpha (others i l) s = false) -> ~ guaranteed alpha l.
Proof.
  intros [A0 A1] L H (I & _ & HI & C). assert (Lr : 1 <= INR (length l)) by (change 1 with (INR 1); apply le_INR; lia).
  destruct I as [|i I].
  - cbn in C. assert (0 < INR (length l) * (1 - alpha)) by (apply Rmult_lt_0_compat; lra). lra.
  - destruct (HI i (or_introl eq_refl)) as (s & E & K). rewrite (H i s E) in K. discriminate.
Qed.

(** The guarantee fails: two exact samples with an uncertainty of zero and any number of
    others. *)
Theorem C138_refuted : exists l, proper l /\ length l = 10%nat /\ forall alpha, valid_alpha alpha -> ~ guaranteed alpha l.
Proof.
  exists ((0, 0) :: (0, 0) :: repeat (1, 1) 8). split; [|split; [reflexivity|]].
  - intros s [ <- |[ <- | H]]; cbn [snd]; [lra|lra|]. apply repeat_spec in H. subst. cbn. lra.
  - intros alpha V. apply (nothing_covered alpha _ V); [cbn; lia|]. intros i s E. apply C138_exact_sample.
    destruct i as [|i]; [left; reflexivity|]. destruct i as [|i]; left; reflexivity.
Qed.

(** Nor for exact samples aside with [alpha < 2 / (n + 1)]: the quantile is the
    infinite score times one plus the infinite score times zero, a NaN. *)
Theorem C138_small_alpha : forall alpha cal s n, length cal = n -> (1 <= n)%nat -> valid_alpha alpha ->
  / (INR n + 1) <= alpha < 2 / (INR n + 1) -> (exists r, r <> 0 /\ In (r, 0) cal) -> covered alpha cal s = false.
Proof.
  intros alpha cal s n L N [A0 A1] [A2 A3] (r & Hr & Hin). assert (Nr : 1 <= INR n) by (change 1 with (INR 1); apply le_INR; lia).
  unfold covered, nqhat, nquantile. set (o := map (fun p => score (fst p) (snd p)) cal). assert (Lo : length o = n) by (unfold o; rewrite map_length; exact L).
  destruct (existsb is_nan o) eqn:NN; [reflexivity|]. rewrite Lo.
  assert (K : ceil ((INR n + 1) * (1 - alpha)) = Z.of_nat n).
  { apply ceil_unique. rewrite <- INR_IZR_INZ.
    assert ((INR n + 1) * / (INR n + 1) <= (INR n + 1) * alpha) by (apply Rmult_le_compat_l; lra).
    assert ((INR n + 1) * alpha < (INR n + 1) * (2 / (INR n + 1))) by (apply Rmult_lt_compat_l; lra).
    assert (E1 : (INR n + 1) * / (INR n + 1) = 1) by (field; lra). assert (E2 : (INR n + 1) * (2 / (INR n + 1)) = 2) by (field; lra). lra. }
  assert (T : level n alpha * (INR n - 1) = IZR (Z.of_nat n - 1)).
  { unfold level. rewrite K, minus_IZR, <- INR_IZR_INZ. field. lra. }
  rewrite T. assert (In Inf o) as Ho.
  { unfold o. apply in_map_iff. exists (r, 0). split; [|exact Hin]. cbn [fst snd]. unfold score.
    assert (Z0 : req 0 0 = true) by (apply req_spec; reflexivity). rewrite Z0. destruct (req r 0) eqn:E; [apply req_spec in E; contradiction|reflexivity]. }
  unfold nposition. assert (Fl : floor (IZR (Z.of_nat n - 1)) = (Z.of_nat n - 1)%Z) by (apply floor_unique; lra).
  assert (Ce : ceil (IZR (Z.of_nat n - 1)) = (Z.of_nat n - 1)%Z) by (apply ceil_unique; lra). rewrite Fl, Ce.
  replace (IZR (Z.of_nat n - 1) - IZR (Z.of_nat n - 1)) with 0 by ring.
  assert (Last : nclamped (isort nleb o) (Z.of_nat n - 1) = Inf).
  { clear - Ho NN Lo N. destruct (some_bound o) as (B & HB).
    assert (SB : forall x, In x o -> below_B B x).
    { intros x Hx. destruct x as [a| |]; cbn; [exact (HB a Hx)|exact I|]. assert (existsb is_nan o = true); [|congruence].
      apply existsb_exists. exists NaN. split; [exact Hx|reflexivity]. }
    assert (Ns : isort nleb o <> []) by (apply isort_nonempty; intros E; rewrite E in Lo; cbn in Lo; lia).
    pose proof (clamp_map B (isort nleb o) (Z.of_nat n - 1) Ns) as C. rewrite (isort_map B o SB) in C.
    assert (B <= at_clamped (isort rle (map (emb B) o)) (Z.of_nat n - 1)) as H.
    { assert (Hb : In B (isort rle (map (emb B) o))).
      { eapply Permutation_in; [apply isort_perm|]. apply in_map_iff. exists Inf. split; [reflexivity|exact Ho]. }
      destruct (In_nth _ _ 0 Hb) as (j & Hj & Ej). rewrite isort_length, map_length, Lo in Hj.
      rewrite <- Ej at 1. replace (nth j (isort rle (map (emb B) o)) 0) with (at_clamped (isort rle (map (emb B) o)) (Z.of_nat j)).
      - apply at_clamped_mono; [apply sorted_isort|lia].
      - unfold at_clamped. rewrite isort_length, map_length, Lo. f_equal. lia. }
    rewrite C in H. pose proof (SB _ (isort_in nleb _ _ (clamped_in _ (Z.of_nat n - 1) Ns))) as X.
    destruct (nclamped (isort nleb o) (Z.of_nat n - 1)) as [a| |]; cbn in *; [lra|reflexivity|contradiction]. }
  rewrite Last. unfold ntimes at 2. assert (Z0 : req 0 0 = true) by (apply req_spec; reflexivity). rewrite Z0. unfold ntimes.
  destruct (req (1 - 0) 0); reflexivity.
Qed.
(** Two samples with an uncertainty of zero and one without, [alpha = 1/3]: none is
    covered, although an infinite quantile would cover the one. *)
Theorem C138_small_alpha_refuted :
  ~ (forall n alpha l, length l = S n -> (1 <= n)%nat -> valid_alpha alpha -> / (INR n + 1) <= alpha -> proper l -> defined l ->
     exists I, NoDup I /\ (forall i, In i I -> exists s, nth_error l i = Some s /\ (snd s = 0 \/ covered alpha (others i l) s = true)) /\
       INR (length l) * (1 - alpha) <= INR (length I)).
Proof.
  intros H. destruct (H 2%nat (1/3) [(1, 0); (1, 1); (1, 1)]) as (I & ND & HI & C); try reflexivity; try lia.
  - unfold valid_alpha. lra.
  - cbn [INR]. lra.
  - intros s [ <- |[ <- |[ <- |[]]]]; cbn; lra.
  - intros [E|[E|[E|[]]]]; injection E; intros; lra.
  - assert (V : valid_alpha (1/3)) by (unfold valid_alpha; lra).
    assert (Z : forall i, In i I -> i = 0%nat).
    { intros i Hi. destruct (HI i Hi) as (s & E & [U|K]).
      - destruct i as [|[|[|i]]]; cbn in E; [reflexivity| | |destruct i; discriminate]; injection E as <-; cbn in U; lra.
      - destruct i as [|i]; [reflexivity|]. exfalso. rewrite (C138_small_alpha (1/3) (others (S i) [(1, 0); (1, 1); (1, 1)]) s 2) in K; [discriminate| |lia|exact V| |].
        + rewrite others_length; [reflexivity|]. apply nth_error_Some. congruence.
        + cbn [INR]. lra.
        + exists 1. split; [lra|]. left. reflexivity. }
    assert (length I <= 1)%nat.
    { destruct I as [|a [|b I]]; cbn; [lia|lia|]. pose proof (Z a (or_introl eq_refl)). pose proof (Z b (or_intror (or_introl eq_refl))). subst.
      inversion ND as [|? ? Hn _]; subst. destruct Hn. left. reflexivity. }
    apply le_INR in H0. cbn [length INR] in *. lra.
Qed.

(** Three samples, one of them without uncertainty, [alpha = 2/3]. *)
Example C138_partial_example : let l := [(1, 0); (2, 1); (3, 1)] in
  length l = 3%nat /\ 2 / (INR 2 + 1) <= 2/3 /\ proper l /\ defined l.
Proof.
  split; [reflexivity|]. split; [cbn [INR]; lra|]. split.
  - intros s [ <- |[ <- |[ <- |[]]]]; cbn; lra.
  - intros [E|[E|[E|[]]]]; injection E; intros; lra.
Qed.
Example C138_positive_example : forall s, In s [(0, 1); (2, 1); (3, 2)] -> 0 < snd s.
Proof. intros s [ <- |[ <- |[ <- |[]]]]; cbn; lra. Qed.
Example C138_exact_sample_example : In (0, 0) [(1, 2); (0, 0)] /\ covered (1/2) [(1, 2); (0, 0)] (1, 1) = false.
Proof. split; [right; left; reflexivity|]. apply C138_exact_sample. right. left. reflexivity. Qed.
Example C138_small_alpha_example : covered (1/3) [(1, 0); (1, 1)] (0, 1) = false.
Proof.
  apply (C138_small_alpha _ _ _ 2); [reflexivity|lia|unfold valid_alpha; lra|cbn [INR]; lra|]. exists 1. split; [lra|left; reflexivity].
Qed.

Print Assumptions C138_partial.
Print Assumptions C138_positive.
Print Assumptions C138_exact_sample.
Print Assumptions C138_refuted.
Print Assumptions C138_small_alpha.
Print Assumptions C138_small_alpha_refuted.
