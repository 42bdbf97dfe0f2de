(** Intervals with corrections that depend on the stratum of a sample, and the
    coverage of the calibration samples themselves. *)
From Coq Require Import Reals Lra Lia Permutation.
From Verif Require Import Base TreeUtil Serial Scaler ScalerProofs OneHot OneHotProofs Conformal ConformalSpec ConformalProofs Strata StrataProofs NdArray Uncertainty Cover CoverSpec CoverProofs.
Local Open Scope R_scope.
Local Open Scope list_scope.

(** The correction [g s] of every sample [s], fitted to [l]. *)
Definition fitted_by (m : mode) (l : list sample) (g : sample -> R) : Prop :=
  exists B, calibrate_bias m (inputs l) (column s_target l) (column s_pred l) = Ok (B, column (fun s => s_pred s + g s) l) /\
    forall s, apply_bias m B (inputs [s]) (column s_pred [s]) = Ok (column (fun s => s_pred s + g s) [s]).
Lemma fitted_const m l b : fitted m l b -> fitted_by m l (fun _ => b).
Proof. intros H. exact H. Qed.

(* ------------------------------------------------------------------ *)
(** * Strata *)
Definition feats (b : bool) (s : sample) : list R := if b then s_feats s else [].
Lemma seq_nth_map {A} (d : A) l : map (fun i => nth i l d) (seq 0 (length l)) = l.
Proof. symmetry. apply list_as_map. Qed.
Lemma features_of b l : strata_features (inputs l) (Leaf b) = Ok (map (feats b) l).
Proof.
  unfold strata_features, inputs. rewrite jzip_leaf. cbn [rbind leaves]. unfold hcat. cbn [forallb]. rewrite Nat.eqb_refl. cbn [andb].
  unfold selected. cbn [o_rows]. f_equal.
  assert (E : (if b then map s_feats l else map (fun _ : list R => []) (map s_feats l)) = map (feats b) l).
  { destruct b; cbn [feats]; [reflexivity|]. rewrite map_map. reflexivity. }
  rewrite E. rewrite (map_ext _ (fun i => nth i (map (feats b) l) [])); [apply seq_nth_map|].
  intros i. cbn [map concat]. rewrite app_nil_r. reflexivity.
Qed.

(** the stored row of a stratum *)
Definition stored_row (b : bool) (l : list sample) (i : nat) : list R :=
  let u := unique_rows rops (map (feats b) l) in
  nth i (map (fun i => [median (map (fun s => s_target s - s_pred s) (filter (fun s => Nat.eqb i (index_of u (feats b s))) l))]) (seq 0 (length u)) ++ [[0]]) [].
Definition strata_by (b : bool) (l : list sample) (s : sample) : R := nth 0 (stored_row b l (index_of (unique_rows rops (map (feats b) l)) (feats b s))) 0.

Lemma keep_filter {A B} (p : A -> bool) (g : A -> B) l : keep (map p l) (map g l) = map g (filter p l).
Proof. unfold keep. induction l as [|x l IH]; [reflexivity|]. cbn [map combine filter fst]. destruct (p x); cbn [map snd]; rewrite IH; reflexivity. Qed.

Lemma fit_strata b l : fit_bias (MStrata (Leaf b)) (inputs l) (column s_target l) (column s_pred l) =
  let u := unique_rows rops (map (feats b) l) in
  Ok (BStrata u (Leaf (map (fun i => [median (map (fun s => s_target s - s_pred s) (filter (fun s => Nat.eqb i (index_of u (feats b s))) l))]) (seq 0 (length u)) ++ [[0]]))).
Proof.
  cbn [fit_bias]. rewrite features_of. cbn [rbind]. unfold residuals. unfold column. rewrite jzip_leaf, leaf_op_column. cbn [rbind jmapM].
  unfold strata_leaf. cbn [o_shape]. destruct (list_eq_dec Nat.eq_dec [1%nat] [1%nat]) as [_|N]; [|congruence]. cbn [orb rbind]. cbv zeta. do 4 f_equal.
  apply map_ext. intros i. unfold col_median, features. cbn [o_shape o_rows fold_right Nat.mul Nat.add seq map].
  rewrite !map_map. rewrite (keep_filter (fun s => Nat.eqb i (index_of (unique_rows rops (map (feats b) l)) (feats b s))) (fun s => number (s_target s - s_pred s))).
  rewrite map_map. reflexivity.
Qed.
Lemma stored_one_wide b l i : (i <= length (unique_rows rops (map (feats b) l)))%nat -> stored_row b l i = [nth 0 (stored_row b l i) 0].
Proof.
  intros L. unfold stored_row. cbv zeta. set (u := unique_rows rops (map (feats b) l)) in *.
  destruct (Nat.lt_ge_cases i (length u)) as [H|H].
  - rewrite app_nth1 by (rewrite map_length, seq_length; exact H).
    rewrite (map_nth_lt _ _ 0%nat []) by (rewrite seq_length; exact H). reflexivity.
  - replace i with (length u) by lia. rewrite app_nth2 by (rewrite map_length, seq_length; lia). rewrite map_length, seq_length, Nat.sub_diag. reflexivity.
Qed.
Lemma index_le u r : (index_of u r <= length u)%nat.
Proof. induction u as [|v u IH]; [apply Nat.le_refl|]. cbn [index_of length]. destruct (row_eqb rops r v); lia. Qed.
Lemma apply_strata b l l' :
  apply_bias (MStrata (Leaf b)) (BStrata (unique_rows rops (map (feats b) l)) (Leaf (map (fun i => [median (map (fun s => s_target s - s_pred s) (filter (fun s => Nat.eqb i (index_of (unique_rows rops (map (feats b) l)) (feats b s))) l))]) (seq 0 (length (unique_rows rops (map (feats b) l)))) ++ [[0]])))
    (inputs l') (column s_pred l') = Ok (column (fun s => s_pred s + strata_by b l s) l').
Proof.
  cbn [apply_bias]. rewrite features_of. cbn [rbind jmapM]. unfold pick, column. rewrite jzip_leaf.
  match goal with |- context[leaf_op Rplus _ (mk_odata [1%nat] ?r)] => assert (E : r = map (fun s => number (strata_by b l s)) l') end.
  { rewrite !map_map. apply map_ext. intros s. change (nth _ (_ ++ [[0]]) []) with (stored_row b l (index_of (unique_rows rops (map (feats b) l)) (feats b s))).
    rewrite stored_one_wide by apply index_le. reflexivity. }
  rewrite E, leaf_op_column. reflexivity.
Qed.
Lemma fitted_strata b l : fitted_by (MStrata (Leaf b)) l (strata_by b l).
Proof.
  eexists. split; [|intros s; apply apply_strata]. unfold calibrate_bias. rewrite fit_strata. cbv zeta. cbn [rbind]. rewrite apply_strata. reflexivity.
Qed.

(** Whenever a calibration works, there are corrections. *)
Lemma fitted_total m l r : calibrate_bias m (inputs l) (column s_target l) (column s_pred l) = Ok r -> exists g, fitted_by m l g.
Proof.
  intros H. destruct m as [| |t].
  - eexists. apply fitted_const, fitted_none.
  - eexists. apply fitted_const, fitted_global.
  - assert (T : match t with Leaf _ => True | _ => False end).
    { destruct t; try exact Logic.I; unfold calibrate_bias, fit_bias, strata_features, jzipM, inputs in H; cbn in H; discriminate H. }
    destruct t; try contradiction T. eexists. apply fitted_strata.
Qed.

(* ------------------------------------------------------------------ *)
(** * The interval *)
Definition score_by (norms : list (option R)) (g : sample -> R) (s : sample) : R := Rabs (s_target s - (s_pred s + g s)) / width_of norms s.
Lemma calibrate_by eps m k alpha l g : fitted_by m l g -> (forall s', In s' l -> 0 < width_of (norms_of eps k l) s') -> exists c,
  calibrate_with eps m k alpha l = Ok (Calibration c) /\
  (valid_alpha alpha -> forall s, let q := qhat1 alpha (map (score_by (norms_of eps k l) g) l) in
    interval c alpha s = Ok (s_pred s + g s + -1 * (q * width_of (norms_of eps k l) s), s_pred s + g s + 1 * (q * width_of (norms_of eps k l) s))).
Proof.
  intros (B & FB & AB) P. eexists. split.
  - unfold calibrate_with. rewrite FB. cbn [rbind fst snd]. fold (norms_of eps k l). rewrite numbers_column, zip3r_map.
    assert (E : existsb (fun v => rle v 0) (map (width_of (norms_of eps k l)) l) = false).
    { apply not_true_is_false. intros E. apply existsb_exists in E. destruct E as (v & Iv & Lv). apply in_map_iff in Iv. destruct Iv as (s' & <- & Is).
      apply rle_spec in Lv. specialize (P s' Is). lra. }
    rewrite E. reflexivity.
  - intros V s. cbv zeta. unfold interval. cbn [k_mode k_bias k_norms k_conf]. rewrite AB. cbn [rbind]. rewrite numbers_column. cbn [map]. unfold number at 2 3.
    destruct (call_one alpha (map (score_by (norms_of eps k l) g) l) (s_pred s + g s) (width_of (norms_of eps k l) s) V) as (c' & E).
    change (map (fun s0 => Rabs (s_target s0 - (s_pred s0 + g s0)) / width_of (norms_of eps k l) s0) l) with (map (score_by (norms_of eps k l) g) l). rewrite E. reflexivity.
Qed.
Lemma calibrated_inv eps m k alpha l c : calibrate_with eps m k alpha l = Ok (Calibration c) ->
  (exists g, fitted_by m l g) /\ forall s', In s' l -> 0 < width_of (norms_of eps k l) s'.
Proof.
  intros H. unfold calibrate_with in H. destruct (calibrate_bias _ _ _ _) as [r|] eqn:F; [|discriminate H]. cbn [rbind] in H. fold (norms_of eps k l) in H.
  split; [exact (fitted_total _ _ _ F)|]. destruct (existsb _ _) eqn:E; [discriminate H|]. intros s' I.
  destruct (Rlt_le_dec 0 (width_of (norms_of eps k l) s')) as [?|L]; [assumption|]. exfalso.
  assert (T : existsb (fun v => rle v 0) (map (width_of (norms_of eps k l)) l) = true); [|congruence].
  apply existsb_exists. eexists. split; [apply in_map; exact I|]. apply rle_spec. exact L.
Qed.

(** At least the promised number of entries do not exceed the quantile. *)
Lemma quantile_covers alpha l : valid_alpha alpha -> INR (length l) * (1 - alpha) <= INR (ConformalProofs.upto (qhat1 alpha l) l).
Proof.
  intros [A1 A2]. destruct (Nat.eq_dec (length l) 0) as [Z|Z]. { rewrite Z. cbn [INR]. rewrite Rmult_0_l. apply pos_INR. }
  set (n := length l) in *. set (K := ceil ((INR n + 1) * (1 - alpha))).
  assert (Hn : 1 <= INR n) by (change 1 with (INR 1); apply le_INR; lia).
  assert (KP : (INR n + 1) * (1 - alpha) <= IZR K) by apply ceil_bound.
  assert (K1 : (1 <= K)%Z). { assert (0 < IZR K) by (apply Rlt_le_trans with ((INR n + 1) * (1 - alpha)); [apply Rmult_lt_0_compat; lra|exact KP]). apply lt_IZR in H. lia. }
  set (k := Nat.min n (Z.to_nat K)).
  assert (Q : nth (k - 1) (isort rle l) 0 <= qhat1 alpha l).
  { apply qhat1_above; [unfold k; fold n; lia|]. fold n. fold K. unfold k. lia. }
  assert (SL : length (isort rle l) = n) by (unfold n; symmetry; apply Permutation_length, isort_perm).
  pose proof (sorted_upto (isort rle l) (k - 1) (sorted_isort l) ltac:(rewrite SL; unfold k; lia)) as U.
  assert (U' : (k <= ConformalProofs.upto (qhat1 alpha l) l)%nat).
  { apply Nat.le_trans with (ConformalProofs.upto (nth (k - 1) (isort rle l) 0) (isort rle l)); [lia|].
    apply Nat.le_trans with (ConformalProofs.upto (qhat1 alpha l) (isort rle l)); [apply upto_mono; exact Q|].
    unfold ConformalProofs.upto. apply Nat.eq_le_incl. apply filter_perm. symmetry. apply isort_perm. }
  apply Rle_trans with (INR k); [|apply le_INR; exact U']. unfold k.
  destruct (Nat.min_spec n (Z.to_nat K)) as [[_ -> ]|[_ -> ]].
  - assert (INR n * (1 - alpha) <= INR n * 1) by (apply Rmult_le_compat_l; lra). lra.
  - rewrite (INR_IZR_INZ (Z.to_nat K)), Z2Nat.id by lia. apply Rle_trans with ((INR n + 1) * (1 - alpha)); [|exact KP].
    apply Rmult_le_compat_r; lra.
Qed.

Lemma in_sample eps m k alpha l c : valid_alpha alpha -> calibrate_with eps m k alpha l = Ok (Calibration c) ->
  exists I, NoDup I /\ (forall i, In i I -> exists s lo hi, nth_error l i = Some s /\ interval c alpha s = Ok (lo, hi) /\ lo <= s_target s <= hi) /\
    INR (length l) * (1 - alpha) <= INR (length I).
Proof.
  intros V H. destruct (calibrated_inv _ _ _ _ _ _ H) as [(g & F) P].
  destruct (calibrate_by eps m k alpha l g F P) as (c' & E & J). rewrite E in H. injection H as <-. specialize (J V). cbv zeta in J.
  set (q := qhat1 alpha (map (score_by (norms_of eps k l) g) l)) in *.
  set (sc := map (score_by (norms_of eps k l) g) l) in *.
  exists (filter (fun i => rle (nth i sc 0) q) (seq 0 (length sc))). split; [apply NoDup_filter, seq_NoDup|]. split.
  - intros i I. apply filter_In in I. destruct I as [Ii Iq]. apply in_seq in Ii. unfold sc in Ii. rewrite map_length in Ii.
    destruct (nth_error l i) as [s|] eqn:Es; [|apply nth_error_None in Es; lia]. do 3 eexists. split; [reflexivity|]. split; [apply J|].
    apply rle_spec in Iq. unfold sc in Iq. rewrite (map_nth_lt _ _ s 0) in Iq by lia.
    rewrite (nth_error_nth l i _ Es) in Iq. unfold score_by in Iq.
    assert (W : 0 < width_of (norms_of eps k l) s) by (apply P; eapply nth_error_In; exact Es).
    assert (B : Rabs (s_target s - (s_pred s + g s)) <= q * width_of (norms_of eps k l) s).
    { apply (Rmult_le_compat_r (width_of (norms_of eps k l) s)) in Iq; [|lra]. unfold Rdiv in Iq. rewrite Rmult_assoc, Rinv_l, Rmult_1_r in Iq by lra. exact Iq. }
    unfold Rabs in B. destruct (Rcase_abs _) in B; lra.
  - rewrite (idx_filter (fun x => rle x q) sc). replace (length l) with (length sc) by (unfold sc; apply map_length). apply quantile_covers. exact V.
Qed.

(* ------------------------------------------------------------------ *)
(** * One term, with corrections by strata *)
Definition plain_by (g : sample -> R) (s : sample) : R := Rabs (s_target s - (s_pred s + g s)) / term0 s.
Lemma one_term_by eps m alpha l g s lo hi : 0 < eps -> valid_alpha alpha -> fitted_by m l g -> varied eps 0 l ->
  (forall s', In s' (s :: l) -> exists t, only_term s' t) ->
  gives eps m 1 alpha l s lo hi <-> exists q, reports alpha (map (plain_by g) l) q /\ lo = s_pred s + g s - q * term0 s /\ hi = s_pred s + g s + q * term0 s.
Proof.
  intros E V F D O. destruct (norm_varied eps 0 l E D) as (w & N & W). assert (W0 : 0 < w) by lra.
  assert (NE : norms_of eps 1 l = [Some w]) by (unfold norms_of; cbn [seq map]; rewrite N; reflexivity).
  assert (ES : map (score_by [Some w] g) l = map (Rmult w) (map (plain_by g) l)).
  { rewrite map_map. apply map_ext_in. intros s' I. unfold score_by, plain_by. destruct (O s' (or_intror I)) as (t & Ot).
    destruct (width_one w s' t W0 Ot) as (-> & P & <-). destruct Ot as [_ T]. field. lra. }
  assert (P : forall s', In s' l -> 0 < width_of (norms_of eps 1 l) s').
  { intros s' I. rewrite NE. destruct (O s' (or_intror I)) as (t & Ot). destruct (width_one w s' t W0 Ot) as (-> & Q & _). exact Q. }
  destruct (calibrate_by eps m 1 alpha l g F P) as (c & C & J). specialize (J V s). cbv zeta in J. rewrite NE, ES, qhat1_scale in J by exact W0.
  destruct (O s (or_introl eq_refl)) as (t & Ot). destruct (width_one w s t W0 Ot) as (U & _ & T). rewrite U in J.
  assert (X : w * qhat1 alpha (map (plain_by g) l) * (t / w) = qhat1 alpha (map (plain_by g) l) * term0 s) by (rewrite <- T; field; lra). rewrite X in J.
  unfold gives. split.
  - intros (c' & Ec & Ei). rewrite C in Ec. injection Ec as <-. rewrite J in Ei. injection Ei as <- <-.
    exists (qhat1 alpha (map (plain_by g) l)). split; [apply reports_val; exact V|split; lra].
  - intros (q & Rq & -> & ->). assert (q = qhat1 alpha (map (plain_by g) l)) as -> by (apply reports_fun; assumption).
    exists c. split; [exact C|]. rewrite J. do 2 f_equal; lra.
Qed.

(** The correction of a sample: of its stratum if there is one, none otherwise. *)
Definition alike (s s' : sample) : bool := if list_eq_dec Req_EM_T (s_feats s') (s_feats s) then true else false.
Lemma strata_by_value l s : strata_by true l s =
  match filter (alike s) l with [] => 0 | g => median (map (fun s' => s_target s' - s_pred s') g) end.
Proof.
  unfold strata_by, stored_row. cbn [feats]. set (u := unique_rows rops (map (feats true) l)).
  destruct (in_dec (list_eq_dec Req_EM_T) (s_feats s) u) as [H|H].
  - destruct (index_in u _ H) as [L _]. rewrite app_nth1 by (rewrite map_length, seq_length; exact L).
    rewrite (map_nth_lt _ _ 0%nat []) by (rewrite seq_length; exact L). rewrite seq_nth by exact L. cbn [Nat.add nth].
    assert (E : filter (fun s' => Nat.eqb (index_of u (s_feats s)) (index_of u (s_feats s'))) l = filter (alike s) l).
    { apply filter_ext. intros s'. unfold alike. destruct (list_eq_dec Req_EM_T (s_feats s') (s_feats s)) as [-> |N]; [apply Nat.eqb_refl|].
      apply Nat.eqb_neq. intros X. apply (index_inj u _ _ H) in X. apply N. symmetry. exact X. }
    change (feats true) with s_feats. rewrite E. destruct (filter (alike s) l) eqn:F; [|reflexivity]. exfalso.
    unfold u in H. apply (proj1 (unique_in _ _)) in H. change (feats true) with s_feats in H. apply in_map_iff in H. destruct H as (s' & Es & I).
    assert (X : In s' (filter (alike s) l)). { apply filter_In. split; [exact I|]. unfold alike. destruct (list_eq_dec _ _ _); [reflexivity|contradiction]. }
    rewrite F in X. destruct X.
  - rewrite (index_out u _ H), app_nth2 by (rewrite map_length, seq_length; apply Nat.le_refl). rewrite map_length, seq_length, Nat.sub_diag. cbn [nth].
    destruct (filter (alike s) l) as [|s' g] eqn:F; [reflexivity|]. exfalso. apply H.
    assert (X : In s' (filter (alike s) l)) by (rewrite F; left; reflexivity). apply filter_In in X. destruct X as [I A]. unfold alike in A.
    destruct (list_eq_dec _ _ _) as [E|]; [|discriminate A]. unfold u. apply (proj2 (unique_in _ _)). rewrite <- E. change (feats true) with s_feats. apply in_map. exact I.
Qed.
