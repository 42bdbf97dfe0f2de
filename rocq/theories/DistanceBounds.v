(** Bounds of distances to the training data. *)
From Coq Require Import Reals ZArith Lra Lia Permutation Bool.
From Verif Require Import Base BaseLemmas TreeUtil TreeSpec NonSeqSpec TrainArgsProofs Serial SerialSpec OneHot Conformal ConformalProofs Strata StrataSpec StrataProofs Distance DistanceSpec DistanceProofs DistanceMain.
Local Open Scope R_scope.
Local Open Scope list_scope.

Lemma sum_bounds lo hi l : (forall x, In x l -> lo <= x <= hi) -> lo * INR (length l) <= sum_of (fun x => x) l <= hi * INR (length l).
Proof.
  induction l as [|x l IH]; intros H; [cbn; lra|]. rewrite sum_cons. cbn [length]. rewrite S_INR. assert (lo <= x <= hi) by (apply H; left; reflexivity).
  assert (lo * INR (length l) <= sum_of (fun x => x) l <= hi * INR (length l)) by (apply IH; intros; apply H; right; assumption). lra.
Qed.
Lemma mean_bounds lo hi l : l <> [] -> (forall x, In x l -> lo <= x <= hi) -> lo <= sum_of (fun x => x) l / INR (length l) <= hi.
Proof.
  intros N H. pose proof (sum_bounds lo hi l H) as [A B]. pose proof (len1 l N) as P. split.
  - apply (Rmult_le_reg_r (INR (length l))); [lra|]. unfold Rdiv. rewrite Rmult_assoc, Rinv_l by lra. lra.
  - apply (Rmult_le_reg_r (INR (length l))); [lra|]. unfold Rdiv. rewrite Rmult_assoc, Rinv_l by lra. lra.
Qed.
Lemma distance_above c l d v : is_distance c l d -> least v l -> v <= d.
Proof. intros (v' & [I' H'] & ->) [I H]. eapply Rle_trans; [|apply Rmax_r]. auto. Qed.
Lemma distance_below c l d hi : is_distance c l d -> (forall x, In x l -> 0 <= x <= hi) -> d <= hi.
Proof.
  intros (v & [I _] & ->) H. pose proof (H v I). apply Rmax_lub; [|lra]. destruct (filter (near c) l) as [|y f] eqn:E; [lra|]. rewrite <- E.
  apply (mean_bounds 0 hi (filter (near c) l)); [rewrite E; discriminate|]. intros x Hx. apply filter_In in Hx as [Hx _]. auto.
Qed.
Lemma distance_cutoff c l d v : is_distance (Some c) l d -> least v l -> (forall x, In x l -> 0 <= x) -> d <= Rmax c v.
Proof.
  intros (v' & [I' H'] & ->) [I H] P. assert (v' = v) as -> by (specialize (H v' I'); specialize (H' v I); lra). apply Rmax_lub; [|apply Rmax_r].
  destruct (filter (near (Some c)) l) as [|y f] eqn:E; [eapply Rle_trans; [|apply Rmax_r]; auto|]. rewrite <- E. eapply Rle_trans; [|apply Rmax_l].
  apply (mean_bounds 0 c (filter (near (Some c)) l)); [rewrite E; discriminate|]. intros x Hx. apply filter_In in Hx as [Hx Q]. split; [auto|]. cbn in Q. destruct (Rle_dec x c); [assumption|discriminate].
Qed.
Lemma apart_nonneg n m w f i j : 0 <= w -> usable n m f -> 0 <= apart w f i j.
Proof.
  intros W (_ & _ & _ & _ & POS & _). unfold apart. destruct (f_sel f); [|lra]. destruct (f_cont f).
  - apply sum_nonneg. intros k Hk. apply in_seq in Hk. apply Rmult_le_pos; [apply Rabs_pos|]. apply Rlt_le, Rinv_0_lt_compat, POS; auto. lia.
  - destruct (list_eq_dec Req_EM_T _ _); [lra|]. destruct (seen f i); lra.
Qed.
Lemma size_nonneg f : 0 <= size f.
Proof. unfold size. destruct (f_sel f); [|lra]. destruct (f_cont f); [apply pos_INR|lra]. Qed.
Lemma apart_size n m w f i j r : 0 <= w <= 1 -> usable n m f -> (j < n)%nat -> inside r i -> In f r -> apart w f i j <= size f.
Proof.
  intros W (BT & _ & _ & RG & POS & _) Hj IN Hf. unfold apart, size. destruct (f_sel f) eqn:Sel; [|lra]. destruct (f_cont f) eqn:Con.
  - rewrite <- (seq_length (features (f_train f)) 0) at 2. rewrite <- (sum_const (seq 0 (features (f_train f)))). apply sum_le. intros k Hk. apply in_seq in Hk. specialize (POS eq_refl eq_refl k ltac:(lia)).
    apply (Rmult_le_reg_r (f_range f k)); [exact POS|]. unfold Rdiv. rewrite Rmult_assoc, Rinv_l, Rmult_1_r, Rmult_1_l by lra.
    destruct (IN f Hf Sel Con k ltac:(lia)) as (a & b & Ia & Ib & Hab). destruct (RG eq_refl k ltac:(lia)) as [_ RGk].
    assert (It : In (at_ (f_train f) j k) (numbers (f_train f) k)). { unfold numbers. apply in_map_iff. exists j. split; [reflexivity|]. apply in_seq. rewrite (proj1 BT). lia. }
    pose proof (RGk _ _ It Ia). pose proof (RGk _ _ Ib It). apply Rabs_le. lra.
  - destruct (list_eq_dec Req_EM_T _ _); [lra|]. destruct (seen f i); lra.
Qed.
Lemma gower_nonneg n m w L i j : 0 <= w -> (forall f, In f L -> usable n m f) -> 0 < sum_of size L -> 0 <= gower w L i j.
Proof. intros W U S. unfold gower. apply Rmult_le_pos; [apply sum_nonneg; intros; eapply apart_nonneg; eauto|]. apply Rlt_le, Rinv_0_lt_compat, S. Qed.
Lemma gower_one n m w L i j : 0 <= w <= 1 -> (forall f, In f L -> usable n m f) -> 0 < sum_of size L -> (j < n)%nat -> inside L i -> gower w L i j <= 1.
Proof.
  intros W U S Hj IN. unfold gower. apply (Rmult_le_reg_r (sum_of size L)); [exact S|]. unfold Rdiv. rewrite Rmult_assoc, Rinv_l, Rmult_1_r, Rmult_1_l by lra.
  apply sum_le. intros f Hf. eapply apart_size; eauto.
Qed.
