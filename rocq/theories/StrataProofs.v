(** Lemmas about bias corrections: medians, strata, trees. *)
From Coq Require Import Reals ZArith Lra Lia Permutation Sorted Bool.
From Verif Require Import Base BaseLemmas TreeUtil TreeSpec NonSeqSpec NonSeqProofs TrainArgsProofs Serial SerialSpec SerialProofs Scaler ScalerProofs OneHot OneHotSpec OneHotProofs
  Conformal ConformalProofs ReshapeProofs ReshapeMain BatchProofs LayersSpec LayersProofs Strata StrataSpec.
Local Open Scope R_scope.
Local Open Scope list_scope.

(** * Medians *)
Lemma upto_same m l : StrataSpec.upto m l = ConformalProofs.upto m l.
Proof. unfold StrataSpec.upto, ConformalProofs.upto. f_equal. Qed.
Lemma from_below m l : (from m l + below m l = length l)%nat.
Proof.
  unfold from, below. induction l as [|x l IH]; [reflexivity|]. cbn [filter]. unfold rlt in *. destruct (Rle_dec m x), (Rlt_dec x m); cbn [length]; try lra; lia.
Qed.
Lemma upto_mono m m' l : m <= m' -> (ConformalProofs.upto m l <= ConformalProofs.upto m' l)%nat.
Proof.
  intros H. unfold ConformalProofs.upto. induction l as [|x l IH]; [reflexivity|]. cbn [filter]. unfold rle in *. destruct (Rle_dec x m), (Rle_dec x m'); cbn [length]; try lra; lia.
Qed.
Lemma below_mono m m' l : m <= m' -> (below m l <= below m' l)%nat.
Proof.
  intros H. unfold below. induction l as [|x l IH]; [reflexivity|]. cbn [filter]. unfold rlt in *. destruct (Rlt_dec x m), (Rlt_dec x m'); cbn [length]; try lra; lia.
Qed.
Lemma is_median_perm l l' m : Permutation l l' -> is_median l m -> is_median l' m.
Proof.
  intros P [H1 H2]. unfold is_median, StrataSpec.upto, from in *. rewrite (Permutation_length P) in *. rewrite !(filter_perm _ _ _ P) in *. split; assumption.
Qed.
Lemma median_shift l m : is_median l m -> is_median (map (fun x => x - m) l) 0.
Proof.
  unfold is_median, StrataSpec.upto, from. rewrite map_length.
  assert (E1 : length (filter (fun x => if Rle_dec x 0 then true else false) (map (fun x => x - m) l)) = length (filter (fun x => if Rle_dec x m then true else false) l)).
  { induction l as [|x l IH]; [reflexivity|]. cbn [filter map]. destruct (Rle_dec (x - m) 0), (Rle_dec x m); cbn [length]; [|exfalso; lra|exfalso; lra|]; rewrite IH; reflexivity. }
  assert (E2 : length (filter (fun x => if Rle_dec 0 x then true else false) (map (fun x => x - m) l)) = length (filter (fun x => if Rle_dec m x then true else false) l)).
  { clear E1. induction l as [|x l IH]; [reflexivity|]. cbn [filter map]. destruct (Rle_dec 0 (x - m)), (Rle_dec m x); cbn [length]; [|exfalso; lra|exfalso; lra|]; rewrite IH; reflexivity. }
  rewrite E1, E2. auto.
Qed.
Lemma median_between l a b m : sortedR l -> (a < length l)%nat -> (b < length l)%nat -> nth a l 0 <= m <= nth b l 0 ->
  (length l <= 2 * S a)%nat -> (2 * b <= length l)%nat -> is_median l m.
Proof.
  intros S Ha Hb [H1 H2] La Lb. split.
  - rewrite upto_same. pose proof (upto_mono _ _ l H1). pose proof (sorted_upto l a S Ha). lia.
  - pose proof (from_below m l). pose proof (below_mono _ _ l H2). pose proof (sorted_below l b S Hb). lia.
Qed.
Lemma at_clamped_nth a k : (k < length a)%nat -> at_clamped a (Z.of_nat k) = nth k a 0.
Proof. intros H. unfold at_clamped. f_equal. lia. Qed.
Lemma median_is l : is_median l (median l).
Proof.
  apply is_median_perm with (isort rle l); [symmetry; apply isort_perm|]. unfold median, quantile. rewrite at_position_seg.
  rewrite <- (isort_length rle l). pose proof (sorted_isort l) as S. set (s := isort rle l) in *. clearbody s. clear l.
  destruct (Nat.Even_or_Odd (length s)) as [[k E]|[k E]].
  - destruct k as [|k]; [destruct s; [split; cbn; lia|cbn in E; lia]|].
    assert (F : floor (1 / 2 * (INR (length s) - 1)) = Z.of_nat k).
    { apply floor_unique. rewrite E, mult_INR, (S_INR k), <- INR_IZR_INZ. change (INR 2) with 2. lra. }
    pose proof (seg_between s (1 / 2 * (INR (length s) - 1)) S) as B. rewrite F in B. replace (Z.of_nat k + 1)%Z with (Z.of_nat (Datatypes.S k)) in B by lia.
    rewrite !at_clamped_nth in B by lia. eapply median_between; [exact S| | |exact B| |]; lia.
  - replace (1 / 2 * (INR (length s) - 1)) with (IZR (Z.of_nat k)).
    2:{ rewrite E, plus_INR, mult_INR, <- INR_IZR_INZ. change (INR 2) with 2. change (INR 1) with 1. lra. }
    rewrite seg_int, at_clamped_nth by lia. apply median_between with k k; auto; try lia. lra.
Qed.

(** * Rows of strata *)
Lemma rops_lawful : lawful rops.
Proof.
  constructor; cbn; try (intros; ring); [exact rle_total|exact rle_trans| |lra].
  intros a b. rewrite !rle_spec. intros. lra.
Qed.
Lemma unique_in f r : In r (unique_rows rops f) <-> In r f.
Proof. pose proof (unique_listing rops rops_lawful (mk_odata [] f)) as [_ H]. apply H. Qed.
Lemma unique_nodup f : NoDup (unique_rows rops f).
Proof. pose proof (unique_listing rops rops_lawful (mk_odata [] f)) as [H _]. apply H. Qed.
Lemma index_in u r : In r u -> (index_of u r < length u)%nat /\ nth (index_of u r) u [] = r.
Proof.
  induction u as [|v u IH]; [intros []|]. intros H. cbn [index_of]. destruct (row_eqb rops r v) eqn:E.
  - apply (row_eqb_spec rops rops_lawful) in E. subst. cbn. split; [lia|reflexivity].
  - destruct H as [ -> |H]; [rewrite (proj2 (row_eqb_spec rops rops_lawful r r) eq_refl) in E; discriminate|]. destruct (IH H) as [A B]. cbn. split; [lia|exact B].
Qed.
Lemma index_out u r : ~ In r u -> index_of u r = length u.
Proof.
  induction u as [|v u IH]; [reflexivity|]. intros H. cbn [index_of length]. destruct (row_eqb rops r v) eqn:E.
  - apply (row_eqb_spec rops rops_lawful) in E. subst. exfalso. apply H. left. reflexivity.
  - f_equal. apply IH. intros ?. apply H. right. assumption.
Qed.
Lemma index_inj u r s : In r u -> (index_of u r = index_of u s <-> r = s).
Proof.
  intros H. split; [|intros ->; reflexivity]. intros E. destruct (index_in u r H) as [Hr Nr].
  destruct (in_dec (list_eq_dec Req_EM_T) s u) as [Hs|Hs].
  - destruct (index_in u s Hs) as [_ Ns]. rewrite <- Nr, <- Ns, E. reflexivity.
  - rewrite (index_out u s Hs) in E. lia.
Qed.

Lemma keep_map {A B} (g : A -> B) f : forall l, map g (keep f l) = keep f (map g l).
Proof. unfold keep. induction f as [|b f IH]; intros [|x l]; try reflexivity. cbn [map combine filter fst]. destruct b; cbn [map snd]; rewrite IH; reflexivity. Qed.
Lemma keep_seq {A} (p : nat -> bool) (g : nat -> A) : forall l, keep (map p l) (map g l) = map g (filter p l).
Proof. unfold keep. induction l as [|i l IH]; [reflexivity|]. cbn [map combine filter fst]. destruct (p i); cbn [map snd]; rewrite IH; reflexivity. Qed.
Lemma list_as_map {A} (d : A) l : l = map (fun i => nth i l d) (seq 0 (length l)).
Proof. apply list_nth_eq with d; [rewrite map_length, seq_length; reflexivity|]. intros j Hj. rewrite map_seq_nth by exact Hj. reflexivity. Qed.

(** * The selected features of a sample *)
Lemma concat_split {A} (l m : list (list A)) : Forall2 (fun a b => length a = length b) l m -> concat l = concat m -> l = m.
Proof.
  induction 1 as [|a b l m H _ IH]; [reflexivity|]. cbn. intros E.
  assert (a = b /\ concat l = concat m) as [ -> E'].
  { revert b H E. induction a as [|x a IHa]; intros [|y b] H E; cbn in *; try discriminate; [auto|]. injection E as -> E. destruct (IHa b ltac:(lia) E) as [ -> ?]. auto. }
  rewrite (IH E'). reflexivity.
Qed.
Definition picked (i : nat) (p : bdata * bool) : list R := nth i (selected (fst p) (snd p)) [].
Lemma selected_length x s : length (selected x s) = length (o_rows x).
Proof. unfold selected. destruct s; [reflexivity|]. apply map_length. Qed.
Lemma picked_false i x : picked i (x, false) = [].
Proof. unfold picked, selected. cbn. generalize (o_rows x). clear. intros l. revert i. induction l as [|r l IH]; intros [|i]; cbn; auto. Qed.
Lemma F2_map_eq {A B} (g : A -> B) l m : Forall2 (fun a b => b = g a) l m -> m = map g l.
Proof. induction 1; cbn; congruence. Qed.
Lemma features_ok n (r : tree (bdata * bool)) X t : wf_tree r -> trel (fun p x => fst p = x) r X -> trel (fun p s => snd p = s) r t ->
  (exists p, has_leaf r p) -> (forall p, has_leaf r p -> length (o_rows (fst p)) = n) ->
  strata_features X t = Ok (map (fun i => concat (map (picked i) (leaves r))) (seq 0 n)).
Proof.
  intros W TX TT [p0 H0] HN. unfold strata_features.
  destruct (jzip3 (fun x s => Ok (selected x s)) (fun p x => fst p = x) (fun p s => snd p = s) (fun p z => z = selected (fst p) (snd p)) r W) with (u := X) (p := t) as (v & -> & TV); auto.
  { intros p x s _ <- <-. eexists. split; reflexivity. }
  cbn [rbind]. pose proof (leaves_trel _ _ W _ TV) as F. apply F2_map_eq in F. rewrite F.
  assert (HN' : forall p, In p (leaves r) -> length (o_rows (fst p)) = n) by (intros p Hp; apply HN, leaves_has_leaf; exact Hp).
  apply leaves_has_leaf in H0. destruct (leaves r) as [|q L]; [destruct H0|]. unfold hcat. cbn [map].
  assert (Hq : length (selected (fst q) (snd q)) = n) by (rewrite selected_length; apply HN'; left; reflexivity).
  change (selected (fst q) (snd q) :: map (fun a => selected (fst a) (snd a)) L) with (map (fun a => selected (fst a) (snd a)) (q :: L)).
  rewrite (proj2 (forallb_forall _ _)).
  - rewrite Hq. f_equal. apply map_ext. intros i. rewrite map_map. reflexivity.
  - intros m Hm. apply in_map_iff in Hm as (p & <- & Hp). rewrite Hq, selected_length. apply Nat.eqb_eq, HN'. exact Hp.
Qed.

Lemma leaf_unique {X} (t : tree X) ks x y : leaf_at t ks x -> leaf_at t ks y -> x = y.
Proof. unfold leaf_at. intros H1 H2. rewrite H1 in H2. injection H2 as ->. reflexivity. Qed.

(** Two batches with the same selected features at samples [i] and [j]. *)
Lemma stratum_rows (q : tree ((bdata * bool) * bdata)) X t X' n n' i j : wf_tree q ->
  trel (fun p x => fst (fst p) = x) q X -> trel (fun p s => snd (fst p) = s) q t -> trel (fun p x => snd p = x) q X' ->
  wf_tree X -> wf_tree t -> wf_tree X' ->
  (forall p, has_leaf q p -> batch n (fst (fst p)) /\ batch n' (snd p) /\ o_shape (fst (fst p)) = o_shape (snd p)) -> (i < n)%nat -> (j < n')%nat ->
  (same_stratum t X X' i j <->
   concat (map (fun p => picked i (fst p)) (leaves q)) = concat (map (fun p => picked j (snd p, snd (fst p))) (leaves q))).
Proof.
  intros W TX TT TX' WX WT WX' HB Hi Hj.
  assert (Q : same_stratum t X X' i j <-> forall p, In p (leaves q) -> snd (fst p) = true -> nth i (o_rows (fst (fst p))) [] = nth j (o_rows (snd p)) []).
  { split.
    - intros S p Hp Hs. apply leaves_has_leaf in Hp. destruct (has_leaf_walk _ _ Hp W) as (ks & Hk).
      destruct (trel_walk _ ks _ _ WX TX p Hk) as (x & H1 & E1). destruct (trel_walk _ ks _ _ WT TT p Hk) as (s & H2 & E2). destruct (trel_walk _ ks _ _ WX' TX' p Hk) as (x' & H3 & E3).
      subst x x'. rewrite Hs in E2. subst s. exact (S ks _ _ H2 H1 H3).
    - intros S ks x x' H2 H1 H3. destruct (trel_walk _ ks _ _ W (trel_flip _ _ _ TX) x H1) as (p & Hp & E). 
      destruct (trel_walk _ ks _ _ WT TT p Hp) as (s & H2' & E2). destruct (trel_walk _ ks _ _ WX' TX' p Hp) as (x2 & H3' & E3).
      rewrite (leaf_unique _ _ _ _ H3 H3'). rewrite (leaf_unique _ _ _ _ H2' H2) in E2. subst x x2. apply S; [|exact E2]. apply leaves_has_leaf. eapply leaf_has, Hp. }
  rewrite Q. clear Q. assert (HB' : forall p, In p (leaves q) -> batch n (fst (fst p)) /\ batch n' (snd p) /\ o_shape (fst (fst p)) = o_shape (snd p)) by (intros p Hp; apply HB, leaves_has_leaf; exact Hp).
  clear - HB' Hi Hj. split.
  - intros H. f_equal. apply map_ext_in. intros [[x s] x'] Hp. cbn [fst snd]. destruct s; [|rewrite !picked_false; reflexivity]. exact (H _ Hp eq_refl).
  - intros H. assert (M : map (fun p => picked i (fst p)) (leaves q) = map (fun p => picked j (snd p, snd (fst p))) (leaves q)).
    { apply concat_split; [|exact H]. clear H. induction (leaves q) as [|[[x s] x'] L IH]; cbn; constructor; [|apply IH; intros; apply HB'; right; assumption].
      destruct s; [|rewrite !picked_false; reflexivity]. destruct (HB' _ (or_introl eq_refl)) as ([L1 B1] & [L2 B2] & E). cbn [fst snd] in *. unfold picked. cbn [fst snd selected].
      rewrite B1, B2; [unfold features; rewrite E; reflexivity|apply nth_In; lia|apply nth_In; lia]. }
    intros [[x s] x'] Hp Hs. cbn [fst snd] in *. subst s. clear - M Hp. induction (leaves q) as [|p0 L IH]; [destruct Hp|]. cbn in M. injection M as M1 M2. destruct Hp as [ -> |Hp]; [exact M1|auto].
Qed.
