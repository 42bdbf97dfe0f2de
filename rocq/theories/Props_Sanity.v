(** C134: the warning about continuous features. *)
From Coq Require Import Reals Lra Lia Permutation.
From Verif Require Import Base TreeUtil TreeSpec TreeProofs NonSeqSpec Serial SerialSpec Scaler OneHot Conformal Strata StrataProofs ReshapeMain Sanity SanitySpec SanityProofs.
Local Open Scope list_scope.

(** The data that are looked at. *)
Definition looked_at (cal : tree bdata) (train : option (tree bdata)) : tree bdata := match train with Some t => t | None => cal end.

(** With at most MAX_N samples and at most MAX_K entries along the first axis,
    the check works and warns exactly if a leaf looks different from what was
    said; in particular it does not depend on the order of the samples. *)
Theorem C134_warns_iff_partial : forall max_n max_k order cal train c r, shuffles order -> said r (looked_at cal train) c ->
  (forall p, has_leaf r p -> small max_n max_k (fst p)) ->
  exists b, warns max_n max_k order false cal train c = Ok b /\
    (b = true <-> exists p, has_leaf r p /\ ~ (snd p = true <-> looks_continuous (o_rows (fst p)))).
Proof.
  intros max_n max_k order cal train c r O S H.
  destruct (warns_tree max_n max_k order r _ c cal train (fun p => snd p = true <-> looks_continuous (o_rows (fst p))) eq_refl S) as (b & E & K).
  { intros p Hp. destruct (H p Hp) as (L & C & a & s & Sh & A). destruct (sub_rows max_n max_k order (fst p) a s O Sh A C) as (x' & q & Sx & P & R).
    exists x'. split; [exact Sx|]. rewrite firstn_all2 in R by (rewrite <- (Permutation_length P); exact L).
    destruct (said_leaf x' (snd p)) as (z & Z & Kz). exists z. split; [exact Z|]. rewrite Kz, R.
    split; intros G; rewrite G; split; apply looks_perm; first [exact P|apply Permutation_sym; exact P]. }
  exists b. split; [exact E|]. split.
  - intros ->. assert (N : ~ forall p : bdata * bool, has_leaf r p -> (snd p = true <-> looks_continuous (o_rows (fst p)))) by (intros F; apply K in F; discriminate F).
    assert (D : forall p : bdata * bool, (snd p = true <-> looks_continuous (o_rows (fst p))) \/ ~ (snd p = true <-> looks_continuous (o_rows (fst p)))).
    { intros p. destruct (said_leaf (fst p) (snd p)) as (z & _ & Kz). destruct z; [left|right; rewrite <- Kz; discriminate]. apply Kz. reflexivity. }
    clear - N D. assert (G : forall l : list (bdata * bool), (forall p, In p l -> (snd p = true <-> looks_continuous (o_rows (fst p)))) \/ exists p, In p l /\ ~ (snd p = true <-> looks_continuous (o_rows (fst p)))).
    { induction l as [|p l [IH|(q & I & Q)]]; [left; intros p []| |right; exists q; split; [right; exact I|exact Q]].
      destruct (D p) as [G|G]; [left|right; exists p; split; [left; reflexivity|exact G]]. intros q [<-|I]; auto. }
    destruct (G (leaves r)) as [A|(p & I & Q)]; [|exists p; split; [apply TrainArgsProofs.leaves_has_leaf; exact I|exact Q]].
    exfalso. apply N. intros p Hp. apply A. apply TrainArgsProofs.leaves_has_leaf. exact Hp.
  - intros (p & Hp & N). destruct b; [reflexivity|]. exfalso. apply N. apply K; [reflexivity|exact Hp].
Qed.
Print Assumptions C134_warns_iff_partial.

Local Open Scope R_scope.
(** [n] samples with different numbers *)
Definition numbers_to (n : nat) : bdata := mk_odata [1%nat] (map (fun i => [INR i]) (seq 0 n)).
Lemma numbers_nodup n : NoDup (o_rows (numbers_to n)).
Proof. cbn [numbers_to o_rows]. apply FinFun.Injective_map_NoDup; [|apply seq_NoDup]. intros i j E. injection E as E. apply INR_eq. exact E. Qed.
Lemma numbers_length n : length (o_rows (numbers_to n)) = n.
Proof. cbn [numbers_to o_rows]. rewrite map_length, seq_length. reflexivity. Qed.
Lemma numbers_complete n s : In s (o_rows (numbers_to n)) -> length s = features (numbers_to n).
Proof. cbn [numbers_to o_rows]. intros I. apply in_map_iff in I as (i & <- & _). reflexivity. Qed.
Lemma said_one x b : said (Leaf (x, b)) (Leaf x) (Leaf b).
Proof. split; [constructor|]. split; constructor; reflexivity. Qed.
Lemma one_leaf {X} (x y : X) : has_leaf (Leaf x) y -> y = x.
Proof. intros H. inversion H. reflexivity. Qed.
Example C134_warns_iff_example : exists b, warns 100 100 (fun n => rev (seq 0 n)) false (Leaf (numbers_to 12)) None (Leaf true) = Ok b /\ shuffles (fun n => rev (seq 0 n)) /\ small 100 100 (numbers_to 12) /\ b = false.
Proof.
  assert (O : shuffles (fun n => rev (seq 0 n))) by (intros n; apply Permutation_rev).
  assert (S : small 100 100 (numbers_to 12)) by (split; [rewrite numbers_length; lia|split; [apply numbers_complete|exists 1%nat, []; split; [reflexivity|lia]]]).
  destruct (C134_warns_iff_partial 100 100 _ (Leaf (numbers_to 12)) None (Leaf true) (Leaf (numbers_to 12, true)) O (said_one _ _)) as (b & E & K).
  { intros p Hp. apply one_leaf in Hp. subst p. exact S. }
  exists b. split; [exact E|]. split; [exact O|]. split; [exact S|]. destruct b; [|reflexivity]. exfalso.
  destruct (proj1 K eq_refl) as (p & Hp & N). apply one_leaf in Hp. subst p. apply N. cbn [fst snd]. split; [intros _|reflexivity].
  apply looks_nodup; [apply numbers_nodup|rewrite numbers_length; lia].
Qed.

(** No warning if all features are said to be continuous, no sample occurs
    twice and there are more than ten; however many there are. *)
Theorem C134_all_different : forall max_n max_k order cal train c r, shuffles order -> (10 < max_n)%nat -> said r (looked_at cal train) c ->
  (forall p, has_leaf r p -> snd p = true /\ NoDup (o_rows (fst p)) /\ (10 < length (o_rows (fst p)))%nat /\ small (length (o_rows (fst p))) max_k (fst p)) ->
  warns max_n max_k order false cal train c = Ok false.
Proof.
  intros max_n max_k order cal train c r O M S H.
  destruct (warns_tree max_n max_k order r _ c cal train (fun _ => True) eq_refl S) as (b & E & K).
  { intros p Hp. destruct (H p Hp) as (T & N & G & _ & C & a & s & Sh & A). destruct (sub_rows max_n max_k order (fst p) a s O Sh A C) as (x' & q & Sx & P & R).
    exists x'. split; [exact Sx|]. destruct (said_leaf x' (snd p)) as (z & Z & Kz). exists z. split; [exact Z|]. rewrite Kz, T, R. split; [intros; exact Logic.I|intros _; split; [intros _|reflexivity]].
    apply (Permutation_NoDup P) in N. apply looks_nodup.
    - rewrite <- (firstn_skipn max_n q) in N. clear - N. induction (firstn max_n q) as [|y l IH]; [constructor|]. inversion N as [|? ? Ny N']; subst. constructor; [|apply IH; exact N']. intros I. apply Ny. apply in_or_app. left. exact I.
    - rewrite firstn_length, <- (Permutation_length P). lia. }
  rewrite E. f_equal. apply K. intros. exact Logic.I.
Qed.
Print Assumptions C134_all_different.
Example C134_all_different_example : (10 < length (o_rows (numbers_to 12)))%nat /\ small 12 100 (numbers_to 12) /\ NoDup (o_rows (numbers_to 12)).
Proof. rewrite numbers_length. split; [lia|]. split; [|apply numbers_nodup]. split; [rewrite numbers_length; lia|split; [apply numbers_complete|exists 1%nat, []; split; [reflexivity|lia]]]. Qed.

(** With at most ten samples there is always a warning if any feature is said to
    be continuous. *)
Theorem C134_few : forall max_n max_k order cal train c r, shuffles order -> said r (looked_at cal train) c ->
  (forall p, has_leaf r p -> small max_n max_k (fst p)) -> (exists p, has_leaf r p /\ snd p = true /\ (length (o_rows (fst p)) <= 10)%nat) ->
  warns max_n max_k order false cal train c = Ok true.
Proof.
  intros max_n max_k order cal train c r O S H (p & Hp & T & L). destruct (C134_warns_iff_partial _ _ _ cal train c r O S H) as (b & E & K).
  rewrite E. f_equal. apply K. exists p. split; [exact Hp|]. rewrite T. intros G. apply proj1 in G. specialize (G eq_refl). apply looks_many in G. lia.
Qed.
Print Assumptions C134_few.

(** Data in which no sample occurs twice, said to be continuous, give no warning. *)
Definition C134_always (max_n max_k : nat) : Prop := forall order cal train c r, shuffles order -> said r (looked_at cal train) c ->
  (forall p, has_leaf r p -> snd p = true /\ NoDup (o_rows (fst p)) /\ (forall s, In s (o_rows (fst p)) -> length s = features (fst p)) /\ o_shape (fst p) <> []) ->
  warns max_n max_k order false cal train c = Ok false.
Lemma shuffles_id : shuffles (fun n => seq 0 n).
Proof. intros n. apply Permutation_refl. Qed.
(** False for a small set of data, *)
Theorem C134_few_refuted : forall max_n max_k, (10 <= max_n)%nat -> (1 <= max_k)%nat -> ~ C134_always max_n max_k.
Proof.
  intros max_n max_k N K A.
  assert (W : warns max_n max_k (fun n => seq 0 n) false (Leaf (numbers_to 10)) None (Leaf true) = Ok true).
  { apply (C134_few _ _ _ (Leaf (numbers_to 10)) None (Leaf true) (Leaf (numbers_to 10, true)) shuffles_id (said_one _ _)).
    - intros p Hp. apply one_leaf in Hp. subst p. split; [cbn [fst]; rewrite numbers_length; exact N|]. split; [apply numbers_complete|exists 1%nat, []; split; [reflexivity|exact K]].
    - eexists. split; [constructor|]. split; [reflexivity|]. cbn [fst]. rewrite numbers_length. lia. }
  rewrite (A _ (Leaf (numbers_to 10)) None (Leaf true) (Leaf (numbers_to 10, true)) shuffles_id (said_one _ _)) in W; [discriminate W|].
  intros p Hp. apply one_leaf in Hp. subst p. split; [reflexivity|]. split; [apply numbers_nodup|]. split; [apply numbers_complete|discriminate].
Qed.
Print Assumptions C134_few_refuted.

(** and for any number of samples that differ only behind the first MAX_K entries. *)
Definition behind (k n : nat) : bdata := mk_odata [S k] (map (fun i => repeat 0 k ++ [INR i]) (seq 0 n)).
Lemma unique_same (z : list R) l : (forall r, In r l -> r = z) -> (length (unique_rows rops l) <= 1)%nat.
Proof.
  intros H. assert (N := unique_nodup l). assert (I : forall r, In r (unique_rows rops l) -> r = z) by (intros r Hr; apply H; apply unique_in; exact Hr).
  destruct (unique_rows rops l) as [|a [|b u]]; cbn [length]; try lia. exfalso. inversion N as [|? ? Na _]; subst. apply Na. left. rewrite (I a), (I b) by (cbn; auto). reflexivity.
Qed.
Lemma looks_same (x : bdata) z : (forall r, In r (o_rows x) -> r = z) -> looks_as_said x true = Ok false.
Proof.
  intros H. unfold looks_as_said. cbv zeta. pose proof (unique_same z _ H) as U. set (u := length (unique_rows rops (o_rows x))) in *. destruct (10 <? u)%nat eqn:E; [apply Nat.ltb_lt in E; lia|reflexivity].
Qed.
Theorem C134_wide : forall max_n max_k order n, shuffles order ->
  warns max_n max_k order false (Leaf (behind max_k n)) None (Leaf true) = Ok true.
Proof.
  intros max_n max_k order n O. destruct (warns_tree max_n max_k order (Leaf (behind max_k n, true)) _ (Leaf true) (Leaf (behind max_k n)) None (fun _ => False) eq_refl (said_one _ _)) as (b & E & K).
  - intros p Hp. apply one_leaf in Hp. subst p. unfold subsample. cbn [fst snd behind o_shape]. eexists. split; [reflexivity|]. exists false. split; [|split; [discriminate|intros []]].
    apply (looks_same _ (repeat 0 max_k)). cbn [o_rows]. intros r I. apply in_map_iff in I as (s & <- & I). cbn [fold_right]. rewrite Nat.min_l, Nat.mul_1_r by lia.
    assert (J : In s (map (fun i => repeat 0 max_k ++ [INR i]) (seq 0 n))).
    { apply (Permutation_in s (Permutation_sym (shuffled order (map (fun i => repeat 0 max_k ++ [INR i]) (seq 0 n)) [] O))). rewrite <- (firstn_skipn max_n). apply in_or_app. left. exact I. }
    apply in_map_iff in J as (i & <- & _). rewrite <- (repeat_length 0 max_k) at 1. rewrite firstn_app, Nat.sub_diag, firstn_all. apply app_nil_r.
  - rewrite E. f_equal. destruct b; [reflexivity|]. exfalso. apply (proj1 K eq_refl (behind max_k n, true)). constructor.
Qed.
Print Assumptions C134_wide.
Theorem C134_wide_refuted : forall max_n max_k, ~ C134_always max_n max_k.
Proof.
  intros max_n max_k A. pose proof (C134_wide max_n max_k _ 12 shuffles_id) as W.
  rewrite (A _ (Leaf (behind max_k 12)) None (Leaf true) (Leaf (behind max_k 12, true)) shuffles_id (said_one _ _)) in W; [discriminate W|].
  intros p Hp. apply one_leaf in Hp. subst p. cbn [fst snd behind o_rows o_shape]. split; [reflexivity|]. split; [|split; [|discriminate]].
  - apply FinFun.Injective_map_NoDup; [|apply seq_NoDup]. intros i j E. apply app_inv_head in E. injection E as E. apply INR_eq. exact E.
  - intros s I. apply in_map_iff in I as (i & <- & _). rewrite app_length, repeat_length. unfold features. cbn [behind o_shape fold_right length]. lia.
Qed.
Print Assumptions C134_wide_refuted.

(** A leaf with one number per sample (an array with one axis): the check, and so
    the calibration, fails. *)
Theorem C134_scalars : forall max_n max_k order cal train c x, has_leaf (looked_at cal train) x -> o_shape x = [] ->
  is_ok (warns max_n max_k order false cal train c) = false.
Proof.
  intros max_n max_k order cal train c x Hx E. unfold warns. fold (looked_at cal train). destruct (jmapM _ (looked_at cal train)) as [d|e] eqn:D; [|reflexivity]. exfalso.
  apply jmap_inv in D. destruct (trel_leafless _ _ _ _ D Hx) as (y & _ & S). unfold subsample in S. rewrite E in S. discriminate S.
Qed.
Print Assumptions C134_scalars.
Theorem C134_scalars_refuted : exists x c, forall max_n max_k order, (forall s, In s (o_rows x) -> length s = features x) /\
  warns max_n max_k order false (Leaf x) None (Leaf c) = Err IndexError /\ warns max_n max_k order true (Leaf x) None (Leaf c) = Ok false.
Proof. exists (mk_odata [] (map (fun i => [INR i]) (seq 0 12))), true. intros. split; [|split; reflexivity]. intros s I. apply in_map_iff in I as (i & <- & _). reflexivity. Qed.
Print Assumptions C134_scalars_refuted.
Example C134_scalars_example : has_leaf (looked_at (Leaf (mk_odata [] [[1]; [2]])) None) (mk_odata [] [[1]; [2]]).
Proof. constructor. Qed.
