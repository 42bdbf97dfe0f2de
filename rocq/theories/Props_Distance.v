(** C79-C81: distances of samples to the training data of a conformal model. *)
From Coq Require Import Reals ZArith Lra Lia Permutation Bool.
From Verif Require Import Base BaseLemmas TreeUtil TreeSpec NonSeqSpec TrainArgsProofs Serial SerialSpec Scaler OneHot Conformal ConformalProofs Strata StrataSpec StrataProofs
  Distance DistanceSpec DistanceProofs DistanceMain DistanceBounds.
Local Open Scope R_scope.
Local Open Scope list_scope.

(** The data of one call, leaf by leaf. *)
Definition given (n m : nat) (r : tree feature) (T X : tree bdata) (cont dist : tree bool) : Prop :=
  wf_tree r /\ trel (fun f x => f_train f = x) r T /\ trel (fun f x => f_data f = x) r X /\ trel (fun f c => f_cont f = c) r cont /\ trel (fun f d => f_sel f = d) r dist /\
  (forall f, has_leaf r f -> usable n m f) /\ (0 < n)%nat /\ 0 < sum_of size (leaves r).

(** The distances are means of Gower's distance, if no category is new. *)
Theorem C79_gower_partial :
  forall q n m r T X cont dist, given n m r T X cont dist -> (forall i, (i < m)%nat -> all_seen (leaves r) i) ->
  exists st ds, fit_distance q T cont dist = Ok st /\ distance st X = Ok ds /\ length ds = m /\
    exists J c, representatives (gower_train (leaves r)) n J /\ is_cutoff (gower_train (leaves r)) q J c /\
      forall i, (i < m)%nat -> is_distance c (map (gower 1 (leaves r) i) J) (nth i ds 0).
Proof.
  intros q n m r T X cont dist (W & TT & TX & TC & TD & U & N & S) SE.
  destruct (distance_ok q r T X cont dist n m W TT TX TC TD U N S) as (st & ds & E1 & E2 & L & J & c & RJ & CJ & H).
  exists st, ds. split; [exact E1|]. split; [exact E2|]. split; [exact L|]. exists J, c. split; [exact RJ|]. split; [exact CJ|]. intros i Hi. specialize (H i Hi).
  erewrite map_ext; [exact H|]. intros j. apply gower_seen. auto.
Qed.
(** New categories count one half. *)
Theorem C79_any_category :
  forall q n m r T X cont dist, given n m r T X cont dist ->
  exists st ds, fit_distance q T cont dist = Ok st /\ distance st X = Ok ds /\ length ds = m /\
    exists J c, representatives (gower_train (leaves r)) n J /\ is_cutoff (gower_train (leaves r)) q J c /\
      forall i, (i < m)%nat -> is_distance c (map (gower (1 / 2) (leaves r) i) J) (nth i ds 0).
Proof. intros q n m r T X cont dist (W & TT & TX & TC & TD & U & N & S). exact (distance_ok q r T X cont dist n m W TT TX TC TD U N S). Qed.

Lemma rep_nonempty D n J : (0 < n)%nat -> representatives D n J -> J <> [].
Proof. intros N (_ & _ & C & _). destruct (C 0%nat N) as (j & Hj & _). intros ->. destruct Hj. Qed.
(** Never negative, not less than the distance to some training sample, and
    at most 1 for samples within the ranges of the training data. *)
Theorem C80_bounds :
  forall q n m r T X cont dist, given n m r T X cont dist ->
  exists st ds, fit_distance q T cont dist = Ok st /\ distance st X = Ok ds /\ length ds = m /\
    forall i, (i < m)%nat -> 0 <= nth i ds 0 /\ (exists j, (j < n)%nat /\ gower (1 / 2) (leaves r) i j <= nth i ds 0) /\ (inside (leaves r) i -> nth i ds 0 <= 1).
Proof.
  intros q n m r T X cont dist G. pose proof G as (W & _ & _ & _ & _ & U & N & S).
  assert (UL : forall f, In f (leaves r) -> usable n m f) by (intros f Hf; apply U, leaves_has_leaf; exact Hf).
  destruct (C79_any_category q n m r T X cont dist G) as (st & ds & E1 & E2 & L & J & c & RJ & CJ & H).
  exists st, ds. split; [exact E1|]. split; [exact E2|]. split; [exact L|]. intros i Hi. specialize (H i Hi). pose proof (rep_nonempty _ _ _ N RJ) as NE.
  pose proof RJ as (_ & B & _). set (l := map (gower (1 / 2) (leaves r) i) J) in *. assert (NL : l <> []) by (unfold l; destruct J; [contradiction|discriminate]).
  pose proof (lmin_least l NL) as LM. pose proof (distance_above c l _ _ H LM) as A. pose proof LM as [IM _]. unfold l in IM. apply in_map_iff in IM as (j & Ej & Hj).
  assert (P : forall x, In x l -> 0 <= x) by (intros x Hx; apply in_map_iff in Hx as (k & <- & _); apply (gower_nonneg n m); auto; lra).
  split; [|split].
  - apply Rle_trans with (lmin l); [apply P, LM|exact A].
  - exists j. split; [auto|]. rewrite Ej. exact A.
  - intros IN. apply (distance_below c l); [exact H|]. intros x Hx. split; [auto|]. apply in_map_iff in Hx as (k & <- & Hk). apply (gower_one n m); auto; lra.
Qed.

(** * Examples *)
Definition on_line (t x : list R) (cont : bool) (g : R) : feature :=
  mk_feature (mk_odata [1%nat] (map (fun v => [v]) t)) (mk_odata [1%nat] (map (fun v => [v]) x)) cont true (fun _ => g).
Lemma line_batch l : batch (length l) (mk_odata [1%nat] (map (fun v : R => [v]) l)).
Proof. split; [apply map_length|]. cbn. intros r Hr. apply in_map_iff in Hr as (v & <- & _). reflexivity. Qed.
Lemma line_numbers t : numbers (mk_odata [1%nat] (map (fun v : R => [v]) t)) 0 = t.
Proof. rewrite numbers_col. cbn [o_rows]. rewrite map_map. cbn. apply map_id. Qed.
Lemma line_given t x (cont : bool) g : t <> [] -> (cont = true -> is_range t g /\ 0 < g) ->
  given (length t) (length x) (Leaf (on_line t x cont g)) (Leaf (f_train (on_line t x cont g))) (Leaf (f_data (on_line t x cont g))) (Leaf cont) (Leaf true).
Proof.
  intros N H. split; [apply wf_leaf|]. split; [constructor; reflexivity|]. split; [constructor; reflexivity|]. split; [constructor; reflexivity|]. split; [constructor; reflexivity|]. split; [|split].
  - intros f Hf. inversion Hf; subst. split; [apply line_batch|]. split; [apply line_batch|]. split; [reflexivity|]. split; [|split].
    + intros C k Hk. cbn in Hk. assert (k = 0%nat) as -> by lia. change (f_train (on_line t x cont g)) with (mk_odata [1%nat] (map (fun v : R => [v]) t)). rewrite line_numbers. apply H. exact C.
    + intros _ C k _. apply H. exact C.
    + reflexivity.
  - destruct t; [contradiction|cbn; lia].
  - destruct cont; cbn; lra.
Qed.
Lemma line_at l i : at_ (mk_odata [1%nat] (map (fun v : R => [v]) l)) i 0 = nth i l 0.
Proof. unfold at_. cbn [o_rows]. revert i. induction l as [|v l IH]; intros [|i]; try reflexivity. apply IH. Qed.
Lemma line_gower w t x g i j : gower w [on_line t x true g] i j = Rabs (nth i x 0 - nth j t 0) / g.
Proof. unfold gower, apart, size, on_line. cbn -[at_ Rabs Rdiv]. rewrite !line_at. generalize (Rabs (nth i x 0 - nth j t 0) / g). intros a. field. Qed.

Definition three : list R := [0; 1; 2].
Lemma three_range : is_range three 2.
Proof.
  split; [exists 2, 0; cbn; repeat split; auto; lra|]. cbn. intros a b Ha Hb. destruct Ha as [ <- | [ <- | [ <- | [] ] ] ]; destruct Hb as [ <- | [ <- | [ <- | [] ] ] ]; lra.
Qed.
(** One continuous feature, three training samples 0, 1, 2 and the samples 1, 1/2. *)
Example C79_hypotheses : given 3 2 (Leaf (on_line three [1; 1 / 2] true 2)) (Leaf (mk_odata [1%nat] [[0]; [1]; [2]])) (Leaf (mk_odata [1%nat] [[1]; [1 / 2]])) (Leaf true) (Leaf true) /\
  (forall i, (i < 2)%nat -> all_seen [on_line three [1; 1 / 2] true 2] i) /\ inside [on_line three [1; 1 / 2] true 2] 0.
Proof.
  split; [apply (line_given three [1; 1 / 2] true 2); [discriminate|]; intros _; split; [exact three_range|lra]|]. split.
  - intros i _ f [ <- | [] ] _ C. discriminate.
  - intros f [ <- | [] ] _ _ k Hk. cbn in Hk. assert (k = 0%nat) as -> by lia. exists 0, 2. cbn. unfold at_. cbn. repeat split; auto; lra.
Qed.

Lemma perm_filter {A} (p : A -> bool) l m : Permutation l m -> Permutation (filter p l) (filter p m).
Proof. induction 1 as [|x l m P IH|x y l|l m k P1 IH1 P2 IH2]; cbn; [constructor|destruct (p x); auto|destruct (p x), (p y); auto; apply perm_swap|eapply perm_trans; eauto]. Qed.
Lemma sum_perm l m : Permutation l m -> sum_of (fun x => x) l = sum_of (fun x => x) m.
Proof. induction 1 as [|x l m P IH|x y l|l m k P1 IH1 P2 IH2]; rewrite ?sum_cons; lra. Qed.
Lemma distance_perm c l m d : Permutation l m -> is_distance c l d -> is_distance c m d.
Proof.
  intros P (v & [I H] & ->). exists v. split; [split; [eapply Permutation_in; eauto|]; intros w Hw; apply H; eapply Permutation_in; [symmetry; exact P|exact Hw]|].
  pose proof (perm_filter (near c) l m P) as F. rewrite (sum_perm _ _ F), (Permutation_length F). f_equal.
  destruct (filter (near c) l) as [|a f]; destruct (filter (near c) m) as [|b g]; try reflexivity; exfalso; apply Permutation_length in F; discriminate.
Qed.
Lemma train_gower t x g i j : gower_train [on_line t x true g] i j = Rabs (nth i t 0 - nth j t 0) / g.
Proof. exact (line_gower 1 t t g i j). Qed.
Lemma three_points x q J c : representatives (gower_train [on_line three x true 2]) 3 J -> is_cutoff (gower_train [on_line three x true 2]) q J c ->
  Permutation J [0%nat; 1%nat; 2%nat] /\ c = Some (1 / 2).
Proof.
  intros (ND & B & C & _) K. set (D := gower_train [on_line three x true 2]) in *.
  assert (V : forall i j, (i < 3)%nat -> (j < 3)%nat -> (i = j /\ D i j = 0) \/ (i <> j /\ 1 / 2 <= D i j)).
  { intros i j Hi Hj. unfold D. rewrite train_gower. destruct i as [|[|[|]]]; try lia; destruct j as [|[|[|]]]; try lia; cbn [nth three];
      try (left; split; [reflexivity|]; match goal with |- Rabs ?e / 2 = 0 => replace e with 0 by ring end; rewrite Rabs_R0; lra);
      right; (split; [lia|]); unfold Rabs; destruct (Rcase_abs _); lra. }
  assert (P : Permutation J [0%nat; 1%nat; 2%nat]).
  { apply NoDup_Permutation; [exact ND|repeat constructor; cbn; lia|]. intros i. split.
    - intros Hi. apply B in Hi. cbn. lia.
    - intros Hi. assert (Hi3 : (i < 3)%nat) by (cbn in Hi; lia). destruct (C i Hi3) as (j & Hj & Z). destruct (V i j Hi3 (B j Hj)) as [ [ -> _] | [_ H] ]; [exact Hj|lra]. }
  split; [exact P|]. destruct c as [c|]; [|apply Permutation_length in P; cbn in K, P; lia]. destruct K as (v & FA & ->). f_equal.
  assert (E : forall d, In d v -> 1 / 2 <= d <= 1 / 2).
  { assert (G : forall K w, Forall2 (fun j d => least d (map (D j) (remove Nat.eq_dec j J))) K w -> (forall j, In j K -> In j J) -> forall d, In d w -> 1 / 2 <= d <= 1 / 2).
    { induction 1 as [|j d K w [I L] _ IH]; intros S e [ <- |He] || intros S e []; [|apply IH; [intros k Hk; apply S; right; exact Hk|exact He]].
      assert (Hj : In j J) by (apply S; left; reflexivity). split.
      - apply in_map_iff in I as (k & <- & Hk). apply in_remove in Hk as [Hk Ne]. destruct (V j k (B j Hj) (B k Hk)) as [ [C1 _] | [_ H] ]; [congruence|exact H].
      - set (k := match j with 0%nat => 1%nat | 1%nat => 0%nat | _ => 1%nat end). assert (Hk : In k J). { eapply Permutation_in; [symmetry; exact P|]. unfold k. destruct j as [|[|]]; cbn; auto. }
        assert (Ne : k <> j) by (unfold k; destruct j as [|[|]]; lia). specialize (L (D j k) (in_map (D j) _ _ (in_in_remove Nat.eq_dec J Ne Hk))).
        eapply Rle_trans; [exact L|]. specialize (B j Hj). unfold D. rewrite train_gower. unfold k. destruct j as [|[|[|]]]; try lia; cbn [nth three]; unfold Rabs; destruct (Rcase_abs _); lra. }
    intros d Hd. exact (G J v FA (fun j H => H) d Hd). }
  assert (NV : v <> []). { intros ->. inversion FA; subst. apply Permutation_nil in P. discriminate. }
  pose proof (quantile_bounds v q (1 / 2) (1 / 2) NV E). lra.
Qed.

(** A category that does not occur in the training data is half as far away as one
    that does: the distance is not Gower's. *)
Definition C79_always : Prop :=
  forall q n m r T X cont dist, given n m r T X cont dist ->
  exists st ds, fit_distance q T cont dist = Ok st /\ distance st X = Ok ds /\ length ds = m /\
    exists J c, representatives (gower_train (leaves r)) n J /\ is_cutoff (gower_train (leaves r)) q J c /\
      forall i, (i < m)%nat -> is_distance c (map (gower 1 (leaves r) i) J) (nth i ds 0).
Lemma new_gower w j : (j < 2)%nat -> gower w [on_line [0; 1] [2] false 1] 0 j = w.
Proof.
  intros Hj. unfold gower, apart, size, on_line, seen, sample. cbn -[Req_EM_T list_eq_dec in_dec nth INR].
  destruct (list_eq_dec Req_EM_T _ _) as [E|_].
  - exfalso. destruct j as [|[|]]; [| |lia]; cbn in E; injection E; lra.
  - destruct (in_dec (list_eq_dec Req_EM_T) _ _) as [I|_]; [|field]. exfalso. cbn in I. destruct I as [E|[E|[]]]; injection E; lra.
Qed.
Lemma distance_constant c l v d : (forall x, In x l -> x = v) -> 0 <= v -> is_distance c l d -> d = v.
Proof.
  intros A V (w & [I L] & ->). rewrite (A w I). assert (M : forall k, (forall x, In x k -> x = v) -> k <> [] -> sum_of (fun x => x) k / INR (length k) = v).
  { intros k K N. assert (S : sum_of (fun x => x) k = INR (length k) * v).
    { clear N. induction k as [|x k IH]; [cbn; ring|]. rewrite sum_cons, (K x (or_introl eq_refl)), IH by (intros y Hy; apply K; right; exact Hy).
      cbn [length]. rewrite S_INR. ring. }
    rewrite S. field. apply not_0_INR. destruct k; [contradiction|discriminate]. }
  destruct (filter (near c) l) as [|a k] eqn:E; [rewrite Rmax_right by exact V; reflexivity|].
  rewrite M; [apply Rmax_left; lra| |discriminate]. intros x Hx. apply A. rewrite <- E in Hx. apply filter_In in Hx as [Hx _]. exact Hx.
Qed.
Theorem C79_refuted : ~ C79_always.
Proof.
  intros H. set (f := on_line [0; 1] [2] false 1).
  pose proof (line_given [0; 1] [2] false 1 ltac:(discriminate) ltac:(discriminate)) as G. cbn [length] in G.
  destruct (H 0 _ _ _ _ _ _ _ G) as (st & ds & E1 & E2 & _ & J & c & RJ & _ & D).
  destruct (C79_any_category 0 _ _ _ _ _ _ _ G) as (st' & ds' & E1' & E2' & _ & J' & c' & RJ' & _ & D').
  rewrite E1 in E1'. injection E1' as <-. rewrite E2 in E2'. injection E2' as <-. cbn [leaves] in *. specialize (D 0%nat ltac:(lia)). specialize (D' 0%nat ltac:(lia)).
  assert (B : forall w J c, 0 <= w -> (forall j, In j J -> (j < 2)%nat) -> is_distance c (map (gower w [on_line [0; 1] [2] false 1] 0) J) (nth 0 ds 0) -> nth 0 ds 0 = w).
  { intros w K k W KB. apply distance_constant; [|exact W]. intros x Hx. apply in_map_iff in Hx as (j & <- & Hj). apply new_gower, KB, Hj. }
  apply B in D; [|lra|exact (proj1 (proj2 RJ))]. apply B in D'; [|lra|exact (proj1 (proj2 RJ'))]. lra.
Qed.

(** Samples of the training data are not at distance 0, and samples that are not
    in the training data can be nearer than samples that are. *)
Theorem C80_training_samples_refuted :
  forall q, exists r T X cont dist, given 3 2 r T X cont dist /\ (exists j, gower 1 (leaves r) 0 j = 0) /\ (forall j, (j < 3)%nat -> 0 < gower 1 (leaves r) 1 j) /\
  exists st ds, fit_distance q T cont dist = Ok st /\ distance st X = Ok ds /\ 0 < nth 0 ds 0 /\ nth 1 ds 0 < nth 0 ds 0.
Proof.
  intros q. set (f := on_line three [1; 1 / 2] true 2). exists (Leaf f), (Leaf (f_train f)), (Leaf (f_data f)), (Leaf true), (Leaf true).
  pose proof (line_given three [1; 1 / 2] true 2 ltac:(discriminate) (fun _ => conj three_range Rlt_0_2)) as G. split; [exact G|]. cbn [leaves]. split; [|split].
  - exists 1%nat. unfold f. rewrite line_gower. cbn [nth three]. replace (1 - 1) with 0 by ring. rewrite Rabs_R0. lra.
  - intros j Hj. unfold f. rewrite line_gower. destruct j as [|[|[|]]]; try lia; cbn [nth three]; unfold Rabs; destruct (Rcase_abs _); lra.
  - destruct (C79_any_category q _ _ _ _ _ _ _ G) as (st & ds & E1 & E2 & _ & J & c & RJ & CJ & H). exists st, ds. split; [exact E1|]. split; [exact E2|].
    cbn [leaves] in *. destruct (three_points _ q J c RJ CJ) as [P ->].
    assert (H0 := distance_perm _ _ _ _ (Permutation_map _ P) (H 0%nat ltac:(cbn; lia))). assert (H1 := distance_perm _ _ _ _ (Permutation_map _ P) (H 1%nat ltac:(cbn; lia))).
    cbn [map] in H0, H1. rewrite !line_gower in H0, H1. cbn [nth three] in H0, H1.
    replace (Rabs (1 - 0) / 2) with (1 / 2) in H0 by (rewrite Rabs_pos_eq; lra). replace (Rabs (1 - 1) / 2) with 0 in H0 by (rewrite Rabs_pos_eq; lra).
    replace (Rabs (1 - 2) / 2) with (1 / 2) in H0 by (rewrite Rabs_left; lra).
    replace (Rabs (1 / 2 - 0) / 2) with (1 / 4) in H1 by (rewrite Rabs_pos_eq; lra). replace (Rabs (1 / 2 - 1) / 2) with (1 / 4) in H1 by (rewrite Rabs_left; lra).
    replace (Rabs (1 / 2 - 2) / 2) with (3 / 4) in H1 by (rewrite Rabs_left; lra).
    destruct H0 as (v0 & [I0 L0] & ->). destruct H1 as (v1 & [I1 L1] & ->).
    unfold near in *. cbn [filter] in *. destruct (Rle_dec (1 / 2) (1 / 2)); [|lra]. destruct (Rle_dec 0 (1 / 2)); [|lra]. destruct (Rle_dec (1 / 4) (1 / 2)); [|lra]. destruct (Rle_dec (3 / 4) (1 / 2)); [lra|].
    cbn [sum_of fold_right length INR]. assert (v1 <= 1 / 4) by (apply L1; left; reflexivity).
    assert (A : 1 / 3 <= Rmax ((1 / 2 + (0 + (1 / 2 + 0))) / (1 + 1 + 1)) v0) by (eapply Rle_trans; [|apply Rmax_l]; lra).
    split; [eapply Rlt_le_trans; [|exact A]; lra|]. eapply Rlt_le_trans; [|exact A]. apply Rmax_lub_lt; lra.
Qed.

(** * What goes wrong *)
(** A category that does not occur in the training data counts one half, so the
    distances are not those of Gower. *)
Theorem C81_new_category_refuted :
  forall q, exists r T X cont dist, given 2 1 r T X cont dist /\
  exists st ds, fit_distance q T cont dist = Ok st /\ distance st X = Ok ds /\
    forall J c, representatives (gower_train (leaves r)) 2 J -> ~ is_distance c (map (gower 1 (leaves r) 0) J) (nth 0 ds 0).
Proof.
  intros q. set (f := on_line [0; 1] [2] false 0). exists (Leaf f), (Leaf (f_train f)), (Leaf (f_data f)), (Leaf false), (Leaf true).
  assert (G : given 2 1 (Leaf f) (Leaf (f_train f)) (Leaf (f_data f)) (Leaf false) (Leaf true)) by (apply (line_given [0; 1] [2] false 0); [discriminate|intros C; discriminate]).
  split; [exact G|]. destruct (C79_any_category q _ _ _ _ _ _ _ G) as (st & ds & E1 & E2 & _ & J & c & RJ & CJ & H). exists st, ds. split; [exact E1|]. split; [exact E2|].
  intros J' c' RJ' H'. specialize (H 0%nat ltac:(lia)). cbn [leaves] in *.
  assert (V : forall w j, (j < 2)%nat -> gower w [f] 0 j = w).
  { intros w j Hj. unfold gower. rewrite !sum_cons. replace (apart w f 0 j) with w; [unfold size; cbn [f_sel f_cont f on_line sum_of fold_right]; field|].
    unfold apart, seen. cbn [f_sel f_cont f on_line].
    assert (S0 : sample (f_data f) 0 = [2]) by reflexivity. fold f. rewrite S0.
    destruct (list_eq_dec Req_EM_T [2] (sample (f_train f) j)) as [C|_]; [exfalso; destruct j as [|[|]]; cbn in C; try lia; injection C; lra|].
    destruct (in_dec (list_eq_dec Req_EM_T) [2] (o_rows (f_train f))) as [I|_]; [exfalso; cbn in I; destruct I as [C|[C|[] ] ]; injection C; lra|]. reflexivity. }
  assert (D1 : nth 0 ds 0 <= 1 / 2). { apply (distance_below c _ _ _ H). intros x Hx. apply in_map_iff in Hx as (j & <- & Hj). destruct RJ as (_ & B & _). rewrite V by (apply B; exact Hj). lra. }
  assert (NE : map (gower 1 [f] 0) J' <> []). { pose proof (rep_nonempty _ 2 J' ltac:(lia) RJ') as NJ. destruct J'; [contradiction|discriminate]. }
  pose proof (lmin_least _ NE) as LM. pose proof (distance_above c' _ _ _ H' LM) as A. destruct LM as [IM _]. apply in_map_iff in IM as (j & Ej & Hj). destruct RJ' as (_ & B & _). rewrite V in Ej by (apply B; exact Hj). lra.
Qed.

(** A selected continuous feature that is the same in all training samples makes
    calibration fail. *)
Theorem C81_constant_feature_refuted :
  forall q, exists T, (exists x, has_leaf T x /\ batch 2 x) /\ fit_distance q T (Leaf true) (Leaf true) = Err ValueError.
Proof.
  intros q. exists (Leaf (mk_odata [1%nat] [[1]; [1]])). split; [eexists; split; [constructor|exact (line_batch [1; 1])]|].
  unfold fit_distance, prepare. cbn -[odiv ptp].
  assert (Z : ptp [1; 1] = 0). { apply range_ptp. split; [exists 1, 1; cbn; repeat split; auto; lra|]. cbn. intros a b [ <- | [ <- | [] ] ] [ <- | [ <- | [] ] ]; lra. }
  rewrite Z. unfold odiv. destruct (Req_EM_T 0 0); [reflexivity|congruence].
Qed.

Lemma unique_length l : NoDup l -> length (unique_rows rops l) = length l.
Proof. intros N. apply Permutation_length, NoDup_Permutation; [apply unique_nodup|exact N|]. intros r. apply unique_in. Qed.
(** Categorical features of several numbers per sample: calibration fails. *)
Theorem C81_wide_category_refuted :
  forall q, exists T, (exists x, has_leaf T x /\ batch 3 x /\ o_shape x = [2%nat]) /\ fit_distance q T (Leaf false) (Leaf true) = Err TypeError.
Proof.
  intros q. set (x := mk_odata [2%nat] [[0; 0]; [0; 1]; [1; 0]]). exists (Leaf x). split.
  - exists x. split; [constructor|]. split; [|reflexivity]. split; [reflexivity|]. cbn. intros r [ <- | [ <- | [ <- | [] ] ] ]; reflexivity.
  - assert (L : length (fst (oh_fit_leaf rops x)) = 3%nat).
    { unfold oh_fit_leaf. cbn [fst]. rewrite OneHotProofs.sort_columns_length, unique_length; [reflexivity|].
      cbn. repeat constructor; cbn; intros C; repeat (destruct C as [C|C]; [injection C; lra|]); exact C. }
    unfold fit_distance, prepare. cbn [jzipM rbind fst snd encoder_leaf orb negb]. cbn -[oh_fit_leaf encode scale_leaf].
    assert (E : jzipM encode_leaf (Leaf (Some (oh_fit_leaf rops x))) (Leaf x) =
      Ok (Leaf (mk_odata [length (fst (oh_fit_leaf rops x))] (map (encode rops (fst (oh_fit_leaf rops x))) (o_rows x))))) by reflexivity.
    rewrite E, L. reflexivity.
Qed.

(** Examples meeting the hypotheses above. *)
Example C79_value : exists st ds, fit_distance (1 / 2) (Leaf (mk_odata [1%nat] [[0]; [1]; [2]])) (Leaf true) (Leaf true) = Ok st /\
  distance st (Leaf (mk_odata [1%nat] [[1]; [1 / 2]])) = Ok ds /\ 0 <= nth 0 ds 0 <= 1.
Proof.
  destruct C79_hypotheses as (G & _ & IN). destruct (C80_bounds (1 / 2) _ _ _ _ _ _ _ G) as (st & ds & E1 & E2 & _ & H). exists st, ds. split; [exact E1|]. split; [exact E2|].
  destruct (H 0%nat ltac:(lia)) as (A & _ & B). split; [exact A|]. apply B. exact IN.
Qed.

Print Assumptions C79_gower_partial.
Print Assumptions C79_any_category.
Print Assumptions C79_refuted.
Print Assumptions C80_bounds.
Print Assumptions C80_training_samples_refuted.
Print Assumptions C81_new_category_refuted.
Print Assumptions C81_constant_feature_refuted.
Print Assumptions C81_wide_category_refuted.
