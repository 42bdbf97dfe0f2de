From Coq Require Import Reals Lra Permutation.
From Verif Require Import Base BaseLemmas TreeUtil TreeSpec NonSeqSpec NonSeqProofs MutableProofs Serial SerialSpec SerialProofs Scaler ScalerSpec ScalerProofs.
Local Open Scope R_scope.
Local Open Scope list_scope.

Lemma nsum_some l : nsum (map Some l) = Some (total l).
Proof. induction l as [|x l IH]; cbn; [reflexivity|]. rewrite IH. reflexivity. Qed.
Lemma len_pos {A} (l : list A) : l <> [] -> 0 < INR (length l).
Proof. destruct l; [congruence|]. intros _. apply lt_0_INR. cbn. lia. Qed.
Lemma mean_some l : l <> [] -> mean1 (map Some l) = Some (average l).
Proof.
  intros H. unfold mean1. rewrite nsum_some, map_length. cbn. pose proof (len_pos l H). destruct (Req_EM_T (INR (length l)) 0); [lra|reflexivity].
Qed.
Definition spread (l : list R) : R := average (map (fun v => (v - average l) * (v - average l)) l).
Lemma std_some l : l <> [] -> std1 (map Some l) = Some (sqrt (spread l)).
Proof.
  intros H. unfold std1. rewrite mean_some by exact H. rewrite map_map. cbn.
  rewrite <- map_map with (f := fun v => (v - average l) * (v - average l)) (g := Some).
  rewrite mean_some by (destruct l; [congruence|discriminate]). reflexivity.
Qed.

Lemma total_affine k c l : total (map (fun v => k * v + c) l) = k * total l + INR (length l) * c.
Proof. induction l as [|x l IH]; [cbn; ring|]. cbn [map total fold_right length]. fold (total (map (fun v => k * v + c) l)). fold (total l). rewrite IH, S_INR. ring. Qed.
Lemma average_affine k c l : l <> [] -> average (map (fun v => k * v + c) l) = k * average l + c.
Proof. intros H. unfold average. rewrite total_affine, map_length. pose proof (len_pos l H). field. lra. Qed.
Lemma total_ge0 l : (forall v, In v l -> 0 <= v) -> 0 <= total l.
Proof. induction l as [|x l IH]; cbn; intros H; [lra|]. fold (total l). pose proof (H x (or_introl eq_refl)). assert (0 <= total l) by auto. lra. Qed.
Lemma total_zero l : (forall v, In v l -> 0 <= v) -> total l = 0 -> forall v, In v l -> v = 0.
Proof.
  induction l as [|x l IH]; intros H E v []; cbn in E; fold (total l) in E; pose proof (H x (or_introl eq_refl)); assert (0 <= total l) by (apply total_ge0; intros; apply H; right; auto).
  - subst. lra.
  - apply IH; auto. { intros; apply H; right; auto. } lra.
Qed.
Lemma spread_ge0 l : l <> [] -> 0 <= spread l.
Proof.
  intros H. unfold spread, average at 1. rewrite map_length. pose proof (len_pos l H).
  apply Rmult_le_pos; [|left; apply Rinv_0_lt_compat; assumption].
  apply total_ge0. intros v Hv. apply in_map_iff in Hv as (u & <- & _). apply Rle_0_sqr.
Qed.
Lemma spread_zero l : l <> [] -> (spread l = 0 <-> constant l).
Proof.
  intros H. pose proof (len_pos l H) as Hn. split.
  - intros E. unfold spread, average at 1 in E. rewrite map_length in E.
    assert (Z : total (map (fun v => (v - average l) * (v - average l)) l) = 0).
    { apply Rmult_integral in E as [E|E]; [exact E|]. exfalso. apply (Rinv_neq_0_compat (INR (length l))); lra. }
    assert (G : forall v, In v l -> v = average l).
    { intros v Hv. assert ((v - average l) * (v - average l) = 0).
      { eapply total_zero; [|exact Z|apply (in_map (fun v => (v - average l) * (v - average l))); exact Hv].
        intros u Hu. apply in_map_iff in Hu as (w & <- & _). apply Rle_0_sqr. }
      apply Rmult_integral in H0. lra. }
    intros a b Ha Hb. rewrite (G a Ha), (G b Hb). reflexivity.
  - intros C. destruct l as [|x l]; [congruence|].
    assert (A : forall v, In v (x :: l) -> v = x) by (intros; apply C; cbn; auto).
    assert (Av : average (x :: l) = x).
    { rewrite <- (Rmult_1_l x) at 2. replace (x :: l) with (map (fun _ : R => 0 * 1 + x) (x :: l)).
      2:{ clear H Hn C. induction (x :: l) as [|y l' IH]; [reflexivity|]. cbn [map]. rewrite IH by (intros; apply A; right; auto). f_equal. rewrite (A y); cbn; auto. ring. }
      rewrite (map_ext _ (fun v => 0 * v + x)) by (intros; ring). rewrite average_affine by congruence. ring. }
    unfold spread. rewrite Av. rewrite (map_ext_in _ (fun v => 0 * v + 0)).
    { rewrite average_affine by congruence. ring. }
    intros v Hv. rewrite (A v Hv). ring.
Qed.

(** The standardised values. *)
Lemma standard_list l : l <> [] -> ~ constant l ->
  let s := sqrt (spread l) in let l' := map (fun v => (v - average l) / s) l in
  s > 0 /\ average l' = 0 /\ average (map (fun v => v * v) l') = 1.
Proof.
  intros H C s l'. assert (P : 0 < spread l).
  { pose proof (spread_ge0 l H). destruct (Req_dec (spread l) 0) as [E|E]; [|lra]. exfalso. apply C. apply spread_zero; auto. }
  assert (Sp : 0 < s) by (apply sqrt_lt_R0; exact P).
  split; [exact Sp|]. split.
  - unfold l'. rewrite (map_ext _ (fun v => / s * v + - (average l / s))) by (intros; field; lra).
    rewrite average_affine by exact H. field. lra.
  - unfold l'. rewrite map_map. rewrite (map_ext _ (fun v => / (s * s) * ((v - average l) * (v - average l)) + 0)) by (intros; field; lra).
    rewrite <- (map_map (fun v => (v - average l) * (v - average l)) (fun v => / (s * s) * v + 0)).
    rewrite average_affine by (destruct l; [congruence|discriminate]). fold (spread l).
    unfold s. rewrite sqrt_sqrt by lra. field. lra.
Qed.

(** Extremes. *)
Lemma fold_some (f : R -> R -> R) l : forall x, fold_left (lift2 f) (map Some l) (Some x) = Some (fold_left f l x).
Proof. induction l as [|y l IH]; intros x; cbn; [reflexivity|]. apply IH. Qed.
Definition lmin (l : list R) : R := match l with [] => 0 | x :: l' => fold_left Rmin l' x end.
Definition lmax (l : list R) : R := match l with [] => 0 | x :: l' => fold_left Rmax l' x end.
Lemma min_some l : l <> [] -> min1 (map Some l) = Some (lmin l).
Proof. destruct l as [|x l]; [congruence|]. intros _. apply fold_some. Qed.
Lemma max_some l : l <> [] -> max1 (map Some l) = Some (lmax l).
Proof. destruct l as [|x l]; [congruence|]. intros _. apply fold_some. Qed.
Lemma fold_min l : forall x, fold_left Rmin l x <= x /\ (forall v, In v l -> fold_left Rmin l x <= v) /\ (fold_left Rmin l x = x \/ In (fold_left Rmin l x) l).
Proof.
  induction l as [|y l IH]; intros x; cbn; [repeat split; try lra; auto; intros v []|].
  destruct (IH (Rmin x y)) as (A & B & C). pose proof (Rmin_l x y). pose proof (Rmin_r x y). repeat split; [lra| |].
  - intros v [ -> |Hv]; [lra|auto].
  - destruct C as [C|C]; [|auto]. rewrite C. unfold Rmin. destruct (Rle_dec x y); auto.
Qed.
Lemma fold_max l : forall x, x <= fold_left Rmax l x /\ (forall v, In v l -> v <= fold_left Rmax l x) /\ (fold_left Rmax l x = x \/ In (fold_left Rmax l x) l).
Proof.
  induction l as [|y l IH]; intros x; cbn; [repeat split; try lra; auto; intros v []|].
  destruct (IH (Rmax x y)) as (A & B & C). pose proof (Rmax_l x y). pose proof (Rmax_r x y). repeat split; [lra| |].
  - intros v [ -> |Hv]; [lra|auto].
  - destruct C as [C|C]; [|auto]. rewrite C. unfold Rmax. destruct (Rle_dec x y); auto.
Qed.
Lemma lmin_spec l : l <> [] -> (forall v, In v l -> lmin l <= v) /\ In (lmin l) l.
Proof.
  destruct l as [|x l]; [congruence|]. intros _. cbn [lmin]. destruct (fold_min l x) as (A & B & C). split.
  - intros v [ -> |Hv]; auto.
  - cbn. destruct C as [C|C]; auto.
Qed.
Lemma lmax_spec l : l <> [] -> (forall v, In v l -> v <= lmax l) /\ In (lmax l) l.
Proof.
  destruct l as [|x l]; [congruence|]. intros _. cbn [lmax]. destruct (fold_max l x) as (A & B & C). split.
  - intros v [ -> |Hv]; auto.
  - cbn. destruct C as [C|C]; auto.
Qed.
Lemma extremes l : l <> [] -> ~ constant l -> lmin l < lmax l.
Proof.
  intros H C. destruct (lmin_spec l H) as [A B]. destruct (lmax_spec l H) as [D E].
  destruct (Rtotal_order (lmin l) (lmax l)) as [?|[F|F]]; [assumption| |].
  - exfalso. apply C. intros a b Ha Hb. pose proof (A a Ha). pose proof (D a Ha). pose proof (A b Hb). pose proof (D b Hb). lra.
  - pose proof (A _ E). lra.
Qed.

(* ------------------------------------------------------------------ *)
(** * Columns of batches *)
Lemma finite_values x j : finite_batch x -> (j < width x)%nat -> exists l, values x j l /\ length l = length (rows x).
Proof.
  unfold finite_batch, values, col. intros F Hj. induction F as [|r rs Hr _ IH]; [exists []; auto|].
  destruct IH as (l & E & L). destruct (finite_nth _ r j Hr Hj) as (v & Ev). exists (v :: l). cbn. rewrite Ev, E. split; [reflexivity|lia].
Qed.
Lemma per_feature_nth f x j : (j < width x)%nat -> nth j (per_feature f x) None = f (col x j).
Proof.
  intros Hj. unfold per_feature. rewrite (map_nth_lt _ _ 0%nat None) by (rewrite seq_length; exact Hj). rewrite seq_nth by exact Hj. reflexivity.
Qed.
Lemma per_feature_length f x : length (per_feature f x) = width x.
Proof. unfold per_feature. rewrite map_length, seq_length. reflexivity. Qed.

Lemma with_stats_col f x a b y j : finite_batch x -> with_stats f x a b = Ok y -> (j < width x)%nat ->
  width y = width x /\ rows y = map (fun r => zip3 f r a b) (rows x) /\ col y j = map (fun v => f v (nth j a None) (nth j b None)) (col x j).
Proof.
  intros F E Hj. unfold with_stats in E. destruct (length a =? width x)%nat eqn:La; [|discriminate]. destruct (length b =? width x)%nat eqn:Lb; [|discriminate].
  cbn in E. inversion E; subst; clear E. apply Nat.eqb_eq in La, Lb. split; [reflexivity|]. split; [reflexivity|].
  unfold col. cbn [rows]. rewrite !map_map. apply map_ext_in. intros r Hr. unfold finite_batch in F. rewrite Forall_forall in F.
  destruct (F r Hr) as [Lr _]. apply (@zip3_nth num num num num f None None None None); lia.
Qed.

Lemma varied_col x j : varied x -> (j < width x)%nat -> exists l, values x j l /\ l <> [] /\ ~ constant l.
Proof.
  intros (F & NE & C) Hj. destruct (finite_values x j F Hj) as (l & V & L). exists l. split; [exact V|]. split; [|eauto].
  intros ->. apply NE. destruct (rows x); [reflexivity|discriminate].
Qed.

Lemma std_leaf x : varied x -> std_usable (fun q => 0 < q) x (per_feature mean1 x, per_feature std1 x) /\
  forall y, with_stats (fun v m sc => ndiv (nsub v m) sc) x (per_feature mean1 x) (per_feature std1 x) = Ok y -> standard y.
Proof.
  intros V. pose proof V as (F & NE & C). split.
  - split; [exact F|]. cbn. split; [apply per_feature_length|]. split; [apply per_feature_length|].
    intros j Hj. destruct (varied_col x j V Hj) as (l & E & N & K). exists (average l), (sqrt (spread l)).
    rewrite !per_feature_nth by exact Hj. rewrite E, mean_some, std_some by exact N. repeat split. apply (standard_list l N K).
  - intros y E j Hj. assert (Hj' : (j < width x)%nat).
    { unfold with_stats in E. destruct (_ && _); inversion E; subst. exact Hj. }
    destruct (with_stats_col _ _ _ _ _ j F E Hj') as (W & _ & Cy).
    destruct (varied_col x j V Hj') as (l & El & N & K). destruct (standard_list l N K) as (Sp & A1 & A2).
    eexists. split; [|split; [exact A1|exact A2]]. unfold values. rewrite Cy, El, !per_feature_nth by exact Hj'. rewrite El, mean_some, std_some by exact N.
    rewrite !map_map. apply map_ext. intros v. cbn. destruct (Req_EM_T (sqrt (spread l)) 0); [lra|reflexivity].
Qed.

Lemma std_normal X : wf_tree X -> (forall x, has_leaf X x -> varied x) ->
  exists s Y Z, std_fit X = Ok s /\ std_transform (Some s) X = Ok Y /\ trel (fun x y => standard y /\ rescaled (fun a => 0 < a) x y) X Y /\
    std_inverse (Some s) Y = Ok Z /\ trel eq X Z.
Proof.
  intros W V.
  destruct (jm_trel (fun x => Ok (per_feature mean1 x, per_feature std1 x)) eq (fun x ms => ms = (per_feature mean1 x, per_feature std1 x) /\ varied x) X) with (u := X)
    as (s & Es & Ts); [intros x y Hx <-; eauto|apply trel_refl|].
  destruct (tree_undo (fun x ms => with_stats (fun v m sc => ndiv (nsub v m) sc) x (fst ms) (snd ms))
                      (fun x ms => with_stats (fun v m sc => nadd (nmul v sc) m) x (fst ms) (snd ms))
                      (fun x ms => ms = (per_feature mean1 x, per_feature std1 x) /\ varied x) X s W Ts) as (Y & Z & E1 & E2 & TZ & TY).
  { intros x ms [ -> Vx]. destruct (std_leaf x Vx) as [[Hf (La & Lb & Hs)] _].
    eapply (with_stats_undo (fun _ q => q <> 0)); auto using std_undoes. split; [exact La|]. split; [exact Lb|].
    intros j Hj. destruct (Hs j Hj) as (p & q & A & B & C). exists p, q. repeat split; auto. lra. }
  exists s, Y, Z. split; [exact Es|]. split; [exact E1|]. split; [|split; [exact E2|exact TZ]].
  eapply trel_impl; [|exact TY]. cbn. intros x y (q & [ -> Vx] & E). destruct (std_leaf x Vx) as [[Hf Hs] H]. split; [eauto|].
  eapply with_stats_affine; [|exact Hs|exact Hf|exact E]. cbn. intros p s0 Hs0. exists (/ s0), (- (p / s0)). split; [apply Rinv_0_lt_compat; exact Hs0|].
  intros v. destruct (Req_EM_T s0 0); [lra|]. f_equal. field. lra.
Qed.

(** A constant feature becomes a division by zero, whatever the values. *)
Lemma std_constant x j l : finite_batch x -> (j < width x)%nat -> values x j l -> l <> [] -> constant l ->
  exists s y, std_fit (Leaf x) = Ok (Leaf s) /\ std_transform (Some (Leaf s)) (Leaf x) = Ok (Leaf y) /\ forall i, entry y i j = None.
Proof.
  intros F Hj V N C.
  assert (E : with_stats (fun v m sc => ndiv (nsub v m) sc) x (per_feature mean1 x) (per_feature std1 x) =
              Ok (mk_batch (width x) (map (fun r => zip3 (fun v m sc => ndiv (nsub v m) sc) r (per_feature mean1 x) (per_feature std1 x)) (rows x)))).
  { unfold with_stats. rewrite !per_feature_length, Nat.eqb_refl. reflexivity. }
  exists (per_feature mean1 x, per_feature std1 x). eexists. split; [reflexivity|].
  split; [unfold std_transform, jzipM; cbn [tzipM fst snd]; rewrite E; reflexivity|]. intros i.
  destruct (with_stats_col _ _ _ _ _ j F E Hj) as (_ & _ & Cy). unfold col in Cy at 1. cbn [rows] in Cy.
  unfold entry. cbn [rows]. rewrite <- (map_nth (fun r => nth j r None)).
  replace (nth j (@nil (option R)) None) with (@None R) by (destruct j; reflexivity). rewrite Cy.
  rewrite !per_feature_nth by exact Hj. unfold values in V. rewrite !V, mean_some, std_some by exact N.
  rewrite (proj2 (spread_zero l N) C), sqrt_0. rewrite map_map. cbn.
  destruct (Req_EM_T 0 0); [|congruence]. clear. revert i. induction l as [|v l IH]; intros [|i]; cbn; auto.
Qed.

(** MinMaxScaler. *)
Lemma mm_leaf_col lo hi a b x y j : finite_batch x -> mm_leaf mm_fwd x ((a, b), (Some lo, Some hi)) = Ok y -> (j < width x)%nat ->
  width y = width x /\ col y j = map (fun v => mm_fwd v (nth j a None) (nth j b None) (nth j lo None) (nth j hi None)) (col x j).
Proof.
  intros F E Hj. cbn in E. destruct (length a =? width x)%nat eqn:L1; [|discriminate]. destruct (length b =? width x)%nat eqn:L2; [|discriminate].
  destruct (length lo =? width x)%nat eqn:L3; [|discriminate]. destruct (length hi =? width x)%nat eqn:L4; [|discriminate].
  cbn in E. inversion E; subst; clear E. apply Nat.eqb_eq in L1, L2, L3, L4. split; [reflexivity|].
  unfold col. cbn [rows]. rewrite !map_map. apply map_ext_in. intros r Hr. unfold finite_batch in F. rewrite Forall_forall in F.
  destruct (F r Hr) as [Lr _]. apply (zip5_nth mm_fwd None None None None None None); lia.
Qed.

Lemma mm_normal_leaf x lo hi y : varied x -> stat_rows (fun p q => p < q) (width x) lo hi ->
  mm_leaf mm_fwd x ((per_feature min1 x, per_feature max1 x), (Some lo, Some hi)) = Ok y -> spans lo hi y.
Proof.
  intros V (_ & _ & S) E j Hj. pose proof V as (F & NE & C).
  assert (Hj' : (j < width x)%nat).
  { cbn in E. destruct (_ && _); inversion E; subst. exact Hj. }
  destruct (mm_leaf_col _ _ _ _ _ _ j F E Hj') as (W & Cy). destruct (varied_col x j V Hj') as (l & El & N & K).
  destruct (S j Hj') as (a & b & Ea & Eb & Hab). rewrite !per_feature_nth in Cy by exact Hj'. unfold values in El. rewrite !El, min_some, max_some, Ea, Eb in Cy by exact N.
  pose proof (extremes l N K) as Hlt. destruct (lmin_spec l N) as [A1 A2]. destruct (lmax_spec l N) as [B1 B2].
  assert (P : 0 < / (lmax l - lmin l)) by (apply Rinv_0_lt_compat; lra).
  exists (map (fun v => (v - lmin l) / (lmax l - lmin l) * (b - a) + a) l), a, b.
  split. { unfold values. rewrite Cy, !map_map. apply map_ext. intros v. apply mm_fwd_val. lra. }
  split; [exact Ea|]. split; [exact Eb|]. split; [|split].
  - intros w Hw. apply in_map_iff in Hw as (v & <- & Hv). pose proof (A1 v Hv). pose proof (B1 v Hv).
    assert (0 <= (v - lmin l) / (lmax l - lmin l) <= 1).
    { split; [apply Rmult_le_pos; lra|]. apply (Rmult_le_reg_r (lmax l - lmin l)); [lra|]. unfold Rdiv. rewrite Rmult_assoc, Rinv_l by lra. lra. }
    set (t := (v - lmin l) / (lmax l - lmin l)) in *. assert (0 <= t * (b - a)) by (apply Rmult_le_pos; lra).
    assert (t * (b - a) <= 1 * (b - a)) by (apply Rmult_le_compat_r; lra). lra.
  - apply in_map_iff. exists (lmin l). split; [field; lra|exact A2].
  - apply in_map_iff. exists (lmax l). split; [field; lra|exact B2].
Qed.

Lemma mm_normal r X lo hi : wf_tree r -> trel (fun m x => l_x m = x) r X -> bound_is r l_lo lo -> bound_is r l_hi hi ->
  (forall m, has_leaf r m -> varied (l_x m) /\ l_min m = per_feature min1 (l_x m) /\ l_max m = per_feature max1 (l_x m) /\
     match l_lo m, l_hi m with Some a, Some b => stat_rows (fun p q => p < q) (width (l_x m)) a b | _, _ => True end) ->
  exists s Y Z, mm_fit X = Ok s /\ mm_transform lo hi (Some s) X = Ok Y /\
    trel (fun m y => match l_lo m, l_hi m with Some a, Some b => spans a b y | _, _ => y = l_x m end) r Y /\
    mm_inverse lo hi (Some s) Y = Ok Z /\ trel eq X Z /\ trel (rescaled (fun k => 0 < k)) X Y.
Proof.
  intros W TX BL BH H.
  destruct (jm_trel (fun x => Ok (per_feature min1 x, per_feature max1 x)) (fun m x => l_x m = x) (fun m st => (l_min m, l_max m) = st) r) with (u := X)
    as (s & Es & Ts); [|exact TX|].
  { intros m x Hm <-. destruct (H m Hm) as (_ & -> & -> & _). eauto. }
  destruct (mm_round (fun p q => p < q) (fun k => 0 < k) r X s lo hi) as (Y & Z & EY & EZ & TZ & TR); auto; try lra.
  { intros; lra. }
  { intros p q p' q' ? ?. apply Rmult_lt_0_compat; [lra|apply Rinv_0_lt_compat; lra]. }
  { intros m Hm. destruct (H m Hm) as (V & Emin & Emax & Hr). split; [apply V|]. destruct (l_lo m) as [a|]; [|exact I]. destruct (l_hi m) as [b|]; [|exact I].
    split; [|exact Hr]. rewrite Emin, Emax. split; [apply per_feature_length|]. split; [apply per_feature_length|].
    intros j Hj. destruct (varied_col _ j V Hj) as (l & El & N & K). exists (lmin l), (lmax l). rewrite !per_feature_nth by exact Hj.
    rewrite El, min_some, max_some by exact N. repeat split. apply extremes; auto. }
  exists s, Y, Z. split; [exact Es|]. split; [exact EY|]. split; [|split; [assumption|split; assumption]].
  destruct (bound_get r l_lo lo s W BL Ts) as (tl & El & Tl). destruct (bound_get r l_hi hi s W BH Ts) as (th & Eh & Th).
  destruct (jzip3 (fun a b => Ok (a, b)) (fun m o => l_lo m = o) (fun m o => l_hi m = o) (fun m p => (l_lo m, l_hi m) = p) r W) with (u := tl) (p := th)
    as (lh & Elh & Tlh); auto. { intros m y q _ <- <-. eauto. }
  destruct (jzip3 (fun a b => Ok (a, b)) (fun m st => (l_min m, l_max m) = st) (fun m p => (l_lo m, l_hi m) = p)
              (fun m p => ((l_min m, l_max m), (l_lo m, l_hi m)) = p) r W) with (u := s) (p := lh)
    as (q & Eq & Tq); auto. { intros m y q _ <- <-. eauto. }
  unfold mm_transform, mm_apply in EY. rewrite El, Eh in EY. cbn [rbind] in EY. rewrite Elh in EY. cbn [rbind] in EY. rewrite Eq in EY. cbn [rbind] in EY.
  destruct (jzip3 (mm_leaf mm_fwd) (fun m x => l_x m = x) (fun m p => ((l_min m, l_max m), (l_lo m, l_hi m)) = p)
              (fun m y => match l_lo m, l_hi m with Some a, Some b => spans a b y | _, _ => y = l_x m end) r W) with (u := X) (p := q)
    as (Y' & EY' & TY); auto.
  2:{ unfold mm_fwd in EY'. rewrite EY' in EY. inversion EY; subst. exact TY. }
  intros m x p Hm <- <-. destruct (H m Hm) as (V & Emin & Emax & Hr). rewrite Emin, Emax.
  destruct (l_lo m) as [a|]; [|exists (l_x m); auto]. destruct (l_hi m) as [b|]; [|exists (l_x m); auto].
  destruct (mm_leaf_undo (fun p q => p < q) (fun k => 0 < k) (mk_mmleaf (l_x m) (l_min m) (l_max m) (Some a) (Some b))) as (y & Ey & _).
  { intros; lra. } { lra. } { intros p1 q1 p' q' ? ?. apply Rmult_lt_0_compat; [lra|apply Rinv_0_lt_compat; lra]. }
  { split; [apply V|]. cbn. split; [|exact Hr]. rewrite Emin, Emax. split; [apply per_feature_length|]. split; [apply per_feature_length|].
    intros j Hj. destruct (varied_col _ j V Hj) as (l & El' & N & K). exists (lmin l), (lmax l). rewrite !per_feature_nth by exact Hj.
    rewrite El', min_some, max_some by exact N. repeat split. apply extremes; auto. }
  cbn [l_x l_min l_max l_lo l_hi] in Ey. rewrite Emin, Emax in Ey. exists y. split; [exact Ey|]. eapply mm_normal_leaf; eauto.
Qed.
