(** Lemmas about the optimizers. *)
From Coq Require Import Reals Lra Lia Psatz.
From Verif Require Import Base BaseLemmas TreeUtil Batch Train Adam AdamSpec.
Local Open Scope R_scope.
Local Open Scope list_scope.

(** * Sums and averages *)
Lemma rsum_S f n : rsum f (S n) = rsum f n + f n.
Proof.
  unfold rsum. rewrite seq_S, fold_right_app. cbn. assert (E : forall l a, fold_right (fun k s => f k + s) a l = fold_right (fun k s => f k + s) 0 l + a).
  { induction l as [|x l IH]; intros a; cbn; [lra|]. rewrite (IH a). lra. }
  rewrite E. lra.
Qed.
Lemma rsum_ext f g n : (forall k, (k < n)%nat -> f k = g k) -> rsum f n = rsum g n.
Proof. induction n as [|n IH]; intros H; [reflexivity|]. rewrite !rsum_S, IH, H by auto. reflexivity. Qed.
Lemma rsum_scale c f n : rsum (fun k => c * f k) n = c * rsum f n.
Proof. induction n as [|n IH]; [cbn; lra|]. rewrite !rsum_S, IH. lra. Qed.
Lemma rsum_le f g n : (forall k, (k < n)%nat -> f k <= g k) -> rsum f n <= rsum g n.
Proof. induction n as [|n IH]; intros H; [cbn; lra|]. rewrite !rsum_S. specialize (IH (fun k Hk => H k (Nat.lt_lt_succ_r _ _ Hk))). specialize (H n (Nat.lt_succ_diag_r n)). lra. Qed.
Lemma weight_S b n k : (k < n)%nat -> weight b (S n) k = b * weight b n k.
Proof. intros H. unfold weight. replace (S n - 1 - k)%nat with (S (n - 1 - k)) by lia. reflexivity. Qed.
Lemma weight_last b n : weight b (S n) n = 1.
Proof. unfold weight. replace (S n - 1 - n)%nat with 0%nat by lia. reflexivity. Qed.
Definition wsum (b : R) (n : nat) (f : nat -> R) : R := rsum (fun k => weight b n k * f k) n.
Lemma wsum_S b n f : wsum b (S n) f = b * wsum b n f + f n.
Proof.
  unfold wsum. rewrite rsum_S, weight_last, Rmult_1_l. f_equal. rewrite <- rsum_scale. apply rsum_ext. intros k Hk. rewrite weight_S by exact Hk. ring.
Qed.
Lemma weights_sum b n : (1 - b) * rsum (weight b n) n = 1 - b ^ n.
Proof.
  induction n as [|n IH]; [cbn; ring|]. rewrite rsum_S, weight_last. rewrite (rsum_ext _ (fun k => b * weight b n k)) by (intros; apply weight_S; assumption).
  rewrite rsum_scale. cbn [pow]. replace ((1 - b) * (b * rsum (weight b n) n + 1)) with (b * ((1 - b) * rsum (weight b n) n) + (1 - b)) by ring. rewrite IH. ring.
Qed.
Lemma pow_lt_one b n : decay b -> 0 <= b ^ S n <= b.
Proof. intros [B0 B1]. induction n as [|n IH]; [cbn; lra|]. change (b ^ S (S n)) with (b * b ^ S n). split; [apply Rmult_le_pos; lra|]. nra. Qed.
Lemma one_minus b n : decay b -> 1 - b <= 1 - b ^ S n <= 1.
Proof. intros D. pose proof (pow_lt_one b n D). lra. Qed.
Lemma average_hat b n f : decay b -> (1 - b) * wsum b (S n) f / (1 - b ^ S n) = average b (S n) f.
Proof.
  intros D. pose proof (one_minus b n D) as O. pose proof D as [D0 D1]. unfold average. fold (wsum b (S n) f). rewrite <- weights_sum in *.
  set (W := rsum (weight b (S n)) (S n)) in *. assert (W <> 0) by (intros E; rewrite E in O; lra). field. split; [assumption|lra].
Qed.
Lemma average_between b n f lo hi : decay b -> (forall k, (k < S n)%nat -> lo <= f k <= hi) -> lo <= average b (S n) f <= hi.
Proof.
  intros D H. unfold average. set (W := rsum (weight b (S n)) (S n)).
  assert (P : forall k, 0 <= weight b (S n) k) by (intros k; apply pow_le; apply D).
  assert (WP : 0 < W). { pose proof (weights_sum b (S n)) as E. pose proof (one_minus b n D). fold W in E. pose proof D as [D0 D1]. assert (0 < (1 - b) * W) by lra. apply (Rmult_lt_reg_l (1 - b)); lra. }
  assert (A : lo * W <= rsum (fun k => weight b (S n) k * f k) (S n)). { unfold W. rewrite <- rsum_scale. apply rsum_le. intros k Hk. specialize (H k Hk). specialize (P k). nra. }
  assert (B : rsum (fun k => weight b (S n) k * f k) (S n) <= hi * W). { unfold W. rewrite <- rsum_scale. apply rsum_le. intros k Hk. specialize (H k Hk). specialize (P k). nra. }
  split; apply (Rmult_le_reg_r W); auto; unfold Rdiv; rewrite Rmult_assoc, Rinv_l by lra; lra.
Qed.

(** * Clipping *)
Lemma clip_clipped c x : (forall v, c = Some v -> 0 <= v) -> clipped c x (clip c x).
Proof.
  destruct c as [c|]; intros H; cbn; [|reflexivity]. specialize (H c eq_refl). unfold Rmin, Rmax.
  destruct (Rle_dec x (- c)) as [A|A]; [destruct (Rle_dec (- c) c)|destruct (Rle_dec x c)]; lra.
Qed.
Lemma clipped_fun c x y z : (forall v, c = Some v -> 0 <= v) -> clipped c x y -> clipped c x z -> y = z.
Proof. destruct c as [c|]; cbn; intros P A B; [specialize (P c eq_refl); lra|congruence]. Qed.

(** * Entries *)
Section Entries.
Context {G P MV : Type} (f : G -> P -> MV -> nat -> P * MV) (dg : G) (dp : P) (dm : MV).
Lemma entries_length dx : forall x mv i, length dx = length x -> length mv = length x ->
  length (fst (on_entries f dx x mv i)) = length x /\ length (snd (on_entries f dx x mv i)) = length x.
Proof.
  induction dx as [|d dx IH]; intros [|a x] [|b mv] i L1 L2; try discriminate; [auto|]. cbn [on_entries]. destruct (f d a b i) as [a' b'].
  specialize (IH x mv i ltac:(cbn in L1; lia) ltac:(cbn in L2; lia)). destruct (on_entries f dx x mv i) as [X M]. cbn in *. lia.
Qed.
Lemma entries_nth dx : forall x mv i j, length dx = length x -> length mv = length x -> (j < length x)%nat ->
  (nth j (fst (on_entries f dx x mv i)) dp, nth j (snd (on_entries f dx x mv i)) dm) = f (nth j dx dg) (nth j x dp) (nth j mv dm) i.
Proof.
  induction dx as [|d dx IH]; intros [|a x] [|b mv] i j L1 L2 Hj; try discriminate; [cbn in Hj; lia|]. cbn [on_entries]. destruct (f d a b i) as [a' b'] eqn:E.
  destruct (on_entries f dx x mv i) as [X M] eqn:EO. destruct j as [|j]; [cbn; symmetry; exact E|]. cbn [nth fst snd].
  specialize (IH x mv i j ltac:(cbn in L1; lia) ltac:(cbn in L2; lia) ltac:(cbn in Hj; lia)). rewrite EO in IH. exact IH.
Qed.
End Entries.

(** * Real parameters: the published algorithm *)
Definition grads (h : hyper) (d : nat -> list R) (j k : nat) : R := clip (h_clip h) (nth j (d k) 0).
Definition at_step (h : hyper) (x0 : list R) (d : nat -> list R) (n : nat) (x : list R) (mv : list (R * R)) : Prop :=
  length x = length x0 /\ length mv = length x0 /\ forall j, (j < length x0)%nat ->
    nth j x 0 = published (h_lr h) (h_b1 h) (h_b2 h) (h_eps h) (nth j x0 0) (grads h d j) n /\
    nth j mv (0, 0) = ((1 - h_b1 h) * wsum (h_b1 h) n (grads h d j), (1 - h_b2 h) * wsum (h_b2 h) n (fun k => grads h d j k * grads h d j k)).
Lemma nth_const {A B} (c : B) (l : list A) j : nth j (map (fun _ => c) l) c = c.
Proof. revert j. induction l as [|a l IH]; intros [|j]; cbn; auto. Qed.
Lemma step_init h x0 d : at_step h x0 d 0 x0 (map (fun _ => (0, 0)) x0).
Proof.
  split; [reflexivity|]. split; [apply map_length|]. intros j Hj. split; [unfold published; cbn; ring|].
  rewrite nth_const. unfold wsum. cbn. f_equal; ring.
Qed.
Lemma step_next h x0 d n x mv : decay (h_b1 h) -> decay (h_b2 h) -> length (d n) = length x0 -> at_step h x0 d n x mv ->
  at_step h x0 d (S n) (fst (on_entries (real_entry h) (d n) x mv n)) (snd (on_entries (real_entry h) (d n) x mv n)).
Proof.
  intros D1 D2 L (L1 & L2 & H). destruct (entries_length (real_entry h) (d n) x mv n) as [E1 E2]; try congruence. split; [congruence|]. split; [congruence|]. intros j Hj.
  destruct (H j Hj) as [Hx Hm]. pose proof (entries_nth (real_entry h) 0 0 (0, 0) (d n) x mv n j ltac:(congruence) ltac:(congruence) ltac:(lia)) as E.
  unfold real_entry in E at 3. rewrite Hx, Hm in E. cbn [fst snd] in E. replace (n + 1)%nat with (S n) in E by lia. injection E as Ex Em. fold (grads h d j n) in Ex, Em.
  assert (M1 : h_b1 h * ((1 - h_b1 h) * wsum (h_b1 h) n (grads h d j)) + (1 - h_b1 h) * grads h d j n = (1 - h_b1 h) * wsum (h_b1 h) (S n) (grads h d j)) by (rewrite wsum_S; ring).
  assert (M2 : h_b2 h * ((1 - h_b2 h) * wsum (h_b2 h) n (fun k => grads h d j k * grads h d j k)) + (1 - h_b2 h) * (grads h d j n * (grads h d j n * 1)) = (1 - h_b2 h) * wsum (h_b2 h) (S n) (fun k => grads h d j k * grads h d j k)) by (rewrite wsum_S; ring).
  rewrite M1, M2 in *. split; [|exact Em]. rewrite Ex. unfold published. rewrite rsum_S, <- !average_hat by assumption. cbn [pow]. ring.
Qed.

Lemma steps_snoc {G P MV} (update : G -> ostate P MV -> ostate P MV) d n s :
  steps update (map d (seq 0 (S n))) s = update (d n) (steps update (map d (seq 0 n)) s).
Proof. unfold steps. rewrite seq_S, map_app, fold_left_app. reflexivity. Qed.
Lemma complex_adam_run h x0 d n : decay (h_b1 h) -> decay (h_b2 h) -> (forall k, (k < n)%nat -> length (d k) = length x0) ->
  let s := steps (complex_adam_real h) (map d (seq 0 n)) (real_init x0) in oi s = n /\ at_step h x0 d n (ox s) (omv s).
Proof.
  intros D1 D2. induction n as [|n IH]; intros L; [split; [reflexivity|apply step_init]|]. cbv zeta in *. rewrite steps_snoc.
  destruct (IH (fun k Hk => L k (Nat.lt_lt_succ_r _ _ Hk))) as [I A]. set (s := steps _ _ _) in *. unfold complex_adam_real, complex_adam_update. rewrite I.
  pose proof (step_next h x0 d n (ox s) (omv s) D1 D2 (L n (Nat.lt_succ_diag_r n)) A) as N. destruct (on_entries (real_entry h) (d n) (ox s) (omv s) n) as [X M].
  split; [cbn; lia|exact N].
Qed.
(** [adam] with one batch per epoch. *)
Lemma adam_run h x0 d n : decay (h_b1 h) -> decay (h_b2 h) -> (forall k, (k < n)%nat -> length (d k) = length x0) ->
  let s := steps (fun g => epoch (adam h) [g]) (map d (seq 0 n)) (real_init x0) in oi s = n /\ at_step h x0 d n (ox s) (omv s).
Proof.
  intros D1 D2. induction n as [|n IH]; intros L; [split; [reflexivity|apply step_init]|]. cbv zeta in *. rewrite steps_snoc.
  destruct (IH (fun k Hk => L k (Nat.lt_lt_succ_r _ _ Hk))) as [I A]. set (s := steps _ _ _) in *.
  unfold epoch. unfold steps at 1 2 3. cbn [fold_left]. unfold adam, adam_update. rewrite I.
  pose proof (step_next h x0 d n (ox s) (omv s) D1 D2 (L n (Nat.lt_succ_diag_r n)) A) as N. destruct (on_entries (real_entry h) (d n) (ox s) (omv s) n) as [X M].
  split; [cbn; lia|exact N].
Qed.
Lemma published_ext lr b1 b2 eps x0 g g' n : (forall k, (k < n)%nat -> g k = g' k) -> published lr b1 b2 eps x0 g n = published lr b1 b2 eps x0 g' n.
Proof.
  intros H. unfold published. f_equal. apply rsum_ext. intros t Ht. assert (E1 : average b1 (S t) g = average b1 (S t) g').
  { unfold average. f_equal. apply rsum_ext. intros k Hk. rewrite H by lia. reflexivity. }
  assert (E2 : average b2 (S t) (fun k => g k * g k) = average b2 (S t) (fun k => g' k * g' k)).
  { unfold average. f_equal. apply rsum_ext. intros k Hk. rewrite H by lia. reflexivity. }
  rewrite E1, E2. reflexivity.
Qed.
Lemma average_const b n c f : decay b -> (forall k, (k < S n)%nat -> f k = c) -> average b (S n) f = c.
Proof. intros D H. assert (A : c <= average b (S n) f <= c) by (apply average_between; [exact D|]; intros k Hk; rewrite (H k Hk); lra). lra. Qed.

(** * Bounded steps *)
Lemma moment_grows b1 b2 m g : b1 * b1 <= b2 ->
  (b1 * m + (1 - b1) * g) * (b1 * m + (1 - b1) * g) * (b2 - b1 * b1) <= b2 * (b2 - b1 * b1) * (m * m) + (1 - b1) * (1 - b1) * b2 * (g * g).
Proof.
  intros H. assert (0 <= ((b2 - b1 * b1) * m - b1 * (1 - b1) * g) * ((b2 - b1 * b1) * m - b1 * (1 - b1) * g)) by apply Rle_0_sqr.
  set (q := b2 - b1 * b1) in *. replace b2 with (q + b1 * b1) by (unfold q; ring). nra.
Qed.
Definition held (b1 b2 M2 v : R) : Prop := M2 * ((1 - b2) * (b2 - b1 * b1)) <= (1 - b1) * (1 - b1) * b2 * v.
Lemma held_next b1 b2 m2 v n2 g2 : decay b1 -> decay b2 -> b1 * b1 < b2 -> held b1 b2 m2 v ->
  n2 * (b2 - b1 * b1) <= b2 * (b2 - b1 * b1) * m2 + (1 - b1) * (1 - b1) * b2 * g2 -> held b1 b2 n2 (b2 * v + (1 - b2) * g2).
Proof.
  unfold held. intros D1 [D2 D2'] B H N. apply Rle_trans with ((1 - b2) * (b2 * (b2 - b1 * b1) * m2 + (1 - b1) * (1 - b1) * b2 * g2)).
  - replace (n2 * ((1 - b2) * (b2 - b1 * b1))) with ((1 - b2) * (n2 * (b2 - b1 * b1))) by ring. apply Rmult_le_compat_l; lra.
  - apply (Rmult_le_compat_l b2) in H; [|exact D2]. lra.
Qed.
Lemma step_core b1 b2 eps lr M2 V i : decay b1 -> decay b2 -> b1 * b1 < b2 -> 0 < eps -> 0 <= M2 -> held b1 b2 M2 V ->
  lr * lr * (M2 / ((1 - b1 ^ (i + 1)) * (1 - b1 ^ (i + 1)) * ((sqrt (V / (1 - b2 ^ (i + 1))) + eps) * (sqrt (V / (1 - b2 ^ (i + 1))) + eps)))) * ((1 - b2) * (b2 - b1 * b1)) <= lr * lr * b2.
Proof.
  intros D1 D2 B E P H. replace (i + 1)%nat with (S i) by lia. pose proof (one_minus b1 i D1) as O1. pose proof (one_minus b2 i D2) as O2.
  pose proof D1 as [D1a D1b]. pose proof D2 as [D2a D2b]. set (c := 1 - b1 ^ S i) in *. set (c2 := 1 - b2 ^ S i) in *. set (d := sqrt (V / c2) + eps).
  assert (B1 : 0 <= b1 * b1) by (apply Rmult_le_pos; lra). assert (A0 : 0 < (1 - b2) * (b2 - b1 * b1)) by (apply Rmult_lt_0_compat; lra).
  set (A := (1 - b2) * (b2 - b1 * b1)) in *. unfold held in H. fold A in H.
  assert (V0 : 0 <= V).
  { assert (K : 0 < (1 - b1) * (1 - b1) * b2) by (repeat apply Rmult_lt_0_compat; lra). apply (Rmult_le_reg_l _ 0 V K). rewrite Rmult_0_r. apply Rle_trans with (M2 * A); [apply Rmult_le_pos; lra|exact H]. }
  assert (VC : V <= V / c2). { apply (Rmult_le_reg_r c2); [lra|]. unfold Rdiv. rewrite Rmult_assoc, Rinv_l by lra. nra. }
  assert (S0 : 0 <= sqrt (V / c2)) by apply sqrt_pos. assert (SS : sqrt (V / c2) * sqrt (V / c2) = V / c2) by (apply sqrt_sqrt; lra).
  assert (DD : V <= d * d) by (unfold d; nra). assert (D0 : 0 < d) by (unfold d; lra).
  assert (CC : (1 - b1) * (1 - b1) <= c * c) by nra. assert (C0 : 0 < c * c) by nra. assert (DP : 0 < d * d) by nra.
  assert (K : M2 * A <= b2 * (c * c * (d * d))).
  { apply Rle_trans with (1 := H). apply Rle_trans with (c * c * b2 * V); [apply Rmult_le_compat_r; [exact V0|]; apply Rmult_le_compat_r; lra|].
    replace (b2 * (c * c * (d * d))) with (c * c * b2 * (d * d)) by ring. apply Rmult_le_compat_l; [|exact DD]. apply Rmult_le_pos; lra. }
  assert (CD : 0 < c * c * (d * d)) by (apply Rmult_lt_0_compat; assumption).
  assert (Q : M2 / (c * c * (d * d)) * A <= b2).
  { apply (Rmult_le_reg_r (c * c * (d * d))); [exact CD|]. replace (M2 / (c * c * (d * d)) * A * (c * c * (d * d))) with (M2 * A); [exact K|]. field. split; lra. }
  rewrite Rmult_assoc. apply Rmult_le_compat_l; [apply Rle_0_sqr|exact Q].
Qed.

Definition real_held (h : hyper) (mv : R * R) : Prop := held (h_b1 h) (h_b2 h) (fst mv * fst mv) (snd mv).
Definition complex_held (h : hyper) (mv : cplx * R) : Prop := held (h_b1 h) (h_b2 h) (norm2 (fst mv)) (snd mv).
Notation bounded_hyper h := (usable (h_b1 h) (h_b2 h) (h_eps h)).
Lemma sqr2 x : x ^ 2 = x * x.
Proof. ring. Qed.
Lemma sqr_pos x : 0 <= x * x.
Proof. apply Rle_0_sqr. Qed.
Lemma real_entry_held h d x mv i : bounded_hyper h -> real_held h mv -> real_held h (snd (real_entry h d x mv i)).
Proof.
  intros (D1 & D2 & B & E) H. unfold real_held, real_entry in *. cbn [fst snd]. rewrite sqr2. apply held_next with (fst mv * fst mv); auto. apply moment_grows; lra.
Qed.
Lemma real_entry_bounded h d x mv i : bounded_hyper h -> real_held h mv ->
  (fst (real_entry h d x mv i) - x) * (fst (real_entry h d x mv i) - x) * ((1 - h_b2 h) * (h_b2 h - h_b1 h * h_b1 h)) <= h_lr h i * h_lr h i * h_b2 h.
Proof.
  intros HH H. pose proof (real_entry_held h d x mv i HH H) as N. destruct HH as (D1 & D2 & B & E). unfold real_held, real_entry in *. cbn [fst snd] in *.
  set (m := h_b1 h * fst mv + _) in *. set (v := h_b2 h * snd mv + _) in *.
  pose proof (step_core (h_b1 h) (h_b2 h) (h_eps h) (h_lr h i) (m * m) v i D1 D2 B E (sqr_pos m) N) as HS.
  match type of HS with ?a * (?m2 / (?c * ?c * (?d * ?d))) * ?A <= ?r => set (C := c) in *; set (D := d) in * end.
  pose proof (one_minus (h_b1 h) i D1) as O1. replace (S i) with (i + 1)%nat in O1 by lia. fold C in O1.
  assert (C <> 0) by (destruct D1; lra). assert (D <> 0) by (unfold D; pose proof (sqrt_pos (v / (1 - h_b2 h ^ (i + 1)))); lra).
  apply Rle_trans with (2 := HS). apply Req_le. f_equal. field. split; assumption.
Qed.
Lemma complex_entry_held h d x mv i : bounded_hyper h -> complex_held h mv -> complex_held h (snd (complex_entry h d x mv i)).
Proof.
  intros (D1 & D2 & B & E) H. unfold complex_held, complex_entry, norm2 in *. cbn [fst snd]. apply held_next with (fst (fst mv) * fst (fst mv) + snd (fst mv) * snd (fst mv)); auto.
  pose proof (moment_grows (h_b1 h) (h_b2 h) (fst (fst mv)) (clip (h_clip h) (fst d)) ltac:(lra)). pose proof (moment_grows (h_b1 h) (h_b2 h) (snd (fst mv)) (- clip (h_clip h) (snd d)) ltac:(lra)). lra.
Qed.
Lemma complex_entry_bounded h d x mv i : bounded_hyper h -> complex_held h mv ->
  norm2 (csub (fst (complex_entry h d x mv i)) x) * ((1 - h_b2 h) * (h_b2 h - h_b1 h * h_b1 h)) <= h_lr h i * h_lr h i * h_b2 h.
Proof.
  intros HH H. pose proof (complex_entry_held h d x mv i HH H) as N. destruct HH as (D1 & D2 & B & E). unfold complex_held, complex_entry, norm2, csub in *. cbn [fst snd] in *.
  set (m := h_b1 h * fst (fst mv) + _) in *. set (m' := h_b1 h * snd (fst mv) + _) in *. set (v := h_b2 h * snd mv + _) in *.
  pose proof (step_core (h_b1 h) (h_b2 h) (h_eps h) (h_lr h i) (m * m + m' * m') v i D1 D2 B E ltac:(pose proof (sqr_pos m); pose proof (sqr_pos m'); lra) N) as HS.
  match type of HS with ?a * (?m2 / (?c * ?c * (?d * ?d))) * ?A <= ?r => set (C := c) in *; set (D := d) in * end.
  pose proof (one_minus (h_b1 h) i D1) as O1. replace (S i) with (i + 1)%nat in O1 by lia. fold C in O1.
  assert (C <> 0) by (destruct D1; lra). assert (D <> 0) by (unfold D; pose proof (sqrt_pos (v / (1 - h_b2 h ^ (i + 1)))); lra).
  apply Rle_trans with (2 := HS). apply Req_le. f_equal. field. split; assumption.
Qed.

Section Reached.
Context {G P MV : Type} (f : G -> P -> MV -> nat -> P * MV) (zero : MV) (I : MV -> Prop) (dg : G) (dp : P) (dm : MV).
Context (update : list G -> ostate (list P) (list MV) -> ostate (list P) (list MV)).
Hypothesis U1 : forall dx s, ox (update dx s) = fst (on_entries f dx (ox s) (omv s) (oi s)).
Hypothesis U2 : forall dx s, omv (update dx s) = snd (on_entries f dx (ox s) (omv s) (oi s)).
Hypothesis Z : I zero.
Hypothesis N : forall d x mv i, I mv -> I (snd (f d x mv i)).
Lemma reached_inv s : reached (adam_init zero) update s -> length (omv s) = length (ox s) /\ forall j, (j < length (ox s))%nat -> I (nth j (omv s) dm).
Proof.
  induction 1 as [x0|dx s L R [IL IH]|p s L R [IL IH]|k s R [IL IH]].
  - split; [apply map_length|]. cbn [adam_init omv ox]. intros j Hj. rewrite (nth_indep _ dm zero) by (rewrite map_length; exact Hj). rewrite nth_const. exact Z.
  - rewrite U1, U2. destruct (entries_length f dx (ox s) (omv s) (oi s) L IL) as [E1 E2]. split; [congruence|]. intros j Hj. rewrite E1 in Hj.
    pose proof (entries_nth f dg dp dm dx (ox s) (omv s) (oi s) j L IL Hj) as E. replace (nth j (snd _) dm) with (snd (f (nth j dx dg) (nth j (ox s) dp) (nth j (omv s) dm) (oi s))) by (rewrite <- E; reflexivity).
    apply N. apply IH. exact Hj.
  - cbn [update_params_direct ox omv]. split; [congruence|]. intros j Hj. apply IH. congruence.
  - cbn. auto.
Qed.
Lemma reached_step (Q : P -> P -> nat -> Prop) s dx j : (forall d x mv i, I mv -> Q x (fst (f d x mv i)) i) ->
  reached (adam_init zero) update s -> length dx = length (ox s) -> (j < length (ox s))%nat -> Q (nth j (ox s) dp) (nth j (ox (update dx s)) dp) (oi s).
Proof.
  intros HQ R L Hj. destruct (reached_inv s R) as [IL IH]. rewrite U1. pose proof (entries_nth f dg dp dm dx (ox s) (omv s) (oi s) j L IL Hj) as E.
  replace (nth j (fst _) dp) with (fst (f (nth j dx dg) (nth j (ox s) dp) (nth j (omv s) dm) (oi s))) by (rewrite <- E; reflexivity). apply HQ. apply IH. exact Hj.
Qed.
End Reached.
Lemma adam_U1 {G P MV} (f : G -> P -> MV -> nat -> P * MV) dx s : ox (adam_update (on_entries f) dx s) = fst (on_entries f dx (ox s) (omv s) (oi s)).
Proof. unfold adam_update. destruct (on_entries _ _ _ _ _). reflexivity. Qed.
Lemma adam_U2 {G P MV} (f : G -> P -> MV -> nat -> P * MV) dx s : omv (adam_update (on_entries f) dx s) = snd (on_entries f dx (ox s) (omv s) (oi s)).
Proof. unfold adam_update. destruct (on_entries _ _ _ _ _). reflexivity. Qed.
Lemma cadam_U1 {G P MV} (f : G -> P -> MV -> nat -> P * MV) dx s : ox (complex_adam_update (on_entries f) dx s) = fst (on_entries f dx (ox s) (omv s) (oi s)).
Proof. unfold complex_adam_update. destruct (on_entries _ _ _ _ _). reflexivity. Qed.
Lemma cadam_U2 {G P MV} (f : G -> P -> MV -> nat -> P * MV) dx s : omv (complex_adam_update (on_entries f) dx s) = snd (on_entries f dx (ox s) (omv s) (oi s)).
Proof. unfold complex_adam_update. destruct (on_entries _ _ _ _ _). reflexivity. Qed.

(** * Simulations between runs *)
Section Simulation.
Context {G P MV G' P' MV' : Type} (f : G -> P -> MV -> nat -> P * MV) (f' : G' -> P' -> MV' -> nat -> P' * MV').
Context (rg : G -> G') (rp : P -> P') (rm : MV -> MV').
Hypothesis HSim : forall d x mv i, f' (rg d) (rp x) (rm mv) i = (rp (fst (f d x mv i)), rm (snd (f d x mv i))).
Lemma entries_sim dx : forall x mv i, on_entries f' (map rg dx) (map rp x) (map rm mv) i = (map rp (fst (on_entries f dx x mv i)), map rm (snd (on_entries f dx x mv i))).
Proof.
  induction dx as [|d dx IH]; intros [|a x] [|b mv] i; try reflexivity. cbn [map on_entries]. rewrite HSim, IH. destruct (f d a b i). destruct (on_entries f dx x mv i). reflexivity.
Qed.
Definition ren (s : ostate (list P) (list MV)) : ostate (list P') (list MV') := mk_ostate (map rp (ox s)) (map rm (omv s)) (oi s).
Lemma steps_sim gs : forall s, steps (complex_adam_update (on_entries f')) (map (map rg) gs) (ren s) = ren (steps (complex_adam_update (on_entries f)) gs s).
Proof.
  induction gs as [|g gs IH]; intros s; [reflexivity|]. unfold steps in *. cbn [map fold_left]. rewrite <- IH. f_equal. unfold complex_adam_update, ren. cbn [ox omv oi].
  rewrite entries_sim. destruct (on_entries f g (ox s) (omv s) (oi s)). reflexivity.
Qed.
End Simulation.
