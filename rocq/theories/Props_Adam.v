(** Properties of the optimizers: C82-C85. *)
From Coq Require Import Reals Lra Lia Psatz.
From Verif Require Import Base BaseLemmas TreeUtil Batch Train Adam AdamSpec AdamProofs.
From Verif Require StrataProofs.
Local Open Scope R_scope.
Local Open Scope list_scope.

(** * C82: Adam as published *)
Lemma at_step_published h x0 gs g x mv j : (forall v, h_clip h = Some v -> 0 <= v) ->
  (forall k, (k < length gs)%nat -> clipped (h_clip h) (nth j (nth k gs []) 0) (g k)) ->
  at_step h x0 (fun k => nth k gs []) (length gs) x mv -> (j < length x0)%nat ->
  nth j x 0 = published (h_lr h) (h_b1 h) (h_b2 h) (h_eps h) (nth j x0 0) g (length gs).
Proof.
  intros C H (_ & _ & A) Hj. destruct (A j Hj) as [E _]. rewrite E. apply published_ext. intros k Hk. unfold grads.
  apply (clipped_fun (h_clip h) (nth j (nth k gs []) 0)); auto. apply clip_clipped. exact C.
Qed.
Lemma shapes_nth {A} (x0 : list A) (gs : list (list R)) : Forall (fun g => length g = length x0) gs -> forall k, (k < length gs)%nat -> length (nth k gs []) = length x0.
Proof. intros F k Hk. rewrite Forall_forall in F. apply F. apply nth_In. exact Hk. Qed.

Theorem C82_complex_adam_partial h x0 gs :
  decay (h_b1 h) -> decay (h_b2 h) -> (forall v, h_clip h = Some v -> 0 <= v) -> Forall (fun g => length g = length x0) gs ->
  let s := steps (complex_adam_real h) gs (real_init x0) in
  length (ox s) = length x0 /\
  forall j g, (j < length x0)%nat -> (forall k, (k < length gs)%nat -> clipped (h_clip h) (nth j (nth k gs []) 0) (g k)) ->
    nth j (ox s) 0 = published (h_lr h) (h_b1 h) (h_b2 h) (h_eps h) (nth j x0 0) g (length gs).
Proof.
  intros D1 D2 C F s. pose proof (complex_adam_run h x0 (fun k => nth k gs []) (length gs) D1 D2 (shapes_nth x0 gs F)) as [_ A].
  rewrite <- (StrataProofs.list_as_map [] gs) in A. fold s in A. split; [apply A|]. intros j g Hj H. apply (at_step_published h x0 gs g _ (omv s)); auto.
Qed.
Theorem C82_adam_one_batch h x0 gs :
  decay (h_b1 h) -> decay (h_b2 h) -> (forall v, h_clip h = Some v -> 0 <= v) -> Forall (fun g => length g = length x0) gs ->
  let s := fold_left (fun s g => epoch (adam h) [g] s) gs (real_init x0) in
  length (ox s) = length x0 /\
  forall j g, (j < length x0)%nat -> (forall k, (k < length gs)%nat -> clipped (h_clip h) (nth j (nth k gs []) 0) (g k)) ->
    nth j (ox s) 0 = published (h_lr h) (h_b1 h) (h_b2 h) (h_eps h) (nth j x0 0) g (length gs).
Proof.
  intros D1 D2 C F s. pose proof (adam_run h x0 (fun k => nth k gs []) (length gs) D1 D2 (shapes_nth x0 gs F)) as [_ A].
  rewrite <- (StrataProofs.list_as_map [] gs) in A. change (at_step h x0 (fun k => nth k gs []) (length gs) (ox s) (omv s)) in A.
  split; [apply A|]. intros j g Hj H. apply (at_step_published h x0 gs g _ (omv s)); auto.
Qed.
(** The averages really are averages. *)
Theorem C82_average b n f lo hi : decay b -> (forall k, (k < S n)%nat -> lo <= f k <= hi) -> lo <= average b (S n) f <= hi.
Proof. apply average_between. Qed.
Lemma repeat_nth {A} (a d : A) n k : (k < n)%nat -> nth k (repeat a n) d = a.
Proof. revert k. induction n as [|n IH]; intros [|k] H; cbn; auto; try lia. apply IH. lia. Qed.
Lemma published_const lr b1 b2 eps x0 g n : decay b1 -> decay b2 -> published lr b1 b2 eps x0 (fun _ => g) n = x0 - rsum (fun t => lr t * (g / (Rabs g + eps))) n.
Proof.
  intros D1 D2. unfold published. f_equal. apply rsum_ext. intros t _. rewrite (average_const b1 t g) by auto. rewrite (average_const b2 t (g * g)) by auto.
  change (g * g) with (Rsqr g). rewrite sqrt_Rsqr_abs. unfold Rdiv. ring.
Qed.
(** A constant gradient moves the parameter at a constant rate. *)
Theorem C82_constant h x0 g n : decay (h_b1 h) -> decay (h_b2 h) -> h_clip h = None -> 0 < h_eps h ->
  nth 0 (ox (steps (complex_adam_real h) (repeat [g] n) (real_init [x0]))) 0 = x0 - rsum (fun t => h_lr h t * (g / (Rabs g + h_eps h))) n.
Proof.
  intros D1 D2 C E. assert (F : Forall (fun q : list R => length q = length [x0]) (repeat [g] n)) by (apply Forall_forall; intros q Hq; apply repeat_spec in Hq; subst q; reflexivity).
  destruct (C82_complex_adam_partial h [x0] (repeat [g] n) D1 D2 ltac:(intros v Hv; congruence) F) as [_ A].
  rewrite (A 0%nat (fun _ => g) ltac:(cbn; lia)).
  - rewrite repeat_length. apply published_const; assumption.
  - intros k Hk. rewrite repeat_length in Hk. rewrite C. cbn [clipped]. rewrite repeat_nth by exact Hk. reflexivity.
Qed.

(** The values of [Model.train] and of the optimizers by default. *)
Definition usual : hyper := mk_hyper (make_schedule (Fixed 1)) (9 / 10) (999 / 1000) (1 / 100000000) None.
Lemma usual_decay : decay (h_b1 usual) /\ decay (h_b2 usual).
Proof. unfold decay, usual. cbn. lra. Qed.
Lemma usual_step dx x m v i : fst (real_entry usual dx x (m, v) i) =
  x - 1 * ((9 / 10 * m + (1 - 9 / 10) * dx) / (1 - (9 / 10) ^ (i + 1))) / (sqrt ((999 / 1000 * v + (1 - 999 / 1000) * dx ^ 2) / (1 - (999 / 1000) ^ (i + 1))) + 1 / 100000000).
Proof. reflexivity. Qed.
Lemma usual_moments dx x m v i : snd (real_entry usual dx x (m, v) i) = (9 / 10 * m + (1 - 9 / 10) * dx, 999 / 1000 * v + (1 - 999 / 1000) * dx ^ 2).
Proof. reflexivity. Qed.
Lemma usual_first x : real_entry usual 1 x (0, 0) 0 = (x - 1 / (1 + 1 / 100000000), (1 / 10, 1 / 1000)).
Proof.
  rewrite (surjective_pairing (real_entry _ _ _ _ _)), usual_step, usual_moments. f_equal; [|f_equal; lra]. cbn [Nat.add pow].
  replace ((999 / 1000 * 0 + (1 - 999 / 1000) * (1 * (1 * 1))) / (1 - 999 / 1000 * 1)) with 1 by lra. rewrite sqrt_1. field.
Qed.
(** With more than one batch per epoch [adam] uses the wrong correction: it
    moves by more than the learning rate although all gradients are equal. *)
Theorem C82_batches_refuted : exists h x0 gs, decay (h_b1 h) /\ decay (h_b2 h) /\ h_clip h = None /\ (forall g, In g gs -> g = [1]) /\
  nth 0 (ox (epoch (adam h) gs (real_init x0))) 0 < nth 0 (ox (epoch (adam h) (removelast gs) (real_init x0))) 0 - 13 / 10 * h_lr h 0 /\
  nth 0 (ox (epoch (adam h) gs (real_init x0))) 0 <> published (h_lr h) (h_b1 h) (h_b2 h) (h_eps h) (nth 0 x0 0) (fun _ => 1) (length gs).
Proof.
  exists usual, [0], [[1]; [1]]. destruct usual_decay as [D1 D2]. split; [exact D1|]. split; [exact D2|]. split; [reflexivity|]. split; [cbn; intros g [<-|[<-|[]]]; reflexivity|].
  assert (E1 : ox (epoch (adam usual) [[1]] (real_init [0])) = [0 - 1 / (1 + 1 / 100000000)]).
  { unfold epoch, steps, adam, adam_update, real_init, adam_init, increment_epoch. cbn [fold_left ox omv oi map on_entries]. rewrite usual_first. reflexivity. }
  set (y := 0 - 1 / (1 + 1 / 100000000)) in *.
  assert (E2 : ox (epoch (adam usual) [[1]; [1]] (real_init [0])) = [fst (real_entry usual 1 y (1 / 10, 1 / 1000) 0)]).
  { unfold epoch, steps, adam, adam_update, real_init, adam_init, increment_epoch. cbn [fold_left ox omv oi map on_entries]. rewrite usual_first. cbn [ox omv oi on_entries].
    fold y. destruct (real_entry usual 1 y (1 / 10, 1 / 1000) 0). reflexivity. }
  cbn [removelast length]. rewrite E1, E2, usual_step, published_const by assumption. cbn [nth Nat.add pow h_lr usual make_schedule h_eps rsum fold_right seq].
  replace ((999 / 1000 * (1 / 1000) + (1 - 999 / 1000) * (1 * (1 * 1))) / (1 - 999 / 1000 * 1)) with (1999 / 1000) by field.
  replace ((9 / 10 * (1 / 10) + (1 - 9 / 10) * 1) / (1 - 9 / 10 * 1)) with (19 / 10) by field. rewrite Rabs_R1.
  assert (Q : 0 <= sqrt (1999 / 1000) <= 14139 / 10000).
  { split; [apply sqrt_pos|]. rewrite <- (sqrt_square (14139 / 10000)) by lra. apply sqrt_le_1_alt. lra. }
  set (q := sqrt (1999 / 1000)) in *. assert (B : 13 / 10 < 1 * (19 / 10) / (q + 1 / 100000000)).
  { apply (Rmult_lt_reg_r (q + 1 / 100000000)); [lra|]. unfold Rdiv at 3. rewrite Rmult_assoc, Rinv_l by lra. lra. }
  assert (Y : y = 0 - 1 / (1 + 1 / 100000000)) by reflexivity. assert (K : 1 / (1 + 1 / 100000000) < 1) by (apply (Rmult_lt_reg_r (1 + 1 / 100000000)); [lra|]; unfold Rdiv at 1; rewrite Rmult_assoc, Rinv_l by lra; lra).
  split; lra.
Qed.
(** In training, [complex_adam] counts every epoch once more: from the second
    epoch on its correction is wrong as well. *)
Theorem C82_epochs_refuted : exists h x0 g, decay (h_b1 h) /\ decay (h_b2 h) /\ h_clip h = None /\
  nth 0 (ox (epoch (complex_adam_real h) [g] (epoch (complex_adam_real h) [g] (real_init x0)))) 0 > nth 0 (ox (epoch (complex_adam_real h) [g] (real_init x0))) 0 - 9 / 10 * h_lr h 1 /\
  nth 0 (ox (epoch (complex_adam_real h) [g] (epoch (complex_adam_real h) [g] (real_init x0)))) 0 <> published (h_lr h) (h_b1 h) (h_b2 h) (h_eps h) (nth 0 x0 0) (fun _ => nth 0 g 0) 2.
Proof.
  exists usual, [0], [1]. destruct usual_decay as [D1 D2]. split; [exact D1|]. split; [exact D2|]. split; [reflexivity|].
  assert (E1 : epoch (complex_adam_real usual) [[1]] (real_init [0]) = mk_ostate [0 - 1 / (1 + 1 / 100000000)] [(1 / 10, 1 / 1000)] 2).
  { unfold epoch, steps, complex_adam_real, complex_adam_update, real_init, adam_init, increment_epoch. cbn [fold_left ox omv oi map on_entries]. rewrite usual_first. reflexivity. }
  rewrite E1. set (y := 0 - 1 / (1 + 1 / 100000000)).
  assert (E2 : ox (epoch (complex_adam_real usual) [[1]] (mk_ostate [y] [(1 / 10, 1 / 1000)] 2)) = [fst (real_entry usual 1 y (1 / 10, 1 / 1000) 2)]).
  { unfold epoch, steps, complex_adam_real, complex_adam_update, increment_epoch. cbn [fold_left ox omv oi map on_entries]. destruct (real_entry usual 1 y (1 / 10, 1 / 1000) 2). reflexivity. }
  rewrite E2, usual_step, published_const by assumption. cbn [ox nth Nat.add pow h_lr usual make_schedule h_eps rsum fold_right seq].
  match goal with |- context [sqrt ?t] => replace t with (1999000 / 2997001) by lra; set (q := sqrt (1999000 / 2997001)) end.
  assert (Q : 816 / 1000 <= q). { unfold q. rewrite <- (sqrt_square (816 / 1000)) by lra. apply sqrt_le_1_alt. lra. }
  match goal with |- context [1 * ?t / (q + _)] => replace t with (190 / 271) by lra end. rewrite Rabs_R1.
  assert (B : 1 * (190 / 271) / (q + 1 / 100000000) < 88 / 100).
  { apply (Rmult_lt_reg_r (q + 1 / 100000000)); [lra|]. unfold Rdiv at 1. rewrite Rmult_assoc, Rinv_l by lra. lra. }
  assert (Y : y = 0 - 1 / (1 + 1 / 100000000)) by reflexivity. assert (K : 99 / 100 < 1 / (1 + 1 / 100000000)) by (apply (Rmult_lt_reg_r (1 + 1 / 100000000)); [lra|]; unfold Rdiv at 3; rewrite Rmult_assoc, Rinv_l by lra; lra).
  split; lra.
Qed.
Example C82_hypotheses : exists h (x0 : list R) (gs : list (list R)), decay (h_b1 h) /\ decay (h_b2 h) /\ (forall v, h_clip h = Some v -> 0 <= v) /\ Forall (fun g => length g = length x0) gs /\
  length gs = 2%nat /\ length x0 = 2%nat /\ h_clip h <> None.
Proof.
  exists (mk_hyper (make_schedule (Schedule (fun i => / INR (S i)))) (9 / 10) (999 / 1000) (1 / 100000000) (Some 1)), [1; 2], [[3; 4]; [-5; 6]]. cbn. unfold decay.
  split; [lra|]. split; [lra|]. split; [intros v E; injection E as <-; lra|]. split; [repeat constructor|]. split; [reflexivity|]. split; [reflexivity|]. discriminate.
Qed.

(** * C83: bounded steps *)
Theorem C83_bounded h s dx j : bounded_hyper h ->
  (reached real_init (adam h) s -> length dx = length (ox s) -> (j < length (ox s))%nat ->
     (nth j (ox (adam h dx s)) 0 - nth j (ox s) 0) ^ 2 * ((1 - h_b2 h) * (h_b2 h - h_b1 h * h_b1 h)) <= h_lr h (oi s) * h_lr h (oi s) * h_b2 h) /\
  (reached real_init (complex_adam_real h) s -> length dx = length (ox s) -> (j < length (ox s))%nat ->
     (nth j (ox (complex_adam_real h dx s)) 0 - nth j (ox s) 0) ^ 2 * ((1 - h_b2 h) * (h_b2 h - h_b1 h * h_b1 h)) <= h_lr h (oi s) * h_lr h (oi s) * h_b2 h).
Proof.
  intros B. assert (Z : real_held h (0, 0)) by (unfold real_held, held; cbn; lra).
  split; intros R L Hj; rewrite sqr2.
  - exact (reached_step (real_entry h) (0, 0) (real_held h) 0 0 (0, 0) (adam h) (adam_U1 _) (adam_U2 _) Z (fun d x mv i H => real_entry_held h d x mv i B H)
      (fun x y i => (y - x) * (y - x) * ((1 - h_b2 h) * (h_b2 h - h_b1 h * h_b1 h)) <= h_lr h i * h_lr h i * h_b2 h) s dx j
      (fun d x mv i H => real_entry_bounded h d x mv i B H) R L Hj).
  - exact (reached_step (real_entry h) (0, 0) (real_held h) 0 0 (0, 0) (complex_adam_real h) (cadam_U1 _) (cadam_U2 _) Z (fun d x mv i H => real_entry_held h d x mv i B H)
      (fun x y i => (y - x) * (y - x) * ((1 - h_b2 h) * (h_b2 h - h_b1 h * h_b1 h)) <= h_lr h i * h_lr h i * h_b2 h) s dx j
      (fun d x mv i H => real_entry_bounded h d x mv i B H) R L Hj).
Qed.
Theorem C83_bounded_complex h s dx j : bounded_hyper h ->
  reached complex_init (complex_adam_complex h) s -> length dx = length (ox s) -> (j < length (ox s))%nat ->
  norm2 (csub (nth j (ox (complex_adam_complex h dx s)) (0, 0)) (nth j (ox s) (0, 0))) * ((1 - h_b2 h) * (h_b2 h - h_b1 h * h_b1 h)) <= h_lr h (oi s) * h_lr h (oi s) * h_b2 h.
Proof.
  intros B. assert (Z : complex_held h ((0, 0), 0)) by (unfold complex_held, held, norm2; cbn; lra). intros R L Hj.
  exact (reached_step (complex_entry h) ((0, 0), 0) (complex_held h) (0, 0) (0, 0) ((0, 0), 0) (complex_adam_complex h) (cadam_U1 _) (cadam_U2 _) Z (fun d x mv i H => complex_entry_held h d x mv i B H)
      (fun x y i => norm2 (csub y x) * ((1 - h_b2 h) * (h_b2 h - h_b1 h * h_b1 h)) <= h_lr h i * h_lr h i * h_b2 h) s dx j
      (fun d x mv i H => complex_entry_bounded h d x mv i B H) R L Hj).
Qed.
(** With the usual values no step exceeds 73 times the learning rate ... *)
Theorem C83_usual s dx j : reached real_init (adam usual) s -> length dx = length (ox s) -> (j < length (ox s))%nat ->
  Rabs (nth j (ox (adam usual dx s)) 0 - nth j (ox s) 0) <= 73.
Proof.
  intros R L Hj. assert (B : bounded_hyper usual) by (unfold usable, decay, usual; cbn; lra).
  destruct (C83_bounded usual s dx j B) as [A _]. specialize (A R L Hj). cbn [h_b1 h_b2 h_lr usual make_schedule] in A.
  set (d := nth j (ox (adam usual dx s)) 0 - nth j (ox s) 0) in *. assert (H : d ^ 2 <= 73 * 73) by lra.
  rewrite <- (Rabs_pos_eq 73) by lra. apply Rsqr_le_abs_0. unfold Rsqr. rewrite sqr2 in H. lra.
Qed.
(** ... and the first one is at most the learning rate, against the gradient. *)
Theorem C83_first h x0 dx j : decay (h_b1 h) -> decay (h_b2 h) -> 0 < h_eps h -> length dx = length x0 -> (j < length x0)%nat ->
  forall g, clipped (h_clip h) (nth j dx 0) g -> (forall v, h_clip h = Some v -> 0 <= v) ->
  nth j (ox (adam h dx (real_init x0))) 0 = nth j x0 0 - h_lr h 0 * (g / (Rabs g + h_eps h)) /\
  Rabs (nth j (ox (adam h dx (real_init x0))) 0 - nth j x0 0) <= Rabs (h_lr h 0).
Proof.
  intros D1 D2 E L Hj g Hg C. assert (X : nth j (ox (adam h dx (real_init x0))) 0 = nth j x0 0 - h_lr h 0 * (g / (Rabs g + h_eps h))).
  { destruct (C82_adam_one_batch h x0 [dx] D1 D2 C) as [_ A]; [constructor; [exact L|constructor]|]. cbn [fold_left length] in A.
    replace (ox (adam h dx (real_init x0))) with (ox (epoch (adam h) [dx] (real_init x0))) by reflexivity. rewrite (A j (fun _ => g) Hj).
    - rewrite published_const by assumption. unfold rsum. cbn [seq fold_right]. ring.
    - intros k Hk. replace k with 0%nat by lia. exact Hg. }
  split; [exact X|]. rewrite X. replace (nth j x0 0 - h_lr h 0 * (g / (Rabs g + h_eps h)) - nth j x0 0) with (- (h_lr h 0 * (g / (Rabs g + h_eps h)))) by ring.
  rewrite Rabs_Ropp, Rabs_mult. pose proof (Rabs_pos g) as P. rewrite <- (Rmult_1_r (Rabs (h_lr h 0))) at 2. apply Rmult_le_compat_l; [apply Rabs_pos|].
  unfold Rdiv. rewrite Rabs_mult, (Rabs_inv), (Rabs_pos_eq (Rabs g + h_eps h)) by lra. apply (Rmult_le_reg_r (Rabs g + h_eps h)); [lra|]. rewrite Rmult_assoc, Rinv_l by lra. lra.
Qed.
Example C83_hypotheses : bounded_hyper usual /\ exists s : ostate (list R) (list (R * R)), reached real_init (adam usual) s /\ oi s = 5%nat /\ length (ox s) = 2%nat.
Proof.
  split; [unfold usable, decay, usual; cbn; lra|]. exists (increment_epoch 5 (adam usual [1; 2] (real_init [3; 4]))).
  split; [|split; reflexivity]. constructor. constructor; [reflexivity|]. constructor.
Qed.

(** * C84: gradient clipping *)
Theorem C84_clip c x : 0 <= c -> clipped (Some c) x (clip (Some c) x).
Proof. intros H. apply clip_clipped. intros v E. injection E as <-. exact H. Qed.
Lemma clip_twice c x y : (forall v, c = Some v -> 0 <= v) -> clipped c x y -> clip c y = clip c x.
Proof.
  intros C H. apply (clipped_fun c y).
  - exact C.
  - apply clip_clipped. exact C.
  - rewrite <- (clipped_fun c x y (clip c x) C H (clip_clipped c x C)). destruct c as [v|]; cbn in *; [|reflexivity]. specialize (C v eq_refl). lra.
Qed.
Lemma entries_clip {G P MV} (f : G -> P -> MV -> nat -> P * MV) (rel : G -> G -> Prop) :
  (forall d d' x mv i, rel d d' -> f d' x mv i = f d x mv i) -> forall dx dx', Forall2 rel dx dx' -> forall x mv i, on_entries f dx' x mv i = on_entries f dx x mv i.
Proof.
  intros H dx dx' F. induction F as [|d d' dx dx' R F IH]; intros [|a x] [|b mv] i; try reflexivity. cbn [on_entries]. rewrite (H _ _ _ _ _ R), IH. reflexivity.
Qed.
(** Clipping the gradients beforehand changes nothing: the optimizers clip all
    of them, and nothing else. *)
Theorem C84_clipped h dx dx' s : (forall v, h_clip h = Some v -> 0 <= v) -> Forall2 (clipped (h_clip h)) dx dx' ->
  adam h dx' s = adam h dx s /\ complex_adam_real h dx' s = complex_adam_real h dx s.
Proof.
  intros C F. assert (E : forall x mv i, on_entries (real_entry h) dx' x mv i = on_entries (real_entry h) dx x mv i).
  { apply entries_clip with (rel := clipped (h_clip h)); [|exact F]. intros d d' x mv i H. unfold real_entry. rewrite (clip_twice _ d d' C H). reflexivity. }
  unfold adam, complex_adam_real, adam_update, complex_adam_update. rewrite !E. auto.
Qed.
Theorem C84_clipped_complex h dx dx' s : (forall v, h_clip h = Some v -> 0 <= v) ->
  Forall2 (fun z w => clipped (h_clip h) (fst z) (fst w) /\ clipped (h_clip h) (snd z) (snd w)) dx dx' -> complex_adam_complex h dx' s = complex_adam_complex h dx s.
Proof.
  intros C F. unfold complex_adam_complex, complex_adam_update. erewrite entries_clip; [reflexivity| |exact F].
  intros d d' x mv i [H1 H2]. unfold complex_entry. rewrite (clip_twice _ _ _ C H1), (clip_twice _ _ _ C H2). reflexivity.
Qed.
Theorem C84_same_without h : h_clip h = None -> forall dx s c, 0 <= c -> Forall (fun x => - c <= x <= c) dx ->
  adam h dx s = adam (mk_hyper (h_lr h) (h_b1 h) (h_b2 h) (h_eps h) (Some c)) dx s.
Proof.
  intros N dx s c C F. unfold adam, adam_update. assert (E : forall x mv i, on_entries (real_entry h) dx x mv i = on_entries (real_entry (mk_hyper (h_lr h) (h_b1 h) (h_b2 h) (h_eps h) (Some c))) dx x mv i).
  { induction F as [|d dx Hd F IH]; intros [|a x] [|b mv] i; try reflexivity. cbn [on_entries]. rewrite IH. replace (real_entry (mk_hyper (h_lr h) (h_b1 h) (h_b2 h) (h_eps h) (Some c)) d a b i) with (real_entry h d a b i); [reflexivity|].
    unfold real_entry. cbn [h_lr h_b1 h_b2 h_eps h_clip]. rewrite N. assert (X : clip (Some c) d = d). { pose proof (C84_clip c d C) as K. cbn [clipped] in K. lra. } rewrite X. reflexivity. }
  rewrite E. reflexivity.
Qed.
(** The parts of complex gradients are clipped separately: this can turn them. *)
Theorem C84_direction_refuted : exists c x y, 0 < c /\ fst x * snd y <> snd x * fst y /\ clipped (Some c) (fst x) (fst y) /\ clipped (Some c) (snd x) (snd y) /\
  (forall h s, h_clip h = Some c -> complex_adam_complex h [x] s = complex_adam_complex h [y] s).
Proof.
  exists 1, (3, 1), (1, 1). cbn [fst snd clipped]. split; [lra|]. split; [lra|]. split; [lra|]. split; [lra|]. intros h s E. symmetry. apply C84_clipped_complex.
  - intros v Hv. rewrite E in Hv. injection Hv as <-. lra.
  - rewrite E. constructor; [|constructor]. cbn. lra.
Qed.
Example C84_hypotheses : Forall2 (clipped (Some 1)) [3; -7; 1 / 2] [1; -1; 1 / 2].
Proof. repeat constructor; cbn; lra. Qed.

(** * C85: complex parameters *)
Lemma ren_init {P P' MV MV'} (rp : P -> P') (rm : MV -> MV') zero x0 : ren rp rm (adam_init zero x0) = adam_init (rm zero) (map rp x0).
Proof. unfold ren, adam_init. cbn [ox omv oi]. rewrite !map_map. reflexivity. Qed.
(** Complex parameters with real gradients behave like real ones. *)
Theorem C85_real h x0 gs : (forall v, h_clip h = Some v -> 0 <= v) ->
  ox (steps (complex_adam_complex h) (map (map real_part) gs) (complex_init (map real_part x0))) =
  map real_part (ox (steps (complex_adam_real h) gs (real_init x0))).
Proof.
  intros C. pose proof (steps_sim (real_entry h) (complex_entry h) real_part real_part (fun mv => (real_part (fst mv), snd mv))) as S.
  unfold real_init, complex_init. change ((0, 0), 0) with ((fun mv : R * R => (real_part (fst mv), snd mv)) (0, 0)). rewrite <- ren_init. unfold complex_adam_complex, complex_adam_real. rewrite S; [reflexivity|].
  intros d x [m v] i. unfold complex_entry, real_entry, real_part. cbn [fst snd].
  assert (Z : clip (h_clip h) 0 = 0). { apply (clipped_fun (h_clip h) 0); auto; [apply clip_clipped; exact C|]. destruct (h_clip h) as [c|]; cbn; [|reflexivity]. specialize (C c eq_refl). lra. }
  rewrite Z, sqr2. replace (- 0) with 0 by ring. replace (clip (h_clip h) d * clip (h_clip h) d + 0 * 0) with (clip (h_clip h) d * clip (h_clip h) d) by ring.
  replace (h_b1 h * 0 + (1 - h_b1 h) * 0) with 0 by ring. unfold Rdiv. rewrite Rmult_0_l, Rmult_0_r, Rmult_0_l. replace (0 - 0) with 0 by ring. reflexivity.
Qed.
(** Without clipping, turning the parameters (and so the gradients, the other
    way round) turns the result. *)
Theorem C85_phase h u x0 gs : h_clip h = None -> norm2 u = 1 ->
  ox (steps (complex_adam_complex h) (map (map (cmul (conj u))) gs) (complex_init (map (cmul u) x0))) =
  map (cmul u) (ox (steps (complex_adam_complex h) gs (complex_init x0))).
Proof.
  intros C U. pose proof (steps_sim (complex_entry h) (complex_entry h) (cmul (conj u)) (cmul u) (fun mv => (cmul u (fst mv), snd mv))) as S.
  assert (I : complex_init (map (cmul u) x0) = ren (cmul u) (fun mv : cplx * R => (cmul u (fst mv), snd mv)) (complex_init x0)).
  { unfold complex_init. rewrite ren_init. f_equal. unfold cmul. cbn [fst snd]. f_equal. f_equal; ring. }
  rewrite I. unfold complex_adam_complex. rewrite S; [reflexivity|].
  intros [d d'] [x x'] [[m m'] v] i. destruct u as [a b]. unfold complex_entry, cmul, conj, norm2 in *. rewrite C. cbn [fst snd clip] in *.
  assert (V : (a * d - - b * d') * (a * d - - b * d') + - (a * d' + - b * d) * - (a * d' + - b * d) = d * d + - d' * - d').
  { replace ((a * d - - b * d') * (a * d - - b * d') + - (a * d' + - b * d) * - (a * d' + - b * d)) with ((a * a + b * b) * (d * d + - d' * - d')) by ring. rewrite U. ring. }
  rewrite V. unfold Rdiv. apply pair_equal_spec. split; apply pair_equal_spec; split; try ring. apply pair_equal_spec. split; ring.
Qed.
(** The first step of a complex parameter goes along the conjugate of the
    gradient, by at most the learning rate. *)
Theorem C85_first h x0 dx j : decay (h_b1 h) -> decay (h_b2 h) -> 0 < h_eps h -> (forall v, h_clip h = Some v -> 0 <= v) -> length dx = length x0 -> (j < length x0)%nat ->
  forall g, clipped (h_clip h) (fst (nth j dx (0, 0))) (fst g) -> clipped (h_clip h) (snd (nth j dx (0, 0))) (snd g) ->
  csub (nth j (ox (complex_adam_complex h dx (complex_init x0))) (0, 0)) (nth j x0 (0, 0)) =
  cmul (real_part (- h_lr h 0 / (sqrt (norm2 g) + h_eps h))) (conj g).
Proof.
  intros D1 D2 E C L Hj g G1 G2. unfold complex_adam_complex. rewrite cadam_U1. pose proof (entries_nth (complex_entry h) (0, 0) (0, 0) ((0, 0), 0) dx x0 (map (fun _ : cplx => ((0, 0), 0)) x0) 0%nat j L (map_length _ _) Hj) as X.
  change (ox (complex_init x0)) with x0. change (omv (complex_init x0)) with (map (fun _ : cplx => ((0, 0), 0)) x0). change (oi (complex_init x0)) with 0%nat.
  rewrite nth_const in X. unfold cplx in *. set (q := nth j dx (0, 0)) in *. apply (f_equal fst) in X. cbn [fst] in X. etransitivity; [exact (f_equal2 csub X eq_refl)|].
  unfold complex_entry, csub, cmul, real_part, conj. rewrite <- (clipped_fun _ _ _ _ C G1 (clip_clipped _ _ C)), <- (clipped_fun _ _ _ _ C G2 (clip_clipped _ _ C)). cbn [fst snd Nat.add pow]. destruct D1 as [D1 D1']. destruct D2 as [D2 D2'].
  replace ((h_b2 h * 0 + (1 - h_b2 h) * (fst g * fst g + - snd g * - snd g)) / (1 - h_b2 h * 1)) with (norm2 g) by (unfold norm2; field; lra).
  pose proof (sqrt_pos (norm2 g)). f_equal; field; split; lra.
Qed.
(** Clipping breaks the symmetry. *)
Theorem C85_phase_clipped_refuted : exists h u x0 gs, norm2 u = 1 /\ h_clip h = Some 1 /\ bounded_hyper h /\
  ox (steps (complex_adam_complex h) (map (map (cmul (conj u))) gs) (complex_init (map (cmul u) x0))) <>
  map (cmul u) (ox (steps (complex_adam_complex h) gs (complex_init x0))).
Proof.
  exists (mk_hyper (fun _ => 1) 0 (1 / 2) 1 (Some 1)), (3 / 5, 4 / 5), [(0, 0)], [[(5, 0)]]. split; [unfold norm2; cbn; lra|]. split; [reflexivity|]. split; [unfold usable, decay; cbn; lra|].
  set (h := mk_hyper _ _ _ _ _). cbn [map steps fold_left]. intros E.
  assert (D1 : decay (h_b1 h)) by (unfold decay; cbn; lra). assert (D2 : decay (h_b2 h)) by (unfold decay; cbn; lra). assert (EP : 0 < h_eps h) by (cbn; lra).
  assert (C : forall v, h_clip h = Some v -> 0 <= v) by (intros v Hv; injection Hv as <-; lra).
  pose proof (C85_first h [cmul (3 / 5, 4 / 5) (0, 0)] [cmul (conj (3 / 5, 4 / 5)) (5, 0)] 0 D1 D2 EP C eq_refl ltac:(cbn; lia) (1, -1)) as A.
  pose proof (C85_first h [(0, 0)] [(5, 0)] 0 D1 D2 EP C eq_refl ltac:(cbn; lia) (1, 0)) as B.
  specialize (A ltac:(cbn; lra) ltac:(cbn; lra)). specialize (B ltac:(cbn; lra) ltac:(cbn; lra)).
  unfold steps in E. cbn [fold_left] in E. rewrite E in A. destruct (ox (complex_adam_complex h [(5, 0)] (complex_init [(0, 0)]))) as [|[p q] l] eqn:O.
  { apply (f_equal (@length cplx)) in O. cbn in O. discriminate. }
  cbn [map nth] in A, B. unfold csub, cmul, real_part, conj in A, B. cbn [fst snd] in A, B. injection A as A1 A2. injection B as B1 B2.
  change (h_lr h 0) with 1 in *. change (h_eps h) with 1 in *.
  assert (N1 : norm2 (1, 0) = 1) by (unfold norm2; cbn; lra). rewrite N1, sqrt_1 in *. lra.
Qed.
Example C85_hypotheses : exists h u (gs : list (list (R * R))), h_clip h = None /\ bounded_hyper h /\ norm2 u = 1 /\ snd u <> 0 /\ gs <> [].
Proof. exists usual, (3 / 5, 4 / 5), [[(1, 2)]]. split; [reflexivity|]. unfold usable, decay, norm2, usual. cbn. split; [lra|]. split; [lra|]. split; [lra|]. discriminate. Qed.

Print Assumptions C82_complex_adam_partial.
Print Assumptions C82_adam_one_batch.
Print Assumptions C82_batches_refuted.
Print Assumptions C82_epochs_refuted.
Print Assumptions C83_bounded.
Print Assumptions C83_bounded_complex.
Print Assumptions C84_clipped.
Print Assumptions C85_phase.
Print Assumptions C85_phase_clipped_refuted.
