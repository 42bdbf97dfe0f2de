(** C139: a training in two parts. The model is that of Train.v and TrainModel.v
    (training.py L303-370, L397-1128, L1275-1283, L1667-1747; model.py
    L1027-1249). *)
From Coq Require Import ZArith Permutation.
From Verif Require Import Base BaseLemmas TreeUtil NonSeqSpec Batch BatchSpec BatchProofs Train TrainSpec TrainProofs TrainSteps Props_Train TrainModel.
Local Open Scope nat_scope.
Local Open Scope list_scope.

(** The same settings for another number of epochs. *)
Definition for_epochs {P Rng F} (cf : @settings P Rng F) (e : nat) : settings :=
  mk_settings (c_flags cf) (c_batch cf) (c_val_batch cf) e (c_target cf) (c_patience cf) (c_delta cf)
    (c_verbose cf) (c_kill cf) (c_callback cf).
(** The same result, or the same exception. *)
Definition rrel {A B} (R : A -> B -> Prop) (x : result A) (y : result B) : Prop :=
  match x, y with Ok a, Ok b => R a b | Err e, Err e' => e = e' | _, _ => False end.
(** Optimiser states with the same parameters and moments. *)
Definition alike {P MV} (s s' : ostate P MV) : Prop := ox s = ox s' /\ omv s = omv s'.
(** Everything the same but the counters and the key. *)
Definition same {P MV MSt Rng} (c c' : @carry P MV MSt Rng) : Prop :=
  Forall2 alike (fst (fst c)) (fst (fst c')) /\ snd (fst c) = snd (fst c').

Section Resume.
Context {S1 S2 S3 P G MV MSt Rng F : Type}.
Context (update : G -> ostate P MV -> ostate P MV) (zeros : P -> MV)
        (dloss : nat -> @batch S1 S2 S3 -> bool -> MSt -> Rng -> list P -> result ((nat -> G) * MSt))
        (vloss : nat -> @batch S1 S2 S3 -> MSt -> Rng -> list P -> result F)
        (split2 : Rng -> Rng * Rng) (perm : Rng -> nat -> list nat) (fzero : F) (fadd fsub : F -> F -> F)
        (fdivn : F -> nat -> F) (flt fle : F -> F -> bool).
Notation loop := (train_loop update dloss vloss split2 perm fzero fadd fsub fdivn flt fle).
Notation body := (epoch_body update dloss vloss split2 perm fzero fadd fsub fdivn flt fle).
Notation eloop := (epoch_loop update dloss vloss split2 perm fzero fadd fsub fdivn flt fle).
Notation work := (epoch_work update dloss vloss split2 perm fzero fadd fdivn).
Notation bvl := (batched_val_loss vloss perm fzero fadd fdivn).
Notation tstate := (@tstate P MV MSt Rng F).
Context (cf : @settings P Rng F) (n m : nat) (D DV : @batch S1 S2 S3).

(** Nothing of a training is left to chance or to the number of the epoch: all
    samples are in one batch, the losses depend neither on the order of the
    samples nor on epoch and key, the optimiser does not read its counter, the
    callback changes no parameters and there are no interrupts. *)
Record settled : Prop := {
  q_perm : forall k r, Permutation (perm k r) (seq 0 r);
  q_data : good_data n D; q_val : good_data m DV;
  q_one : 1 <= n /\ c_batch cf = n; q_vone : 1 <= m /\ c_val_batch cf = m;
  q_loss : forall e e' b b' tr st k k' ps, reordered n D b -> reordered n D b' -> dloss e b tr st k ps = dloss e' b' tr st k' ps;
  q_vloss : forall e e' b b' st k k' ps, reordered m DV b -> reordered m DV b' -> vloss e b st k ps = vloss e' b' st k' ps;
  q_update : forall d s s', alike s s' -> alike (update d s) (update d s');
  q_callback : forall r e ps, snd (c_callback cf r e ps) = ps;
  q_kill : forall e, c_verbose cf && c_kill cf e = false }.
(** A smaller loss is small enough not to cost patience (as with the default,
    minus infinity). *)
Definition any_improvement : Prop := forall v b, flt v b = true -> fle v (fsub b (c_delta cf)) = true.

Lemma rows_all {S} k (t : tree (list S)) : uniform k t -> rows 0 k t = t.
Proof. intros H. unfold rows. apply tmap_id. intros x Hx. cbn [skipn]. rewrite <- (H x Hx). apply firstn_all. Qed.
Lemma drows_all k (E : @batch S1 S2 S3) : good_data k E -> drows 0 k E = E.
Proof.
  destruct E as [[X Y] U]. intros (_ & HX & HY & HU). unfold drows. rewrite (rows_all k X HX). f_equal; [f_equal|].
  - destruct Y as [y|]; [cbn; rewrite (rows_all k y (HY y eq_refl)); reflexivity|reflexivity].
  - destruct U as [u|]; [cbn; rewrite (rows_all k u (HU u eq_refl)); reflexivity|reflexivity].
Qed.
Lemma rows_of k (E : @batch S1 S2 S3) : good_data k E -> num_rows E = Ok k.
Proof. destruct E as [[X Y] U]. intros (HPX & HX & _). apply populated_first; assumption. Qed.

Context (Q : settled).

(** An epoch is one step with all samples. *)
Lemma one_step key e c : exists b, reordered n D b /\
  epoch_steps update dloss split2 perm (c_flags cf) (c_batch cf) D key e c = train_step update dloss split2 (c_flags cf) e b c.
Proof.
  destruct Q as [Hp HD _ [H1 Hb] _ _ _ _ _ _].
  destruct (shuffle_ok perm n D key (Hp key n) HD) as (b & Eb & HR). exists b. split; [exact HR|].
  unfold epoch_steps. rewrite (rows_of n D HD), Hb. cbn [rbind]. destruct (Nat.eqb_spec n 0); [lia|].
  rewrite Eb. cbn [rbind]. rewrite Nat.div_same, Nat.mod_same by lia. cbn [seq rfold Nat.ltb Nat.leb].
  destruct HR as (_ & Hg & _). rewrite (get_batch_ok n b n 0 None Hg) by lia. cbn [rbind Nat.mul]. rewrite (drows_all n b Hg).
  destruct (train_step _ _ _ _ _ _ _); reflexivity.
Qed.
Lemma one_value key e ps st k : exists b, reordered m DV b /\
  bvl (c_val_batch cf) DV ps st k key e = (let* v := vloss e b st k ps in Ok (fadd fzero (fdivn v 1))).
Proof.
  destruct Q as [Hp _ HD _ [H1 Hb] _ _ _ _ _].
  destruct (shuffle_ok perm m DV key (Hp key m) HD) as (b & Eb & HR). exists b. split; [exact HR|].
  unfold batched_val_loss. rewrite (rows_of m DV HD), Hb. cbn [rbind]. destruct (Nat.eqb_spec m 0); [lia|].
  rewrite Eb. cbn [rbind]. rewrite Nat.div_same, Nat.mod_same by lia. cbn [seq rfold Nat.ltb Nat.leb Nat.add].
  destruct HR as (_ & Hg & _). rewrite (get_batch_ok m b m 0 None Hg) by lia. cbn [rbind Nat.mul]. rewrite (drows_all m b Hg).
  destruct (vloss e b st k ps); reflexivity.
Qed.
Lemma value_same key key' e e' ps st k k' :
  bvl (c_val_batch cf) DV ps st k key e = bvl (c_val_batch cf) DV ps st k' key' e'.
Proof.
  destruct (one_value key e ps st k) as (b & Hb & ->). destruct (one_value key' e' ps st k') as (b' & Hb' & ->).
  rewrite (q_vloss Q e e' b b' st k k' ps Hb Hb'). reflexivity.
Qed.

Lemma alike_ox l l' : Forall2 (@alike P MV) l l' -> map ox l = map ox l'.
Proof. induction 1 as [|s s' l l' [H _] _ IH]; cbn; congruence. Qed.
Lemma updates_same flags (dp : list G) : forall l l' idx, Forall2 alike l l' ->
  rrel (Forall2 alike) (apply_updates update flags l dp idx) (apply_updates update flags l' dp idx).
Proof.
  induction flags as [|f flags IH]; intros l l' idx H; [constructor|].
  destruct H as [|s s' l l' Hs H]; [destruct f; constructor|]. cbn [apply_updates]. destruct f.
  - destruct (nth_error dp idx) as [d|]; [|reflexivity]. specialize (IH l l' (S idx) H).
    destruct (apply_updates update flags l dp (S idx)), (apply_updates update flags l' dp (S idx)); cbn in *; try contradiction; auto.
    constructor; [apply (q_update Q); exact Hs|exact IH].
  - specialize (IH l l' idx H).
    destruct (apply_updates update flags l dp idx), (apply_updates update flags l' dp idx); cbn in *; try contradiction; auto.
Qed.
Lemma steps_same key key' e e' c c' : same c c' ->
  rrel same (epoch_steps update dloss split2 perm (c_flags cf) (c_batch cf) D key e c)
            (epoch_steps update dloss split2 perm (c_flags cf) (c_batch cf) D key' e' c').
Proof.
  intros [Ha Hs]. destruct (one_step key e c) as (b & Hb & ->). destruct (one_step key' e' c') as (b' & Hb' & ->).
  destruct c as [[l st] k], c' as [[l' st'] k']. cbn [fst snd] in *. subst st'. unfold train_step.
  destruct (split2 k) as [nk k1], (split2 k') as [nk' k1']. unfold grad_loss_fn.
  rewrite (q_loss Q e e' b b' true st k1 k1' (map ox l) Hb Hb'), (alike_ox l l' Ha).
  destruct (dloss e' b' true st k1' (map ox l')) as [[g st']|er]; cbn [rbind]; [|reflexivity].
  pose proof (updates_same (c_flags cf) (map g (trainable_argnums (c_flags cf))) l l' 0 Ha) as H.
  destruct (apply_updates _ _ l _ _), (apply_updates _ _ l' _ _); cbn in *; try contradiction; auto. split; [exact H|reflexivity].
Qed.
Lemma work_same rng rng' e e' c c' : same c c' ->
  rrel (fun r r' => same (snd (fst r)) (snd (fst r')) /\ snd r = snd r') (work cf D DV rng e c) (work cf D DV rng' e' c').
Proof.
  intros H. unfold epoch_work. destruct (split2 rng) as [r1 k1], (split2 rng') as [r1' k1'].
  pose proof (steps_same k1 k1' e e' c c' H) as HS.
  destruct (epoch_steps _ _ _ _ _ _ _ k1 _ _) as [[[l st] k]|], (epoch_steps _ _ _ _ _ _ _ k1' _ _) as [[[l' st'] k']|]; cbn [rrel rbind] in *; try contradiction; auto.
  destruct HS as [Ha Hs]. cbn [fst snd] in Ha, Hs. subst st'.
  destruct (split2 r1) as [r2 k2], (split2 r1') as [r2' k2']. rewrite (value_same k2 k2' e e' (map ox l) st k k'), (alike_ox l l' Ha).
  destruct (bvl _ _ _ _ _ _ _) as [v|]; cbn; auto. split; [split; auto|reflexivity].
Qed.

(** Callback and counters change nothing but counters. *)
Lemma after_alike rng e (c : @carry P MV MSt Rng) : length (c_flags cf) = length (fst (fst c)) -> same c (snd (after_epoch cf rng e c)).
Proof.
  destruct c as [[l st] k]. cbn [fst]. intros Hl. unfold after_epoch. pose proof (q_callback Q rng e (map ox l)) as Hc.
  destruct (c_callback cf rng e (map ox l)) as [r ps]. cbn [snd] in Hc. subst ps. split; [|reflexivity]. cbn [fst snd].
  revert Hl. generalize (c_flags cf). induction l as [|s l IH]; intros [|f fl] Hl; try discriminate; cbn; [constructor|].
  constructor; [split; reflexivity|]. apply IH. cbn in Hl. lia.
Qed.
Lemma alike_sym s s' : @alike P MV s s' -> alike s' s. Proof. intros [? ?]; split; auto. Qed.
Lemma alike_trans s s' s'' : @alike P MV s s' -> alike s' s'' -> alike s s''.
Proof. intros [? ?] [? ?]; split; congruence. Qed.
Lemma same_sym c c' : @same P MV MSt Rng c c' -> same c' c.
Proof. intros [H E]. split; [|congruence]. induction H; constructor; auto using alike_sym. Qed.
Lemma same_trans c c' c'' : @same P MV MSt Rng c c' -> same c' c'' -> same c c''.
Proof.
  intros [H E] [H' E']. split; [|congruence]. revert H'. generalize (fst (fst c'')). induction H as [|s s' l l' Hs H IH]; intros l'' H'; inversion H'; subst; constructor.
  - eapply alike_trans; eassumption.
  - apply IH. assumption.
Qed.
Lemma same_length c c' : @same P MV MSt Rng c c' -> length (fst (fst c)) = length (fst (fst c')).
Proof. intros [H _]. exact (Forall2_len _ _ _ H). Qed.

(** States of two runs that differ in counters, keys, the number of the epoch
    (by [d]) and that of the best epoch. *)
Record sim (d : nat) (t t' : tstate) : Prop := {
  s_carry : same (t_carry t) (t_carry t'); s_best : same (t_best t) (t_best t');
  s_val : t_best_val t = t_best_val t'; s_pat : t_patience t = t_patience t';
  s_epoch : t_epoch t = d + t_epoch t';
  s_len : length (c_flags cf) = length (fst (fst (t_carry t))) }.

Lemma work_length rng e c r : length (c_flags cf) = length (fst (fst c)) -> work cf D DV rng e c = Ok r ->
  length (c_flags cf) = length (fst (fst (snd (fst r)))).
Proof.
  intros Hl. unfold epoch_work. destruct (split2 rng) as [r1 k1]. destruct (one_step k1 e c) as (b & _ & ->).
  intros H. apply rbind_ok in H as ([[l st] k] & H1 & H2). destruct (split2 r1) as [r2 k2]. apply rbind_ok in H2 as (v & _ & H2).
  injection H2 as <-. cbn [fst snd].
  assert (St : steps (fun b s s' => train_step update dloss split2 (c_flags cf) e b s = Ok s') [b] c (l, st, k)) by (econstructor; [exact H1|constructor]).
  symmetry. exact (steps_length _ _ _ _ _ _ _ _ Hl St).
Qed.
Lemma body_sim d t t' : sim d t t' -> rrel (sim d) (body cf D DV t) (body cf D DV t').
Proof.
  intros [Hc Hb Hv Hp He Hl]. unfold epoch_body.
  pose proof (work_same (t_rng t) (t_rng t') (t_epoch t) (t_epoch t') _ _ Hc) as HW.
  destruct (work cf D DV (t_rng t) _ _) as [[[r c] v]|] eqn:E1, (work cf D DV (t_rng t') _ _) as [[[r' c'] v']|] eqn:E2; cbn [rrel rbind fst snd] in *; try contradiction; auto.
  destruct HW as [HW <-]. rewrite Hv.
  pose proof (work_length _ _ _ _ Hl E1) as L. cbn [fst snd] in L.
  assert (L' : length (c_flags cf) = length (fst (fst c'))) by (rewrite L; apply same_length; exact HW).
  pose proof (after_alike r (t_epoch t) c L) as A. pose proof (after_alike r' (t_epoch t') c' L') as A'.
  destruct (after_epoch cf r (t_epoch t) c) as [ra ca], (after_epoch cf r' (t_epoch t') c') as [ra' ca']. cbn [snd] in A, A'.
  assert (HC : same ca ca') by exact (same_trans _ _ _ (same_sym _ _ A) (same_trans _ _ _ HW A')).
  assert (HL : length (c_flags cf) = length (fst (fst ca))) by (rewrite L; apply same_length; exact A).
  rewrite Hp. destruct (flt v (t_best_val t')); cbn [rrel]; constructor; cbn; auto; lia.
Qed.
Lemma cond_sim d e t t' : sim d t t' ->
  epoch_cond flt (for_epochs cf (d + e)) t = epoch_cond flt (for_epochs cf e) t'.
Proof.
  intros [_ _ Hv Hp He _]. unfold epoch_cond. cbn [for_epochs c_verbose c_kill c_epochs c_target]. rewrite Hv, Hp.
  assert (K : forall i, (if c_verbose cf then negb (c_kill cf i) else true) = true).
  { intros i. pose proof (q_kill Q i) as H. destruct (c_verbose cf); [|reflexivity]. cbn in H. rewrite H. reflexivity. }
  rewrite !K. cbn [andb]. do 2 f_equal. rewrite He.
  destruct (Nat.ltb_spec (d + t_epoch t') (d + e)), (Nat.ltb_spec (t_epoch t') e); try reflexivity; lia.
Qed.
Lemma loop_sim d e fuel : forall t t', sim d t t' ->
  rrel (sim d) (eloop fuel (for_epochs cf (d + e)) D DV t) (eloop fuel (for_epochs cf e) D DV t').
Proof.
  induction fuel as [|fuel IH]; intros t t' H; cbn [epoch_loop]; rewrite (cond_sim d e t t' H); destruct (epoch_cond flt (for_epochs cf e) t'); [reflexivity|exact H| |exact H].
  pose proof (body_sim d t t' H) as HB. change (body (for_epochs cf (d + e)) D DV t) with (body cf D DV t). change (body (for_epochs cf e) D DV t') with (body cf D DV t').
  destruct (body cf D DV t), (body cf D DV t'); cbn [rrel rbind] in *; try contradiction; [apply IH; exact HB|exact HB].
Qed.

(** A run for more epochs passes through the end of the shorter one. *)
Lemma loop_split e1 e2 j k : forall t t1, eloop k (for_epochs cf e1) D DV t = Ok t1 -> t_epoch t + k = e1 -> t_epoch t1 = e1 ->
  eloop (k + j) (for_epochs cf (e1 + e2)) D DV t = eloop j (for_epochs cf (e1 + e2)) D DV t1.
Proof.
  induction k as [|k IH]; intros t t1 H Hk H1; cbn [epoch_loop Nat.add] in *.
  - destruct (epoch_cond flt (for_epochs cf e1) t); [discriminate|]. injection H as <-. reflexivity.
  - destruct (epoch_cond flt (for_epochs cf e1) t) eqn:C; [|injection H as <-; lia].
    assert (C' : epoch_cond flt (for_epochs cf (e1 + e2)) t = true).
    { unfold epoch_cond in *. cbn [for_epochs c_verbose c_kill c_epochs c_target] in *. apply andb_true_iff in C as [C C4]. apply andb_true_iff in C as [C C3].
      apply andb_true_iff in C as [C1 C2]. apply Nat.ltb_lt in C2. rewrite C1, C3, C4. destruct (Nat.ltb_spec (t_epoch t) (e1 + e2)); [reflexivity|lia]. }
    rewrite C'. change (body (for_epochs cf (e1 + e2)) D DV t) with (body cf D DV t). change (body (for_epochs cf e1) D DV t) with (body cf D DV t) in H.
    destruct (body cf D DV t) as [t'|] eqn:B; [|discriminate]. cbn [rbind] in *. apply IH; [exact H| |exact H1].
    unfold epoch_body in B. apply rbind_ok in B as ([[r c] v] & _ & B). destruct (if flt v (t_best_val t) then _ else _) as [[? ?] ?].
    destruct (after_epoch cf r (t_epoch t) c). injection B as <-. cbn [t_epoch]. lia.
Qed.

(** If the last epoch was the best one, its checkpoint is where the run stands,
    and patience is full. *)
Definition fresh_end (t : tstate) : Prop :=
  length (c_flags cf) = length (fst (fst (t_carry t))) /\
  (t_epoch t = 0 -> t_best_epoch t = 0) /\ (1 <= t_epoch t -> t_best_epoch t < t_epoch t) /\
  (2 <= t_epoch t -> t_best_epoch t + 1 = t_epoch t ->
     same (t_carry t) (t_best t) /\ t_patience t = c_patience cf /\
     let '(l, st, k) := t_best t in exists key e, bvl (c_val_batch cf) DV (map ox l) st k key e = Ok (t_best_val t)).
Lemma body_end t t' : any_improvement -> fresh_end t -> body cf D DV t = Ok t' -> fresh_end t'.
Proof.
  intros AI (Hl & H0 & H1 & _) B. unfold epoch_body in B. apply rbind_ok in B as ([[r c] v] & W & B).
  pose proof (work_length _ _ _ _ Hl W) as L. cbn [fst snd] in L. pose proof (after_alike r (t_epoch t) c L) as A.
  assert (V : let '(l, st, k) := c in exists key e, bvl (c_val_batch cf) DV (map ox l) st k key e = Ok v).
  { unfold epoch_work in W. destruct (split2 (t_rng t)) as [r1 k1]. apply rbind_ok in W as ([[l st] k] & _ & W). destruct (split2 r1) as [r2 k2].
    apply rbind_ok in W as (w & Hw & W). injection W as _ <- <-. exists k2, (t_epoch t). exact Hw. }
  destruct (flt v (t_best_val t)) eqn:E.
  - rewrite (AI _ _ E) in B. destruct (after_epoch cf r (t_epoch t) c) as [ra ca]. cbn [snd] in A. injection B as <-. unfold fresh_end. cbn.
    split; [rewrite L; apply same_length; exact A|]. split; [lia|]. split; [lia|]. intros _ _. split; [apply same_sym; exact A|]. split; [reflexivity|exact V].
  - destruct (after_epoch cf r (t_epoch t) c) as [ra ca]. cbn [snd] in A. injection B as <-. unfold fresh_end. cbn.
    split; [rewrite L; apply same_length; exact A|]. split; [lia|]. split; [intros _; destruct (Nat.eq_dec (t_epoch t) 0); [rewrite H0 by assumption; lia|specialize (H1 ltac:(lia)); lia]|].
    intros H2 He. specialize (H1 ltac:(lia)). lia.
Qed.
Lemma loop_end e k : any_improvement -> forall t t', fresh_end t -> eloop k (for_epochs cf e) D DV t = Ok t' -> fresh_end t'.
Proof.
  intros AI. induction k as [|k IH]; intros t t' H E; cbn [epoch_loop] in E; destruct (epoch_cond flt (for_epochs cf e) t); try discriminate; try (injection E as <-; exact H).
  change (body (for_epochs cf e) D DV t) with (body cf D DV t) in E.
  destruct (body cf D DV t) as [t1|] eqn:B; [|discriminate]. cbn [rbind] in E. eapply IH; [|exact E]. eapply body_end; eassumption.
Qed.

(** What the loop returns. *)
Definition outcome (r r' : @carry P MV MSt Rng * nat * F * nat) : Prop :=
  let '(c, _, v, _) := r in let '(c', _, v', _) := r' in same c c' /\ v = v'.
Lemma two_parts e1 e2 l st k br br2 c1 fe1 v1 be1 : any_improvement -> length (c_flags cf) = length l ->
  loop (for_epochs cf e1) D DV br 0 l st k = Ok (c1, fe1, v1, be1) ->
  2 <= e1 -> fe1 = e1 -> be1 + 1 = e1 ->
  let '(l1, st1, k1) := c1 in
  rrel outcome (loop (for_epochs cf (e1 + e2)) D DV br 0 l st k) (loop (for_epochs cf e2) D DV br2 0 l1 st1 k1).
Proof.
  intros AI Hl H H2 Hfe Hbe. unfold train_loop in *. cbn [for_epochs c_val_batch c_flags c_epochs c_patience] in *.
  destruct (split2 k) as [mk key]. set (B0 := bvl (c_val_batch cf) DV (map ox l) st mk key 0) in *. destruct B0 as [v0|] eqn:EB; [|discriminate]. cbn [rbind] in *.
  destruct (traced (c_flags cf)) as [u|] eqn:ET; [|discriminate]. cbn [rbind] in *.
  set (t0 := mk_t br 0 (l, st, mk) (l, st, mk) v0 v0 0 (c_patience cf)) in *.
  destruct (eloop e1 (for_epochs cf e1) D DV t0) as [t1|] eqn:E1.
  2:{ discriminate. }
  cbn [rbind] in H. injection H as Hc Hf Hv Hb.
  assert (FE : fresh_end t1).
  { eapply loop_end; [exact AI| |exact E1]. unfold fresh_end, t0. cbn. split; [exact Hl|]. split; [reflexivity|]. split; lia. }
  destruct FE as (L1 & _ & _ & FE). destruct (FE ltac:(lia) ltac:(lia)) as (F1 & F2 & F3). rewrite Hc in F1, F3.
  destruct c1 as [[l1 st1] k1]. destruct F3 as (key1 & e' & F3).
  destruct (split2 k1) as [mk2 key2].
  rewrite (value_same key2 key1 0 e' (map ox l1) st1 mk2 k1), F3. cbn [rbind].
  set (t2 := mk_t br2 0 (l1, st1, mk2) (l1, st1, mk2) (t_best_val t1) (t_best_val t1) 0 (c_patience cf)).
  assert (SM : sim e1 t1 t2).
  { constructor; unfold t2; cbn; auto; try lia. rewrite Hc. destruct F1 as [F1 F1']. split; [|reflexivity]. cbn.
    clear. induction l1; constructor; [split; reflexivity|assumption]. }
  pose proof (loop_split e1 e2 e2 e1 t0 t1 E1 eq_refl ltac:(lia)) as LS.
  pose proof (loop_sim e1 e2 e2 t1 t2 SM) as LL. rewrite <- LS in LL.
  destruct (eloop (e1 + e2) _ D DV t0) as [ta|], (eloop e2 _ D DV t2) as [tb|]; cbn [rrel rbind outcome] in *; try contradiction; auto.
  destruct LL as [_ X Y _ _ _]. split; [exact X|exact Y].
Qed.

(** Two runs from the same point. *)
Lemma rerun e l st k l' k' br br' : length (c_flags cf) = length l -> Forall2 alike l l' ->
  rrel outcome (loop (for_epochs cf e) D DV br 0 l st k) (loop (for_epochs cf e) D DV br' 0 l' st k').
Proof.
  intros Hl Ha. unfold train_loop. cbn [for_epochs c_val_batch c_flags c_epochs c_patience].
  destruct (split2 k) as [mk key], (split2 k') as [mk' key']. rewrite (value_same key key' 0 0 (map ox l) st mk mk'), (alike_ox l l' Ha).
  destruct (bvl _ _ _ _ _ _ _) as [v|]; cbn [rbind]; [|reflexivity]. destruct (traced (c_flags cf)); cbn [rbind]; [|reflexivity].
  pose proof (loop_sim 0 e e (mk_t br 0 (l, st, mk) (l, st, mk) v v 0 (c_patience cf)) (mk_t br' 0 (l', st, mk') (l', st, mk') v v 0 (c_patience cf))) as LL.
  cbn [Nat.add] in LL. specialize (LL ltac:(constructor; cbn; auto; split; auto)).
  destruct (eloop e _ D DV (mk_t br _ _ _ _ _ _ _)), (eloop e _ D DV (mk_t br' _ _ _ _ _ _ _)); cbn [rrel rbind outcome] in *; try contradiction; auto.
  destruct LL as [_ X Y _ _ _]. split; assumption.
Qed.
End Resume.

Section Models.
Context {S1 S2 S3 P G MV MSt Rng F : Type}.
Context (update : G -> ostate P MV -> ostate P MV) (zeros : P -> MV)
        (dloss : nat -> @batch S1 S2 S3 -> bool -> MSt -> Rng -> list P -> result ((nat -> G) * MSt))
        (vloss : nat -> @batch S1 S2 S3 -> MSt -> Rng -> list P -> result F)
        (split2 : Rng -> Rng * Rng) (perm : Rng -> nat -> list nat) (fzero : F) (fadd fsub : F -> F -> F)
        (fdivn : F -> nat -> F) (flt fle : F -> F -> bool).
Notation model := (@model P MV MSt Rng).
Notation train := (train update zeros dloss vloss split2 perm fzero fadd fsub fdivn flt fle).
Notation loop := (train_loop update dloss vloss split2 perm fzero fadd fsub fdivn flt fle).

(** [train(..., epochs=e, resume=b, batch_rng=r)] *)
Definition part (cf : @settings P Rng F) (D DV : @batch S1 S2 S3) (b : bool) (e : nat) (r : Rng) : @call S1 S2 S3 P Rng F :=
  mk_call b (fun _ => for_epochs cf e) D DV r.
(** What can be seen of a model and its optimiser, up to counters and key. *)
Definition seen (m : model) :=
  (m_struct m, m_params m, m_flags m, m_state m, option_map (fun o => (fst o, map omv (snd o))) (m_opt m)).

(** [train] for [e1] epochs, then [train(resume=True)] for [e2] epochs: if
    nothing is left to chance or depends on counters ([settled]), and the first
    part ran all its epochs, the last of them the best, the model is as after
    one training for [e1 + e2] epochs. What is missing: the optimisers of the
    package do read their counter, and validation need not improve up to the
    end of a part; see the refutations. *)
Theorem C139_partial (cf : @settings P Rng F) n m D DV (M : model) b e1 e2 r r2 s os c1 v1 be1 :
  settled update dloss vloss perm cf n m D DV -> any_improvement fsub flt fle cf ->
  c_flags cf = m_flags M -> length (m_flags M) = length os ->
  handed zeros M (part cf D DV b e1 r) = Ok (s, os) ->
  TrainArgs.same_struct s s = true ->               (* no dictionary has a key twice *)
  loop (for_epochs cf e1) D DV r 0 os (m_state M) (m_rng M) = Ok (c1, e1, v1, be1) ->
  2 <= e1 -> be1 + 1 = e1 ->
  let M1 := fst (train M (part cf D DV b e1 r)) in
  snd (train M (part cf D DV b e1 r)) = Ok tt /\
  snd (train M1 (part cf D DV true e2 r2)) = snd (train M (part cf D DV b (e1 + e2) r)) /\
  (snd (train M (part cf D DV b (e1 + e2) r)) = Ok tt ->
   seen (fst (train M1 (part cf D DV true e2 r2))) = seen (fst (train M (part cf D DV b (e1 + e2) r)))).
Proof.
  intros Q AI Hfl Hl Hh Hss Hloop H2 Hbe M1.
  assert (Hh' : handed zeros M (part cf D DV b (e1 + e2) r) = Ok (s, os)) by exact Hh.
  destruct c1 as [[l1 st1] k1].
  assert (E1 : train M (part cf D DV b e1 r) = (mk_model s (map ox l1) (m_flags M) st1 k1 (Some (s, l1)), Ok tt)).
  { unfold TrainModel.train. rewrite Hh. cbn [rbind part k_settings k_data k_val k_rng]. rewrite Hloop. reflexivity. }
  unfold M1. rewrite E1. cbn [fst snd]. split; [reflexivity|].
  pose proof (two_parts update dloss vloss split2 perm fzero fadd fsub fdivn flt fle cf n m D DV Q e1 e2 os (m_state M) (m_rng M) r r2 _ _ _ _ AI
    ltac:(rewrite Hfl; exact Hl) Hloop H2 eq_refl Hbe) as TP. cbv beta iota in TP.
  unfold TrainModel.train. rewrite Hh'. unfold handed at 1 2. cbn [part k_resume k_settings k_data k_val k_rng m_opt m_struct m_params m_flags m_state m_rng].
  rewrite Hss. cbn [rbind].
  destruct (loop (for_epochs cf (e1 + e2)) D DV r 0 os (m_state M) (m_rng M)) as [[[[[[la sta] ka] fa] va] ba]|ea],
    (loop (for_epochs cf e2) D DV r2 0 l1 st1 k1) as [[[[[[lb stb] kb] fb] vb] bb]|eb]; cbn [rrel outcome rbind] in *; try contradiction.
  - cbn [fst snd]. split; [reflexivity|]. intros _. destruct TP as [[A B] _]. cbn [fst snd] in A, B. subst stb. unfold seen. cbn.
    rewrite (alike_ox la lb A). assert (X : map omv la = map omv lb) by (clear -A; induction A as [|x y l l' [_ H] _ IH]; cbn; congruence).
    rewrite X. reflexivity.
  - cbn. split; [congruence|discriminate].
Qed.

(** If training on for [e] epochs brought nothing once, it never does, however
    often it is repeated and with whatever keys. *)
Theorem C139_stuck (cf : @settings P Rng F) n m D DV (M : model) s os e r rs :
  settled update dloss vloss perm cf n m D DV -> c_flags cf = m_flags M ->
  m_opt M = Some (s, os) -> map ox os = m_params M -> s = m_struct M -> length (m_flags M) = length os ->
  snd (train M (part cf D DV true e r)) = Ok tt -> seen (fst (train M (part cf D DV true e r))) = seen M ->
  seen (fold_left (fun M' r' => fst (train M' (part cf D DV true e r'))) rs M) = seen M.
Proof.
  intros Q Hfl Ho Hx Hs Hl Hok Hsame.
  assert (HS : TrainArgs.same_struct s s = true).
  { unfold TrainModel.train, handed in Hok. cbn [part k_resume] in Hok. rewrite Ho, <- Hs in Hok. destruct (TrainArgs.same_struct s s); [reflexivity|discriminate]. }
  assert (AL : forall l l' : list (ostate P MV), map ox l = map ox l' -> map omv l = map omv l' -> Forall2 alike l l').
  { induction l as [|x l IH]; intros [|y l'] E1 E2; try discriminate; constructor; cbn in E1, E2; [split; congruence|apply IH; congruence]. }
  assert (R0 : exists l0 k0 fe v0 be, loop (for_epochs cf e) D DV r 0 os (m_state M) (m_rng M) = Ok (l0, m_state M, k0, fe, v0, be) /\
                 map ox l0 = m_params M /\ map omv l0 = map omv os).
  { unfold TrainModel.train, handed in Hok, Hsame. cbn [part k_resume k_settings k_data k_val k_rng] in *. rewrite Ho, <- Hs, HS in Hok, Hsame. cbn [rbind] in *.
    destruct (loop (for_epochs cf e) D DV r 0 os (m_state M) (m_rng M)) as [[[[[[l0 st0] k0] fe] v0] be]|]; [|discriminate]. cbn [rbind fst snd] in *.
    unfold seen in Hsame. cbn in Hsame. rewrite Ho in Hsame. cbn in Hsame. injection Hsame as Ha Hb Hc. subst st0. exists l0, k0, fe, v0, be. auto. }
  destruct R0 as (l0 & k0 & fe & v0 & be & R0 & R1 & R2).
  assert (ST : forall M', (exists os', m_opt M' = Some (s, os') /\ map ox os' = m_params M') -> seen M' = seen M -> forall r',
    (exists os', m_opt (fst (train M' (part cf D DV true e r'))) = Some (s, os') /\ map ox os' = m_params (fst (train M' (part cf D DV true e r')))) /\
    seen (fst (train M' (part cf D DV true e r'))) = seen M).
  { intros M' (os' & Ho' & Hx') HM r'. unfold seen in HM. rewrite Ho', Ho in HM. cbn in HM. injection HM as H1 H2 H3 H4 H5.
    assert (A : Forall2 alike os os') by (apply AL; congruence).
    pose proof (rerun update dloss vloss split2 perm fzero fadd fsub fdivn flt fle cf n m D DV Q e os (m_state M) (m_rng M) os' (m_rng M') r r' ltac:(rewrite Hfl; exact Hl) A) as RR.
    rewrite R0 in RR. unfold TrainModel.train, handed. cbn [part k_resume k_settings k_data k_val k_rng]. rewrite Ho', H1, <- Hs, HS, H4. cbn [rbind].
    destruct (loop (for_epochs cf e) D DV r' 0 os' (m_state M) (m_rng M')) as [[[[[[l1 st1] k1] fe1] v1] be1]|]; [|contradiction].
    destruct RR as [[RA RB] _]. cbn [fst snd] in RA, RB. subst st1. cbn [rbind fst snd m_opt m_params]. split; [eauto|].
    unfold seen. cbn. rewrite Ho, H3, <- Hs. cbn. rewrite <- (alike_ox l0 l1 RA), R1.
    assert (X : map omv l0 = map omv l1) by (clear -RA; induction RA as [|x y l l' [_ H] _ IH]; cbn; congruence). rewrite <- X, R2. reflexivity. }
  assert (I : exists os', m_opt M = Some (s, os') /\ map ox os' = m_params M) by eauto.
  assert (G0 : forall M', (exists os', m_opt M' = Some (s, os') /\ map ox os' = m_params M') -> seen M' = seen M ->
    seen (fold_left (fun M' r' => fst (train M' (part cf D DV true e r'))) rs M') = seen M).
  { clear -ST. induction rs as [|r' rs IH]; intros M' H1 H2; [exact H2|]. cbn [fold_left]. destruct (ST M' H1 H2 r') as [H3 H4]. apply IH; assumption. }
  apply G0; [exact I|reflexivity].
Qed.
End Models.

(** *** The small setting of Props_Train.v, with all samples in one batch, whose
    order depends on the key. *)
Definition r_perm (k r : nat) : list nat := if Nat.even k then seq 0 r else rev (seq 0 r).
Lemma r_perm_ok k r : Permutation (r_perm k r) (seq 0 r).
Proof. unfold r_perm. destruct (Nat.even k); [reflexivity|symmetry; apply Permutation_rev]. Qed.
(** distance of the first parameter from -40, plus the sum of the inputs *)
Definition r_vloss (epoch : nat) (b : dataset Z Z Z) (st : nat) (r : nat) (ps : list Z) : result num :=
  Ok (option_map (fun p => Z.abs (p + 40) + ex_sum b)%Z (nth_error ps 0)).
Definition r_cf : settings := mk_settings [true; false] 5 5 0 (Some 0%Z) 3%Z (Some 0%Z) false (fun _ => false) (@keep_cb Z nat).
Definition r_model : @model Z unit nat nat := mk_model (Lst [Leaf tt; Leaf tt]) [0%Z; 7%Z] [true; false] 0 0 None.
Definition r_dl : Type := nat -> @batch Z Z Z -> bool -> nat -> nat -> list Z -> result ((nat -> Z) * nat).
Definition r_vl : Type := nat -> @batch Z Z Z -> nat -> nat -> list Z -> result num.
Definition r_train (upd : Z -> ostate Z unit -> ostate Z unit) (dl : r_dl) (vl : r_vl) := train upd (fun _ => tt) dl vl ex_split r_perm (Some 0%Z) nadd nsub (fun v _ => v) nlt nle.
Definition r_part b e := part r_cf ex_data ex_data b e 0.
(** The parameters after training for [e1] and then, resumed, for [e2] epochs,
    and after training for [e1 + e2] epochs. *)
Definition in_parts upd dl vl e1 e2 := m_params (fst (r_train upd dl vl (fst (r_train upd dl vl r_model (r_part false e1))) (r_part true e2))).
Definition at_once upd dl vl e1 e2 := m_params (fst (r_train upd dl vl r_model (r_part false (e1 + e2)))).

Lemma rows_nth (x : list Z) : forall k, k = length x -> map (fun i => match nth_error x i with Some z => z | None => 0%Z end) (seq 0 k) = x.
Proof.
  induction x as [|z x IH]; intros k ->; [reflexivity|]. cbn [length seq map nth_error]. f_equal.
  rewrite <- seq_shift, map_map. apply IH. reflexivity.
Qed.
Lemma ex_sum_reordered b : reordered 5 ex_data b -> ex_sum b = 15%Z.
Proof.
  destruct b as [[X Y] U]. intros ((HL & _) & (_ & HX & _) & HP). cbn in HL. destruct X as [x| | | |]; try discriminate.
  unfold ex_sum, ex_rows. cbn [fst snd].
  pose (f := fun s : tree (option Z) * option (tree (option Z)) * option (tree (option Z)) =>
    match fst (fst s) with Leaf (Some z) => z | _ => 0%Z end).
  apply (Permutation_map f) in HP. rewrite !map_map in HP.
  assert (E : map (fun i => f (dsample (Leaf x, Y, U) i)) (seq 0 5) = x).
  { apply (rows_nth x 5). symmetry. apply HX. constructor. }
  rewrite E in HP. clear -HP. change (map _ (seq 0 5)) with [1; 2; 3; 4; 5]%Z in HP.
  change 15%Z with (fold_right Z.add 0%Z [1; 2; 3; 4; 5]%Z). revert HP. generalize [1; 2; 3; 4; 5]%Z. intros l H.
  induction H; cbn; lia.
Qed.
Lemma r_settled (num : Z -> Z -> unit -> nat -> Z * unit) (dl : r_dl) (vl : r_vl) :
  (forall d s s', alike s s' -> alike (adam_update num d s) (adam_update num d s')) ->
  (forall e e' b b' tr st k k' ps, reordered 5 ex_data b -> reordered 5 ex_data b' -> dl e b tr st k ps = dl e' b' tr st k' ps) ->
  (forall e e' b b' st k k' ps, reordered 5 ex_data b -> reordered 5 ex_data b' -> vl e b st k ps = vl e' b' st k' ps) ->
  settled (adam_update num) dl vl r_perm r_cf 5 5 ex_data ex_data.
Proof.
  intros Hu Hd Hv. assert (HG : good_data 5 ex_data).
  { cbn. split; [eexists; constructor|]. split; [intros x H; inversion H; reflexivity|]. split; [|discriminate]. intros y E. injection E as <-. intros x H; inversion H; reflexivity. }
  constructor; auto; try (split; [lia|reflexivity]). exact r_perm_ok.
Qed.
Lemma ex_settled (vl : r_vl) : (forall e e' b b' st k k' ps, reordered 5 ex_data b -> reordered 5 ex_data b' -> vl e b st k ps = vl e' b' st k' ps) ->
  settled (adam_update ex_num) ex_dloss vl r_perm r_cf 5 5 ex_data ex_data.
Proof.
  intros Hv. apply r_settled; [|intros e e' b b' tr st k k' ps Hb Hb'; unfold ex_dloss; rewrite (ex_sum_reordered b Hb), (ex_sum_reordered b' Hb'); reflexivity|exact Hv].
  intros d [x mv i] [x' mv' i'] [H H']. cbn in *. subst. split; reflexivity.
Qed.
Lemma r_vloss_blind e e' b b' st k k' ps : reordered 5 ex_data b -> reordered 5 ex_data b' -> r_vloss e b st k ps = r_vloss e' b' st k' ps.
Proof. intros Hb Hb'. unfold r_vloss. rewrite (ex_sum_reordered b Hb), (ex_sum_reordered b' Hb'). reflexivity. Qed.
Lemma r_improvement : any_improvement nsub nlt nle r_cf.
Proof. intros [v|] [b|]; cbn; try discriminate. rewrite Z.ltb_lt, Z.leb_le. lia. Qed.

(** Two epochs and then two more, the last of which is not kept. *)
Example C139_partial_example :
  let upd := adam_update ex_num in
  settled upd ex_dloss r_vloss r_perm r_cf 5 5 ex_data ex_data /\ any_improvement nsub nlt nle r_cf /\
  (exists os c1 v1, handed (fun _ => tt) r_model (r_part false 2) = Ok (Lst [Leaf tt; Leaf tt], os) /\ length os = 2 /\
     train_loop upd ex_dloss r_vloss ex_split r_perm (Some 0%Z) nadd nsub (fun v _ => v) nlt nle
       (for_epochs r_cf 2) ex_data ex_data 0 0 os 0 0 = Ok (c1, 2, v1, 1)) /\
  in_parts upd ex_dloss r_vloss 2 2 = [-45; 7]%Z /\ at_once upd ex_dloss r_vloss 2 2 = [-45; 7]%Z.
Proof.
  cbv zeta. split; [apply ex_settled; exact r_vloss_blind|]. split; [exact r_improvement|].
  split; [do 3 eexists; split; [reflexivity|split; [reflexivity|vm_compute; reflexivity]]|]. split; vm_compute; reflexivity.
Qed.

(** Training on after a training is as training for the sum of the epochs. *)
Definition two_parts_always : Prop :=
  forall (S1 S2 S3 P G MV MSt Rng F : Type) update zeros dloss vloss split2 perm fzero fadd fsub fdivn flt fle
    (M : @model P MV MSt Rng) cf (D DV : @batch S1 S2 S3) e1 e2 r r2,
  let train := train (G := G) (F := F) update zeros dloss vloss split2 perm fzero fadd fsub fdivn flt fle in
  let M1 := fst (train M (part cf D DV false e1 r)) in
  snd (train M (part cf D DV false e1 r)) = Ok tt ->
  snd (train M1 (part cf D DV true e2 r2)) = Ok tt -> snd (train M (part cf D DV false (e1 + e2) r)) = Ok tt ->
  m_params (fst (train M1 (part cf D DV true e2 r2))) = m_params (fst (train M (part cf D DV false (e1 + e2) r))).

(** An optimiser that reads its counter, as those of the package do: the
    returned state is that before the counter was advanced, so that the first
    resumed epoch repeats the number of the last one. *)
Definition r_num (d : Z) (p : Z) (mv : unit) (i : nat) : Z * unit := ((p - d + Z.of_nat i)%Z, mv).
(** A loss that uses the number of the epoch, which restarts at 0. *)
Definition r_dloss (epoch : nat) (b : dataset Z Z Z) (training : bool) (st : nat) (r : nat) (ps : list Z) : result ((nat -> Z) * nat) :=
  Ok (fun i => (ex_sum b * Z.of_nat (i - 6) + Z.of_nat epoch)%Z, S st).
(** A validation loss that goes up once on the way. *)
Definition r_bump (epoch : nat) (b : dataset Z Z Z) (st : nat) (r : nat) (ps : list Z) : result num :=
  Ok (option_map (fun p => if (p =? -30)%Z then 50 else Z.abs (p + 40))%Z (nth_error ps 0)).
(** Each of the three alone is enough: everything else is as in C139_partial. *)
Theorem C139_refuted :
  (in_parts (adam_update r_num) ex_dloss r_vloss 2 1 = [-43; 7]%Z /\ at_once (adam_update r_num) ex_dloss r_vloss 2 1 = [-42; 7]%Z) /\
  (in_parts (adam_update ex_num) r_dloss r_vloss 2 1 = [-46; 7]%Z /\ at_once (adam_update ex_num) r_dloss r_vloss 2 1 = [-48; 7]%Z) /\
  (settled (adam_update ex_num) ex_dloss r_bump r_perm r_cf 5 5 ex_data ex_data /\
   in_parts (adam_update ex_num) ex_dloss r_bump 2 1 = [-15; 7]%Z /\ at_once (adam_update ex_num) ex_dloss r_bump 2 1 = [-45; 7]%Z) /\
  ~ two_parts_always.
Proof.
  split; [split; vm_compute; reflexivity|]. split; [split; vm_compute; reflexivity|].
  split; [split; [apply ex_settled; reflexivity|split; vm_compute; reflexivity]|]. intros A.
  specialize (A _ _ _ _ _ _ _ _ _ (adam_update r_num) (fun _ => tt) ex_dloss r_vloss ex_split r_perm (Some 0%Z) nadd nsub (fun v _ => v) nlt nle
    r_model r_cf ex_data ex_data 2 1 0 0). cbv zeta in A.
  specialize (A ltac:(vm_compute; reflexivity) ltac:(vm_compute; reflexivity) ltac:(vm_compute; reflexivity)). vm_compute in A. discriminate.
Qed.

(** Epoch by epoch the training does not get past -30, however often it is
    resumed; three epochs at once do. *)
Example C139_stuck_example :
  let upd := adam_update ex_num in
  let M := fst (r_train upd ex_dloss r_bump r_model (r_part false 2)) in
  settled upd ex_dloss r_bump r_perm r_cf 5 5 ex_data ex_data /\
  (exists os, m_opt M = Some (m_struct M, os) /\ map ox os = m_params M /\ length os = 2) /\
  snd (r_train upd ex_dloss r_bump M (r_part true 1)) = Ok tt /\
  seen (fst (r_train upd ex_dloss r_bump M (r_part true 1))) = seen M /\ m_params M = [-15; 7]%Z /\
  m_params (fst (r_train upd ex_dloss r_bump M (r_part true 2))) = [-45; 7]%Z.
Proof.
  cbv zeta. split; [apply ex_settled; reflexivity|]. split; [eexists; split; [vm_compute; reflexivity|split; vm_compute; reflexivity]|].
  repeat split; vm_compute; reflexivity.
Qed.

Print Assumptions C139_partial.
Print Assumptions C139_stuck.
Print Assumptions C139_refuted.
