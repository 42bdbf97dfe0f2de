(** What holds of all parameters, and is kept by optimiser and callback, is kept
    by the training loop. *)
From Coq Require Import ZArith.
From Verif Require Import Base TreeUtil Batch Train TrainArgs TrainModel.
Local Open Scope list_scope.

Section Keeps.
Context {S1 S2 S3 P G MV MSt Rng F : Type}.
Notation OS := (ostate P MV).
Variable update : G -> OS -> OS.
Variable zeros : P -> MV.
Variable dloss : nat -> @batch S1 S2 S3 -> bool -> MSt -> Rng -> list P -> result ((nat -> G) * MSt).
Variable vloss : nat -> @batch S1 S2 S3 -> MSt -> Rng -> list P -> result F.
Variable split2 : Rng -> Rng * Rng.
Variable perm : Rng -> nat -> list nat.
Variable fzero : F.
Variables fadd fsub : F -> F -> F.
Variable fdivn : F -> nat -> F.
Variables flt fle : F -> F -> bool.
Variable Q : P -> Prop.
Hypothesis HU : forall g s, Q (ox s) -> Q (ox (update g s)).
Notation all := (Forall (fun s : OS => Q (ox s))).
Notation train := (TrainModel.train update zeros dloss vloss split2 perm fzero fadd fsub fdivn flt fle).

Lemma updates_keep flags : forall (adams : list OS) (ds : list G) i r, all adams ->
  apply_updates update flags adams ds i = Ok r -> all r.
Proof.
  induction flags as [|f flags IH]; intros adams ds i r HA E; cbn in E; [injection E as <-; constructor|].
  destruct adams as [|s adams]; [injection E as <-; constructor|]. inversion HA as [|? ? Hs Ha]; subst.
  destruct f.
  - destruct (nth_error ds i) as [d|]; [|discriminate]. destruct (apply_updates update flags adams ds (S i)) as [r'|] eqn:E'; [|discriminate].
    cbn in E. injection E as <-. constructor; [apply HU, Hs|exact (IH _ _ _ _ Ha E')].
  - destruct (apply_updates update flags adams ds i) as [r'|] eqn:E'; [|discriminate]. cbn in E. injection E as <-. constructor; [exact Hs|exact (IH _ _ _ _ Ha E')].
Qed.
Lemma step_keeps flags e b c c' : all (fst (fst c)) -> train_step update dloss split2 flags e b c = Ok c' -> all (fst (fst c')).
Proof.
  destruct c as [[adams st] rng]. unfold train_step. destruct (split2 rng) as [r1 r2]. intros HA.
  destruct (grad_loss_fn _ _ _ _ _ _ _ _) as [[ds st']|]; [|discriminate]. cbn [rbind].
  destruct (apply_updates update flags adams ds 0) as [a|] eqn:E; [|discriminate]. cbn [rbind]. intros H. injection H as <-. exact (updates_keep _ _ _ _ _ HA E).
Qed.
Lemma rfold_keeps {C B} (R : C -> Prop) (f : C -> B -> result C) l : (forall c b c', R c -> f c b = Ok c' -> R c') ->
  forall c c', R c -> rfold f l c = Ok c' -> R c'.
Proof.
  intros Hf. induction l as [|b l IH]; intros c c' Hc E; cbn in E; [injection E as <-; exact Hc|].
  destruct (f c b) as [c1|] eqn:E1; [|discriminate]. exact (IH c1 c' (Hf _ _ _ Hc E1) E).
Qed.
Lemma epoch_keeps flags n D key e c c' : all (fst (fst c)) ->
  epoch_steps update dloss split2 perm flags n D key e c = Ok c' -> all (fst (fst c')).
Proof.
  intros HA. unfold epoch_steps. destruct (num_rows D) as [r|]; [|discriminate]. cbn [rbind]. destruct (n =? 0); [discriminate|].
  destruct (shuffle perm D key) as [D'|]; [|discriminate]. cbn [rbind].
  match goal with |- context [rfold ?f ?l c] => destruct (rfold f l c) as [c1|] eqn:E1 end; [|discriminate]. cbn [rbind].
  assert (H1 : all (fst (fst c1))).
  { refine (rfold_keeps (fun c : carry => all (fst (fst c))) _ _ _ _ _ HA E1). intros c2 j c3 H2 E2.
    destruct (get_batch D' n j None) as [b|]; [|discriminate]. exact (step_keeps _ _ _ _ _ H2 E2). }
  destruct (0 <? r mod n); [|intros E; injection E as <-; exact H1].
  destruct (get_batch D' n (r / n) _) as [b|]; [|discriminate]. exact (step_keeps _ _ _ _ _ H1).
Qed.
Lemma direct_keeps : forall (ps : list P) (adams : list OS), Forall Q ps -> all (zip_with update_params_direct ps adams).
Proof.
  induction ps as [|p ps IH]; intros [|s adams] H; cbn; try constructor; inversion H; subst; [assumption|apply IH; assumption].
Qed.
Lemma count_keeps : forall (fl : list bool) (adams : list OS), all adams ->
  all (zip_with (fun (f : bool) s => increment_epoch (if f then 1 else 0) s) fl adams).
Proof.
  induction fl as [|b fl IH]; intros [|s adams] H; cbn; try constructor; inversion H; subst; [assumption|apply IH; assumption].
Qed.
Lemma forall_ox (l : list OS) : Forall Q (map ox l) <-> all l.
Proof. rewrite Forall_map. reflexivity. Qed.

Section Loop.
Variable cf : @settings P Rng F.
Hypothesis HC : forall r e ps, Forall Q ps -> Forall Q (snd (c_callback cf r e ps)).
Lemma body_keeps D DV t t' : all (fst (fst (t_carry t))) -> all (fst (fst (t_best t))) ->
  epoch_body update dloss vloss split2 perm fzero fadd fsub fdivn flt fle cf D DV t = Ok t' ->
  all (fst (fst (t_carry t'))) /\ all (fst (fst (t_best t'))).
Proof.
  intros H1 H2. unfold epoch_body, epoch_work. destruct (split2 (t_rng t)) as [rng1 key1].
  destruct (epoch_steps _ _ _ _ _ _ _ _ _ _) as [[[adams st] mrng]|] eqn:E; [|discriminate]. cbn [rbind].
  destruct (split2 rng1) as [rng2 key2]. destruct (batched_val_loss _ _ _ _ _ _ _ _ _ _ _ _) as [v|]; [|discriminate]. cbn [rbind].
  apply epoch_keeps in E; [|exact H1]. cbn [fst] in E. unfold after_epoch.
  assert (HP := HC rng2 (t_epoch t) (map ox adams) (proj2 (forall_ox adams) E)).
  destruct (c_callback cf rng2 (t_epoch t) (map ox adams)) as [rng' ps]. cbn [snd] in HP.
  destruct (flt v (t_best_val t)); cbn; intros X; injection X as <-; cbn; split; auto; apply count_keeps, direct_keeps, HP.
Qed.
Lemma loop_keeps D DV fuel : forall t t', all (fst (fst (t_carry t))) -> all (fst (fst (t_best t))) ->
  epoch_loop update dloss vloss split2 perm fzero fadd fsub fdivn flt fle fuel cf D DV t = Ok t' -> all (fst (fst (t_best t'))).
Proof.
  induction fuel as [|fuel IH]; intros t t' H1 H2; cbn [epoch_loop]; destruct (epoch_cond flt cf t); try discriminate;
    try (intros X; injection X as <-; exact H2).
  destruct (epoch_body _ _ _ _ _ _ _ _ _ _ _ _ _ _ _) as [t1|] eqn:E; [|discriminate]. cbn [rbind].
  destruct (body_keeps _ _ _ _ H1 H2 E) as [H3 H4]. exact (IH t1 t' H3 H4).
Qed.
Lemma train_loop_keeps D DV r st adams s0 r0 c a b d : all adams ->
  train_loop update dloss vloss split2 perm fzero fadd fsub fdivn flt fle cf D DV r st adams s0 r0 = Ok (c, a, b, d) -> all (fst (fst c)).
Proof.
  intros HA. unfold train_loop. destruct (split2 r0) as [mrng key]. destruct (batched_val_loss _ _ _ _ _ _ _ _ _ _ _ _) as [v|]; [|discriminate]. cbn [rbind].
  destruct (traced (c_flags cf)) as [u|]; [|discriminate]. cbn [rbind].
  destruct (epoch_loop _ _ _ _ _ _ _ _ _ _ _ _ _ _ _ _) as [t|] eqn:E; [|discriminate]. cbn [rbind]. intros X. injection X as <- <- <- <-.
  refine (loop_keeps _ _ _ _ _ _ _ E); exact HA.
Qed.
End Loop.

(** A training: its result is what the states it starts with are. *)
Lemma train_keeps (m m' : @model P MV MSt Rng) (k : @call S1 S2 S3 P Rng F) :
  (forall fl r e ps, Forall Q ps -> Forall Q (snd (c_callback (k_settings k fl) r e ps))) ->
  (if k_resume k then forall s os, m_opt m = Some (s, os) -> all os else Forall Q (m_params m)) ->
  train m k = (m', Ok tt) -> Forall Q (m_params m') /\ exists s os, m_opt m' = Some (s, os) /\ all os.
Proof.
  intros HC H. unfold TrainModel.train. destruct (handed zeros m k) as [[s os]|] eqn:E; [|discriminate]. cbn [rbind].
  assert (HA : all os).
  { unfold handed in E. destruct (k_resume k).
    - destruct (m_opt m) as [[s' os']|]; [|discriminate]. destruct (same_struct s' (m_struct m)); [|discriminate]. injection E as <- <-. exact (H _ _ eq_refl).
    - injection E as <- <-. apply Forall_map. exact H. }
  destruct (train_loop _ _ _ _ _ _ _ _ _ _ _ _ _ _ _ _ _ _ _) as [[[[c a] b] d]|] eqn:L; [|discriminate]. cbn [rbind].
  apply train_loop_keeps in L; [|apply HC|exact HA]. destruct c as [[os' st] rng]. cbn [fst] in L. intros X. injection X as <-. cbn.
  split; [apply forall_ox, L|eauto].
Qed.
Lemma train_failed (m m' : @model P MV MSt Rng) (k : @call S1 S2 S3 P Rng F) e : train m k = (m', Err e) -> m' = m.
Proof.
  unfold TrainModel.train. destruct (handed zeros m k) as [[s os]|]; cbn [rbind]; [|intros X; injection X as <- _; reflexivity].
  destruct (train_loop _ _ _ _ _ _ _ _ _ _ _ _ _ _ _ _ _ _ _) as [[[[[[? ?] ?] ?] ?] ?]|]; cbn [rbind]; intros X; [discriminate|injection X as <- _; reflexivity].
Qed.
End Keeps.
