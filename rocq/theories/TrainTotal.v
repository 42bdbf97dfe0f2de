(** Training always ends with a result when the data are good and the losses defined. *)
From Coq Require Import ZArith Permutation.
From Verif Require Import Base BaseLemmas TreeUtil TreeSpec NonSeqSpec Batch BatchSpec BatchProofs Train TrainSpec TrainProofs TrainSteps.
Local Open Scope nat_scope.
Local Open Scope list_scope.

Section Total.
Context {S1 S2 S3 P G MV MSt Rng F : Type}.
Notation OS := (ostate P MV).
Context (update : G -> OS -> OS)
  (dloss : nat -> dataset S1 S2 S3 -> bool -> MSt -> Rng -> list P -> result ((nat -> G) * MSt))
  (vloss : nat -> dataset S1 S2 S3 -> MSt -> Rng -> list P -> result F)
  (split2 : Rng -> Rng * Rng) (perm : Rng -> nat -> list nat)
  (fzero : F) (fadd fsub : F -> F -> F) (fdivn : F -> nat -> F) (flt fle : F -> F -> bool).
Context (Hd : forall e b t st r ps, exists x, dloss e b t st r ps = Ok x)
        (Hv : forall e b st r ps, exists x, vloss e b st r ps = Ok x)
        (Hperm : forall k n, Permutation (perm k n) (seq 0 n)).

Lemma argnums_length flags : forall i, length (argnums_from i flags) = length (filter (fun f : bool => f) flags).
Proof. clear. induction flags as [|[] flags IH]; intros i; cbn; [reflexivity| |]; rewrite ?IH; reflexivity. Qed.

Lemma apply_updates_ok flags : forall (adams : list OS) (dp : list G) idx, length flags = length adams ->
  idx + length (filter (fun f : bool => f) flags) <= length dp ->
  exists r, apply_updates update flags adams dp idx = Ok r.
Proof.
  clear. induction flags as [|f flags IH]; intros [|s adams] dp idx Hl Hi; try discriminate Hl; cbn [apply_updates]; [eauto|].
  cbn in Hl. injection Hl as Hl. destruct f; cbn [filter length] in Hi.
  - destruct (nth_error dp idx) as [d|] eqn:E; [|apply nth_error_None in E; lia].
    destruct (IH adams dp (S idx) Hl ltac:(lia)) as (r & ->). eexists; reflexivity.
  - destruct (IH adams dp idx Hl Hi) as (r & ->). eexists; reflexivity.
Qed.

Lemma train_step_ok flags epoch b adams st rng : length flags = length adams ->
  exists c', train_step update dloss split2 flags epoch b (adams, st, rng) = Ok c'.
Proof.
  intros Hl. unfold train_step. destruct (split2 rng) as [a b']. unfold grad_loss_fn.
  destruct (Hd epoch b true st b' (map ox adams)) as ([g st'] & ->). cbn [rbind].
  destruct (apply_updates_ok flags adams (map g (trainable_argnums flags)) 0 Hl) as (r & ->).
  - rewrite map_length. unfold trainable_argnums. rewrite argnums_length. lia.
  - eexists; reflexivity.
Qed.

Lemma steps_ok flags epoch bs : forall c, length flags = length (fst (fst c)) ->
  exists c', steps (fun b s s' => train_step update dloss split2 flags epoch b s = Ok s') bs c c'.
Proof.
  induction bs as [|b bs IH]; intros [[a st] r] Hl; [eexists; constructor|].
  destruct (train_step_ok flags epoch b a st r Hl) as ([[a1 st1] r1] & E).
  destruct (train_step_spec _ _ _ _ _ _ _ _ _ _ _ _ Hl E) as (rr & gg & _ & _ & HL & _).
  destruct (IH (a1, st1, r1)) as (c' & Hc'); [cbn in *; congruence|]. exists c'. econstructor; eassumption.
Qed.

Lemma rfold_ok {A B} (f : B -> A -> result B) l : (forall b a, In a l -> exists b', f b a = Ok b') -> forall b, exists b', rfold f l b = Ok b'.
Proof.
  clear. induction l as [|x l IH]; intros Hf b; cbn [rfold]; [eauto|].
  destruct (Hf b x (or_introl eq_refl)) as (b1 & ->). cbn [rbind]. apply IH. intros b2 a Ha. apply Hf. right. exact Ha.
Qed.

Lemma val_loss_ok n bs D key ps st mrng epoch : good_data n D -> 1 <= bs ->
  exists v, batched_val_loss vloss perm fzero fadd fdivn bs D ps st mrng key epoch = Ok v.
Proof.
  clear Hd. intros HD Hbs. unfold batched_val_loss.
  assert (En : num_rows D = Ok n).
  { destruct D as [[X Y] U]. destruct HD as (HPX & HX & _). apply populated_first; assumption. }
  rewrite En. cbn [rbind]. destruct (Nat.eqb_spec bs 0); [lia|].
  destruct (shuffle_ok perm n D key (Hperm key n) HD) as (D' & -> & (_ & HD' & _)). cbn [rbind].
  pose proof (Nat.div_mod n bs ltac:(lia)) as E.
  set (total := n / bs + (if 0 <? n mod bs then 1 else 0)).
  destruct (rfold_ok (fun acc j => let* b := get_batch D' bs j None in let* v := vloss epoch b st mrng ps in Ok (fadd acc (fdivn v total))) (seq 0 (n / bs)))
    with (b := fzero) as (m & ->).
  { intros acc j Hj. apply in_seq in Hj. rewrite (get_batch_ok n) by (try exact HD'; nia). cbn [rbind].
    destruct (Hv epoch (drows (j * bs) bs D') st mrng ps) as (x & ->). eexists; reflexivity. }
  cbn [rbind]. destruct (0 <? n mod bs); [|eauto]. rewrite (get_batch_ok n) by (try exact HD'; lia). cbn [rbind].
  destruct (Hv epoch (drows (n / bs * bs) (n mod bs) D') st mrng ps) as (x & ->). eexists; reflexivity.
Qed.

Lemma argnums_some flags : forall i, argnums_from i flags <> [] <-> In true flags.
Proof.
  clear. induction flags as [|[] flags IH]; intros i; cbn; [split; [congruence|intros []]|split; [auto|discriminate]|].
  rewrite IH. split; [auto|intros [H|H]; [discriminate|exact H]].
Qed.
Lemma traced_iff flags : traced flags = Ok tt <-> In true flags.
Proof. clear. rewrite <- (argnums_some flags 0). unfold traced, trainable_argnums. destruct (argnums_from 0 flags); split; try reflexivity; try discriminate; congruence. Qed.

(** There must be something to train. *)
Theorem train_nothing cf m D DV rng start adams st0 rng0 : good_data m DV -> 1 <= c_val_batch cf -> ~ In true (c_flags cf) ->
  train_loop update dloss vloss split2 perm fzero fadd fsub fdivn flt fle cf D DV rng start adams st0 rng0 = Err ValueError.
Proof.
  clear Hd. intros HV Hvb Hn. unfold train_loop. destruct (split2 rng0) as [mr key].
  destruct (val_loss_ok m _ DV key (map ox adams) st0 mr start HV Hvb) as (v & ->). cbn [rbind].
  rewrite <- traced_iff in Hn. unfold traced in *. destruct (trainable_argnums (c_flags cf)); [reflexivity|contradiction Hn; reflexivity].
Qed.

Theorem train_ok cf n m D DV rng start adams st0 rng0 :
  good_data n D -> good_data m DV -> 1 <= c_batch cf -> c_batch cf <= n -> 1 <= c_val_batch cf ->
  length (c_flags cf) = length adams -> @keeps_length P Rng F cf -> In true (c_flags cf) ->
  exists r, train_loop update dloss vloss split2 perm fzero fadd fsub fdivn flt fle cf D DV rng start adams st0 rng0 = Ok r.
Proof.
  intros HD HV Hb1 Hb2 Hvb Hl Hk Ht0. unfold train_loop. destruct (split2 rng0) as [mr key].
  destruct (val_loss_ok m _ DV key (map ox adams) st0 mr start HV Hvb) as (v & ->). cbn [rbind].
  rewrite (proj2 (traced_iff _) Ht0). cbn [rbind].
  assert (HB : forall t, length (c_flags cf) = length (fst (fst (t_carry t))) ->
    exists t', epoch_body update dloss vloss split2 perm fzero fadd fsub fdivn flt fle cf D DV t = Ok t' /\
      t_epoch t' = S (t_epoch t) /\ length (c_flags cf) = length (fst (fst (t_carry t')))).
  { intros t Ht. unfold epoch_body, epoch_work. destruct (split2 (t_rng t)) as [r1 k1].
    destruct (epoch_steps_spec update dloss split2 perm n (c_flags cf) (c_batch cf) D k1 (t_epoch t) (t_carry t) HD (Hperm k1 n) Hb1 Hb2)
      as (sizes & D' & _ & _ & _ & Hst).
    destruct (steps_ok (c_flags cf) (t_epoch t) (dslices 0 sizes D') (t_carry t) Ht) as (c1 & Hc1).
    pose proof (steps_length _ _ _ _ _ _ _ _ Ht Hc1) as Hl1. rewrite (proj2 (Hst c1) Hc1). cbn [rbind].
    destruct c1 as [[a1 st1] m1]. destruct (split2 r1) as [r2 k2].
    destruct (val_loss_ok m _ DV k2 (map ox a1) st1 m1 (t_epoch t) HV Hvb) as (w & ->). cbn [rbind]. cbn [fst] in Hl1.
    pose proof (Hk r2 (t_epoch t) (map ox a1)) as Hc. rewrite map_length in Hc.
    destruct (after_epoch cf r2 (t_epoch t) (a1, st1, m1)) as [r' c'] eqn:Ea.
    destruct (after_epoch_spec _ _ _ _ _ _ _ _ (eq_sym Hl1) Hc Ea) as (a' & -> & Hl' & _).
    destruct (flt w (t_best_val t)); (eexists; split; [reflexivity|]); cbn [t_epoch t_carry fst]; (split; [lia|congruence]). }
  assert (HLp : forall fuel t, length (c_flags cf) = length (fst (fst (t_carry t))) -> c_epochs cf <= t_epoch t + fuel ->
    exists t', epoch_loop update dloss vloss split2 perm fzero fadd fsub fdivn flt fle fuel cf D DV t = Ok t').
  { induction fuel as [|fuel IH]; intros t Ht He; cbn [epoch_loop].
    - destruct (epoch_cond flt cf t) eqn:Ec; [|eauto]. unfold epoch_cond in Ec. rewrite !andb_true_iff in Ec.
      destruct Ec as [[[_ Ec] _] _]. apply Nat.ltb_lt in Ec. lia.
    - destruct (epoch_cond flt cf t); [|eauto]. destruct (HB t Ht) as (t' & -> & He' & Hl'). cbn [rbind]. apply IH; [exact Hl'|lia]. }
  destruct (HLp (c_epochs cf) (mk_t rng start (adams, st0, mr) (adams, st0, mr) v v start (c_patience cf))) as (t & ->).
  - exact Hl.
  - cbn. lia.
  - cbn [rbind]. eauto.
Qed.
End Total.
