(** Property C130: the random keys with which the samples are shuffled in training
    (training.py L885-898, L978-992, L1068-1082). *)
From Coq Require Import ZArith Lia.
From Verif Require Import Base BaseLemmas TreeUtil Batch Train TrainSpec TrainProofs TrainSteps Draws DrawsSpec Props_Draws TrainKeys Props_TrainKeys.
Local Open Scope list_scope.
Local Open Scope nat_scope.

(** the key with which the training data, and the validation data, are shuffled in
    the [i]-th epoch of a training with the key [r] *)
Definition train_key (r : key) (i : nat) : key := r ++ repeat 0 (2 * i) ++ [1].
Definition val_key (r : key) (i : nat) : key := r ++ repeat 0 (2 * i + 1) ++ [1].
Definition shuffle_keys (r : key) (n : nat) : list key := flat_map (fun i => [train_key r i; val_key r i]) (seq 0 n).

Lemma shuffle_step_keys r n : shuffle_keys r n = step_keys r (2 * n).
Proof.
  unfold shuffle_keys, step_keys. induction n as [|n IH]; [reflexivity|]. rewrite seq_S, flat_map_app, IH.
  replace (2 * S n) with (S (S (2 * n))) by lia. rewrite !seq_S, !map_app. cbn [flat_map map]. rewrite <- app_assoc. f_equal. cbn [app].
  unfold train_key, val_key, chain. rewrite !Nat.add_0_l, !app_assoc, Nat.add_1_r. reflexivity.
Qed.

Section Shuffle.
Context {S1 S2 S3 P G MV MSt F : Type}.
Notation OS := (ostate P MV).
Context (update : G -> OS -> OS)
  (dloss : nat -> dataset S1 S2 S3 -> bool -> MSt -> key -> list P -> result ((nat -> G) * MSt))
  (vloss : nat -> dataset S1 S2 S3 -> MSt -> key -> list P -> result F)
  (perm : key -> nat -> list nat) (fzero : F) (fadd : F -> F -> F) (fdivn : F -> nat -> F).
(** a callback that leaves the key alone, as the default one does (L1383-1392) *)
Definition keeps_key (cf : @settings P key F) : Prop := forall r e ps, fst (c_callback cf r e ps) = r.

(** the epoch numbered [i] of a training, which began with epoch [start], ended
    with the checkpoint and validation loss [k] *)
Definition epoch_with (cf : @settings P key F) D DV (brng : key) (start i : nat) (k : @carry P MV MSt key * F) : Prop :=
  (exists c, epoch_steps update dloss split2 perm (c_flags cf) (c_batch cf) D (train_key brng i) (start + i) c = Ok (fst k)) /\
  batched_val_loss vloss perm fzero fadd fdivn (c_val_batch cf) DV (map ox (fst (fst (fst k)))) (snd (fst (fst k))) (snd (fst k)) (val_key brng i) (start + i) = Ok (snd k).

Lemma history_keys cf D DV brng start : keeps_key cf -> forall ks a s s',
  history (epoch_rel update dloss vloss split2 perm fzero fadd fdivn cf D DV) (start + a) s ks s' -> fst s = chain brng (2 * a) ->
  forall i k, nth_error ks i = Some k -> epoch_with cf D DV brng start (a + i) k.
Proof.
  intros K. induction ks as [|k0 ks IH]; intros a s s' H Hs i k Hi; [destruct i; discriminate|].
  inversion H as [|e0 c0 k1 c1 ks1 c2 HR HH]; subst. destruct HR as (rng1 & HW & HA). unfold epoch_work in HW.
  rewrite Hs in HW. remember (2 * a) as m eqn:Em. cbn [split2] in HW. apply rbind_ok in HW as ([[adams st] mrng] & H1 & HW). apply rbind_ok in HW as (v & Hv & HW).
  injection HW as HR1 HK1 HK2. assert (N : fst c1 = chain brng (2 * S a)).
  { subst c1. rewrite <- HR1, <- HK1. unfold after_epoch. destruct (c_callback cf _ (start + a) (map ox adams)) as [r' ps] eqn:Ec.
    pose proof (K (child (child (chain brng m) 0) 0) (start + a) (map ox adams)) as Kc. rewrite Ec in Kc. cbn [fst] in *. rewrite Kc, !chain_S. f_equal. lia. }
  destruct i as [|i]; cbn [nth_error] in Hi.
  - injection Hi as <-. rewrite Nat.add_0_r. unfold epoch_with. rewrite <- HK1, <- HK2. cbn [fst snd]. split.
    + exists (snd s). unfold train_key. rewrite app_assoc, <- Em. exact H1.
    + unfold val_key. rewrite app_assoc. rewrite chain_S in Hv. rewrite Nat.add_1_r, <- Em. exact Hv.
  - replace (a + S i) with (S a + i) by lia. apply (IH (S a) c1 s'); [|exact N|exact Hi]. rewrite Nat.add_succ_r. exact HH.
Qed.
End Shuffle.

(* ------------------------------------------------------------------ *)
(** C130: every epoch shuffles the training data and the validation data with keys
    of their own, which are independent of those of all other epochs, as long as
    the callback leaves the key alone. *)
Theorem C130_shuffles :
  forall S1 S2 S3 P G MV MSt F (update : G -> ostate P MV -> ostate P MV)
    (dloss : nat -> dataset S1 S2 S3 -> bool -> MSt -> key -> list P -> result ((nat -> G) * MSt))
    (vloss : nat -> dataset S1 S2 S3 -> MSt -> key -> list P -> result F)
    perm fzero fadd fsub fdivn flt fle isnan, fl_order isnan flt fle ->
  forall cf D DV brng start adams st0 k c' fe bv be, keeps_key cf ->
  train_loop update dloss vloss split2 perm fzero fadd fsub fdivn flt fle cf D DV brng start adams st0 k = Ok (c', fe, bv, be) ->
  exists ks, fe = start + length ks /\
    (forall i e, nth_error ks i = Some e -> epoch_with update dloss vloss perm fzero fadd fdivn cf D DV brng start i e) /\
    (In (c', bv) ks \/ (fst (fst c') = adams /\ snd (fst c') = st0 /\ be = start)) /\
    independent (shuffle_keys brng (length ks)).
Proof.
  intros * HO * K H. destruct (train_spec _ _ _ _ _ _ _ _ _ _ _ _ HO _ _ _ _ _ _ _ _ _ _ _ _ H)
    as (mrng & kk & v0 & ks & s' & Es & Hv & HH & Hfe & (i & _ & Hi & Hbe) & _).
  exists ks. split; [exact Hfe|]. split; [|split].
  - intros j e Hj. rewrite <- (Nat.add_0_r start) in HH. refine (history_keys update dloss vloss perm fzero fadd fdivn cf D DV brng start K ks 0 _ _ HH _ j e Hj).
    cbn. unfold chain. rewrite app_nil_r. reflexivity.
  - destruct i as [|i]; cbn in Hi; [right; injection Hi as <- _; cbn in *; repeat split; lia|left; exact (nth_error_In _ _ Hi)].
  - rewrite shuffle_step_keys. apply step_keys_independent.
Qed.

(** If the key for shuffling was not obtained from the key of the model or the
    other way round, the keys for shuffling are independent of those of all
    training steps, too. *)
Theorem C130_apart_partial :
  forall S1 S2 S3 P G MV St F (update : G -> ostate P MV -> ostate P MV)
    (dloss : nat -> dataset S1 S2 S3 -> bool -> St * list key -> key -> list P -> result ((nat -> G) * (St * list key)))
    (vloss : nat -> dataset S1 S2 S3 -> St * list key -> key -> list P -> result F)
    perm fzero fadd fsub fdivn flt fle cf D DV brng start adams st0 k c' fe bv be n,
  notes_keys dloss -> unrelated brng k ->
  train_loop update dloss vloss split2 perm fzero fadd fsub fdivn flt fle cf D DV brng start adams (st0, []) k = Ok (c', fe, bv, be) ->
  forall x y, In x (shuffle_keys brng n) -> In y (snd (snd (fst c'))) -> unrelated x y.
Proof.
  intros * N U H x y Hx Hy. destruct (C124_steps _ _ _ _ _ _ _ _ _ _ _ _ _ _ _ _ _ _ _ _ _ _ N H) as (_ & _ & D0).
  inversion D0 as [|? ? _ D1]; subst. rewrite Forall_forall in D1. apply (unrelated_below brng k); [exact U| |exact (D1 y Hy)].
  rewrite shuffle_step_keys in Hx. apply (step_keys_below brng 0) in Hx as (j & _ & ->). exists (repeat 0 j ++ [1]). unfold chain. now rewrite app_assoc.
Qed.

(** *** the training of Props_TrainKeys.v, with keys for shuffling and model *)
Definition s_train (epochs : nat) (brng k : key) :=
  train_loop x_update x_dloss x_vloss split2 (fun r n => match r with [] => seq 0 n | _ => rev (seq 0 n) end) [] (@app key) (fun a _ => a) (fun a _ => a)
    (fun _ _ => true) (fun _ _ => true) (x_cf epochs) x_data x_data brng 0 [mk_ostate 5 0 0] (tt, []) k.
Example C130_apart_example :
  notes_keys x_dloss /\ unrelated [7] [5] /\ keeps_key (x_cf 2) /\
  rmap (fun r => snd (snd (fst (fst (fst (fst r)))))) (s_train 2 [7] [5]) = Ok [[5; 0; 1]; [5; 0; 0; 1]; [5; 0; 0; 0; 1]; [5; 0; 0; 0; 0; 1]] /\
  shuffle_keys [7] 2 = [[7; 1]; [7; 0; 1]; [7; 0; 0; 1]; [7; 0; 0; 0; 1]].
Proof.
  split; [exact C124_notes|]. split; [split; intros [p E]; discriminate|]. split; [intros r e ps; reflexivity|]. split; vm_compute; reflexivity.
Qed.
(** integers, ordered as usual *)
Example C130_example :
  let cf := mk_settings [true] 2 4 2 0%Z 5%Z 0%Z false (fun _ => false) (fun (k : key) _ (ps : list nat) => (k, ps)) in
  keeps_key cf /\
  rmap (fun r => (snd (fst (fst r)), snd (fst r)))
    (train_loop x_update x_dloss (fun e b s k ps => Ok (100 - Z.of_nat (list_sum ps))%Z) split2 (fun _ n => seq 0 n) 0%Z Z.add Z.sub (fun a _ => a) Z.ltb Z.leb
       cf x_data x_data [7] 0 [mk_ostate 5 0 0] (tt, []) [5]) = Ok (2, 91%Z).
Proof. split; [intros r e ps; reflexivity|vm_compute; reflexivity]. Qed.

(** False when the same seed is used for the model and for shuffling
    ([Model(rng=0)], [train(batch_rng=0)]): the first training step uses the key
    with which the validation data of the first epoch are shuffled. *)
Definition C130_always : Prop := forall epochs brng k c' fe bv be x,
  s_train epochs brng k = Ok (c', fe, bv, be) -> In x (shuffle_keys brng fe) -> In x (snd (snd (fst c'))) -> False.
Theorem C130_same_seed_refuted : ~ C130_always.
Proof.
  intros H. eapply (H 1 [5] [5]) with (x := [5; 0; 1]); [vm_compute; reflexivity|cbn; auto|cbn; auto].
Qed.
(** ... and this goes on: every second key of the training steps shuffles a
    training epoch. *)
Theorem C130_same_seed : forall k i, train_key k (S i) = nth (2 * i + 1) (step_keys (child k 0) (2 * i + 2)) [].
Proof.
  intros k i. unfold step_keys. rewrite nth_indep with (d' := (fun j => chain (child k 0) j ++ [1]) 0) by (rewrite map_length, seq_length; lia).
  rewrite (map_nth (fun j => chain (child k 0) j ++ [1])). rewrite seq_nth by lia. unfold train_key, chain, child. rewrite <- !app_assoc. f_equal.
  replace (2 * S i) with (S (0 + (2 * i + 1))) by lia. reflexivity.
Qed.
Print Assumptions C130_shuffles.
Print Assumptions C130_apart_partial.
Print Assumptions C130_same_seed_refuted.
Print Assumptions C130_same_seed.
