(** One epoch: batches, frozen parameters, counters, validation loss. *)
From Coq Require Import ZArith Permutation QArith.
From Verif Require Import Base BaseLemmas TreeUtil TreeSpec NonSeqSpec NonSeqProofs ConnProofs Batch BatchSpec BatchProofs Train TrainSpec TrainProofs.
Local Open Scope nat_scope.
Local Open Scope list_scope.

Lemma batch_leaves_ok {S} (t : tree (list S)) n size idx len :
  uniform n t -> idx * size + match len with Some k => k | None => size end <= n ->
  batch_leaves t size idx len = Ok (rows (idx * size) (match len with Some k => k | None => size end) t).
Proof.
  intros Hu H. unfold batch_leaves, rows. apply tmapA_ok. intros x Hx. apply dynamic_slice_ok. rewrite (Hu _ Hx). exact H.
Qed.

Lemma get_batch_ok {S1 S2 S3} n (D : dataset S1 S2 S3) size idx len : good_data n D ->
  idx * size + match len with Some k => k | None => size end <= n ->
  get_batch D size idx len = Ok (drows (idx * size) (match len with Some k => k | None => size end) D).
Proof.
  destruct D as [[X Y] U]. intros (_ & HX & HY & HU) H. unfold get_batch, drows.
  rewrite (batch_leaves_ok X n) by assumption. cbn [rbind].
  assert (EY : opt_tree (fun t => batch_leaves t size idx len) Y = Ok (option_map (rows (idx * size) (match len with Some k => k | None => size end)) Y)).
  { destruct Y as [y|]; [|reflexivity]. cbn [opt_tree]. rewrite (batch_leaves_ok y n); [reflexivity|apply HY; reflexivity|exact H]. }
  rewrite EY. cbn [rbind].
  assert (EU : opt_tree (fun t => batch_leaves t size idx len) U = Ok (option_map (rows (idx * size) (match len with Some k => k | None => size end)) U)).
  { destruct U as [y|]; [|reflexivity]. cbn [opt_tree]. rewrite (batch_leaves_ok y n); [reflexivity|apply HU; reflexivity|exact H]. }
  rewrite EU. reflexivity.
Qed.

Lemma populated_layout {S S'} (t : tree S) (t' : tree S') : layout t = layout t' -> populated t -> populated t'.
Proof.
  intros HL (x & Hx). destruct (zip_exists t t' HL) as (w & -> & ->). apply has_leaf_tmap in Hx as (y & Hy & _).
  exists (snd y). apply has_leaf_tmap. eauto.
Qed.

Lemma shuffle_ok {Rng S1 S2 S3} (perm : Rng -> nat -> list nat) n (D : dataset S1 S2 S3) key :
  Permutation (perm key n) (seq 0 n) -> good_data n D -> exists D', shuffle perm D key = Ok D' /\ reordered n D D'.
Proof.
  destruct D as [[X Y] U]. intros Hp (HPX & HX & HY & HU). unfold shuffle.
  destruct (shuffle_total perm (fun k _ => [k]) key X) as (X' & EX). rewrite EX. cbn [rbind].
  destruct (shuffle_samples perm _ n key X X' Hp HX EX) as (LX & UX & SX).
  assert (GY : exists Y', opt_tree (fun t => random_permute_leaves perm (fun k _ => [k]) t key false) Y = Ok Y' /\
    option_map layout Y = option_map layout Y' /\ (forall y, Y' = Some y -> uniform n y) /\
    forall i j, nth_error (perm key n) i = Some j -> option_map (fun y => sample y i) Y' = option_map (fun y => sample y j) Y).
  { destruct Y as [y|]; cbn [opt_tree].
    - destruct (shuffle_total perm (fun k _ => [k]) key y) as (y' & Ey). rewrite Ey. cbn [rbind].
      destruct (shuffle_samples perm _ n key y y' Hp (HY y eq_refl) Ey) as (Ly & Uy & Sy).
      exists (Some y'). split; [reflexivity|]. split; [cbn; congruence|]. split; [intros ? E; injection E as <-; exact Uy|].
      intros i j Hij. cbn. rewrite (Sy i j Hij). reflexivity.
    - exists None. split; [reflexivity|]. split; [reflexivity|]. split; [discriminate|reflexivity]. }
  destruct GY as (Y' & EY & LY & UY & SY). rewrite EY. cbn [rbind].
  assert (GU : exists Y', opt_tree (fun t => random_permute_leaves perm (fun k _ => [k]) t key false) U = Ok Y' /\
    option_map layout U = option_map layout Y' /\ (forall y, Y' = Some y -> uniform n y) /\
    forall i j, nth_error (perm key n) i = Some j -> option_map (fun y => sample y i) Y' = option_map (fun y => sample y j) U).
  { destruct U as [y|]; cbn [opt_tree].
    - destruct (shuffle_total perm (fun k _ => [k]) key y) as (y' & Ey). rewrite Ey. cbn [rbind].
      destruct (shuffle_samples perm _ n key y y' Hp (HU y eq_refl) Ey) as (Ly & Uy & Sy).
      exists (Some y'). split; [reflexivity|]. split; [cbn; congruence|]. split; [intros ? E; injection E as <-; exact Uy|].
      intros i j Hij. cbn. rewrite (Sy i j Hij). reflexivity.
    - exists None. split; [reflexivity|]. split; [reflexivity|]. split; [discriminate|reflexivity]. }
  destruct GU as (U' & EU & LU & UU & SU). rewrite EU. cbn [rbind].
  exists (X', Y', U'). split; [reflexivity|]. split; [|split].
  - cbn. split; [congruence|]. split; assumption.
  - cbn. split; [|split; [exact UX|split; assumption]]. eapply populated_layout; [|exact HPX]. congruence.
  - apply (shuffle_perm (perm key n) n (dsample (X, Y, U)) (dsample (X', Y', U')) Hp).
    intros i j Hij. cbn. rewrite (SX i j Hij), (SY i j Hij), (SU i j Hij). reflexivity.
Qed.

Lemma dslices_app {S1 S2 S3} a : forall b lo (D : dataset S1 S2 S3), dslices lo (a ++ b) D = dslices lo a D ++ dslices (lo + list_sum a) b D.
Proof.
  induction a as [|n a IH]; intros b lo D; cbn [dslices app list_sum fold_right].
  - rewrite Nat.add_0_r. reflexivity.
  - change (fold_right Nat.add 0 a) with (list_sum a). rewrite IH, Nat.add_assoc. reflexivity.
Qed.
Lemma dslices_repeat {S1 S2 S3} m k (D : dataset S1 S2 S3) : forall lo,
  dslices lo (repeat m k) D = map (fun j => drows (lo + j * m) m D) (seq 0 k).
Proof.
  induction k as [|k IH]; intros lo; [reflexivity|]. cbn [repeat dslices seq map]. f_equal; [f_equal; lia|].
  rewrite IH, <- seq_shift, map_map. apply map_ext. intros j. f_equal. lia.
Qed.

Lemma rfold_steps {B St} (f : St -> nat -> result St) (g : B -> St -> result St) (bf : nat -> B) js :
  (forall j c, In j js -> f c j = g (bf j) c) ->
  forall c c', rfold f js c = Ok c' <-> steps (fun b s s' => g b s = Ok s') (map bf js) c c'.
Proof.
  induction js as [|j js IH]; intros Hf c c'; cbn [rfold map].
  - split; [intros E; injection E as <-; constructor|]. intros H. inversion H. reflexivity.
  - rewrite Hf by (left; reflexivity). specialize (IH (fun j' c => fun Hj => Hf j' c (or_intror Hj))). split.
    + intros H. apply rbind_ok in H as (c1 & H1 & H2). econstructor; [exact H1|]. apply IH. exact H2.
    + intros H. inversion H as [|b bs s s1 s2 H1 H2]; subst. rewrite H1. cbn [rbind]. apply IH. exact H2.
Qed.

Lemma steps_app {B St} (R : B -> St -> St -> Prop) bs1 : forall bs2 s s2,
  steps R (bs1 ++ bs2) s s2 <-> exists s1, steps R bs1 s s1 /\ steps R bs2 s1 s2.
Proof.
  induction bs1 as [|b bs1 IH]; intros bs2 s s2; cbn [app].
  - split; [intros H; exists s; split; [constructor|exact H]|]. intros (s1 & H1 & H2). inversion H1; subst. exact H2.
  - split.
    + intros H. inversion H as [|? ? ? s1 ? H1 H2]; subst. apply IH in H2 as (s3 & H3 & H4). exists s3. split; [econstructor; eassumption|exact H4].
    + intros (s1 & H1 & H2). inversion H1 as [|? ? ? s3 ? H3 H4]; subst. econstructor; [exact H3|]. apply IH. eauto.
Qed.

Lemma Forall2_len {A B} (R : A -> B -> Prop) l m : Forall2 R l m -> length l = length m.
Proof. induction 1; cbn; congruence. Qed.

Section Steps.
Context {S1 S2 S3 P G MV MSt Rng F : Type}.
Notation OS := (ostate P MV).
Context (update : G -> OS -> OS)
  (dloss : nat -> dataset S1 S2 S3 -> bool -> MSt -> Rng -> list P -> result ((nat -> G) * MSt))
  (split2 : Rng -> Rng * Rng).

Notation step := (train_step update dloss split2).

Theorem epoch_steps_spec (perm : Rng -> nat -> list nat) n flags bs D key epoch c :
  good_data n D -> Permutation (perm key n) (seq 0 n) -> 1 <= bs -> bs <= n ->
  exists sizes D', list_sum sizes = n /\ Forall (fun s => 1 <= s <= bs) sizes /\ reordered n D D' /\
    forall c', epoch_steps update dloss split2 perm flags bs D key epoch c = Ok c' <->
      steps (fun b s s' => step flags epoch b s = Ok s') (dslices 0 sizes D') c c'.
Proof.
  intros HD Hp H1 H2. exists (sizes_of n bs false).
  destruct (shuffle_ok perm n D key Hp HD) as (D' & ED & HR). exists D'.
  split; [apply sizes_of_sum; exact H1|]. split; [apply sizes_of_bounds; exact H1|]. split; [exact HR|]. intros c'.
  destruct HR as (_ & HD' & _). unfold epoch_steps.
  assert (En : num_rows D = Ok n).
  { destruct D as [[X Y] U]. destruct HD as (HPX & HX & _). apply populated_first; assumption. }
  rewrite En. cbn [rbind]. destruct (Nat.eqb_spec bs 0); [lia|]. rewrite ED. cbn [rbind]. unfold sizes_of.
  pose proof (Nat.div_mod n bs ltac:(lia)) as Hd.
  rewrite dslices_app, dslices_repeat, list_sum_repeat. cbn [Nat.add]. rewrite steps_app.
  assert (HF : forall c c', rfold (fun c j => let* b := get_batch D' bs j None in step flags epoch b c) (seq 0 (n / bs)) c = Ok c' <->
    steps (fun b s s' => step flags epoch b s = Ok s') (map (fun j => drows (j * bs) bs D') (seq 0 (n / bs))) c c').
  { intros c1 c2. apply (rfold_steps _ (fun b c => step flags epoch b c)). intros j c0 Hj. apply in_seq in Hj.
    rewrite (get_batch_ok n) by (try exact HD'; nia). reflexivity. }
  destruct (Nat.ltb_spec 0 (n mod bs)) as [Hm|Hm].
  - destruct (Nat.eqb_spec (n mod bs) 0); [lia|]. cbn [dslices]. split.
    + intros H. apply rbind_ok in H as (c1 & Hc1 & H). rewrite (get_batch_ok n) in H by (try exact HD'; lia). cbn [rbind] in H.
      exists c1. split; [apply HF; exact Hc1|]. econstructor; [exact H|constructor].
    + intros (c1 & Hc1 & H). apply HF in Hc1. rewrite Hc1. cbn [rbind]. rewrite (get_batch_ok n) by (try exact HD'; lia). cbn [rbind].
      inversion H as [|? ? ? ? ? Hs Hn]; subst. inversion Hn; subst. exact Hs.
  - destruct (Nat.eqb_spec (n mod bs) 0); [|lia]. cbn [dslices]. split.
    + intros H. apply rbind_ok in H as (c1 & Hc1 & H). injection H as <-. exists c1. split; [apply HF; exact Hc1|constructor].
    + intros (c1 & Hc1 & H). apply HF in Hc1. rewrite Hc1. cbn [rbind]. inversion H; subst. reflexivity.
Qed.

(** *** frozen and trainable parameters *)
Lemma argnums_nth flags : forall i a idx,
  a = length (filter (fun f : bool => f) (firstn idx flags)) -> nth_error flags idx = Some true ->
  nth_error (argnums_from i flags) a = Some (7 + i + idx).
Proof.
  induction flags as [|f flags IH]; intros i a idx Ha Hf; [destruct idx; discriminate Hf|].
  destruct idx as [|idx].
  - cbn in Hf. injection Hf as ->. cbn in Ha. subst a. cbn [argnums_from]. cbn [nth_error]. f_equal. lia.
  - cbn [nth_error] in Hf. cbn [firstn filter] in Ha. destruct f; cbn [argnums_from]; cbn [length] in Ha.
    + subst a. cbn [nth_error]. rewrite (IH (S i) _ idx eq_refl Hf). f_equal. lia.
    + rewrite (IH (S i) a idx Ha Hf). f_equal. lia.
Qed.

Lemma apply_updates_spec flags : forall (adams : list OS) (dparams : list G) idx r, length flags = length adams ->
  apply_updates update flags adams dparams idx = Ok r ->
  length r = length adams /\
  forall i s, nth_error adams i = Some s ->
    (nth_error flags i = Some false -> nth_error r i = Some s) /\
    (nth_error flags i = Some true -> exists d, nth_error dparams (idx + length (filter (fun f : bool => f) (firstn i flags))) = Some d /\ nth_error r i = Some (update d s)).
Proof.
  induction flags as [|f flags IH]; intros [|s adams] dparams idx r Hl H; cbn [apply_updates] in H; try discriminate Hl.
  - injection H as <-. split; [reflexivity|]. intros [|i] s Hs; discriminate Hs.
  - cbn in Hl. injection Hl as Hl. destruct f.
    + destruct (nth_error dparams idx) as [d|] eqn:Ed; [|discriminate H]. apply rbind_ok in H as (r' & Hr & H). injection H as <-.
      destruct (IH _ _ _ _ Hl Hr) as [HL HI]. split; [cbn; congruence|]. intros [|i] s' Hs'; cbn in Hs'.
      * injection Hs' as <-. split; [discriminate|]. intros _. exists d. cbn. rewrite Nat.add_0_r. auto.
      * destruct (HI i s' Hs') as [H1 H2]. split; [exact H1|]. intros Hf. cbn [nth_error] in Hf. destruct (H2 Hf) as (d' & Hd' & Hr').
        exists d'. cbn [firstn filter length nth_error]. rewrite Nat.add_succ_r. auto.
    + apply rbind_ok in H as (r' & Hr & H). injection H as <-.
      destruct (IH _ _ _ _ Hl Hr) as [HL HI]. split; [cbn; congruence|]. intros [|i] s' Hs'; cbn in Hs'.
      * injection Hs' as <-. split; [reflexivity|discriminate].
      * destruct (HI i s' Hs') as [H1 H2]. split; [exact H1|]. intros Hf. cbn [nth_error] in Hf. destruct (H2 Hf) as (d' & Hd' & Hr').
        exists d'. cbn [firstn filter length nth_error]. auto.
Qed.

Theorem train_step_spec flags epoch b adams st rng adams' st' rng' : length flags = length adams ->
  step flags epoch b (adams, st, rng) = Ok (adams', st', rng') ->
  exists rng1 g, split2 rng = (rng', rng1) /\ dloss epoch b true st rng1 (map ox adams) = Ok (g, st') /\
    length adams' = length adams /\
    forall i s, nth_error adams i = Some s ->
      (nth_error flags i = Some false -> nth_error adams' i = Some s) /\
      (nth_error flags i = Some true -> nth_error adams' i = Some (update (g (7 + i)) s)).
Proof.
  intros Hl H. unfold train_step in H. destruct (split2 rng) as [nr r1] eqn:Es. unfold grad_loss_fn in H.
  apply rbind_ok in H as ([dp st1] & Hg & H). apply rbind_ok in Hg as ([g st2] & Hg & E). injection E as <- <-.
  apply rbind_ok in H as (ad & Ha & H). injection H as <- <- <-. exists r1, g. split; [reflexivity|]. split; [exact Hg|].
  destruct (apply_updates_spec _ _ _ _ _ Hl Ha) as [HL HI]. split; [exact HL|]. intros i s Hs. destruct (HI i s Hs) as [H1 H2].
  split; [exact H1|]. intros Hf. destruct (H2 Hf) as (d & Hd & Hr). cbn [Nat.add] in Hd. rewrite nth_error_map in Hd.
  unfold trainable_argnums in Hd. rewrite (argnums_nth flags 0 _ i eq_refl Hf) in Hd. cbn [option_map] in Hd. injection Hd as <-.
  exact Hr.
Qed.

Lemma steps_length flags epoch bs c c' : length flags = length (fst (fst c)) ->
  steps (fun b s s' => step flags epoch b s = Ok s') bs c c' -> length (fst (fst c')) = length flags.
Proof.
  intros Hl H. revert Hl. induction H as [s|b bs s s1 s2 H1 H IH]; intros Hl; [congruence|].
  apply IH. destruct s as [[a st] r]. destruct s1 as [[a1 st1] r1]. cbn in *.
  destruct (train_step_spec _ _ _ _ _ _ _ _ _ Hl H1) as (_ & _ & _ & _ & HL & _). congruence.
Qed.

(** an invariant of the optimizer state at position [i] over the steps of an epoch *)
Lemma steps_frozen flags epoch bs c c' : length flags = length (fst (fst c)) ->
  steps (fun b s s' => step flags epoch b s = Ok s') bs c c' ->
  forall i, nth_error flags i = Some false -> nth_error (fst (fst c')) i = nth_error (fst (fst c)) i.
Proof.
  intros Hl H. revert Hl. induction H as [s|b bs s s1 s2 H1 H IH]; intros Hl i Hi; [reflexivity|].
  destruct s as [[a st] r]. destruct s1 as [[a1 st1] r1]. cbn in *.
  destruct (train_step_spec _ _ _ _ _ _ _ _ _ Hl H1) as (rr & gg & _ & _ & HL & HI).
  rewrite IH by (try assumption; congruence).
  destruct (nth_error a i) as [s|] eqn:Es.
  - apply HI; assumption.
  - apply nth_error_None in Es. apply nth_error_None. lia.
Qed.

Lemma steps_counter flags epoch inc bs c c' : length flags = length (fst (fst c)) ->
  (forall d s, oi (update d s) = oi s + inc) ->
  steps (fun b s s' => step flags epoch b s = Ok s') bs c c' ->
  forall i, nth_error flags i = Some true ->
    option_map oi (nth_error (fst (fst c')) i) = option_map (fun s => oi s + inc * length bs) (nth_error (fst (fst c)) i).
Proof.
  intros Hl Hu H. revert Hl. induction H as [s|b bs s s1 s2 H1 H IH]; intros Hl i Hi.
  - destruct (nth_error (fst (fst s)) i); cbn; [f_equal; lia|reflexivity].
  - destruct s as [[a st] r]. destruct s1 as [[a1 st1] r1]. cbn [fst snd] in *.
    destruct (train_step_spec _ _ _ _ _ _ _ _ _ Hl H1) as (rr & gg & _ & _ & HL & HI).
    rewrite IH by (try assumption; congruence).
    destruct (nth_error a i) as [s|] eqn:Es.
    + rewrite (proj2 (HI i s Es) Hi). cbn. rewrite Hu. f_equal. lia.
    + apply nth_error_None in Es. rewrite (proj2 (nth_error_None a1 i)) by lia. reflexivity.
Qed.

(** *** over whole epochs *)
Definition keeps_frozen (cf : settings) : Prop :=
  forall rng epoch (ps : list P) i, length (snd (@c_callback P Rng F cf rng epoch ps)) = length ps /\
    (nth_error (c_flags cf) i = Some false -> nth_error (snd (c_callback cf rng epoch ps)) i = nth_error ps i).

Lemma zip_with_nth {A B C} (f : A -> B -> C) l : forall m i a b, nth_error l i = Some a -> nth_error m i = Some b ->
  nth_error (zip_with f l m) i = Some (f a b).
Proof.
  induction l as [|x l IH]; intros [|y m] [|i] a b Ha Hb; cbn in *; try discriminate; [congruence|]. apply IH; assumption.
Qed.
Lemma zip_with_length {A B C} (f : A -> B -> C) l : forall m, length l = length m -> length (zip_with f l m) = length l.
Proof. induction l as [|x l IH]; intros [|y m] H; cbn in *; try discriminate; [reflexivity|]. f_equal. apply IH. congruence. Qed.

Lemma after_epoch_spec cf rng epoch (adams : list OS) (st : MSt) mrng rng' c' :
  length (c_flags cf) = length adams -> length (snd (@c_callback P Rng F cf rng epoch (map ox adams))) = length adams ->
  after_epoch cf rng epoch (adams, st, mrng) = (rng', c') ->
  exists adams' : list OS, c' = (adams', st, mrng) /\ length adams' = length adams /\
    forall i s f p, nth_error adams i = Some s -> nth_error (c_flags cf) i = Some f ->
      nth_error (snd (c_callback cf rng epoch (map ox adams))) i = Some p ->
      nth_error adams' i = Some (mk_ostate p (omv s) (oi s + if f then 1 else 0)).
Proof.
  intros Hl Hc H. unfold after_epoch in H. destruct (c_callback cf rng epoch (map ox adams)) as [r ps]. cbn [snd] in *.
  injection H as _ <-. eexists. split; [reflexivity|]. split.
  - rewrite zip_with_length; rewrite ?zip_with_length; congruence.
  - intros i s f p Hs Hf Hp. erewrite zip_with_nth; [|exact Hf|eapply zip_with_nth; eassumption]. destruct f; reflexivity.
Qed.

(** whatever the data: an epoch is a sequence of steps *)
Definition steps_per_epoch (n bs : nat) : nat := n / bs + if n mod bs =? 0 then 0 else 1.

Lemma rfold_any {B St} (get : nat -> result B) (g : B -> St -> result St) js : forall c c',
  rfold (fun c j => let* b := get j in g b c) js c = Ok c' ->
  exists bs, length bs = length js /\ steps (fun b s s' => g b s = Ok s') bs c c'.
Proof.
  induction js as [|j js IH]; intros c c' H; cbn [rfold] in H.
  - injection H as <-. exists []. split; [reflexivity|constructor].
  - apply rbind_ok in H as (c1 & H1 & H). apply rbind_ok in H1 as (b & _ & H1). destruct (IH _ _ H) as (bs & Hl & Hs).
    exists (b :: bs). split; [cbn; congruence|]. econstructor; eassumption.
Qed.

Lemma epoch_steps_any (perm : Rng -> nat -> list nat) flags bs D key epoch c c' :
  epoch_steps update dloss split2 perm flags bs D key epoch c = Ok c' ->
  exists n l, num_rows D = Ok n /\ length l = steps_per_epoch n bs /\ steps (fun b s s' => step flags epoch b s = Ok s') l c c'.
Proof.
  intros H. unfold epoch_steps in H. apply rbind_ok in H as (n & Hn & H). destruct (bs =? 0); [discriminate H|].
  apply rbind_ok in H as (D' & _ & H). apply rbind_ok in H as (c1 & Hc & H).
  destruct (rfold_any (fun j => get_batch D' bs j None) (fun b c => step flags epoch b c) _ _ _ Hc) as (l & Hl & Hs).
  rewrite seq_length in Hl. unfold steps_per_epoch. exists n.
  destruct (Nat.ltb_spec 0 (n mod bs)) as [Hm|Hm].
  - apply rbind_ok in H as (b & _ & H). exists (l ++ [b]). split; [exact Hn|]. split.
    + rewrite app_length, Hl. destruct (Nat.eqb_spec (n mod bs) 0); [lia|reflexivity].
    + apply steps_app. exists c1. split; [exact Hs|]. econstructor; [exact H|constructor].
  - injection H as <-. exists l. split; [exact Hn|]. split; [|exact Hs]. destruct (Nat.eqb_spec (n mod bs) 0); lia.
Qed.

End Steps.

Section Epochs.
Context {S1 S2 S3 P G MV MSt Rng F : Type}.
Notation OS := (ostate P MV).
Context (update : G -> OS -> OS)
  (dloss : nat -> dataset S1 S2 S3 -> bool -> MSt -> Rng -> list P -> result ((nat -> G) * MSt))
  (vloss : nat -> dataset S1 S2 S3 -> MSt -> Rng -> list P -> result F)
  (split2 : Rng -> Rng * Rng) (perm : Rng -> nat -> list nat)
  (fzero : F) (fadd : F -> F -> F) (fdivn : F -> nat -> F).
Notation step := (train_step update dloss split2).
Notation erel := (epoch_rel update dloss vloss split2 perm fzero fadd fdivn).

Lemma epoch_frozen cf D DV e s k s' i : keeps_frozen cf -> length (c_flags cf) = length (fst (fst (snd s))) ->
  erel cf D DV e s k s' -> nth_error (c_flags cf) i = Some false ->
  length (fst (fst (snd s'))) = length (c_flags cf) /\
  nth_error (fst (fst (fst k))) i = nth_error (fst (fst (snd s))) i /\
  nth_error (fst (fst (snd s'))) i = nth_error (fst (fst (snd s))) i.
Proof.
  intros Hk Hl (rng1 & Hw & Ha) Hi. destruct s as [r0 c0]. cbn [fst snd] in Hw, Hl |- *. unfold epoch_work in Hw. destruct (split2 r0) as [r1 k1].
  apply rbind_ok in Hw as (c1 & Hs & Hw). destruct c1 as [[a1 st1] m1]. destruct (split2 r1) as [r2 k2].
  apply rbind_ok in Hw as (v & Hv & Hw). injection Hw as -> Ek _.
  destruct (epoch_steps_any _ _ _ _ _ _ _ _ _ _ _ Hs) as (n & l & _ & _ & Hst).
  pose proof (steps_length _ _ _ _ _ _ _ _ Hl Hst) as Hl1. pose proof (steps_frozen _ _ _ _ _ _ _ _ Hl Hst i Hi) as Hf. cbn [fst] in Hl1, Hf.
  destruct k as [[[ka ks] km] kv]. cbn [fst snd] in *. injection Ek as <- <- <-.
  destruct s' as [r' c']. pose proof (Hk rng1 e (map ox a1) i) as [Hc1 Hc2]. rewrite map_length in Hc1.
  destruct (after_epoch_spec _ _ _ _ _ _ _ _ (eq_sym Hl1) Hc1 Ha) as (a' & -> & Hl' & HI). cbn [fst snd].
  split; [congruence|]. split; [exact Hf|]. rewrite <- Hf.
  destruct (nth_error a1 i) as [x|] eqn:Ex.
  - specialize (Hc2 Hi). rewrite nth_error_map, Ex in Hc2. cbn in Hc2.
    rewrite (HI i x false (ox x) Ex Hi Hc2). rewrite Nat.add_0_r. destruct x; reflexivity.
  - apply nth_error_None in Ex. apply nth_error_None. lia.
Qed.

Lemma history_frozen cf D DV i : keeps_frozen cf -> nth_error (c_flags cf) i = Some false ->
  forall e s ks s', history (erel cf D DV) e s ks s' -> length (c_flags cf) = length (fst (fst (snd s))) ->
  nth_error (fst (fst (snd s'))) i = nth_error (fst (fst (snd s))) i /\
  Forall (fun k => nth_error (fst (fst (fst k))) i = nth_error (fst (fst (snd s))) i) ks.
Proof.
  intros Hk Hi. induction 1 as [e s|e s k s1 ks s2 H0 H IH]; intros Hl; [split; [reflexivity|constructor]|].
  destruct (epoch_frozen _ _ _ _ _ _ _ _ Hk Hl H0 Hi) as (Hl1 & H1 & H2). destruct (IH (eq_sym Hl1)) as (H3 & H4).
  split; [etransitivity; [exact H3|exact H2]|]. constructor; [exact H1|].
  eapply Forall_impl; [|exact H4]. intros k' Hk'. etransitivity; [exact Hk'|exact H2].
Qed.

Theorem train_frozen (fsub : F -> F -> F) (flt fle : F -> F -> bool) isnan cf D DV rng start adams st0 rng0 c' fe bv be i :
  fl_order isnan flt fle -> keeps_frozen cf -> length (c_flags cf) = length adams -> nth_error (c_flags cf) i = Some false ->
  train_loop update dloss vloss split2 perm fzero fadd fsub fdivn flt fle cf D DV rng start adams st0 rng0 = Ok (c', fe, bv, be) ->
  nth_error (fst (fst c')) i = nth_error adams i.
Proof.
  intros HO Hk Hl Hi H. destruct (train_spec _ _ _ _ _ _ _ _ _ _ _ _ HO _ _ _ _ _ _ _ _ _ _ _ _ H)
    as (mrng & key & v0 & ks & s' & _ & _ & Hh & _ & (j & _ & Hj & _) & _).
  destruct (history_frozen _ _ _ i Hk Hi _ _ _ _ Hh Hl) as [_ HF]. cbn [fst snd] in HF.
  destruct j as [|j]; cbn in Hj; [injection Hj as <- _; reflexivity|].
  apply nth_error_In in Hj. rewrite Forall_forall in HF. apply (HF _ Hj).
Qed.

(** *** counters *)
Definition keeps_length (cf : settings) : Prop :=
  forall rng epoch (ps : list P), length (snd (@c_callback P Rng F cf rng epoch ps)) = length ps.

Lemma epoch_counter cf D DV e s k s' i n inc : keeps_length cf -> length (c_flags cf) = length (fst (fst (snd s))) ->
  num_rows D = Ok n -> (forall d x, oi (update d x) = oi x + inc) ->
  erel cf D DV e s k s' -> nth_error (c_flags cf) i = Some true ->
  length (fst (fst (snd s'))) = length (c_flags cf) /\
  option_map oi (nth_error (fst (fst (fst k))) i) =
    option_map (fun x => oi x + inc * steps_per_epoch n (c_batch cf)) (nth_error (fst (fst (snd s))) i) /\
  option_map oi (nth_error (fst (fst (snd s'))) i) =
    option_map (fun x => oi x + (inc * steps_per_epoch n (c_batch cf) + 1)) (nth_error (fst (fst (snd s))) i).
Proof.
  intros Hk Hl Hn Hu (rng1 & Hw & Ha) Hi. destruct s as [r0 c0]. cbn [fst snd] in Hw, Hl |- *. unfold epoch_work in Hw. destruct (split2 r0) as [r1 k1].
  apply rbind_ok in Hw as (c1 & Hs & Hw). destruct c1 as [[a1 st1] m1]. destruct (split2 r1) as [r2 k2].
  apply rbind_ok in Hw as (v & Hv & Hw). injection Hw as -> Ek _.
  destruct (epoch_steps_any _ _ _ _ _ _ _ _ _ _ _ Hs) as (n' & l & Hn' & Hll & Hst). rewrite Hn in Hn'. injection Hn' as <-.
  pose proof (steps_length _ _ _ _ _ _ _ _ Hl Hst) as Hl1. pose proof (steps_counter _ _ _ _ _ inc _ _ _ Hl Hu Hst i Hi) as Hf. cbn [fst] in Hl1, Hf.
  rewrite Hll in Hf.
  destruct k as [[[ka ks] km] kv]. cbn [fst snd] in *. injection Ek as <- <- <-.
  destruct s' as [r' c']. pose proof (Hk rng1 e (map ox a1)) as Hc1. rewrite map_length in Hc1.
  destruct (after_epoch_spec _ _ _ _ _ _ _ _ (eq_sym Hl1) Hc1 Ha) as (a' & -> & Hl' & HI). cbn [fst snd].
  split; [congruence|]. split; [exact Hf|].
  destruct (nth_error a1 i) as [x|] eqn:Ex; cbn [option_map] in Hf.
  - destruct (nth_error (snd (c_callback cf rng1 e (map ox a1))) i) as [p|] eqn:Ep.
    + rewrite (HI i x true p Ex Hi Ep). cbn [option_map oi]. destruct (nth_error (fst (fst c0)) i); cbn [option_map] in *; [|discriminate].
      injection Hf as ->. f_equal. lia.
    + apply nth_error_None in Ep. assert (i < length a1) by (apply nth_error_Some; congruence). lia.
  - apply nth_error_None in Ex. rewrite (proj2 (nth_error_None a' i)) by lia.
    rewrite (proj2 (nth_error_None (fst (fst c0)) i)) by lia. reflexivity.
Qed.

Lemma om_trans (o o1 o2 : option OS) a b c : option_map oi o1 = option_map (fun x => oi x + a) o ->
  option_map oi o2 = option_map (fun x => oi x + b) o1 -> c = a + b -> option_map oi o2 = option_map (fun x => oi x + c) o.
Proof.
  intros H1 H2 ->. destruct o, o1, o2; cbn [option_map] in *; try discriminate; [|reflexivity].
  injection H1 as H1. injection H2 as ->. rewrite H1. f_equal. lia.
Qed.

Lemma history_counter cf D DV i n inc : keeps_length cf -> num_rows D = Ok n -> (forall d x, oi (update d x) = oi x + inc) ->
  nth_error (c_flags cf) i = Some true ->
  forall e s ks s', history (erel cf D DV) e s ks s' -> length (c_flags cf) = length (fst (fst (snd s))) ->
  option_map oi (nth_error (fst (fst (snd s'))) i) =
    option_map (fun x => oi x + length ks * (inc * steps_per_epoch n (c_batch cf) + 1)) (nth_error (fst (fst (snd s))) i) /\
  forall j k, nth_error ks j = Some k ->
    option_map oi (nth_error (fst (fst (fst k))) i) =
      option_map (fun x => oi x + (j * (inc * steps_per_epoch n (c_batch cf) + 1) + inc * steps_per_epoch n (c_batch cf)))
        (nth_error (fst (fst (snd s))) i).
Proof.
  intros Hk Hn Hu Hi. induction 1 as [e s|e s k s1 ks s2 H0 H IH]; intros Hl.
  - split; [|intros [|j] k Hj; discriminate Hj].
    assert (G0 : forall o : option OS, option_map oi o = option_map (fun x => oi x + 0) o) by (intros [x|]; cbn [option_map]; [rewrite Nat.add_0_r|]; reflexivity).
    apply G0.
  - destruct (epoch_counter _ _ _ _ _ _ _ _ _ _ Hk Hl Hn Hu H0 Hi) as (Hl1 & H1 & H2). destruct (IH (eq_sym Hl1)) as (H3 & H4).
    split.
    + eapply om_trans; [exact H2|exact H3|]. cbn [length]. lia.
    + intros [|j] k' Hj; cbn [nth_error] in Hj.
      * injection Hj as <-. exact H1.
      * eapply om_trans; [exact H2|exact (H4 j k' Hj)|]. lia.
Qed.

End Epochs.

Section Vals.
Context {S1 S2 S3 P MSt Rng F : Type}.
Context (vloss : nat -> dataset S1 S2 S3 -> MSt -> Rng -> list P -> result F)
  (perm : Rng -> nat -> list nat) (fzero : F) (fadd : F -> F -> F) (fdivn : F -> nat -> F).
(** *** validation loss over the batches *)
Fixpoint fold_vals (total : nat) (vs : list F) (acc : F) : F :=
  match vs with [] => acc | v :: vs' => fold_vals total vs' (fadd acc (fdivn v total)) end.

Lemma fold_vals_app total vs : forall ws acc, fold_vals total (vs ++ ws) acc = fold_vals total ws (fold_vals total vs acc).
Proof. induction vs as [|v vs IH]; intros ws acc; cbn; [reflexivity|apply IH]. Qed.

Lemma rfold_vals n D' bs total epoch st mrng ps js : good_data n D' -> (forall j, In j js -> j * bs + bs <= n) -> forall acc v,
  rfold (fun acc j => let* b := get_batch D' bs j None in let* v := vloss epoch b st mrng ps in Ok (fadd acc (fdivn v total))) js acc = Ok v ->
  exists vs, Forall2 (fun b w => vloss epoch b st mrng ps = Ok w) (map (fun j => drows (j * bs) bs D') js) vs /\ v = fold_vals total vs acc.
Proof.
  intros HD. induction js as [|j js IH]; intros Hj acc v H; cbn [rfold] in H.
  - injection H as <-. exists []. split; [constructor|reflexivity].
  - rewrite (get_batch_ok n) in H by (try exact HD; apply Hj; left; reflexivity). cbn [rbind] in H.
    apply rbind_ok in H as (acc1 & H1 & H). apply rbind_ok in H1 as (w & Hw & H1). injection H1 as <-.
    destruct (IH (fun j' Hj' => Hj j' (or_intror Hj')) _ _ H) as (vs & Hvs & ->). exists (w :: vs). split; [constructor; assumption|reflexivity].
Qed.

Theorem val_loss_spec n bs D key ps st mrng epoch v : good_data n D -> Permutation (perm key n) (seq 0 n) -> 1 <= bs ->
  batched_val_loss vloss perm fzero fadd fdivn bs D ps st mrng key epoch = Ok v ->
  exists D' vs, reordered n D D' /\
    Forall2 (fun b w => vloss epoch b st mrng ps = Ok w) (dslices 0 (sizes_of n bs false) D') vs /\
    v = fold_vals (length vs) vs fzero.
Proof.
  intros HD Hp H1 H. unfold batched_val_loss in H.
  assert (En : num_rows D = Ok n).
  { destruct D as [[X Y] U]. destruct HD as (HPX & HX & _). apply populated_first; assumption. }
  rewrite En in H. cbn [rbind] in H. destruct (Nat.eqb_spec bs 0); [lia|].
  destruct (shuffle_ok perm n D key Hp HD) as (D' & ED & HR). rewrite ED in H. cbn [rbind] in H.
  apply rbind_ok in H as (m & Hm & H). destruct HR as (HR1 & HD' & HR2).
  pose proof (Nat.div_mod n bs ltac:(lia)) as Hd.
  set (total := n / bs + (if 0 <? n mod bs then 1 else 0)) in *.
  destruct (rfold_vals n D' bs total epoch st mrng ps (seq 0 (n / bs)) HD') with (2 := Hm) as (vs & Hvs & ->).
  { intros j Hj. apply in_seq in Hj. nia. }
  pose proof (Forall2_len _ _ _ Hvs) as Hlen. rewrite map_length, seq_length in Hlen.
  exists D'. unfold sizes_of. rewrite dslices_app, dslices_repeat, list_sum_repeat. cbn [Nat.add].
  destruct (Nat.ltb_spec 0 (n mod bs)) as [Hr|Hr].
  - destruct (Nat.eqb_spec (n mod bs) 0); [lia|]. rewrite (get_batch_ok n) in H by (try exact HD'; lia). cbn [rbind] in H.
    apply rbind_ok in H as (w & Hw & H). injection H as <-. exists (vs ++ [w]). split; [split; [exact HR1|split; assumption]|]. split.
    + apply Forall2_app; [exact Hvs|]. cbn [dslices]. constructor; [exact Hw|constructor].
    + rewrite fold_vals_app, app_length, <- Hlen. cbn [fold_vals length]. reflexivity.
  - destruct (Nat.eqb_spec (n mod bs) 0); [|lia]. injection H as <-. cbn [dslices]. rewrite app_nil_r. exists vs.
    split; [split; [exact HR1|split; assumption]|]. split; [exact Hvs|]. subst total. rewrite <- Hlen, Nat.add_0_r. reflexivity.
Qed.
End Vals.

(** *** mean losses *)
Local Open Scope Q_scope.
Fixpoint qsum (l : list Q) : Q := match l with [] => 0 | x :: l' => x + qsum l' end.
(** the loss of a batch of [k] samples is the mean of the losses of its samples *)
Definition mean_of {A} (ell : A -> Q) (l : list A) : Q := qsum (map ell l) / inject_Z (Z.of_nat (length l)).

Lemma qsum_app l m : qsum (l ++ m) == qsum l + qsum m.
Proof. induction l as [|x l IH]; cbn [app qsum]; [ring|]. rewrite IH. ring. Qed.
Lemma qsum_perm l m : Permutation l m -> qsum l == qsum m.
Proof.
  induction 1 as [|x l m H IH|x y l|l m k H1 IH1 H2 IH2]; cbn [qsum].
  - reflexivity.
  - rewrite IH. reflexivity.
  - ring.
  - rewrite IH1. exact IH2.
Qed.

Lemma nat_neq0 (k : nat) : (1 <= k)%nat -> ~ inject_Z (Z.of_nat k) == 0.
Proof. intros H E. unfold Qeq in E. cbn in E. lia. Qed.

Lemma fold_vals_sum total vs : forall acc,
  fold_vals Qplus (fun v k => v / inject_Z (Z.of_nat k)) total vs acc == acc + qsum vs / inject_Z (Z.of_nat total).
Proof.
  induction vs as [|v vs IH]; intros acc; cbn [fold_vals qsum].
  - unfold Qdiv. ring.
  - rewrite IH. unfold Qdiv. ring.
Qed.

Lemma dsample_drows {S1 S2 S3} lo k (D : dataset S1 S2 S3) i : (i < k)%nat -> dsample (drows lo k D) i = dsample D (lo + i).
Proof.
  destruct D as [[X Y] U]. intros Hi. unfold dsample, drows. f_equal; [f_equal|].
  - apply sample_rows; assumption.
  - destruct Y as [y|]; cbn; [|reflexivity]. f_equal. apply sample_rows; assumption.
  - destruct U as [y|]; cbn; [|reflexivity]. f_equal. apply sample_rows; assumption.
Qed.
Lemma good_drows {S1 S2 S3} n lo k (D : dataset S1 S2 S3) : good_data n D -> (lo + k <= n)%nat -> good_data k (drows lo k D).
Proof.
  destruct D as [[X Y] U]. intros ((x & Hx) & HX & HY & HU) Hk. cbn. split; [|split; [|split]].
  - exists (firstn k (skipn lo x)). apply has_leaf_tmap. exists x. auto.
  - eapply uniform_rows; eassumption.
  - intros y Ey. destruct Y as [y0|]; [|discriminate Ey]. injection Ey as <-. eapply uniform_rows; [apply HY; reflexivity|exact Hk].
  - intros y Ey. destruct U as [y0|]; [|discriminate Ey]. injection Ey as <-. eapply uniform_rows; [apply HU; reflexivity|exact Hk].
Qed.

Lemma map_dsample_drows {S1 S2 S3} lo k (D : dataset S1 S2 S3) :
  map (dsample (drows lo k D)) (seq 0 k) = map (dsample D) (seq lo k).
Proof.
  replace (seq lo k) with (map (Nat.add lo) (seq 0 k)).
  - rewrite map_map. apply map_ext_in. intros i Hi. apply in_seq in Hi. apply dsample_drows. lia.
  - clear. revert lo. induction k as [|k IH]; intros lo; [reflexivity|]. cbn [seq map]. f_equal; [lia|].
    rewrite <- seq_shift, map_map, <- (IH (S lo)). apply map_ext. intros; lia.
Qed.

Section Mean.
Context {S1 S2 S3 : Type} {P MSt Rng : Type}.
Context (vloss : nat -> dataset S1 S2 S3 -> MSt -> Rng -> list P -> result Q)
  (perm : Rng -> nat -> list nat).
Notation smp := (tree (option S1) * option (tree (option S2)) * option (tree (option S3)))%type.

(** the loss of a batch is the mean of the losses of its samples *)
Definition mean_loss (ell : smp -> Q) (loss : dataset S1 S2 S3 -> result Q) : Prop :=
  forall k b w, (1 <= k)%nat -> good_data k b -> loss b = Ok w -> w == mean_of ell (map (dsample b) (seq 0 k)).

Lemma mean_slices ell loss bs D : mean_loss ell loss -> (1 <= bs)%nat -> forall m lo n vs, good_data n D -> (lo + m * bs <= n)%nat ->
  Forall2 (fun b w => loss b = Ok w) (dslices lo (repeat bs m) D) vs ->
  qsum vs == qsum (map ell (map (dsample D) (seq lo (m * bs)))) / inject_Z (Z.of_nat bs).
Proof.
  intros HM Hbs. induction m as [|m IH]; intros lo n vs HD Hn H; cbn [repeat dslices] in H.
  - inversion H; subst. cbn. unfold Qdiv. ring.
  - inversion H as [|b w bl wl Hw Hwl]; subst. cbn [qsum].
    pose proof (IH (lo + bs)%nat n wl HD ltac:(lia) Hwl) as E. rewrite E.
    rewrite (HM bs _ _ Hbs (good_drows n lo bs D HD ltac:(lia)) Hw). unfold mean_of.
    rewrite map_length, seq_length, map_dsample_drows. cbn [Nat.mul]. rewrite seq_app, !map_app, qsum_app. unfold Qdiv. ring.
Qed.

Theorem val_loss_mean ell n bs D key ps st mrng epoch v :
  mean_loss ell (fun b => vloss epoch b st mrng ps) ->
  good_data n D -> Permutation (perm key n) (seq 0 n) -> (1 <= n)%nat -> (1 <= bs)%nat -> (n mod bs = 0)%nat ->
  batched_val_loss vloss perm 0 Qplus (fun v k => v / inject_Z (Z.of_nat k)) bs D ps st mrng key epoch = Ok v ->
  v == mean_of ell (map (dsample D) (seq 0 n)).
Proof.
  intros HM HD Hp Hn Hbs Hdiv H.
  epose proof (val_loss_spec vloss _ _ _ _ n bs D key ps st mrng epoch v HD Hp Hbs H) as HV; destruct HV as (D' & vs & (_ & HD' & HR) & Hvs & ->).
  pose proof (Nat.div_mod n bs ltac:(lia)) as Hd. rewrite Hdiv, Nat.add_0_r in Hd.
  unfold sizes_of in Hvs. rewrite Hdiv in Hvs. cbn [Nat.eqb] in Hvs. rewrite app_nil_r in Hvs.
  pose proof (Forall2_len _ _ _ Hvs) as Hl. rewrite dslices_repeat, map_length, seq_length in Hl.
  rewrite fold_vals_sum.
  rewrite (mean_slices ell _ bs D' HM Hbs (n / bs) 0 n vs HD' ltac:(cbn; lia) Hvs).
  unfold mean_of. rewrite map_length, seq_length, <- Hl.
  replace (n / bs * bs)%nat with n by lia.
  rewrite (qsum_perm _ _ (Permutation_map ell HR)).
  assert (E : inject_Z (Z.of_nat n) == inject_Z (Z.of_nat bs) * inject_Z (Z.of_nat (n / bs))).
  { rewrite <- inject_Z_mult, <- Nat2Z.inj_mul, <- Hd. reflexivity. }
  rewrite E. field. split; apply nat_neq0; [|lia].
  destruct (n / bs)%nat; lia.
Qed.
End Mean.
