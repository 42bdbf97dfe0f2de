(** Property C128: the callback of a training.  The callback gets the parameters
    after every epoch and returns the parameters to go on with (training.py
    L490-493, L1033-1049); its use is to keep the parameters within some set
    (projections, normalisations). *)
From Coq Require Import ZArith QArith.
From Verif Require Import Base BaseLemmas TreeUtil NonSeqSpec Batch BatchSpec Train TrainSpec TrainProofs TrainSteps TrainTotal Props_Train.
Local Open Scope nat_scope.
Local Open Scope list_scope.

(** the parameters in a checkpoint *)
Definition params {P MV MSt Rng} (c : @carry P MV MSt Rng) : list P := map ox (fst (fst c)).
(** whatever it is called with, the callback answers with [n] parameters of the set *)
Definition enforces {P Rng} (Good : list P -> Prop) (n : nat) (cb : Rng -> nat -> list P -> Rng * list P) : Prop :=
  forall r e ps, length ps = n -> Good (snd (cb r e ps)) /\ length (snd (cb r e ps)) = n.

Section Callback.
Context {S1 S2 S3 P G MV MSt Rng F : Type}.
Notation OS := (ostate P MV).
Context (update : G -> OS -> OS)
  (dloss : nat -> dataset S1 S2 S3 -> bool -> MSt -> Rng -> list P -> result ((nat -> G) * MSt))
  (vloss : nat -> dataset S1 S2 S3 -> MSt -> Rng -> list P -> result F)
  (split2 : Rng -> Rng * Rng) (perm : Rng -> nat -> list nat)
  (fzero : F) (fadd fsub : F -> F -> F) (fdivn : F -> nat -> F) (flt fle : F -> F -> bool).
Notation E := (epoch_rel update dloss vloss split2 perm fzero fadd fdivn).

(** *** the state after the callback has the callback's parameters *)
Lemma increment_params (fl : list bool) : forall l : list OS, length fl = length l ->
  map ox (zip_with (fun (f : bool) s => increment_epoch (if f then 1 else 0) s) fl l) = map ox l.
Proof.
  induction fl as [|f fl IH]; intros [|s l] H; cbn in *; try discriminate; [reflexivity|]. f_equal. apply IH. congruence.
Qed.
Lemma direct_params (ps : list P) : forall l : list OS, length ps = length l ->
  map ox (zip_with update_params_direct ps l) = ps.
Proof. induction ps as [|p ps IH]; intros [|s l] H; cbn in *; try discriminate; [reflexivity|]. f_equal. apply IH. congruence. Qed.
Lemma after_params (cf : settings) rng e (c : @carry P MV MSt Rng) n : length (fst (fst c)) = n -> length (c_flags cf) = n ->
  length (snd (@c_callback P Rng F cf rng e (params c))) = n ->
  params (snd (after_epoch cf rng e c)) = snd (c_callback cf rng e (params c)) /\ length (fst (fst (snd (after_epoch cf rng e c)))) = n.
Proof.
  intros Hc Hf Hn. destruct c as [[adams st] mrng]. unfold after_epoch, params in *. cbn [fst snd] in *.
  destruct (c_callback cf rng e (map ox adams)) as [r ps]. cbn [snd fst] in *.
  assert (L : length (zip_with update_params_direct ps adams) = n) by (rewrite zip_with_length; congruence).
  rewrite increment_params by congruence. rewrite direct_params by congruence. split; [reflexivity|].
  rewrite zip_with_length; congruence.
Qed.

(** *** an epoch keeps the number of parameters *)
Lemma epoch_length_gen flags epoch bs (D : dataset S1 S2 S3) key (c c' : carry) : length flags = length (fst (fst c)) ->
  epoch_steps update dloss split2 perm flags bs D key epoch c = Ok c' -> length (fst (fst c')) = length (fst (fst c)).
Proof.
  intros Hl H. unfold epoch_steps in H. apply rbind_ok in H as (n & _ & H). destruct (bs =? 0); [discriminate|].
  apply rbind_ok in H as (D' & _ & H). apply rbind_ok in H as (c1 & H1 & H).
  assert (ST : forall b (a a' : carry), length flags = length (fst (fst a)) -> train_step update dloss split2 flags epoch b a = Ok a' ->
    length (fst (fst a')) = length (fst (fst a))).
  { intros b [[a1 a2] a3] [[b1 b2] b3] Ha Hs. cbn [fst snd] in *. destruct (train_step_spec _ _ _ _ _ _ _ _ _ _ _ _ Ha Hs) as (r1 & g & _ & _ & L & _). exact L. }
  assert (L : length (fst (fst c1)) = length (fst (fst c))).
  { revert c Hl H1. induction (seq 0 (n / bs)) as [|j js IH]; intros c Hl H1; cbn in H1; [congruence|].
    apply rbind_ok in H1 as (a & Ha & H1). apply rbind_ok in Ha as (b & _ & Ha). pose proof (ST _ _ _ Hl Ha) as La.
    rewrite <- La. apply IH; [congruence|exact H1]. }
  destruct (0 <? n mod bs); [|congruence]. apply rbind_ok in H as (b & _ & H). rewrite <- L. apply (ST b); [congruence|exact H].
Qed.

Lemma epoch_rel_inv cf D DV e s k s' : E cf D DV e s k s' -> length (c_flags cf) = length (fst (fst (snd s))) ->
  length (fst (fst (fst k))) = length (fst (fst (snd s))) /\
  exists key, batched_val_loss vloss perm fzero fadd fdivn (c_val_batch cf) DV (params (fst k)) (snd (fst (fst k))) (snd (fst k)) key e = Ok (snd k).
Proof.
  intros (rng1 & H & _) Hl. unfold epoch_work in H. destruct (split2 (fst s)) as [r1 k1]. apply rbind_ok in H as (c1 & H1 & H).
  destruct c1 as [[adams st] mrng] eqn:Ec. destruct (split2 r1) as [r2 k2]. apply rbind_ok in H as (v & Hv & H). injection H as _ Hk Hv'.
  rewrite <- Hk, <- Hv'. split.
  - apply epoch_length_gen in H1; [exact H1|exact Hl].
  - exists k2. exact Hv.
Qed.

Section Enforced.
Context (Good : list P -> Prop) (cf : @settings P Rng F) (n : nat).
Context (HE : enforces Good n (c_callback cf)) (HF : length (c_flags cf) = n).

Lemma good_next D DV e s k s' : E cf D DV e s k s' -> length (fst (fst (snd s))) = n ->
  Good (params (snd s')) /\ length (fst (fst (snd s'))) = n.
Proof.
  intros HR Hn. destruct (epoch_rel_inv _ _ _ _ _ _ _ HR) as [L _]; [congruence|]. destruct HR as (rng1 & _ & <-).
  destruct (HE rng1 e (params (fst k))) as [G1 G2]; [unfold params; rewrite map_length; congruence|].
  destruct (after_params cf rng1 e (fst k) n) as [A B]; [congruence|exact HF|exact G2|]. rewrite A. split; assumption.
Qed.

Lemma good_history D DV e s ks s' : history (E cf D DV) e s ks s' -> Good (params (snd s)) -> length (fst (fst (snd s))) = n ->
  (forall ks1 k ks2, ks = ks1 ++ k :: ks2 -> exists s1 s2,
     history (E cf D DV) e s ks1 s1 /\ E cf D DV (e + length ks1) s1 k s2 /\ history (E cf D DV) (S (e + length ks1)) s2 ks2 s' /\
     Good (params (snd s1)) /\ length (fst (fst (snd s1))) = n) /\
  Good (params (snd s')).
Proof.
  intros H. induction H as [e c|e c k c1 ks c2 HR HH IH]; intros HG Hn.
  - split; [intros [|? ?] ? ? Hx; discriminate|exact HG].
  - destruct (good_next _ _ _ _ _ _ HR Hn) as [G1 N1]. destruct (IH G1 N1) as [IH1 IH2]. split; [|exact IH2].
    intros [|k1 ks1] k' ks2 Hx; cbn [app] in Hx.
    + injection Hx as <- <-. exists c, c1. split; [constructor|]. rewrite Nat.add_0_r.
      split; [exact HR|]. split; [exact HH|]. split; [exact HG|exact Hn].
    + injection Hx as <- Hx. destruct (IH1 _ _ _ Hx) as (s1 & s2 & A & B & C & D1 & D2). exists s1, s2. cbn [length].
      rewrite Nat.add_succ_r. split; [exact (h_cons _ _ _ _ _ _ _ HR A)|]. split; [exact B|]. split; [exact C|]. split; [exact D1|exact D2].
Qed.
End Enforced.

(** *** two callbacks that agree but for the last epoch allowed *)
Definition with_callback (cf : @settings P Rng F) (cb : Rng -> nat -> list P -> Rng * list P) : @settings P Rng F :=
  mk_settings (c_flags cf) (c_batch cf) (c_val_batch cf) (c_epochs cf) (c_target cf) (c_patience cf) (c_delta cf) (c_verbose cf) (c_kill cf) cb.

Definition outcome (t : @tstate P MV MSt Rng F) := (t_best t, t_epoch t, t_best_val t, t_best_epoch t).
Lemma loop_callback cf cb D DV : (forall r e ps, S e < c_epochs cf -> cb r e ps = c_callback cf r e ps) ->
  forall fuel t,
  rmap outcome (epoch_loop update dloss vloss split2 perm fzero fadd fsub fdivn flt fle fuel (with_callback cf cb) D DV t)
  = rmap outcome (epoch_loop update dloss vloss split2 perm fzero fadd fsub fdivn flt fle fuel cf D DV t).
Proof.
  intros A. induction fuel as [|fuel IH]; intros t; cbn [epoch_loop];
    change (epoch_cond flt (with_callback cf cb) t) with (epoch_cond flt cf t); [reflexivity|].
  destruct (epoch_cond flt cf t) eqn:Ec; [|reflexivity]. unfold epoch_body.
  change (epoch_work update dloss vloss split2 perm fzero fadd fdivn (with_callback cf cb)) with (epoch_work update dloss vloss split2 perm fzero fadd fdivn cf).
  destruct (epoch_work update dloss vloss split2 perm fzero fadd fdivn cf D DV (t_rng t) (t_epoch t) (t_carry t)) as [[[rng c] v]|er]; [|reflexivity].
  cbn [rbind]. change (c_delta (with_callback cf cb)) with (c_delta cf). change (c_patience (with_callback cf cb)) with (c_patience cf).
  set (pt := if fle v (fsub (t_best_val t) (c_delta cf)) then c_patience cf else (t_patience t - 1)%Z).
  destruct (if flt v (t_best_val t) then (v, t_epoch t, c) else (t_best_val t, t_best_epoch t, t_best t)) as [[bv be] bc].
  destruct (Nat.lt_ge_cases (S (t_epoch t)) (c_epochs cf)) as [L|L].
  - assert (EQ : after_epoch (with_callback cf cb) rng (t_epoch t) c = after_epoch cf rng (t_epoch t) c).
    { destruct c as [[adams st] mrng]. unfold after_epoch. cbn [c_callback c_flags with_callback]. rewrite A by exact L. reflexivity. }
    rewrite EQ. destruct (after_epoch cf rng (t_epoch t) c) as [r' c']. cbn [rbind]. apply IH.
  - destruct (after_epoch (with_callback cf cb) rng (t_epoch t) c) as [r1 c1]. destruct (after_epoch cf rng (t_epoch t) c) as [r2 c2]. cbn [rbind].
    assert (ST : forall r c0, epoch_loop update dloss vloss split2 perm fzero fadd fsub fdivn flt fle fuel cf D DV (mk_t r (t_epoch t + 1) c0 bc v bv be pt)
                   = Ok (mk_t r (t_epoch t + 1) c0 bc v bv be pt)).
    { intros r c0. destruct fuel; cbn [epoch_loop]; unfold epoch_cond; cbn [t_epoch];
        replace (t_epoch t + 1 <? c_epochs cf) with false by (symmetry; apply Nat.ltb_ge; lia); rewrite Bool.andb_false_r; reflexivity. }
    rewrite IH, !ST. reflexivity.
Qed.
End Callback.

(* ------------------------------------------------------------------ *)
(** C128: if the callback answers with parameters of some set and the initial ones
    are in it, every epoch starts in the set.  What is returned are the initial
    parameters or those at the end of an epoch before the callback got them; the
    validation loss that is reported is theirs. *)
Theorem C128_partial :
  forall S1 S2 S3 P G MV MSt Rng F (update : G -> ostate P MV -> ostate P MV)
    (dloss : nat -> dataset S1 S2 S3 -> bool -> MSt -> Rng -> list P -> result ((nat -> G) * MSt))
    (vloss : nat -> dataset S1 S2 S3 -> MSt -> Rng -> list P -> result F)
    split2 perm fzero fadd fsub fdivn flt fle isnan, fl_order isnan flt fle ->
  forall (Good : list P -> Prop) cf D DV rng start (adams : list (ostate P MV)) st0 rng0 c' fe bv be,
  enforces Good (length adams) (c_callback cf) -> length (c_flags cf) = length adams -> Good (map ox adams) ->
  train_loop update dloss vloss split2 perm fzero fadd fsub fdivn flt fle cf D DV rng start adams st0 rng0 = Ok (c', fe, bv, be) ->
  (exists key, batched_val_loss vloss perm fzero fadd fdivn (c_val_batch cf) DV (params c') (snd (fst c')) (snd c') key be = Ok bv) /\
  ((params c' = map ox adams /\ be = start) \/
   exists s s', epoch_rel update dloss vloss split2 perm fzero fadd fdivn cf D DV be s (c', bv) s' /\ start <= be < fe /\
     Good (params (snd s)) /\ Good (params (snd s'))).
Proof.
  intros * HO * HE HF HG H. destruct (train_spec _ _ _ _ _ _ _ _ _ _ _ _ HO _ _ _ _ _ _ _ _ _ _ _ _ H)
    as (mrng & key & v0 & ks & s' & Es & Hv & HH & Hfe & (i & _ & Hi & Hbe) & _).
  destruct i as [|i]; cbn [nth_error Nat.pred] in Hi, Hbe.
  - injection Hi as <- <-. rewrite Nat.add_0_r in Hbe. subst be. split; [exists key; exact Hv|]. left. split; reflexivity.
  - destruct (nth_error_split _ _ Hi) as (ks1 & ks2 & Hks & Hlen).
    destruct (good_history update dloss vloss split2 perm fzero fadd fdivn Good cf (length adams) HE HF D DV start (rng, (adams, st0, mrng)) ks s' HH HG eq_refl)
      as [HP _]. destruct (HP _ _ _ Hks) as (s1 & s2 & A & B & C & G1 & N1). assert (EB : start + @length (carry * F) ks1 = be) by (rewrite Hbe, <- Hlen; reflexivity).
    rewrite EB in B.
    destruct (epoch_rel_inv _ _ _ _ _ _ _ _ _ _ _ _ _ _ _ B) as [_ (k2 & K)]; [congruence|]. split; [exists k2; exact K|].
    right. exists s1, s2. split; [exact B|]. split.
    + rewrite Hfe, Hbe, Hks, app_length. cbn [length]. lia.
    + split; [exact G1|]. exact (proj1 (good_next update dloss vloss split2 perm fzero fadd fdivn Good cf (length adams) HE HF _ _ _ _ _ _ B N1)).
Qed.

(** What the callback does after the last epoch that is allowed has no influence
    on anything; with one epoch it has no influence at all. *)
Theorem C128_last :
  forall S1 S2 S3 P G MV MSt Rng F (update : G -> ostate P MV -> ostate P MV)
    (dloss : nat -> dataset S1 S2 S3 -> bool -> MSt -> Rng -> list P -> result ((nat -> G) * MSt))
    (vloss : nat -> dataset S1 S2 S3 -> MSt -> Rng -> list P -> result F)
    split2 perm fzero fadd fsub fdivn flt fle cf cb D DV rng start (adams : list (ostate P MV)) st0 rng0,
  (forall r e ps, S e < c_epochs cf -> cb r e ps = c_callback cf r e ps) ->
  train_loop update dloss vloss split2 perm fzero fadd fsub fdivn flt fle
    (mk_settings (c_flags cf) (c_batch cf) (c_val_batch cf) (c_epochs cf) (c_target cf) (c_patience cf) (c_delta cf) (c_verbose cf) (c_kill cf) cb)
    D DV rng start adams st0 rng0
  = train_loop update dloss vloss split2 perm fzero fadd fsub fdivn flt fle cf D DV rng start adams st0 rng0.
Proof.
  intros * A. unfold train_loop. destruct (split2 rng0) as [mrng key]. cbn [c_val_batch c_flags c_epochs c_patience].
  destruct (batched_val_loss vloss perm fzero fadd fdivn (c_val_batch cf) DV (map ox adams) st0 mrng key start) as [v|er]; [|reflexivity]. cbn [rbind].
  destruct (traced (c_flags cf)) as [u|er]; [|reflexivity]. cbn [rbind].
  pose proof (loop_callback update dloss vloss split2 perm fzero fadd fsub fdivn flt fle cf cb D DV A (c_epochs cf)
    (mk_t rng start (adams, st0, mrng) (adams, st0, mrng) v v start (c_patience cf))) as L. unfold with_callback in L.
  destruct (epoch_loop update dloss vloss split2 perm fzero fadd fsub fdivn flt fle (c_epochs cf) _ D DV _) as [t1|e1];
  destruct (epoch_loop update dloss vloss split2 perm fzero fadd fsub fdivn flt fle (c_epochs cf) cf D DV _) as [t2|e2]; cbn [rmap rbind] in *;
    try discriminate L; [|exact L].
  injection L as L1 L2 L3 L4. rewrite L1, L2, L3, L4. reflexivity.
Qed.

(** *** a callback that keeps the parameters above -5, with the losses of
    [Props_Train.v] (first parameter, smallest at -40) *)
Definition floor_cb (r : nat) (e : nat) (ps : list Z) : nat * list Z := (r, map (Z.max (-5)) ps).
Definition above (ps : list Z) : Prop := Forall (fun p => (-5 <= p)%Z) ps.
Lemma floor_enforces n : enforces above n floor_cb.
Proof.
  intros r e ps H. cbn [floor_cb snd]. split; [|rewrite map_length; exact H]. apply Forall_forall. intros p Hp.
  apply in_map_iff in Hp as (q & <- & _). apply Z.le_max_l.
Qed.
Definition floor_cf : settings := mk_settings [true; false] 2 5 9 (Some 0%Z) 3 (Some 0%Z) false (fun _ => false) floor_cb.
(** Every epoch starts with -5 (but the first one with 0); the best one ends with
    -20, which is returned. *)
Example C128_partial_example :
  enforces above (length ex_adams) (c_callback floor_cf) /\ length (c_flags floor_cf) = length ex_adams /\ above (map ox ex_adams) /\
  ex_train floor_cf (adam_update ex_num) = Ok (([mk_ostate (-20)%Z tt 1; mk_ostate 7%Z tt 0], 6, 7), 9, Some 20%Z, 1).
Proof.
  split; [apply floor_enforces|]. split; [reflexivity|]. split; [|vm_compute; reflexivity].
  unfold above. cbn. repeat (apply Forall_cons; [lia|]). constructor.
Qed.
Example C128_last_example :
  let cf := mk_settings [true; false] 2 5 1 (Some 0%Z) 3 (Some 0%Z) false (fun _ => false) (@keep_cb Z nat) in
  let cf' := mk_settings [true; false] 2 5 1 (Some 0%Z) 3 (Some 0%Z) false (fun _ => false) floor_cb in
  (forall r e ps, S e < c_epochs cf -> floor_cb r e ps = c_callback cf r e ps) /\
  ex_train cf' (adam_update ex_num) = ex_train cf (adam_update ex_num) /\ is_ok (ex_train cf (adam_update ex_num)) = true.
Proof. split; [cbn; intros; lia|]. split; vm_compute; reflexivity. Qed.

(** The parameters that are returned are therefore not within the set. *)
Definition C128_always : Prop :=
  forall (Good : list Z -> Prop) (cf : settings) c' fe bv be,
  enforces Good (length ex_adams) (c_callback cf) -> length (c_flags cf) = length ex_adams -> Good (map ox ex_adams) ->
  ex_train cf (adam_update ex_num) = Ok (c', fe, bv, be) -> Good (params c').
Theorem C128_refuted : ~ C128_always.
Proof.
  intros H. destruct C128_partial_example as (A & B & C & D). specialize (H above floor_cf _ _ _ _ A B C D).
  unfold above, params in H. cbn in H. inversion H as [|? ? X]. lia.
Qed.

(** The callback is not called "after each training step" (L491) but after each
    epoch: the steps in between get parameters outside of the set.  Here the
    derivative of the loss is not defined below -5. *)
Definition floor_dloss (epoch : nat) (b : dataset Z Z Z) (training : bool) (st : nat) (r : nat) (ps : list Z) : result ((nat -> Z) * nat) :=
  if forallb (fun p => (-5 <=? p)%Z) ps then ex_dloss epoch b training st r ps else Err ValueError.
Definition C128_steps_always : Prop :=
  forall cf : settings, enforces above (length ex_adams) (c_callback cf) -> length (c_flags cf) = length ex_adams -> above (map ox ex_adams) ->
  is_ok (train_loop (adam_update ex_num) floor_dloss ex_vloss ex_split ex_perm (Some 0%Z) nadd nsub (fun v _ => v) nlt nle cf ex_data ex_data 0 0 ex_adams 0 0) = true.
Theorem C128_steps_refuted :
  (forall e b t st r ps, above ps -> is_ok (floor_dloss e b t st r ps) = true) /\ ~ C128_steps_always.
Proof.
  split.
  - intros e b t st r ps H. unfold floor_dloss. replace (forallb (fun p => (-5 <=? p)%Z) ps) with true; [reflexivity|].
    symmetry. apply forallb_forall. intros p Hp. apply Z.leb_le. unfold above in H. rewrite Forall_forall in H. exact (H p Hp).
  - intros H. destruct C128_partial_example as (A & B & C & _). specialize (H floor_cf A B C). vm_compute in H. discriminate H.
Qed.
Print Assumptions C128_partial.
Print Assumptions C128_last.
Print Assumptions C128_refuted.
Print Assumptions C128_steps_refuted.
