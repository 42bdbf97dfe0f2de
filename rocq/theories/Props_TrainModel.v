(** C102: training, training on, and training afresh. *)
From Coq Require Import ZArith.
From Verif Require Import Base BaseLemmas TreeUtil Batch Train TrainArgs TrainSpec Props_Train TrainModel.
Local Open Scope list_scope.
Local Open Scope nat_scope.

Section Life.
Context {S1 S2 S3 P G MV MSt Rng F : Type}.
Context (update : G -> ostate P MV -> ostate P MV) (zeros : P -> MV)
        (dloss : nat -> @batch S1 S2 S3 -> bool -> MSt -> Rng -> list P -> result ((nat -> G) * MSt))
        (vloss : nat -> @batch S1 S2 S3 -> MSt -> Rng -> list P -> result F)
        (split2 : Rng -> Rng * Rng) (perm : Rng -> nat -> list nat) (fzero : F) (fadd fsub : F -> F -> F)
        (fdivn : F -> nat -> F) (flt fle : F -> F -> bool).
Notation model := (@model P MV MSt Rng).
Notation call := (@call S1 S2 S3 P Rng F).
Notation train := (train update zeros dloss vloss split2 perm fzero fadd fsub fdivn flt fle).
Notation life := (life update zeros dloss vloss split2 perm fzero fadd fsub fdivn flt fle).
Notation loop := (train_loop update dloss vloss split2 perm fzero fadd fsub fdivn flt fle).
Notation op := (@op S1 S2 S3 P MSt Rng F).

(** The training of [m] with arguments [k] starts at the parameters [ps]: the
    loop is run from optimiser states with these, and the model gets what it
    returns. *)
Definition starts_at (ps : list P) (m : model) (k : call) : Prop :=
  exists os, map ox os = ps /\
  match loop (k_settings k (m_flags m)) (k_data k) (k_val k) (k_rng k) 0 os (m_state m) (m_rng m) with
  | Err e => train m k = (m, Err e)
  | Ok ((os', st', rng'), _, _, _) =>
      snd (train m k) = Ok tt /\ m_params (fst (train m k)) = map ox os' /\
      m_state (fst (train m k)) = st' /\ m_rng (fst (train m k)) = rng'
  end.

(** * A training that is not resumed starts at the model's parameters, and
    nothing of earlier trainings matters but parameters, states and key. *)
Theorem C102_fresh (m : model) (k : call) : k_resume k = false -> starts_at (m_params m) m k.
Proof.
  intros H. exists (map (init zeros) (m_params m)). split; [rewrite map_map; apply map_id|].
  unfold TrainModel.train, handed. rewrite H. cbn [rbind].
  destruct (loop _ _ _ _ _ _ _ _) as [[[[[[os st] rng] e] v] b]|e]; cbn; auto.
Qed.
(** ... with zero moments and counter 0 (training.py L147-154). *)
Theorem C102_fresh_optimiser (m : model) (k : call) : k_resume k = false ->
  exists os, map ox os = m_params m /\ map omv os = map zeros (m_params m) /\ Forall (fun o => oi o = 0) os /\
  match loop (k_settings k (m_flags m)) (k_data k) (k_val k) (k_rng k) 0 os (m_state m) (m_rng m) with
  | Err e => train m k = (m, Err e)
  | Ok ((os', st', rng'), _, _, _) => snd (train m k) = Ok tt /\ m_opt (fst (train m k)) = Some (m_struct m, os')
  end.
Proof.
  intros H. exists (map (init zeros) (m_params m)). rewrite !map_map. cbn. split; [apply map_id|]. split; [reflexivity|]. split; [apply Forall_map, Forall_forall; reflexivity|].
  unfold TrainModel.train, handed. rewrite H. cbn [rbind].
  destruct (loop _ _ _ _ _ _ _ _) as [[[[[[os st] rng] e] v] b]|e]; cbn; auto.
Qed.
Theorem C102_fresh_forgets s ps fl st rng o o' (k : call) : k_resume k = false ->
  snd (train (mk_model s ps fl st rng o) k) = snd (train (mk_model s ps fl st rng o') k) /\
  (snd (train (mk_model s ps fl st rng o) k) = Ok tt ->
   fst (train (mk_model s ps fl st rng o) k) = fst (train (mk_model s ps fl st rng o') k)).
Proof.
  intros H. unfold TrainModel.train, handed. rewrite H. cbn [rbind m_struct m_params m_flags m_state m_rng].
  destruct (loop _ _ _ _ _ _ _ _) as [[[[[[os st'] rng'] e] v] b]|e]; cbn; split; auto. discriminate.
Qed.

(** * Resuming *)
(** without an earlier training it is refused *)
Theorem C102_nothing_to_resume (m : model) (k : call) : k_resume k = true -> m_opt m = None -> train m k = (m, Err ValueError).
Proof. intros H E. unfold TrainModel.train, handed. rewrite H, E. reflexivity. Qed.

(** No parameters are set. *)
Definition no_set (o : op) : Prop := match o with OSet _ _ => False | _ => True end.
Definition in_step (m : model) : Prop := forall s os, m_opt m = Some (s, os) -> map ox os = m_params m.
Lemma train_in_step (m : model) (k : call) : in_step m \/ snd (train m k) = Ok tt -> in_step (fst (train m k)).
Proof.
  unfold TrainModel.train. destruct (handed zeros m k) as [[s os]|e]; cbn [rbind].
  - destruct (loop _ _ _ _ _ _ _ _) as [[[[[[os' st] rng] e] v] b]|e]; cbn.
    + intros _ s0 os0 E. injection E as <- <-. reflexivity.
    + intros [H|H]; [exact H|discriminate].
  - intros [H|H]; [exact H|discriminate].
Qed.
Lemma life_in_step (l : list op) : Forall no_set l -> forall m, in_step m -> in_step (life m l).
Proof.
  induction 1 as [|o l Ho _ IH]; intros m H; [exact H|]. unfold TrainModel.life in *. cbn [fold_left]. apply IH.
  destruct o as [k|s ps|fl|st rng|s ps fl st rng]; cbn.
  - apply train_in_step. left. exact H.
  - destruct Ho.
  - exact H.
  - exact H.
  - discriminate.
Qed.
(** What is missing is that parameters set after the last training are used;
    see below. *)
Theorem C102_resumed_partial (m0 : model) (l l' : list op) (k' k : call) :
  let m1 := life m0 l in
  snd (train m1 k') = Ok tt ->              (* the last training before the parameters could be set *)
  Forall no_set l' ->                       (* anything else in between *)
  let m := life (fst (train m1 k')) l' in
  k_resume k = true ->
  starts_at (m_params m) m k \/ train m k = (m, Err ValueError).
Proof.
  intros m1 H1 Hl m Hk. assert (I : in_step m) by (apply life_in_step; [exact Hl|apply train_in_step; auto]).
  destruct (m_opt m) as [[s os]|] eqn:E.
  - destruct (same_struct s (m_struct m)) eqn:Es.
    + left. exists os. split; [exact (I s os E)|]. unfold TrainModel.train at 1 2 3 4 5, handed. rewrite Hk, E, Es. cbn [rbind].
      destruct (loop _ _ _ _ _ _ _ _) as [[[[[[os' st'] rng'] e] v] b]|e]; cbn; auto.
    + right. unfold TrainModel.train, handed. rewrite Hk, E, Es. reflexivity.
  - right. apply C102_nothing_to_resume; assumption.
Qed.

(** * Seen from outside: without epochs nothing changes *)
Lemma no_epochs os st rng (cf : settings) D DV br r : c_epochs cf = 0 ->
  loop cf D DV br 0 os st rng = Ok r -> exists a b c rng', r = ((os, st, rng'), a, b, c).
Proof.
  intros H. unfold train_loop. destruct (split2 rng) as [mrng key]. destruct (batched_val_loss _ _ _ _ _ _ _ _ _ _ _ _) as [v|]; [|discriminate].
  cbn [rbind]. destruct (traced (c_flags cf)) as [u|]; [|discriminate]. cbn [rbind]. rewrite H. cbn [epoch_loop]. unfold epoch_cond. rewrite H. cbn [t_epoch]. rewrite !andb_false_r. cbn [andb rbind].
  intros E. injection E as <-. cbn. eauto 6.
Qed.
Theorem C102_no_epochs (m : model) (k : call) : starts_at (m_params m) m k ->
  c_epochs (k_settings k (m_flags m)) = 0 -> m_params (fst (train m k)) = m_params m.
Proof.
  intros (os & Ho & H) H0. destruct (loop _ _ _ _ _ _ _ _) as [r|e] eqn:E.
  - destruct (no_epochs _ _ _ _ _ _ _ _ H0 E) as (a & b & c & rng' & ->). destruct H as (_ & H & _). congruence.
  - rewrite H. reflexivity.
Qed.
End Life.

(** Every training of a model that began without optimiser state starts at its
    current parameters. *)
Definition starts_at_current_always : Prop :=
  forall (S1 S2 S3 P G MV MSt Rng F : Type) update zeros dloss vloss split2 perm fzero fadd fsub fdivn flt fle
    (m0 : @model P MV MSt Rng) (l : list (@op S1 S2 S3 P MSt Rng F)) k,
  m_opt m0 = None ->
  let m := life update zeros dloss vloss split2 perm fzero fadd fsub fdivn flt fle m0 l in
  snd (train (G := G) update zeros dloss vloss split2 perm fzero fadd fsub fdivn flt fle m k) = Ok tt ->
  starts_at update zeros dloss vloss split2 perm fzero fadd fsub fdivn flt fle (m_params m) m k.

(** The small setting of Props_Train.v. *)
Definition y_set (epochs : nat) (fl : list bool) : settings :=
  mk_settings fl 2 5 epochs (Some 0%Z) 3%Z (Some 0%Z) false (fun _ => false) (@keep_cb Z nat).
Definition y_call (resume : bool) (epochs : nat) : call := mk_call resume (y_set epochs) ex_data ex_data 0.
Definition y_model : @model Z unit nat nat := mk_model (Lst [Leaf tt; Leaf tt]) [0%Z; 7%Z] [true; false] 0 0 None.
Definition y_train := train (adam_update ex_num) (fun _ => tt) ex_dloss ex_vloss ex_split ex_perm (Some 0%Z) nadd nsub (fun v _ => v) nlt nle.
Definition y_life := life (adam_update ex_num) (fun _ => tt) ex_dloss ex_vloss ex_split ex_perm (Some 0%Z) nadd nsub (fun v _ => v) nlt nle.

(** Train for two epochs, then on for one. *)
Example C102_example :
  let m1 := fst (y_train y_model (y_call false 2)) in
  snd (y_train y_model (y_call false 2)) = Ok tt /\ m_params m1 = [-30; 7]%Z /\
  snd (y_train (set_flags m1 [true; true]) (y_call true 1)) = Ok tt /\
  m_params (fst (y_train (set_flags m1 [true; true]) (y_call true 1))) = [-45; -23]%Z /\
  m_params (fst (y_train m1 (y_call true 0))) = [-30; 7]%Z /\
  y_train y_model (y_call true 2) = (y_model, Err ValueError).
Proof. vm_compute. repeat split. Qed.

(** Training, setting the parameters to 100 and 200 and resuming without any
    epoch brings the trained parameters back. *)
Theorem C102_refuted :
  (exists m, m = y_life y_model [OTrain (y_call false 2); OSet (Lst [Leaf tt; Leaf tt]) [100; 200]%Z] /\
    m_params m = [100; 200]%Z /\ snd (y_train m (y_call true 0)) = Ok tt /\
    m_params (fst (y_train m (y_call true 0))) = [-30; 7]%Z) /\
  ~ starts_at_current_always.
Proof.
  split; [eexists; split; [reflexivity|vm_compute; auto]|]. intros A.
  specialize (A _ _ _ _ _ _ _ _ _ (adam_update ex_num) (fun _ => tt) ex_dloss ex_vloss ex_split ex_perm (Some 0%Z) nadd nsub (fun v _ => v) nlt nle
    y_model [OTrain (y_call false 2); OSet (Lst [Leaf tt; Leaf tt]) [100; 200]%Z] (y_call true 0) eq_refl). cbv zeta in A.
  assert (E := C102_no_epochs _ _ _ _ _ _ _ _ _ _ _ _ _ _ (A ltac:(vm_compute; reflexivity)) ltac:(vm_compute; reflexivity)).
  vm_compute in E. discriminate.
Qed.

Print Assumptions C102_fresh.
Print Assumptions C102_fresh_forgets.
Print Assumptions C102_nothing_to_resume.
Print Assumptions C102_resumed_partial.
Print Assumptions C102_no_epochs.
Print Assumptions C102_refuted.
