(** C31: argument validation of training. *)
From Coq Require Import ZArith.
From Verif Require Import Base TreeUtil TreeSpec NonSeqSpec BatchSpec SerialSpec EinsumSpec TrainArgs TrainArgsProofs TrainAcceptSpec TrainAccept.
Local Open Scope list_scope.

(** What is accepted: sensible combinations only, with matching sample counts, and
    the training data are the user's; the validation data too when [X_val] is
    given (uncertainties: if the targets have some), otherwise the training data
    take their place. *)
Theorem C31_accepted : forall A (shape : A -> list nat) a d, train_args shape a = Ok d ->
  d_X d = a_X a /\ d_Y d = a_Y a /\ d_Y_unc d = a_Y_unc a /\
  (a_X_val a = None -> d_X_val d = a_X a /\ d_Y_val d = a_Y a /\ d_Y_val_unc d = a_Y_unc a) /\
  (forall x, a_X_val a = Some x -> d_X_val d = x /\ d_Y_val d = a_Y_val a /\
     (a_Y_unc a <> None -> d_Y_val_unc d = a_Y_val_unc a) /\ (a_Y_unc a = None -> d_Y_val_unc d = None)) /\
  ~ senseless a /\
  (exists n, populated (a_X a) /\ counts shape n (a_X a) /\ (forall y, a_Y a = Some y -> counts shape n y) /\
     (forall u, a_Y_unc a = Some u -> counts shape n u) /\ (d_batch d <= Z.of_nat n)%Z /\ (a_batch a <= Z.of_nat n -> d_batch d = a_batch a)%Z) /\
  (exists m, populated (d_X_val d) /\ counts shape m (d_X_val d) /\ (forall y, d_Y_val d = Some y -> counts shape m y) /\
     (forall u, d_Y_val_unc d = Some u -> counts shape m u) /\ (d_val_batch d <= Z.of_nat m)%Z /\ (1 <= m -> (1 <= d_val_batch d)%Z)).
Proof. exact (fun A shape a d => @train_args_accepted A shape a d). Qed.

(** Combinations that make no sense raise ValueError (sample counts that do not
    match are stopped earlier, by the run-time type annotations). *)
Theorem C31_rejected : forall A (shape : A -> list nat) a, senseless a -> is_ok (train_args shape a) = false.
Proof. exact (fun A shape a => @train_args_rejects A shape a). Qed.
Theorem C31_value_error : forall A (shape : A -> list nat) a, senseless a -> annotated shape a = true -> populated (a_X a) ->
  (forall y, a_Y a = Some y -> populated y) -> (forall y, a_Y_unc a = Some y -> a_X_val a = None \/ a_Y_val a <> None) ->
  train_args shape a = Err ValueError.
Proof. exact (fun A shape a => @train_args_value_error A shape a). Qed.

(** Every accepted combination, with a loss for the kind of data given and no
    separate validation loss, calls the losses with the right number of arguments. *)
Theorem C31_losses_called : forall A (shape : A -> list nat) a d loss, train_args shape a = Ok d ->
  (loss = Named (train_calls (given (a_Y a)) (given (a_Y_unc a))) \/
   loss = Custom (inner_args (train_calls (given (a_Y a)) (given (a_Y_unc a))))) ->
  (forall y x, a_Y a = Some y -> a_X_val a = Some x -> populated y) ->
  losses a loss None d = Ok (true, true).
Proof. exact (fun A shape a d loss => @losses_match A shape a d loss). Qed.

(** and only those losses are *)
Theorem C31_losses_only : forall A (shape : A -> list nat) a d loss b, train_args shape a = Ok d -> losses a loss None d = Ok (true, b) ->
  loss = Named (train_calls (given (a_Y a)) (given (a_Y_unc a))) \/
  loss = Custom (inner_args (train_calls (given (a_Y a)) (given (a_Y_unc a)))).
Proof.
  intros A shape a d loss b H HL. destruct (train_args_accepted shape a d H) as (_ & EY & EU & _). unfold losses in HL. rewrite EY, EU in HL.
  destruct loss as [k|k]; cbn [model_clean] in HL; [|destruct (given (a_Y a)) eqn:G1, (given (a_Y_unc a)) eqn:G2];
    cbn [rbind andb negb] in HL; try discriminate; injection HL as HL _; unfold call_ok in HL; cbn [fst snd] in HL; apply andb_true_iff in HL as [H1 H2].
  1: left; f_equal; apply Nat.eqb_eq; exact H1.
  all: right; f_equal; apply Nat.eqb_eq; exact H2.
Qed.

(** *** examples: arrays are lists of axis sizes *)
Definition sh (l : list nat) := l.
Definition fl : tree unit := Lst [Leaf tt].
Definition base (Y U Xv Yv Uv : option (tree (list nat))) : targs :=
  mk_targs (Leaf [5; 2]) Y U Xv Yv Uv 3%Z 100%Z false None (Some fl) fl.
Example ok_full :
  train_args sh (base (Some (Leaf [5; 1])) (Some (Leaf [5; 1])) (Some (Leaf [4; 2])) (Some (Leaf [4; 1])) (Some (Leaf [4; 1])))
  = Ok (mk_tdata (Leaf [5; 2]) (Some (Leaf [5; 1])) (Some (Leaf [5; 1])) (Leaf [4; 2]) (Some (Leaf [4; 1])) (Some (Leaf [4; 1])) 3%Z 4%Z).
Proof. vm_compute. reflexivity. Qed.
Example bad_unc : senseless (base None (Some (Leaf [5; 1])) None None None) /\
  train_args sh (base None (Some (Leaf [5; 1])) None None None) = Err ValueError.
Proof. split; [eapply sl_unc; reflexivity|vm_compute; reflexivity]. Qed.
Example bad_count : train_args sh (base (Some (Leaf [6; 1])) None None None None) = Err TypeError.
Proof. vm_compute. reflexivity. Qed.
Example losses_full :
  let a := base (Some (Leaf [5; 1])) None (Some (Leaf [4; 2])) (Some (Leaf [4; 1])) None in
  exists d, train_args sh a = Ok d /\ losses a (Named 7) None d = Ok (true, true).
Proof. eexists. split; vm_compute; reflexivity. Qed.

(** *** what is not true *)
(** validation targets without validation inputs are accepted and ignored *)
Theorem C31_val_targets_ignored_refuted : exists (a : targs (A := list nat)) d y,
  train_args sh a = Ok d /\ a_Y_val a = Some y /\ a_Y_val a <> d_Y_val d.
Proof.
  exists (base (Some (Leaf [5; 1])) None None (Some (Leaf [7; 1])) None). eexists. eexists.
  split; [vm_compute; reflexivity|]. split; [reflexivity|]. discriminate.
Qed.
(** validation uncertainties are dropped when the training targets have none *)
Theorem C31_val_unc_ignored_refuted : exists (a : targs (A := list nat)) d u,
  train_args sh a = Ok d /\ a_X_val a <> None /\ a_Y_val_unc a = Some u /\ d_Y_val_unc d = None.
Proof.
  exists (base (Some (Leaf [5; 1])) None (Some (Leaf [4; 2])) (Some (Leaf [4; 1])) (Some (Leaf [4; 1]))). eexists. eexists.
  split; [vm_compute; reflexivity|]. split; [discriminate|]. split; reflexivity.
Qed.
(** a user's validation loss cannot be used on the training data: whatever number
    of arguments it takes, [Model.train] with targets and no validation data
    accepts it and the first call fails *)
Theorem C31_custom_val_loss_refuted : exists (a : targs (A := list nat)) d,
  train_args sh a = Ok d /\
  forall k, exists b, losses a (Named 7) (Some (Custom k)) d = Ok (b, false).
Proof.
  exists (base (Some (Leaf [5; 1])) None None None None). eexists. split; [vm_compute; reflexivity|].
  intros k. eexists. reflexivity.
Qed.
(** a supervised loss without targets is not a ValueError: it is accepted and the
    first call fails *)
Theorem C31_missing_targets_refuted : exists (a : targs (A := list nat)) d,
  train_args sh a = Ok d /\ a_Y a = None /\ losses a (Named 7) None d = Ok (false, false).
Proof. exists (base None None None None None). eexists. split; [vm_compute; reflexivity|]. split; reflexivity. Qed.

(** a batch size that is not positive is not rejected here (the loop then divides by it) *)
Theorem C31_batch_size_refuted : exists (a : targs (A := list nat)) d, train_args sh a = Ok d /\ (d_batch d <= 0)%Z.
Proof.
  exists (mk_targs (Leaf [5; 2]) None None None None None 0%Z 100%Z false None (Some fl) fl). eexists.
  split; [vm_compute; reflexivity|]. discriminate.
Qed.

(** Exactly when arguments are accepted: sensible combinations of tables with
    matching numbers of samples and samples of matching shapes, parameters and
    optimiser states with the structure of the flags. *)
Theorem C31_accepted_iff : forall A (shape : A -> list nat) a, proper a ->
  (exists d, train_args shape a = Ok d) <-> exists n m, acceptable shape n m a.
Proof.
  intros A shape a P. split.
  - intros (d & E). exact (accepted_only shape a d P E).
  - intros (n & m & H). destruct (accepted_when shape n m a P H) as (d & E & _). eauto.
Qed.
(** The batch sizes that are then used. *)
Theorem C31_batch_sizes : forall A (shape : A -> list nat) n m a d, proper a -> acceptable shape n m a -> train_args shape a = Ok d ->
  batch_of n (a_batch a) (d_batch d) /\ val_batch_of (match a_X_val a with Some _ => m | None => n end) (a_val_batch a) (d_val_batch d).
Proof.
  intros A shape n m a d P H E. destruct (accepted_when shape n m a P H) as (d' & E' & _ & _ & _ & B & V). assert (d' = d) by congruence. subst d'. auto.
Qed.
Example C31_accepted_iff_example :
  let a := base (Some (Leaf [5; 1])) (Some (Leaf [5; 1])) (Some (Leaf [4; 2])) (Some (Leaf [4; 1])) (Some (Leaf [4; 1])) in
  proper a /\ acceptable sh 5 4 a.
Proof.
  assert (T : forall n k, tabular sh n (Leaf [n; k])) by (intros n k x H; inversion H; subst; exists k, []; reflexivity).
  assert (S : forall n m k, same_samples sh (Leaf [n; k]) (Leaf [m; k])) by (intros; constructor; reflexivity).
  split.
  - unfold proper. cbn. split; [constructor|]. split; [repeat constructor; cbn; tauto|]. split.
    + intros t H. repeat (destruct H as [H|H]; [injection H as <-; constructor|]). destruct H.
    + intros t [H|[H|[]]]; [discriminate|injection H as <-]. repeat constructor; cbn; tauto.
  - constructor; cbn; try (intros; repeat match goal with H : Some _ = Some _ |- _ => injection H as <- end; split; auto; fail).
    + intros N. inversion N; cbn in *; discriminate.
    + split; [eexists; constructor|apply T].
    + intros y H. injection H as <-. split; [eexists; constructor|apply T].
    + intros p H. injection H as <-. unfold alike, fl. repeat constructor.
    + discriminate.
Qed.

Print Assumptions C31_accepted_iff.
Print Assumptions C31_batch_sizes.
Print Assumptions C31_accepted.
Print Assumptions C31_value_error.
Print Assumptions C31_losses_called.
