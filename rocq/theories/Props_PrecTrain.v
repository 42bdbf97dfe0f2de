(** C121: a precision that is set lasts. *)
From Coq Require Import ZArith.
From Verif Require Import Base TreeUtil Batch Train TrainArgs TrainModel Precision PrecisionSpec PrecTrain PrecTrainSpec PrecTrainProofs Props_Train Props_TrainModel.
Local Open Scope list_scope.

Section Statements.
Context {S1 S2 S3 V G MV MSt Rng F : Type}.
Notation A := (arr V).
Notation OS := (ostate A MV).
Variable astype : A -> dtype -> A.
Hypothesis HD : forall a d, a_dt (astype a d) = d.
Variable x64 : bool.
Variable st_prec : bool -> MSt -> MSt.
Variable update : G -> OS -> OS.
Variable zeros : A -> MV.
Variable dloss : nat -> @batch S1 S2 S3 -> bool -> MSt -> Rng -> list A -> result ((nat -> G) * MSt).
Variable vloss : nat -> @batch S1 S2 S3 -> MSt -> Rng -> list A -> result F.
Variable split2 : Rng -> Rng * Rng.
Variable perm : Rng -> nat -> list nat.
Variable fzero : F.
Variables fadd fsub : F -> F -> F.
Variable fdivn : F -> nat -> F.
Variables flt fle : F -> F -> bool.
Notation model := (@TrainModel.model A MV MSt Rng).
Notation call := (@call S1 S2 S3 A Rng F).
Notation op := (@pop S1 S2 S3 V MSt Rng F).
Notation set_precision := (PrecTrain.set_precision astype x64 st_prec).
Notation train := (TrainModel.train update zeros dloss vloss split2 perm fzero fadd fsub fdivn flt fle).
Notation pstep := (PrecTrain.pstep astype x64 st_prec update zeros dloss vloss split2 perm fzero fadd fsub fdivn flt fle).
Notation life := (PrecTrain.plife astype x64 st_prec update zeros dloss vloss split2 perm fzero fadd fsub fdivn flt fle).
Notation params := TrainModel.m_params.

Definition spelled (p : prec) (w : nat) : Prop := single_spelling p /\ w = 32 \/ double_spelling p /\ w = 64.

Lemma check_spelled p b : check x64 p true = Ok b -> spelled p (if b then 64 else 32).
Proof.
  unfold check, bits_of. intros E.
  destruct (existsb (prec_eqb p) _) eqn:E1 in E.
  - cbn in E. rewrite andb_false_r in E. injection E as <-. left. split; [|reflexivity]. apply existsb_exists in E1. destruct E1 as (q & Hq & Ep).
    assert (p = q) as ->.
    { clear - Ep. destruct p as [d|s|z|n], q as [d'|s'|z'|n']; cbn in Ep; try discriminate.
      - destruct d, d'; cbn in Ep; try discriminate; try apply Nat.eqb_eq in Ep; subst; reflexivity.
      - apply String.eqb_eq in Ep. subst. reflexivity.
      - apply Z.eqb_eq in Ep. subst. reflexivity. }
    repeat (destruct Hq as [ <- | Hq ]; [constructor|]). destruct Hq.
  - destruct (existsb (prec_eqb p) _) eqn:E2 in E; [|discriminate]. cbn in E. rewrite andb_true_r in E. destruct x64; [|discriminate]. injection E as <-. right.
    split; [|reflexivity]. apply existsb_exists in E2. destruct E2 as (q & Hq & Ep).
    assert (p = q) as ->.
    { clear - Ep. destruct p as [d|s|z|n], q as [d'|s'|z'|n']; cbn in Ep; try discriminate.
      - destruct d, d'; cbn in Ep; try discriminate; try apply Nat.eqb_eq in Ep; subst; reflexivity.
      - apply String.eqb_eq in Ep. subst. reflexivity.
      - apply Z.eqb_eq in Ep. subst. reflexivity. }
    repeat (destruct Hq as [ <- | Hq ]; [constructor|]). destruct Hq.
Qed.
Lemma spelled_one p w w' : spelled p w -> spelled p w' -> w = w'.
Proof. intros [[H ->]|[H ->]] [[H' ->]|[H' ->]]; auto; inversion H; subst; inversion H'. Qed.

(** * Setting a precision converts all parameters, and leaves the optimiser
    states as they are. *)
Theorem C121_set (m m' : model) p w : spelled p w -> set_precision m p = (m', Ok tt) ->
  Forall (bits w) (params m') /\ m_opt m' = m_opt m.
Proof.
  intros Hp. unfold PrecTrain.set_precision. destruct (check x64 p true) as [b|] eqn:E; [|discriminate]. intros X. injection X as <-. cbn. split; [|reflexivity].
  rewrite (spelled_one _ _ _ Hp (check_spelled _ _ E)). apply Forall_map, Forall_forall. intros a _. unfold bits, set_param_prec.
  destruct (is_complex (a_dt a)), b; rewrite HD; auto.
Qed.

Lemma step_respects w (m : model) (o : op) : keeps_bits update w -> respects w o ->
  Forall (bits w) (params m) ->
  (match o with OOther (OTrain k) => k_resume k = true -> opt_bits w m | _ => True end) ->
  Forall (bits w) (params (pstep m o)) /\ (opt_bits w m -> opt_bits w (pstep m o)).
Proof.
  intros HU HR HP HO. destruct o as [p|[k|s ps|fl|st r|s ps fl st r]]; cbn in HR.
  - destruct HR.
  - cbn [PrecTrain.pstep step]. destruct (train m k) as [m' [[]|e]] eqn:E; cbn [fst].
    + destruct (train_keeps update zeros dloss vloss split2 perm fzero fadd fsub fdivn flt fle (bits w) HU m m' k HR) as (H1 & s & os & H2 & H3); [|exact E|].
      * destruct (k_resume k); [exact (HO eq_refl)|exact HP].
      * split; [exact H1|]. intros _ s' os' E'. rewrite E' in H2. injection H2 as -> ->. exact H3.
    + apply train_failed in E. subst m'. auto.
  - cbn. unfold TrainModel.set_params. destruct (same_struct s (TrainModel.m_struct m)); cbn; auto.
  - cbn. auto.
  - cbn. auto.
  - cbn. split; [exact HR|]. intros _ s' os' E'. discriminate.
Qed.

(** * A precision lasts if the optimiser states, if there are any, have it. *)
Theorem C121_lasts (m : model) (l : list op) w : keeps_bits update w -> Forall (respects w) l ->
  Forall (bits w) (params m) -> opt_bits w m ->
  Forall (bits w) (params (life m l)) /\ opt_bits w (life m l).
Proof.
  intros HU HL. revert m. induction HL as [|o l Ho HL IH]; intros m HP HO; [split; assumption|].
  destruct (step_respects w m o HU Ho HP) as [H1 H2]; [destruct o as [|[]]; auto|]. exact (IH (pstep m o) H1 (H2 HO)).
Qed.

(** What makes the optimiser states forget what was before: a training that is
    not resumed and succeeds, or anything that resets the model. *)
Definition renews (m : model) (o : op) : Prop :=
  match o with
  | OOther (OTrain k) => k_resume k = false /\ snd (train m k) = Ok tt
  | OOther (OEdit _ _ _ _ _) => True
  | _ => False
  end.
Definition renewed (m : model) (l : list op) : Prop := exists l1 o l2, l = l1 ++ o :: l2 /\ renews (life m l1) o.

(** * After setting a precision all parameters have it, whatever is done, until
    training is resumed with optimiser states from before. Missing: that
    (C121_comes_back says what happens then). *)
Theorem C121_lasts_partial (m m' : model) p w (l : list op) : keeps_bits update w ->
  spelled p w -> set_precision m p = (m', Ok tt) -> Forall (respects w) l ->
  (forall l1 k l2, l = l1 ++ OOther (OTrain k) :: l2 -> k_resume k = true -> renewed m' l1) ->
  Forall (bits w) (params (life m' l)).
Proof.
  intros HU Hp E HL HR. destruct (C121_set _ _ _ _ Hp E) as [HP _]. clear E m p Hp.
  assert (X : Forall (bits w) (params (life m' l)) /\ (renewed m' l -> opt_bits w (life m' l))); [|exact (proj1 X)].
  revert HL HR. induction l as [|o l IH] using rev_ind; intros HL HR.
  - split; [exact HP|]. intros (l1 & o & l2 & H & _). destruct l1; discriminate.
  - apply Forall_app in HL. destruct HL as [HL Ho]. inversion Ho as [|? ? Ho' _]; subst. clear Ho.
    destruct IH as [I1 I2]; [exact HL| |].
    { intros l1 k l2 H Hk. apply (HR l1 k (l2 ++ [o])); [|exact Hk]. rewrite H, <- app_assoc. reflexivity. }
    unfold PrecTrain.plife in *. rewrite fold_left_app. cbn [fold_left]. fold (life m' l) in *.
    destruct (step_respects w (life m' l) o HU Ho' I1) as [S1' S2'].
    { destruct o as [|[k| | | |]]; auto. intros Hk. apply I2, (HR l k []); [reflexivity|exact Hk]. }
    split; [exact S1'|]. intros (l1 & o1 & l2 & H & Hr).
    destruct l2 as [|x l2 _] using rev_ind.
    + apply app_inj_tail in H. destruct H as [ <- <- ]. destruct o as [|[k| | | |]]; cbn in Hr; try contradiction.
      * destruct Hr as [Hk Hs]. cbn [PrecTrain.pstep step]. cbn in Ho'. fold (life m' l) in Hs. destruct (train (life m' l) k) as [m1 r] eqn:E. cbn in Hs. subst r. cbn [fst].
        destruct (train_keeps update zeros dloss vloss split2 perm fzero fadd fsub fdivn flt fle (bits w) HU (life m' l) m1 k Ho') as (_ & s & os & H2 & H3); [rewrite Hk; exact I1|exact E|].
        intros s' os' E'. rewrite E' in H2. injection H2 as -> ->. exact H3.
      * intros s' os' E'. discriminate.
    + rewrite app_comm_cons, app_assoc in H. apply app_inj_tail in H. destruct H as [H <- ]. apply S2', I2. exists l1, o1, l2. split; assumption.
Qed.

(** * Resuming brings the precision of the last training back, always. *)
Theorem C121_comes_back (m m' : model) p w (k : call) m'' : keeps_bits update w -> call_keeps k w ->
  opt_bits w m -> set_precision m p = (m', Ok tt) -> k_resume k = true -> train m' k = (m'', Ok tt) ->
  Forall (bits w) (params m'').
Proof.
  intros HU HK HO E Hk Et. apply (train_keeps update zeros dloss vloss split2 perm fzero fadd fsub fdivn flt fle (bits w) HU m' m'' k HK); [|exact Et].
  rewrite Hk. unfold PrecTrain.set_precision in E. destruct (check x64 p true); [|discriminate]. injection E as <-. exact HO.
Qed.
End Statements.
Arguments spelled : clear implicits.

(** The precision that is set is that of the parameters after any training that
    follows. *)
Definition precision_lasts_always : Prop :=
  forall (S1 S2 S3 V G MV MSt Rng F : Type) astype x64 st_prec update zeros dloss vloss split2 perm fzero fadd fsub fdivn flt fle
    (m m' m'' : @TrainModel.model (arr V) MV MSt Rng) p w (k : @call S1 S2 S3 (arr V) Rng F),
  (forall a d, a_dt (astype a d) = d) -> (forall v, keeps_bits update v) -> (forall v, call_keeps k v) -> spelled p w ->
  PrecTrain.set_precision astype x64 st_prec m p = (m', Ok tt) ->
  TrainModel.train (G := G) update zeros dloss vloss split2 perm fzero fadd fsub fdivn flt fle m' k = (m'', Ok tt) ->
  Forall (bits w) (TrainModel.m_params m'').

(** ** The small setting of Props_Train.v, with data types. *)
Definition q_astype (a : arr Z) (d : dtype) : arr Z := mk_arr d (a_val a).
Definition q_num (g : Z) (a : arr Z) (mv : unit) (i : nat) : arr Z * unit := let (x, mv') := ex_num g (a_val a) mv i in (mk_arr (a_dt a) x, mv').
Definition q_dloss e b t s r (ps : list (arr Z)) := ex_dloss e b t s r (map a_val ps).
Definition q_vloss e b s r (ps : list (arr Z)) := ex_vloss e b s r (map a_val ps).
Definition q_train := TrainModel.train (adam_update q_num) (fun _ => tt) q_dloss q_vloss ex_split ex_perm (Some 0%Z) nadd nsub (fun v _ => v) nlt nle.
Definition q_life := plife q_astype true (fun _ (s : nat) => s) (adam_update q_num) (fun _ => tt) q_dloss q_vloss ex_split ex_perm (Some 0%Z) nadd nsub (fun v _ => v) nlt nle.
Definition q_prec := PrecTrain.set_precision (MV := unit) (Rng := nat) q_astype true (fun _ (s : nat) => s).
Definition q_set (epochs : nat) (fl : list bool) : settings :=
  mk_settings fl 2 5 epochs (Some 0%Z) 3%Z (Some 0%Z) false (fun _ => false) (@keep_cb (arr Z) nat).
Definition q_call (resume : bool) (epochs : nat) : call := mk_call resume (q_set epochs) ex_data ex_data 0.
Definition q_model : @TrainModel.model (arr Z) unit nat nat :=
  mk_model (Lst [Leaf tt; Leaf tt]) [mk_arr (DFloat 64) 0%Z; mk_arr (DComplex 128) 7%Z] [true; false] 0 0 None.
Lemma q_keeps w : keeps_bits (adam_update q_num) w.
Proof. intros g [[d v] mv i] H. unfold adam_update, q_num. cbn in *. destruct (ex_num g v mv i). exact H. Qed.
Lemma q_call_keeps b n w : call_keeps (q_call b n) w.
Proof. intros fl r e ps H. exact H. Qed.
Definition q_ops : list (@pop Z Z Z Z nat nat num) := [OOther (OTrain (q_call false 2)); OOther (OFlags [true; true]); OOther (OTrain (q_call true 1))].
Definition q_trained := fst (q_train q_model (q_call false 1)).
Example C121_example :
  Forall (bits 32) (TrainModel.m_params (q_life (fst (q_prec q_trained (PStr "f32"))) q_ops)) /\
  TrainModel.m_params q_trained = [mk_arr (DFloat 64) (-15)%Z; mk_arr (DComplex 128) 7%Z] /\
  TrainModel.m_params (q_life (fst (q_prec q_trained (PStr "f32"))) q_ops) = [mk_arr (DFloat 32) (-45)%Z; mk_arr (DComplex 64) 7%Z].
Proof.
  split; [|vm_compute; split; reflexivity].
  refine (C121_lasts_partial q_astype (fun _ _ => eq_refl) true (fun _ (s : nat) => s) (adam_update q_num) (fun _ => tt) q_dloss q_vloss ex_split ex_perm (Some 0%Z) nadd nsub (fun v _ => v) nlt nle
    q_trained _ (PStr "f32") 32 q_ops (q_keeps 32) (or_introl (conj s6 eq_refl)) eq_refl _ _).
  - unfold q_ops. repeat (apply Forall_cons; [first [apply q_call_keeps|exact I]|]). apply Forall_nil.
  - intros l1 k l2 H Hk. unfold q_ops in H.
    destruct l1 as [|o1 l1]; [injection H as <- _; discriminate|]. destruct l1 as [|o2 l1]; [discriminate|].
    injection H as <- <- H. exists [], (OOther (OTrain (q_call false 2))), (OOther (OFlags [true; true]) :: l1). split; [reflexivity|]. split; [reflexivity|]. vm_compute. reflexivity.
Qed.

(** Training in double precision, [astype("f32")], training on: double again. *)
Theorem C121_refuted :
  (exists m, m = fst (q_prec q_trained (PStr "f32")) /\ Forall (bits 32) (TrainModel.m_params m) /\ snd (q_train m (q_call true 1)) = Ok tt /\
     TrainModel.m_params (fst (q_train m (q_call true 1))) = [mk_arr (DFloat 64) (-30)%Z; mk_arr (DComplex 128) 7%Z]) /\
  ~ precision_lasts_always.
Proof.
  split.
  - eexists. split; [reflexivity|]. split; [|vm_compute; split; reflexivity].
    vm_compute. repeat constructor; (left; reflexivity) || (right; reflexivity).
  - intros A. specialize (A _ _ _ _ _ _ _ _ _ q_astype true (fun _ (s : nat) => s) (adam_update q_num) (fun _ => tt) q_dloss q_vloss ex_split ex_perm (Some 0%Z) nadd nsub (fun v _ => v) nlt nle
      q_trained (fst (q_prec q_trained (PStr "f32"))) (fst (q_train (fst (q_prec q_trained (PStr "f32"))) (q_call true 1))) (PStr "f32") 32 (q_call true 1)
      (fun _ _ => eq_refl) q_keeps (q_call_keeps true 1) (or_introl (conj s6 eq_refl)) eq_refl ltac:(vm_compute; reflexivity)).
    vm_compute in A. inversion A as [|? ? [H|H] _]; discriminate.
Qed.

Print Assumptions C121_set.
Print Assumptions C121_lasts.
Print Assumptions C121_lasts_partial.
Print Assumptions C121_comes_back.
Print Assumptions C121_refuted.
Print Assumptions C121_example.
