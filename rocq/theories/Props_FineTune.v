(** C117: fine-tuning: training, freezing, saving, loading and training on. *)
From Coq Require Import ZArith.
From Verif Require Import Base BaseLemmas TreeUtil TreeSpec NonSeqSpec SerialSpec ScalerProofs Batch Train TrainArgs TrainSpec TrainSteps Params ParamsSpec TrainModel Props_Train Props_TrainModel Props_Params TrainArgsProofs
  FineTune FineTuneSpec FineTuneProofs FineTuneMain.
Local Open Scope list_scope.
Local Open Scope nat_scope.

Section Statements.
Context {S1 S2 S3 M P G MV MSt Rng F : Type}.
Notation OS := (ostate P MV).
Context (m_get : M -> tree P) (m_set : M -> tree P -> M * result unit) (m_train : M -> bool) (m_reload : M -> result M)
  (update : G -> OS -> OS) (zeros : P -> MV)
  (dloss : nat -> @batch S1 S2 S3 -> bool -> MSt -> Rng -> list P -> result ((nat -> G) * MSt))
  (vloss : nat -> @batch S1 S2 S3 -> MSt -> Rng -> list P -> result F)
  (split2 : Rng -> Rng * Rng) (perm : Rng -> nat -> list nat)
  (fzero : F) (fadd fsub : F -> F -> F) (fdivn : F -> nat -> F) (flt fle : F -> F -> bool) (isnan : F -> bool).
Notation model := (@FineTune.model M P MV MSt Rng).
Notation call := (@TrainModel.call S1 S2 S3 P Rng F).
Notation op := (@FineTune.op S1 S2 S3 M P Rng F).
Notation train := (FineTune.train m_get m_set m_train update zeros dloss vloss split2 perm fzero fadd fsub fdivn flt fle).
Notation step := (FineTune.step m_get m_set m_train m_reload update zeros dloss vloss split2 perm fzero fadd fsub fdivn flt fle).
Notation life := (FineTune.life m_get m_set m_train m_reload update zeros dloss vloss split2 perm fzero fadd fsub fdivn flt fle).
Notation reload := (FineTune.reload m_get m_set m_reload).
Context (fine sel : M -> Prop).
Context (HO : fl_order isnan flt fle) (HM : honest_modules m_get m_set m_train) (HF : fine_modules m_get m_set m_reload fine).

(** * Saving and loading gives the same model, optimiser states included. *)
Theorem C117_reload (m : model) : in_order m_get fine m -> exists m', reload m = Ok m' /\ same_model m m'.
Proof. exact (reload_same m_get m_set m_reload fine HF m). Qed.
(** * A save and load put between any two operations changes nothing of what
    follows: no result, and nothing of the final model. *)
Theorem C117_transparent (m : model) (l1 l2 : list op) : in_order m_get fine m ->
  Forall (decent m_get fine sel) (l1 ++ l2) -> during step (fun _ => True) m (l1 ++ l2) ->
  exists r1 r2, snd (life m (l1 ++ l2)) = r1 ++ r2 /\ length r1 = length l1 /\ snd (life m (l1 ++ OReload :: l2)) = r1 ++ Ok tt :: r2 /\
    same_model (fst (life m (l1 ++ l2))) (fst (life m (l1 ++ OReload :: l2))).
Proof.
  exact (transparent m_get m_set m_train m_reload update zeros dloss vloss split2 perm fzero fadd fsub fdivn flt fle isnan fine sel HO HM HF l1 m l2).
Qed.
(** * Modules that are frozen at every training end with the parameters they
    had, through trainings afresh and resumed, changes of flags, saves and
    loads. Missing: entries of a model that mix frozen and trainable modules
    (C95), and parameters set by hand between trainings (below). *)
Theorem C117_frozen_partial (m : model) (l : list op) : (forall a q b, m_set a q = (b, Ok tt) -> (sel a <-> sel b)) ->
  in_order m_get fine m -> Forall (decent m_get fine sel) l -> during step (all_frozen m_get m_train sel) m l ->
  nrel (fun a a' => (sel a <-> sel a') /\ (sel a -> trel eq (m_get a) (m_get a'))) (Nest (mods m)) (Nest (mods (fst (life m l)))).
Proof.
  intros HS. exact (frozen_life m_get m_set m_train m_reload update zeros dloss vloss split2 perm fzero fadd fsub fdivn flt fle isnan fine sel HO HM HF l HS m).
Qed.
(** * After a training the optimiser states are about the parameters the modules
    have, so that training on starts there. *)
Theorem C117_trained_in_order (m m' : model) (k : call) : in_order m_get fine m -> decent_call k -> train m k = (m', Ok tt) ->
  in_order m_get fine m' /\ exists o, mopt m' = Some o.
Proof.
  intros I D E. split; [apply (train_ok m_get m_set m_train m_reload update zeros dloss vloss split2 perm fzero fadd fsub fdivn flt fle isnan fine HO HM HF m k m' I D E)|].
  unfold FineTune.train in E. destruct (FineTune.trained _ _ _ _ _ _ _ _ _ _ _ _ _ _ m k) as [[[o s] r]|e]; [|discriminate].
  destruct (put _ _ _) as [[a|t] [[]|e]]; try discriminate. injection E as <-. cbn. eauto.
Qed.
End Statements.

(** A frozen module keeps its parameters in a training, whatever was done
    before. *)
Definition training_keeps_frozen_always : Prop :=
  forall (S1 S2 S3 M P G MV MSt Rng F : Type) m_get m_set m_train update zeros dloss vloss split2 perm fzero fadd fsub fdivn flt fle
    (m m' : @FineTune.model M P MV MSt Rng) (k : @TrainModel.call S1 S2 S3 P Rng F),
  honest_modules m_get m_set m_train -> decent_call k -> (forall x, has_leaf (mods m) x -> unmixed m_get m_train x) ->
  FineTune.train (G := G) m_get m_set m_train update zeros dloss vloss split2 perm fzero fadd fsub fdivn flt fle m k = (m', Ok tt) ->
  nrel (fun a a' => m_train a = false -> trel eq (m_get a) (m_get a')) (Nest (mods m)) (Nest (mods m')).

(** ** The small setting of Props_Train.v, with modules that have a name, a flag
    and one number. *)
Definition zmod : Type := nat * (bool * Z).
Definition z_flag (a : zmod) : bool := fst (snd a).
Definition z_get (a : zmod) : tree Z := Leaf (snd (snd a)).
Definition z_set (a : zmod) (p : tree Z) : zmod * result unit := match p with Leaf v => ((fst a, (z_flag a, v)), Ok tt) | _ => (a, Err ValueError) end.
Definition z_reload (a : zmod) : result zmod := Ok a.
Definition z_train := FineTune.train z_get z_set z_flag (adam_update ex_num) (fun _ => tt) ex_dloss ex_vloss ex_split ex_perm (Some 0%Z) nadd nsub (fun v _ => v) nlt nle.
Definition z_step := FineTune.step z_get z_set z_flag z_reload (adam_update ex_num) (fun _ => tt) ex_dloss ex_vloss ex_split ex_perm (Some 0%Z) nadd nsub (fun v _ => v) nlt nle.
Definition z_life := FineTune.life z_get z_set z_flag z_reload (adam_update ex_num) (fun _ => tt) ex_dloss ex_vloss ex_split ex_perm (Some 0%Z) nadd nsub (fun v _ => v) nlt nle.
Definition z_two (b c : bool) (v w : Z) : tree (net zmod) := Lst [Leaf (Atom (0, (b, v))); Leaf (Atom (1, (c, w)))].
Definition z_model : @FineTune.model zmod Z unit nat nat := FineTune.mk_model (z_two true false 0 7) 0 0 None.
(** [model.modules[1].trainable = False] and [model.modules[0].trainable = b],
    for models with (at least) two modules. *)
Definition z_freeze (b : bool) (t : tree (net zmod)) : tree (net zmod) :=
  match t with Lst (Leaf (Atom (i, (_, v))) :: Leaf (Atom (j, (_, w))) :: l) => Lst (Leaf (Atom (i, (b, v))) :: Leaf (Atom (j, (false, w))) :: l) | _ => t end.
Definition z_sel (a : zmod) : Prop := fst a = 1.
Lemma z_honest : honest_modules z_get z_set z_flag.
Proof. intros a [v| | | |] b E; try discriminate. injection E as <-. split; [constructor|]; reflexivity. Qed.
Lemma z_fine : fine_modules z_get z_set z_reload (fun _ => True).
Proof. constructor; try reflexivity; intros; try exact I; [constructor|]. destruct a as [i [b v]]. reflexivity. Qed.
Lemma z_in_order : in_order z_get (fun _ => True) z_model.
Proof.
  constructor; [|reflexivity|auto|discriminate]. constructor; [repeat constructor|]. intros x Hx. apply leaves_has_leaf in Hx. cbn in Hx. destruct Hx as [ <- | [ <- | [] ] ]; constructor.
Qed.
Lemma z_decent b n : decent_call (y_call b n).
Proof. intros fl. split; [reflexivity|]. intros r e ps i. split; reflexivity. Qed.
Lemma z_only b : only_flags z_get (fun _ => True) z_sel (z_freeze b).
Proof.
  intros t. assert (R : nrel (fun a a' => z_get a' = z_get a /\ (True -> True) /\ (z_sel a <-> z_sel a')) (Nest t) (Nest t)) by (apply nrel_refl; intros; repeat split; auto).
  unfold z_freeze. destruct t as [| |d|l|l]; auto. destruct l as [|[[[i [c v]]|]| | | |] l]; auto. destruct l as [|[[[j [e w]]|]| | | |] l]; auto.
  constructor. inversion R as [|? ? RT]; subst. inversion RT as [| |? ? RL| |]; subst. inversion RL as [|? ? ? ? _ RL1]; subst. inversion RL1 as [|? ? ? ? _ RL2]; subst.
  constructor. constructor; [|constructor; [|exact RL2]]; repeat constructor; auto.
Qed.
(** Train, freeze the other module too and thaw it, save, load, train on. *)
Definition z_before : list (@FineTune.op Z Z Z zmod Z nat num) := [OTrain (y_call false 2); OFlags (z_freeze false); OFlags (z_freeze true)].
Definition z_after : list (@FineTune.op Z Z Z zmod Z nat num) := [OTrain (y_call true 1)].
Lemma z_decent_life : Forall (decent z_get (fun _ => True) z_sel) (z_before ++ z_after).
Proof. unfold z_before, z_after. cbn [app]. repeat (apply Forall_cons; [first [apply z_decent|apply z_only]|]). apply Forall_nil. Qed.
Lemma z_frozen m b v w : mods m = z_two b false v w -> all_frozen (P := Z) (MV := unit) (MSt := nat) (Rng := nat) z_get z_flag z_sel m.
Proof.
  intros E. split; rewrite E; unfold z_two.
  - intros a Ha. inversion Ha as [|? x ? Hx Hy]; subst. apply leaves_has_leaf in Hx. cbn in Hx. destruct Hx as [ <- | [ <- | [] ] ]; inversion Hy; subst; [discriminate|reflexivity].
  - intros x Hx. apply leaves_has_leaf in Hx. cbn in Hx. destruct Hx as [ <- | [ <- | [] ] ]; apply C95_modules_unmixed.
Qed.
Lemma z_during : during z_step (all_frozen z_get z_flag z_sel) z_model (z_before ++ z_after).
Proof.
  unfold z_before, z_after. cbn [app during].
  repeat (refine (conj _ (conj _ _)); [intros HT; first [contradiction HT|eapply z_frozen; vm_compute; reflexivity]|left; vm_compute; reflexivity|]). exact I.
Qed.
Example C117_example :
  (exists r1 r2, snd (z_life z_model (z_before ++ z_after)) = r1 ++ r2 /\ length r1 = 3 /\ snd (z_life z_model (z_before ++ OReload :: z_after)) = r1 ++ Ok tt :: r2 /\
    same_model (fst (z_life z_model (z_before ++ z_after))) (fst (z_life z_model (z_before ++ OReload :: z_after)))) /\
  mods (fst (z_life z_model z_before)) = z_two true false (-30) 7 /\
  snd (z_life z_model (z_before ++ OReload :: z_after)) = [Ok tt; Ok tt; Ok tt; Ok tt; Ok tt] /\
  mods (fst (z_life z_model (z_before ++ OReload :: z_after))) = z_two true false (-45) 7 /\
  snd (z_life z_model [OReload; OTrain (y_call true 1)]) = [Ok tt; Err ValueError].
Proof.
  split; [|vm_compute; repeat split; reflexivity].
  eapply (C117_transparent z_get z_set z_flag z_reload (adam_update ex_num) (fun _ => tt) ex_dloss ex_vloss ex_split ex_perm (Some 0%Z) nadd nsub (fun v _ => v) nlt nle nnan (fun _ => True) z_sel);
    [exact num_order|exact z_honest|exact z_fine|exact z_in_order|exact z_decent_life|].
  unfold z_before, z_after. cbn [app during]. repeat split; left; vm_compute; reflexivity.
Qed.
Example C117_frozen_example :
  nrel (fun a a' => (z_sel a <-> z_sel a') /\ (z_sel a -> trel eq (z_get a) (z_get a'))) (Nest (mods z_model)) (Nest (mods (fst (z_life z_model (z_before ++ z_after))))).
Proof.
  apply (C117_frozen_partial z_get z_set z_flag z_reload (adam_update ex_num) (fun _ => tt) ex_dloss ex_vloss ex_split ex_perm (Some 0%Z) nadd nsub (fun v _ => v) nlt nle nnan (fun _ => True) z_sel);
    [exact num_order|exact z_honest|exact z_fine| |exact z_in_order|exact z_decent_life|exact z_during].
  intros a [v| | | |] b E; try discriminate. injection E as <-. reflexivity.
Qed.

(** Setting the parameters of a trained model by hand and training on puts the
    old parameters back, into frozen modules as well. *)
Theorem C117_refuted :
  (exists m, m = fst (FineTune.set_params z_set (fst (z_train z_model (y_call false 2))) (Lst [Leaf 100; Leaf 200]%Z)) /\ mods m = z_two true false 100 200 /\
    snd (z_train m (y_call true 1)) = Ok tt /\ mods (fst (z_train m (y_call true 1))) = z_two true false (-45) 7) /\
  ~ training_keeps_frozen_always.
Proof.
  split; [eexists; split; [reflexivity|vm_compute; auto]|]. intros A.
  set (m := fst (FineTune.set_params z_set (fst (z_train z_model (y_call false 2))) (Lst [Leaf 100; Leaf 200]%Z))).
  assert (E : mods m = z_two true false 100 200) by (vm_compute; reflexivity).
  specialize (A _ _ _ _ _ _ _ _ _ _ z_get z_set z_flag (adam_update ex_num) (fun _ => tt) ex_dloss ex_vloss ex_split ex_perm (Some 0%Z) nadd nsub (fun v _ => v) nlt nle
    m (fst (z_train m (y_call true 1))) (y_call true 1) z_honest (z_decent true 1)).
  assert (N := A ltac:(eapply z_frozen; exact E) ltac:(vm_compute; reflexivity)). clear A. rewrite E in N.
  assert (E' : mods (fst (z_train m (y_call true 1))) = z_two true false (-45) 7) by (vm_compute; reflexivity). rewrite E' in N. clear - N.
  unfold z_two in N. inversion N as [|? ? NT]; subst. inversion NT as [| |? ? NL| |]; subst. inversion NL as [|? ? ? ? _ NL1]; subst. inversion NL1 as [|? ? ? ? N1 _]; subst.
  inversion N1 as [? ? NA| | | |]; subst. inversion NA as [? ? NR|]; subst. specialize (NR eq_refl). inversion NR as [? ? NE| | | |]; subst. vm_compute in NE. discriminate.
Qed.

Print Assumptions C117_reload.
Print Assumptions C117_transparent.
Print Assumptions C117_frozen_partial.
Print Assumptions C117_trained_in_order.
Print Assumptions C117_refuted.
