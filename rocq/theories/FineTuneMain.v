(** Saving, loading and freezing around training: whole lives of models. *)
From Coq Require Import ZArith Permutation.
From Verif Require Import Base BaseLemmas TreeUtil TreeSpec NonSeqSpec NonSeqProofs MutableProofs Batch BatchSpec Train TrainSpec TrainProofs TrainSteps TrainArgs TrainArgsProofs
  SerialSpec ScalerProofs ScalerFileProofs ReshapeProofs ReshapeMain ShapesProofs MatModsProofs EinsumSpec EinsumProofs EinsumMain Seq Params ParamsSpec ParamsProofs TrainModel FineTune FineTuneSpec FineTuneProofs.
Local Open Scope list_scope.
Local Open Scope nat_scope.

Section Main.
Context {S1 S2 S3 M P G MV MSt Rng F : Type}.
Notation OS := (ostate P MV).
Context (m_get : M -> tree P) (m_set : M -> tree P -> M * result unit) (m_train : M -> bool) (m_reload : M -> result M)
  (update : G -> OS -> OS) (zeros : P -> MV)
  (dloss : nat -> @batch S1 S2 S3 -> bool -> MSt -> Rng -> list P -> result ((nat -> G) * MSt))
  (vloss : nat -> @batch S1 S2 S3 -> MSt -> Rng -> list P -> result F)
  (split2 : Rng -> Rng * Rng) (perm : Rng -> nat -> list nat)
  (fzero : F) (fadd fsub : F -> F -> F) (fdivn : F -> nat -> F) (flt fle : F -> F -> bool) (isnan : F -> bool).
Notation model := (@model M P MV MSt Rng).
Notation call := (@call S1 S2 S3 P Rng F).
Notation op := (@op S1 S2 S3 M P Rng F).
Notation train := (train m_get m_set m_train update zeros dloss vloss split2 perm fzero fadd fsub fdivn flt fle).
Notation trained := (trained m_get m_train update zeros dloss vloss split2 perm fzero fadd fsub fdivn flt fle).
Notation step := (step m_get m_set m_train m_reload update zeros dloss vloss split2 perm fzero fadd fsub fdivn flt fle).
Notation life := (life m_get m_set m_train m_reload update zeros dloss vloss split2 perm fzero fadd fsub fdivn flt fle).
Notation reload := (reload m_get m_set m_reload).
Notation in_order := (in_order m_get).
Context (fine sel : M -> Prop).
Context (HO : fl_order isnan flt fle) (HM : honest_modules m_get m_set m_train) (HF : fine_modules m_get m_set m_reload fine).

Lemma same_refl (m : model) : same_model m m.
Proof. repeat split. unfold same_opt. destruct (mopt m); [apply trel_refl|exact I]. Qed.
Lemma same_sym (m m' : model) : same_model m m' -> same_model m' m.
Proof.
  intros (H1 & H2 & H3 & H4). repeat split; auto. unfold same_opt in *. destruct (mopt m), (mopt m'); auto. apply trel_flip in H4. eapply trel_impl; [|exact H4]. cbn. auto.
Qed.
Lemma same_trans (m m' m'' : model) : same_model m m' -> same_model m' m'' -> same_model m m''.
Proof.
  intros (H1 & H2 & H3 & H4) (K1 & K2 & K3 & K4). repeat split; try congruence. unfold same_opt in *. destruct (mopt m), (mopt m'), (mopt m''); auto; try contradiction.
  eapply trel_comp; [|exact H4|exact K4]. cbn. congruence.
Qed.
Lemma same_in_order (m m' : model) : same_model m m' -> in_order fine m -> in_order fine m'.
Proof.
  intros (H1 & H2 & H3 & H4) [I1 I2 I3 I4]. constructor; rewrite <- ?H1; auto. intros o' E. unfold same_opt in H4. rewrite E in H4. destruct (mopt m) as [o|] eqn:Eo; [|destruct H4].
  destruct (I4 o eq_refl) as [W T]. split; [eapply trel_wf; eauto|]. apply trel_flip in H4. eapply trel_comp; [|exact H4|exact T]. cbn. congruence.
Qed.

(** ** Loading *)
Lemma reload_net_id n : wfn n -> (forall a, atom_in n a -> fine a) -> reload_net m_get m_set m_reload n = Ok n.
Proof.
  induction n as [a|t IH] using net_ind2; intros W H.
  - cbn. rewrite (fm_reload _ _ _ _ HF) by (apply H; constructor). reflexivity.
  - cbn [reload_net]. inversion W as [|? W1 W2]; subst. rewrite tmapM_id.
    + cbn [rbind]. assert (E := put_own m_get m_set (Nest t) W). cbn [get] in E. rewrite E; [reflexivity|]. intros a Ha. apply (fm_steady _ _ _ _ HF). auto.
    + intros x Hx. apply IH; auto. intros a Ha. apply H. econstructor; eauto.
Qed.
Lemma params_wf (m : model) : in_order fine m -> wf_tree (get m_get (Nest (mods m))).
Proof. intros [I1 I2 I3 I4]. apply get_wf; [exact I1|]. intros a Ha. apply (fm_wf _ _ _ _ HF). auto. Qed.
Theorem reload_same (m : model) : in_order fine m -> exists m', reload m = Ok m' /\ same_model m m'.
Proof.
  intros I. pose proof (params_wf m I) as WP. destruct I as [I1 I2 I3 I4]. unfold FineTune.reload. rewrite reload_net_id by assumption. cbn [rbind]. unfold reload_opt.
  destruct (mopt m) as [o|] eqn:Eo.
  - destruct (I4 o eq_refl) as [W T].
    assert (Ht : truthy o = true) by (rewrite (truthy_trel _ _ _ T); cbn [get]; apply truthy_sub; exact I2). rewrite Ht.
    apply trel_flip in T. pose proof (leaves_trel _ _ WP _ T) as L.
    destruct (rebuild_ok _ _ _ L) as (o' & E & E1 & E2). rewrite E. cbn [rbind]. eexists. split; [reflexivity|]. repeat split. cbn [mopt]. rewrite Eo. cbn [same_opt].
    apply trel_of_leaves; [exact W| |rewrite E1; clear; induction (leaves o); constructor; auto].
    apply trel_flip in T. eapply trel_comp; [|exact T|exact E2]. cbn. auto.
  - cbn [rbind]. eexists. split; [reflexivity|]. repeat split. cbn [mopt]. rewrite Eo. exact I.
Qed.

(** ** One training *)
Lemma flags_wf (m : model) : in_order fine m -> wf_tree (flagged m_get m_train (mods m)).
Proof.
  intros I. pose proof (params_wf m I) as WP. pose proof (flagged_params m_get m_train (mods m)) as T. apply trel_flip in T. eapply trel_wf; eauto.
Qed.
(** The optimiser states at the start are about the current parameters. *)
Lemma handed_spec (m : model) (k : call) o : in_order fine m -> handed m_get m_train zeros m k = Ok o ->
  wf_tree o /\ trel (fun bp s => ox s = snd bp) (flagged m_get m_train (mods m)) o.
Proof.
  intros I H. pose proof (flags_wf m I) as WZ. unfold handed in H. destruct (k_resume k).
  - destruct (mopt m) as [o'|] eqn:Eo; [|discriminate]. destruct (same_struct _ _); [|discriminate]. injection H as <-.
    destruct (io_opt _ _ _ I o' Eo) as [W T]. split; [exact W|]. apply trel_flip in T. eapply trel_comp; [|apply flagged_params|exact T]. cbn. congruence.
  - injection H as <-. assert (T : trel (fun bp s => ox s = snd bp) (flagged m_get m_train (mods m)) (tmap (fun bp => init zeros (snd bp)) (flagged m_get m_train (mods m)))).
    { eapply trel_impl; [|apply tmap_trel]. cbn. intros bp s ->. reflexivity. }
    split; [eapply trel_wf; eauto|exact T].
Qed.
Lemma nth_forall2 {X Y} (R : X -> Y -> Prop) (l : list X) : forall m, length l = length m ->
  (forall i x y, nth_error l i = Some x -> nth_error m i = Some y -> R x y) -> Forall2 R l m.
Proof.
  induction l as [|x l IH]; intros [|y m] E H; try discriminate; constructor; [apply (H 0); reflexivity|]. apply IH; [cbn in E; lia|]. intros i. apply (H (S i)).
Qed.
Lemma forall2_nth {X Y} (R : X -> Y -> Prop) l m : Forall2 R l m -> forall i x y, nth_error l i = Some x -> nth_error m i = Some y -> R x y.
Proof. induction 1 as [|a b l m H _ IH]; intros [|i] x y E1 E2; cbn in *; try discriminate; [congruence|eauto]. Qed.
Lemma trained_spec (m : model) (k : call) o s r : in_order fine m -> decent_call k -> trained m k = Ok (o, s, r) ->
  wf_tree o /\ trel (fun bp x => fst bp = false -> ox x = snd bp) (flagged m_get m_train (mods m)) o.
Proof.
  intros I HK H. unfold FineTune.trained in H. apply rbind_ok in H as (o0 & H0 & H). apply rbind_ok in H as ([[[c fe] bv] be] & HL & H).
  destruct c as [[os s'] r']. apply rbind_ok in H as (o' & HR & H). injection H as -> -> ->.
  destruct (handed_spec m k o0 I H0) as [W0 T0]. pose proof (flags_wf m I) as WZ. pose proof (leaves_trel _ _ WZ _ T0) as L0.
  set (fl := map fst (leaves (flagged m_get m_train (mods m)))) in *. destruct (HK fl) as [HK1 HK2].
  assert (Hlen : length (c_flags (k_settings k fl)) = length (leaves o0)) by (rewrite HK1; unfold fl; rewrite map_length; eapply forall2_length; eauto).
  pose proof (train_length _ _ _ _ _ _ _ _ _ _ _ isnan _ _ _ _ _ _ _ _ _ _ _ _ HO HK2 Hlen HL) as Hn. cbn [fst] in Hn.
  destruct (rebuild_ok (fun _ _ => True) o0 os) as (u & E1 & E2 & E3); [apply forall2_true; congruence|]. rewrite HR in E1. injection E1 as <-.
  split; [eapply trel_wf; eauto|].
  apply trel_of_leaves; [exact WZ|eapply trel_comp; [|exact T0|exact E3]; cbn; auto|]. rewrite E2.
  apply nth_forall2; [pose proof (forall2_length _ _ _ L0); congruence|]. intros i bp x Hb Hx Hf.
  assert (Hi : nth_error (c_flags (k_settings k fl)) i = Some false) by (rewrite HK1; unfold fl; rewrite nth_error_map, Hb; cbn; congruence).
  pose proof (train_frozen _ _ _ _ _ _ _ _ _ _ _ isnan _ _ _ _ _ _ _ _ _ _ _ _ i HO HK2 Hlen Hi HL) as HE. cbn [fst] in HE. rewrite Hx in HE. symmetry in HE.
  exact (forall2_nth _ _ _ L0 i bp x Hb HE).
Qed.
Lemma train_ok (m : model) (k : call) m' : in_order fine m -> decent_call k -> train m k = (m', Ok tt) ->
  in_order fine m' /\
  nrel (fun a a' => (exists q, m_set a q = (a', Ok tt)) /\
    ((forall x, has_leaf (mods m) x -> unmixed m_get m_train x) -> m_train a = false -> trel eq (m_get a) (m_get a'))) (Nest (mods m)) (Nest (mods m')).
Proof.
  intros I HK H. unfold FineTune.train in H. destruct (trained m k) as [[[o s] r]|e] eqn:Et; [|discriminate].
  destruct (trained_spec m k o s r I HK Et) as [W T].
  destruct (put m_set (Nest (mods m)) (tmap ox o)) as [[a|t] [[]|e]] eqn:Ep; try discriminate. injection H as <-. cbn [mods].
  assert (TP : trel (fun bx y => fst bx = false -> y = snd bx) (flagged m_get m_train (mods m)) (tmap ox o)).
  { eapply (trel_comp _ (fun x y => y = ox x)); [|exact T|apply tmap_trel]. cbn. intros x y z H1 -> H2. auto. }
  pose proof (frozen_put m_get m_set m_train _ _ _ HM (io_wf _ _ _ I) TP Ep) as N. split; [|exact N]. constructor; cbn [mods mopt].
  - eapply nrel_wfn; [exact N|apply I].
  - inversion N as [|? ? NT]; subst. eapply some_trel; [exact NT|apply I].
  - intros b Hb. destruct (nrel_atoms _ _ _ _ N Hb) as (a & Ha & (q & Hq) & _). eapply (fm_set _ _ _ _ HF); [|exact Hq]. apply I. exact Ha.
  - intros o' E. injection E as <-. split; [exact W|]. pose proof (put_get m_get m_set m_train _ HM (io_wf _ _ _ I) _ _ Ep) as TG.
    eapply (trel_comp (fun x y => y = ox x) eq); [|apply tmap_trel|exact TG]. cbn. congruence.
Qed.

(** ** The same model trains the same *)
Lemma trained_same (m m' : model) (k : call) : in_order fine m -> same_model m m' -> trained m k = trained m' k.
Proof.
  intros I S. pose proof (same_in_order _ _ S I) as I'. destruct S as (H1 & H2 & H3 & H4). unfold FineTune.trained. rewrite <- H1, <- H2, <- H3.
  destruct (mopt m) as [o|] eqn:Eo, (mopt m') as [o'|] eqn:Eo'; cbn [same_opt] in H4; try contradiction.
  - assert (SS : forall (x : model) y, in_order fine x -> mopt x = Some y -> same_struct y (flagged m_get m_train (mods x)) = true).
    { intros x y Ix Ex. destruct (io_opt _ _ _ Ix y Ex) as [W T]. apply alike_struct; [apply flags_wf; exact Ix|]. pose proof (flagged_params m_get m_train (mods x)) as TF. apply trel_flip in TF.
      eapply trel_comp; [|exact T|exact TF]. cbn. auto. }
    destruct (io_opt _ _ _ I o Eo) as [W T]. unfold handed. rewrite Eo, Eo'. rewrite <- H1. pose proof (SS m o I Eo) as E1. pose proof (SS m' o' I' Eo') as E2. rewrite <- H1 in E2. rewrite E1, E2.
    destruct (k_resume k); [|reflexivity]. cbn [rbind]. rewrite <- (forall2_eq _ _ (leaves_trel _ _ W _ H4)).
    destruct (train_loop _ _ _ _ _ _ _ _ _ _ _ _ _ _ _ _ _ _ _) as [[[[[[os s] r] fe] bv] be]|e]; [|reflexivity]. cbn [rbind]. rewrite (rebuild_same _ _ os W H4). reflexivity.
  - unfold handed. rewrite Eo, Eo'. rewrite <- H1. reflexivity.
Qed.
Lemma train_same (m m' : model) (k : call) : in_order fine m -> same_model m m' ->
  snd (train m k) = snd (train m' k) /\ same_model (fst (train m k)) (fst (train m' k)).
Proof.
  intros I S. unfold FineTune.train. rewrite <- (trained_same m m' k I S). destruct (trained m k) as [[[o s] r]|e]; [|split; [reflexivity|exact S]].
  destruct S as (H1 & H2 & H3 & H4). rewrite <- H1. destruct (put m_set (Nest (mods m)) (tmap ox o)) as [[a|t] [[]|e]]; cbn [fst snd]; split; try reflexivity; repeat split; cbn [mods mst mrng mopt]; auto. apply trel_refl.
Qed.
Lemma step_same (m m' : model) (o : op) : in_order fine m -> same_model m m' ->
  snd (step m o) = snd (step m' o) /\ same_model (fst (step m o)) (fst (step m' o)).
Proof.
  intros I S. destruct o as [k|f|]; cbn [FineTune.step].
  - apply train_same; assumption.
  - split; [reflexivity|]. destruct S as (H1 & H2 & H3 & H4). repeat split; cbn [fst mods mst mrng mopt]; congruence.
  - destruct (reload_same m I) as (n & E & Sn). destruct (reload_same m' (same_in_order _ _ S I)) as (n' & E' & Sn'). rewrite E, E'. cbn [fst snd]. split; [reflexivity|].
    eapply same_trans; [apply same_sym; exact Sn|]. eapply same_trans; [exact S|exact Sn'].
Qed.

(** ** Lives *)
Lemma step_in_order (m : model) (o : op) : in_order fine m -> decent m_get fine sel o -> snd (step m o) = Ok tt \/ fst (step m o) = m -> in_order fine (fst (step m o)).
Proof.
  intros I D [H|H]; [|rewrite H; exact I]. destruct o as [k|f|]; cbn [FineTune.step decent] in *.
  - destruct (train m k) as [m' r] eqn:E. cbn [fst snd] in *. subst r. eapply train_ok; eauto.
  - cbn [fst]. specialize (D (mods m)). constructor; cbn [mods mopt].
    + eapply nrel_wfn; [exact D|apply I].
    + inversion D as [|? ? NT]; subst. eapply some_trel; [exact NT|apply I].
    + intros b Hb. destruct (nrel_atoms _ _ _ _ D Hb) as (a & Ha & _ & Hf & _). apply Hf. apply I. exact Ha.
    + intros o E. destruct (io_opt _ _ _ I o E) as [W T]. split; [exact W|].
      eapply (trel_comp _ eq); [|exact T|apply nrel_get; eapply nrel_impl; [|exact D]]; cbn; [congruence|]. intros a a' (-> & _). apply trel_refl.
  - destruct (reload_same m I) as (n & E & S). rewrite E in *. cbn [fst]. eapply same_in_order; eauto.
Qed.
Lemma life_cons (m : model) o l : life m (o :: l) = (fst (life (fst (step m o)) l), snd (step m o) :: snd (life (fst (step m o)) l)).
Proof. cbn [FineTune.life]. destruct (step m o) as [m1 r]. cbn [fst snd]. destruct (life m1 l) as [m2 rs]. reflexivity. Qed.
Lemma life_same l : forall m m' : model, in_order fine m -> same_model m m' -> Forall (decent m_get fine sel) l -> during step (fun _ => True) m l ->
  snd (life m l) = snd (life m' l) /\ same_model (fst (life m l)) (fst (life m' l)).
Proof.
  induction l as [|o l IH]; intros m m' I S D HD; [split; [reflexivity|exact S]|]. rewrite !life_cons. cbn [fst snd]. inversion D as [|? ? D1 D2]; subst. destruct HD as (_ & H1 & H2).
  destruct (step_same m m' o I S) as [E1 E2]. destruct (IH _ _ (step_in_order m o I D1 H1) E2 D2 H2) as [E3 E4]. split; [congruence|exact E4].
Qed.
Theorem transparent l1 : forall (m : model) l2, in_order fine m -> Forall (decent m_get fine sel) (l1 ++ l2) -> during step (fun _ => True) m (l1 ++ l2) ->
  exists r1 r2, snd (life m (l1 ++ l2)) = r1 ++ r2 /\ length r1 = length l1 /\ snd (life m (l1 ++ OReload :: l2)) = r1 ++ Ok tt :: r2 /\
    same_model (fst (life m (l1 ++ l2))) (fst (life m (l1 ++ OReload :: l2))).
Proof.
  induction l1 as [|o l1 IH]; intros m l2 I D HD; cbn [app] in *.
  - destruct (reload_same m I) as (m' & E & S). exists [], (snd (life m l2)). rewrite life_cons. cbn [FineTune.step]. rewrite E. cbn [fst snd app length]. destruct (life_same l2 m m' I S D HD) as [E1 E2].
    rewrite <- E1. auto.
  - inversion D as [|? ? D1 D2]; subst. destruct HD as (_ & H1 & H2). rewrite !life_cons. cbn [fst snd].
    destruct (IH (fst (step m o)) l2 (step_in_order m o I D1 H1) D2 H2) as (r1 & r2 & E1 & E2 & E3 & E4). exists (snd (step m o) :: r1), r2. rewrite E1, E3. cbn [app length]. auto.
Qed.

(** ** Frozen modules *)
Theorem frozen_life l : (forall a q b, m_set a q = (b, Ok tt) -> (sel a <-> sel b)) -> forall m : model, in_order fine m -> Forall (decent m_get fine sel) l ->
  during step (all_frozen m_get m_train sel) m l ->
  nrel (fun a a' => (sel a <-> sel a') /\ (sel a -> trel eq (m_get a) (m_get a'))) (Nest (mods m)) (Nest (mods (fst (life m l)))).
Proof.
  intros HS. induction l as [|o l IH]; intros m I D HD.
  - cbn. apply nrel_refl. intros a _. split; [tauto|]. intros _. apply trel_refl.
  - inversion D as [|? ? D1 D2]; subst. destruct HD as (H0 & H1 & H2). rewrite life_cons. cbn [fst]. pose proof (step_in_order m o I D1 H1) as I1.
    set (K := fun a a' => (sel a <-> sel a') /\ (sel a -> trel eq (m_get a) (m_get a'))) in *.
    apply (nrel_comp K K K) with (n' := Nest (mods (fst (step m o)))); [| |apply IH; assumption].
    + cbn. intros a b c [A1 A2] [B1 B2]. split; [tauto|]. intros Ha. eapply trel_comp; [|apply A2; exact Ha|apply B2; apply A1; exact Ha]. cbn. congruence.
    + destruct H1 as [H1|H1]; [|rewrite H1; apply nrel_refl; intros a _; split; [tauto|intros _; apply trel_refl]]. destruct o as [k|f|]; cbn [FineTune.step decent is_training] in *.
      * destruct (train m k) as [m' r] eqn:E. cbn [fst snd] in *. subst r. destruct (train_ok m k m' I D1 E) as [_ N]. destruct (H0 Logic.I) as [Q1 Q2].
        assert (N' : nrel (fun a a' => atom_in (Nest (mods m)) a /\ (exists q, m_set a q = (a', Ok tt)) /\ (m_train a = false -> trel eq (m_get a) (m_get a'))) (Nest (mods m)) (Nest (mods m'))).
        { eapply nrel_comp; [|apply (nrel_refl (fun a b => atom_in (Nest (mods m)) a /\ a = b)); intros a Ha; split; [exact Ha|reflexivity]|exact N]. cbn. intros a b c [A1 <-] [A2 A3]. split; [exact A1|]. split; [exact A2|]. apply A3. exact Q2. }
        eapply nrel_impl; [|exact N']. cbn. intros a a' (Ha & (q & Hq) & Hf). split; [eapply HS; eauto|]. intros Hs. apply Hf. apply Q1; assumption.
      * cbn [fst mods]. eapply nrel_impl; [|exact (D1 (mods m))]. unfold K. cbn. intros a a' (He & _ & Hs). split; [exact Hs|]. intros _. rewrite He. apply trel_refl.
      * destruct (reload_same m I) as (n & E & S). rewrite E. cbn [fst]. destruct S as (E1 & _). rewrite <- E1. apply nrel_refl. intros a _. split; [tauto|intros _; apply trel_refl].
Qed.
End Main.
