(** C95-C97: parameters of models. *)
From Coq Require Import Permutation.
From Verif Require Import Base BaseLemmas TreeUtil TreeSpec NonSeqSpec NonSeqProofs SerialSpec ScalerProofs ReshapeProofs TrainArgsProofs ScalerFileProofs Params ParamsSpec ParamsProofs.
Local Open Scope list_scope. Local Open Scope string_scope.

(** Modules with one number, and a flag. *)
Definition tmod : Type := bool * nat.
Definition t_get (a : tmod) : tree nat := Leaf (snd a).
Definition t_set (a : tmod) (p : tree nat) : tmod * result unit :=
  match p with Leaf n => ((fst a, n), Ok tt) | _ => (a, Err ValueError) end.
Definition t_train (a : tmod) : bool := fst a.
Definition t_freeze (b : bool) (a : tmod) : tmod := (b, snd a).
Definition t_step (z : tree (bool * nat)) : result (tree nat) := Ok (tmap (fun bx : bool * nat => if fst bx then snd bx + 1 else snd bx) z).
Lemma t_honest : honest_modules t_get t_set t_train.
Proof. intros [b n] [k| | | |] a E; cbn in E; try discriminate. injection E as <-. split; [constructor; reflexivity|reflexivity]. Qed.
Lemma t_steady : steady_modules t_get t_set.
Proof. intros [b n]. reflexivity. Qed.
Lemma t_respects : respects_flags t_step.
Proof.
  intros z p E. unfold t_step in E. injection E as <-.
  apply (trel_impl (fun (bx : bool * nat) y => (if fst bx then snd bx + 1 else snd bx) = y)); [|apply trel_tmap, trel_refl].
  intros [[] n] y; cbn; [discriminate|auto].
Qed.

(* ================================================================== *)
(** * C95: frozen modules keep their parameters *)
(** If no model inside the model mixes frozen and trainable modules, every
    frozen module has its old parameters after training. *)
Theorem C95_frozen_modules_kept_partial {M P} (m_get : M -> tree P) m_set m_train train t m' :
  honest_modules m_get m_set m_train -> respects_flags train -> wfn (Nest t) -> (forall x, has_leaf t x -> unmixed m_get m_train x) ->
  train_model m_get m_set m_train train t = (m', Ok tt) -> nrel (fun a a' => m_train a = false -> trel eq (m_get a) (m_get a')) (Nest t) m'.
Proof. apply frozen_kept. Qed.
(** That covers models without models inside, and models inside that were
    frozen (or made trainable) as a whole. *)
Theorem C95_modules_unmixed {M P} (m_get : M -> tree P) m_train a : unmixed m_get m_train (Atom a).
Proof.
  destruct (m_train a) eqn:E; [left|right]; intros b Hb; inversion Hb; subst; auto.
Qed.
Theorem C95_freeze_unmixed {M P} (m_get : M -> tree P) m_train (m_freeze : bool -> M -> M) b m :
  (forall b a, m_train (m_freeze b a) = b) -> (forall b a, m_get (m_freeze b a) = m_get a) ->
  unmixed m_get m_train (set_trainable m_freeze b m) /\ get m_get (set_trainable m_freeze b m) = get m_get m /\
  (forall a, atom_in (set_trainable m_freeze b m) a -> m_train a = b).
Proof.
  intros HF HG. assert (A : forall a, atom_in (set_trainable m_freeze b m) a -> m_train a = b).
  { intros a Ha. apply freeze_atoms in Ha as (a0 & _ & ->). apply HF. }
  split; [|split; [apply freeze_get; auto|exact A]]. destruct b; [left|right]; auto.
Qed.
(** A model counts as trainable when any module in it is. *)
Theorem C95_trainable_means_any {M} (m_train : M -> bool) m : trainable m_train m = true <-> exists a, atom_in m a /\ m_train a = true.
Proof. apply trainable_iff. Qed.
(** The flags used in training: those of a part are all those of the entry. *)
Theorem C95_flags {M P} (m_get : M -> tree P) (m_train : M -> bool) t :
  parts (fun x q => trel (fun p bp => snd bp = p /\ (fst bp = true <-> exists a, atom_in x a /\ m_train a = true)) (get m_get x) q) t (flagged m_get m_train t).
Proof.
  unfold flagged. eapply parts_impl; [|apply trel_sub_refl]. cbn. intros x q _ T. apply trel_tmap in T.
  eapply trel_leaf_impl; [|exact T]. cbn. intros p bp Hl <-. split; [reflexivity|]. cbn [fst]. rewrite <- trainable_iff. unfold is_trainable. apply leaves_has_leaf in Hl.
  destruct (leaves (get m_get x)); [destruct Hl|]. rewrite Bool.andb_true_r. reflexivity.
Qed.
(** What a user expects of a frozen module. *)
Definition frozen_kept_always : Prop :=
  forall M P (m_get : M -> tree P) m_set m_train train t m', honest_modules m_get m_set m_train -> respects_flags train -> wfn (Nest t) ->
  train_model m_get m_set m_train train t = (m', Ok tt) -> nrel (fun a a' => m_train a = false -> trel eq (m_get a) (m_get a')) (Nest t) m'.
(** A model inside with a frozen module and a trainable one: both are trained. *)
Definition C95_mixed : tree (net tmod) := Lst [Leaf (Nest (Lst [Leaf (Atom (false, 3)); Leaf (Atom (true, 5))]))].
Theorem C95_refuted : exists t, wfn (Nest t) /\ atom_in (Nest t) (false, 3) /\
  train_model t_get t_set t_train t_step t = (Nest (Lst [Leaf (Nest (Lst [Leaf (Atom (false, 4)); Leaf (Atom (true, 6))]))]), Ok tt) /\ ~ frozen_kept_always.
Proof.
  assert (W : wfn (Nest C95_mixed)).
  { constructor; [repeat constructor|]. intros x Hx. apply leaves_has_leaf in Hx. cbn in Hx. destruct Hx as [<-|[]]. constructor; [repeat constructor|]. intros y Hy. apply leaves_has_leaf in Hy. cbn in Hy. destruct Hy as [<-|[<-|[]]]; constructor. }
  exists C95_mixed. split; [exact W|]. split; [|split; [reflexivity|]].
  - eapply ai_nest; [apply leaves_has_leaf; left; reflexivity|]. eapply ai_nest; [apply leaves_has_leaf; left; reflexivity|]. constructor.
  - intros H. specialize (H _ _ t_get t_set t_train t_step C95_mixed _ t_honest t_respects W eq_refl). inversion H as [|? ? HT]; subst.
    inversion HT as [| |? ? F| |]; subst. inversion F as [|? ? ? ? H1 _]; subst. inversion H1 as [? ? H2| | | |]; subst. inversion H2 as [|? ? H3]; subst.
    inversion H3 as [| |? ? F3| |]; subst. inversion F3 as [|? ? ? ? H4 _]; subst. inversion H4 as [? ? H5| | | |]; subst. inversion H5 as [? ? H6|]; subst.
    specialize (H6 eq_refl). inversion H6; subst. discriminate.
Qed.
(** The theorem applies: a frozen module, a frozen model, a trainable module. *)
Definition C95_plain : tree (net tmod) := Dict [("a", Leaf (Atom (false, 3))); ("b", Leaf (set_trainable t_freeze false (Nest (Lst [Leaf (Atom (true, 5)); Leaf (Atom (false, 6))])))); ("c", Leaf (Atom (true, 7)))].
Example C95_ex : (forall x, has_leaf C95_plain x -> unmixed t_get t_train x) /\
  train_model t_get t_set t_train t_step C95_plain =
  (Nest (Dict [("a", Leaf (Atom (false, 3))); ("b", Leaf (Nest (Lst [Leaf (Atom (false, 5)); Leaf (Atom (false, 6))]))); ("c", Leaf (Atom (true, 8)))]), Ok tt).
Proof.
  split; [|reflexivity]. intros x Hx. apply leaves_has_leaf in Hx. cbn in Hx. destruct Hx as [<-|[<-|[<-|[]]]]; try apply C95_modules_unmixed.
  apply (C95_freeze_unmixed t_get t_train t_freeze false (Nest (Lst [Leaf (Atom (true, 5)); Leaf (Atom (false, 6))]))); intros b [c n]; reflexivity.
Qed.
Example C95_ex_wf : wfn (Nest C95_plain).
Proof.
  constructor.
  - constructor; [repeat constructor; cbn; intuition discriminate|repeat constructor].
  - intros x Hx. apply leaves_has_leaf in Hx. cbn in Hx. destruct Hx as [<-|[<-|[<-|[]]]]; [constructor| |constructor]. constructor; [repeat constructor|]. intros y Hy. apply leaves_has_leaf in Hy. cbn in Hy. destruct Hy as [<-|[<-|[]]]; constructor.
Qed.

(* ================================================================== *)
(** * C96: parameters are set as given, or not at all *)
Theorem C96_set_then_get_partial {M P} (m_get : M -> tree P) m_set m_train m p m' :
  honest_modules m_get m_set m_train -> wfn m -> put m_set m p = (m', Ok tt) ->
  trel eq p (get m_get m') /\ nrel (fun a a' => m_train a' = m_train a) m m'.
Proof.
  intros HM W E. split; [eapply put_get; eauto|]. eapply nrel_impl; [|eapply put_success; eauto]. cbn. intros a a' (q & Es). eapply HM. exact Es.
Qed.
Theorem C96_get_then_set {M P} (m_get : M -> tree P) m_set m : steady_modules m_get m_set -> wfn m -> put m_set m (get m_get m) = (m, Ok tt).
Proof. apply put_steady. Qed.
(** A tree without one part for every module (or model) is refused and changes nothing. *)
Theorem C96_misfits_refused {M P} (m_set : M -> tree P -> M * result unit) t p :
  wf_tree t -> ~ fits t p -> put m_set (Nest t) p = (Nest t, Err ValueError).
Proof.
  intros W H. rewrite put_nest. destruct (prefix t p) eqn:E; [|reflexivity]. exfalso. apply H. apply prefix_fits; assumption.
Qed.
Definition refusal_changes_nothing_always : Prop :=
  forall M P (m_get : M -> tree P) m_set m_train m p m' e, honest_modules m_get m_set m_train -> (forall a q b e, m_set a q = (b, Err e) -> b = a) -> wfn m ->
  put m_set m p = (m', Err e) -> m' = m.
(** The second module refuses its part: the first has been changed already.
    The same with a misfit inside a model. *)
Definition C96_pair : net tmod := Nest (Lst [Leaf (Atom (true, 3)); Leaf (Atom (true, 5))]).
Definition C96_deep : net tmod := Nest (Lst [Leaf (Atom (true, 3)); Leaf (Nest (Lst [Leaf (Atom (true, 5))]))]).
Theorem C96_refuted :
  (exists p e, put t_set C96_pair p = (Nest (Lst [Leaf (Atom (true, 7)); Leaf (Atom (true, 5))]), Err e)) /\
  (exists p e, put t_set C96_deep p = (Nest (Lst [Leaf (Atom (true, 7)); Leaf (Nest (Lst [Leaf (Atom (true, 5))]))]), Err e)) /\
  ~ refusal_changes_nothing_always.
Proof.
  split; [exists (Lst [Leaf 7; Lst []]), ValueError; reflexivity|]. split; [exists (Lst [Leaf 7; Lst [Leaf 1; Leaf 2]]), ValueError; reflexivity|].
  intros H. assert (E : Nest (Lst [Leaf (Atom (true, 7)); Leaf (Atom (true, 5))]) = C96_pair); [|discriminate E].
  apply (H _ _ t_get t_set t_train C96_pair (Lst [Leaf 7; Lst []]) _ ValueError t_honest); [| |reflexivity].
  - intros [b n] [k| | | |] c e E; cbn in E; congruence.
  - constructor; [repeat constructor|]. intros y Hy. apply leaves_has_leaf in Hy. cbn in Hy. destruct Hy as [<-|[<-|[]]]; constructor.
Qed.
Example C96_ex : put t_set C96_deep (Lst [Leaf 7; Lst [Leaf 8]]) = (Nest (Lst [Leaf (Atom (true, 7)); Leaf (Nest (Lst [Leaf (Atom (true, 8))]))]), Ok tt) /\
  put t_set C96_deep (get t_get C96_deep) = (C96_deep, Ok tt) /\ put t_set C96_deep (Lst [Leaf 7]) = (C96_deep, Err ValueError) /\
  ~ fits (Lst [Leaf (Atom (true, 3)); Leaf (Nest (Lst [Leaf (Atom (true, 5))]))]) (Lst [Leaf 7]).
Proof.
  split; [reflexivity|]. split; [reflexivity|]. split; [reflexivity|]. intros H. inversion H as [| |? ? F| |]; subst. inversion F as [|? ? ? ? _ F2]; subst. inversion F2.
Qed.

(* ================================================================== *)
(** * C97: counts of parameters do not depend on nesting *)
Theorem C97_count_of_modules {M} (m_count : M -> option nat) m : count m_count m = total (map m_count (atoms m)).
Proof. apply count_atoms. Qed.
Theorem C97_count_none_iff {M} (m_count : M -> option nat) m : count m_count m = None <-> exists a, atom_in m a /\ m_count a = None.
Proof. rewrite count_atoms, total_none. split; intros (a & Ha & E); exists a; split; auto; apply atoms_in; exact Ha. Qed.
(** With the count of [BaseModule] it is the number of real numbers in [get_params]. *)
Theorem C97_count_is_number_of_reals {M P} (ready : M -> bool) (m_get : M -> tree P) size is_complex m : (forall a, atom_in m a -> ready a = true) ->
  count (base_count ready m_get size is_complex) m = Some (reals size is_complex (get m_get m)).
Proof. apply count_reals. Qed.
(** So it is what remains if all nesting is undone. *)
Theorem C97_flat {M} (m_count : M -> option nat) m : count m_count m = count m_count (Nest (Lst (map (fun a => Leaf (Atom a)) (atoms m)))).
Proof.
  rewrite !count_atoms. do 2 f_equal. cbn [atoms]. rewrite leaves_one. cbn [leaves]. rewrite map_map. cbn [leaves]. induction (atoms m) as [|a l IH]; [reflexivity|]. cbn. rewrite <- IH. reflexivity.
Qed.
Example C97_ex : count (base_count (fun _ => true) t_get (fun n => n) (fun n => Nat.even n)) (Nest (Dict [("b", Leaf (Nest (Lst [Leaf (Atom (true, 5)); Leaf (Atom (false, 6))]))); ("a", Leaf (Atom (true, 7)))])) = Some 24 /\
  count (base_count t_train t_get (fun n => n) (fun n => Nat.even n)) (Nest (Lst [Leaf (Nest (Lst [Leaf (Atom (false, 5))]))])) = None.
Proof. split; reflexivity. Qed.

Print Assumptions C95_frozen_modules_kept_partial.
Print Assumptions C95_freeze_unmixed.
Print Assumptions C95_flags.
Print Assumptions C95_refuted.
Print Assumptions C96_set_then_get_partial.
Print Assumptions C96_get_then_set.
Print Assumptions C96_misfits_refused.
Print Assumptions C96_refuted.
Print Assumptions C97_count_none_iff.
Print Assumptions C97_count_is_number_of_reals.
Print Assumptions C97_flat.
