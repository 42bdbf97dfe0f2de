(** C103, C104: modules that occur in several models or several times, and copies. *)
From Coq Require Import Permutation.
From Verif Require Import Base BaseLemmas TreeUtil TreeSpec NonSeqSpec NonSeqProofs SerialSpec TrainArgsProofs ReshapeProofs ReshapeMain EigenProofs BatchProofs TreeEqProofs Params ParamsSpec ParamsProofs Props_Params Share ShareSpec ShareProofs.
Local Open Scope list_scope. Local Open Scope string_scope.

(* ================================================================== *)
(** * C103: sharing *)
(** Whatever is done to other models, a model that has no module in common with
    them keeps its modules as they are (hence its parameters, flags and
    outputs). *)
Theorem C103_other_models {M P Rng Sh} (m_get : M -> tree P) m_set m_train m_freeze (m_compile : M -> Rng -> Sh -> M * result unit) m_out wide split h ops n :
  Forall (fun o => disjoint (op_model o) n) ops -> view (run m_get m_set m_train m_freeze m_compile m_out wide split h ops) n = view h n.
Proof.
  intros F. apply view_ext. intros r Hr. apply run_frame. eapply Forall_impl; [|exact F]. cbn. intros o D U. exact (D r U Hr).
Qed.
(** A model in which no module occurs twice behaves as if its modules were its
    own values: all of C95 and C96 applies. *)
Theorem C103_unshared {M P} (m_get : M -> tree P) m_set m_train h :
  (forall m p, unshared m -> put m_set (view h m) p = (view (fst (hput m_set m p h)) m, snd (hput m_set m p h))) /\
  (forall train t, unshared (Nest t) ->
     view h (Nest t) = Nest (tsub (fun x => Leaf (view h x)) t) /\
     train_model m_get m_set m_train train (tsub (fun x => Leaf (view h x)) t) =
       (view (fst (htrain m_get m_set m_train train t h)) (Nest t), snd (htrain m_get m_set m_train train t h))) /\
  (forall m, hget m_get h m = get m_get (view h m)).
Proof.
  split; [intros m p U; apply hput_put; exact U|]. split; [|intros m; apply hget_view]. intros train t U. split; [reflexivity|]. apply htrain_train. exact U.
Qed.
(** Freezing reaches every module however often it occurs. *)
Theorem C103_freeze {M} (m_freeze : bool -> M -> M) b m r h : (forall a, m_freeze b (m_freeze b a) = m_freeze b a) -> uses m r -> hfreeze m_freeze b m h r = m_freeze b (h r).
Proof. intros I U. apply hfreeze_at; assumption. Qed.
(** Parameters set successfully are the parameters returned afterwards, if
    every module gets the same ones wherever it occurs. *)
Theorem C103_set_then_get_partial {M P} (m_get : M -> tree P) m_set m_train m p h h' :
  honest_modules m_get m_set m_train -> wfn m -> tied m p -> hput m_set m p h = (h', Ok tt) -> trel eq p (hget m_get h' m).
Proof. apply hput_tied. Qed.
(** In any case a module ends up with one of the parts meant for it. *)
Theorem C103_some_part {M P} (m_set : M -> tree P -> M * result unit) m r p h h' : uses m r -> hput m_set m p h = (h', Ok tt) ->
  exists q a, part_for m p r q /\ m_set a q = (h' r, Ok tt).
Proof. intros U E. exact (hput_won m_set m r U p h h' E). Qed.

(** [set_params] and then [get_params]; training and then [get_params]. *)
Definition set_then_get_always : Prop :=
  forall M P (m_get : M -> tree P) m_set m_train m p h h', honest_modules m_get m_set m_train -> wfn m -> hput m_set m p h = (h', Ok tt) -> trel eq p (hget m_get h' m).
Definition trained_kept_always : Prop :=
  forall M P (m_get : M -> tree P) m_set m_train train t p h h', honest_modules m_get m_set m_train -> respects_flags train -> wfn (Nest t) ->
    train (flagged m_get m_train (tsub (fun x => Leaf (view h x)) t)) = Ok p ->
    htrain m_get m_set m_train train t h = (h', Ok tt) -> trel eq p (hget m_get h' (Nest t)).
(** The same module twice. *)
Definition twice : tree (net nat) := Lst [Leaf (Atom 0); Leaf (Atom 0)].
Definition start (r : nat) : tmod := (true, 5).
(** a training that moves the two copies of the number to different values *)
Definition apart_step (z : tree (bool * nat)) : result (tree nat) :=
  match z with
  | Lst [Leaf (true, a); Leaf (true, b)] => Ok (Lst [Leaf (a + 1); Leaf (b + 2)])
  | _ => Ok (tmap snd z)
  end.
Lemma apart_respects : respects_flags apart_step.
Proof.
  intros z p E. unfold apart_step in E.
  assert (D : p = tmap snd z \/ exists a b, z = Lst [Leaf (true, a); Leaf (true, b)] /\ p = Lst [Leaf (a + 1); Leaf (b + 2)]).
  { destruct z as [| | |l|]; try (left; congruence). destruct l as [|[[[] a]| | | |] l]; try (left; congruence).
    destruct l as [|[[[] b]| | | |] l]; try (left; congruence). destruct l; try (left; congruence). right. exists a, b. split; [reflexivity|congruence]. }
  destruct D as [ -> |(a & b & -> & -> )].
  - apply (ScalerProofs.trel_impl (fun (bx : bool * nat) y => snd bx = y)); [auto|]. apply trel_tmap, ScalerProofs.trel_refl.
  - repeat constructor; cbn; discriminate.
Qed.
Lemma twice_wf : wfn (Nest twice).
Proof. constructor; [repeat constructor|]. intros y Hy. apply leaves_has_leaf in Hy. cbn in Hy. destruct Hy as [<-|[<-|[]]]; constructor. Qed.
Theorem C103_refuted : ~ set_then_get_always /\ ~ trained_kept_always.
Proof.
  split; intros H.
  - assert (T := H _ _ t_get t_set t_train (Nest twice) (Lst [Leaf 1; Leaf 2]) start _ t_honest twice_wf eq_refl). cbn in T.
    inversion T as [| |? ? F| |]; subst. inversion F as [|? ? ? ? T1 _]; subst. inversion T1; discriminate.
  - assert (T := H _ _ t_get t_set t_train apart_step twice (Lst [Leaf 6; Leaf 7]) start _ t_honest apart_respects twice_wf eq_refl eq_refl). cbn in T.
    inversion T as [| |? ? F| |]; subst. inversion F as [|? ? ? ? T1 _]; subst. inversion T1; discriminate.
Qed.
(** A model with a module twice and a model inside; another model with one of
    the modules, one without. *)
Definition small : net nat := Nest (Dict [("a", Leaf (Atom 0)); ("b", Leaf (Nest (Lst [Leaf (Atom 1); Leaf (Atom 0)])))]).
Lemma small_wf : wfn small.
Proof.
  constructor; [repeat constructor; cbn; intuition discriminate|]. intros y Hy. apply leaves_has_leaf in Hy. cbn in Hy. destruct Hy as [<-|[<-|[]]]; constructor; [repeat constructor|].
  intros y Hy. apply leaves_has_leaf in Hy. cbn in Hy. destruct Hy as [<-|[<-|[]]]; constructor.
Qed.
Example C103_example :
  let p := Dict [("a", Leaf 7); ("b", Lst [Leaf 8; Leaf 7])] in
  let h' := fst (hput t_set small p start) in
  tied small p /\ snd (hput t_set small p start) = Ok tt /\ hget t_get h' small = p /\ ~ unshared small /\
  disjoint small (Nest (Lst [Leaf (Atom 2)])) /\ view h' (Nest (Lst [Leaf (Atom 2)])) = view start (Nest (Lst [Leaf (Atom 2)])) /\
  hget t_get h' (Atom 0) = Leaf 7 /\ unshared (Nest (Lst [Leaf (Atom 2); Leaf (Atom 0)])).
Proof.
  cbn zeta. split.
  { assert (A : forall r q, part_for small (Dict [("a", Leaf 7); ("b", Lst [Leaf 8; Leaf 7])]) r q -> (r = 0 /\ q = Leaf 7) \/ (r = 1 /\ q = Leaf 8)).
    { intros r q H. inversion H as [|? ? x q0 ? ? Hf Hp]; subst. inversion Hf as [| | |? ? k t u ? ? Hk Hg Hf']; subst. cbn in Hk.
      destruct Hk as [Hk|[Hk|[]]]; injection Hk as <- <-; cbn in Hg; injection Hg as <-; inversion Hf'; subst; inversion Hp as [|? ? y q1 ? ? Hf2 Hp2]; subst; auto.
      inversion Hf2 as [|? ? t u ? ? Hin Hf3| |]; subst. cbn in Hin. destruct Hin as [Hin|[Hin|[]]]; injection Hin as <- <-; inversion Hf3; subst; inversion Hp2; subst; auto. }
    intros r q q' H H'. apply A in H. apply A in H'. destruct H as [[Er Eq]|[Er Eq]], H' as [[Er' Eq']|[Er' Eq']]; subst; first [reflexivity|discriminate]. }
  split; [reflexivity|]. split; [reflexivity|]. split; [|split; [|split; [reflexivity|split; [reflexivity|]]]].
  - intros N. unfold unshared in N. cbn in N. inversion N as [|? ? NI _]; subst. apply NI. cbn. auto.
  - intros r U V. unfold uses in *. apply atoms_in in U. apply atoms_in in V. vm_compute in U, V. destruct V as [ <- | [] ]. destruct U as [U|[U|[U|[] ] ] ]; discriminate U.
  - unfold unshared. cbn. repeat constructor; cbn; intuition discriminate.
Qed.
Print Assumptions C103_other_models.
Print Assumptions C103_unshared.
Print Assumptions C103_freeze.
Print Assumptions C103_set_then_get_partial.
Print Assumptions C103_some_part.
Print Assumptions C103_refuted.

(* ================================================================== *)
(** * C104: copies *)
(** A copy has the modules of the original, each a copy, in the same places; all
    of its modules are new ones and none of them occurs twice. Nothing that was
    there before is changed. *)
Theorem C104_copy {M} (m_copy : M -> result M) m h n m' h' n' :
  (forall r, uses m r -> r < n) -> hcopy m_copy m (h, n) = Ok (m', (h', n')) ->
  nrel (fun r r' => m_copy (h r) = Ok (h' r')) m m' /\ unshared m' /\ (forall r, uses m' r -> n <= r < n') /\ (forall r, r < n -> h' r = h r).
Proof.
  intros B E. destruct (hcopy_good m_copy m _ _ _ _ _ E) as [(_ & N2 & N3 & N4) C]. split; [exact (C B)|]. split; [exact N4|]. split; [|exact N2].
  intros r Hr. apply N3, atoms_in. exact Hr.
Qed.
(** Whatever is done to the copy leaves all other models alone, and whatever is
    done to them leaves the copy alone. *)
Theorem C104_independent {M P Rng Sh} (m_get : M -> tree P) m_set m_train m_freeze (m_compile : M -> Rng -> Sh -> M * result unit) m_out wide split m_copy m h n m' h' n' ops :
  (forall r, uses m r -> r < n) -> hcopy m_copy m (h, n) = Ok (m', (h', n')) ->
  (forall k, (forall r, uses k r -> r < n) -> Forall (fun o => op_model o = m') ops ->
     view (run m_get m_set m_train m_freeze m_compile m_out wide split h' ops) k = view h k) /\
  (Forall (fun o => forall r, uses (op_model o) r -> r < n) ops ->
     view (run m_get m_set m_train m_freeze m_compile m_out wide split h' ops) m' = view h' m').
Proof.
  intros B E. destruct (C104_copy m_copy m h n m' h' n' B E) as (_ & _ & F & O). split.
  - intros k Hk A. rewrite C103_other_models.
    + apply view_ext. intros r Hr. apply O, Hk. exact Hr.
    + eapply Forall_impl; [|exact A]. cbn. intros o -> r U V. apply F in U. apply Hk in V. lia.
  - intros A. apply C103_other_models. eapply Forall_impl; [|exact A]. cbn. intros o Ho r U V. apply F in V. apply Ho in U. lia.
Qed.
(** A copy does what the original does when parameters are set. *)
Definition copy_behaves_always : Prop :=
  forall M P (m_get : M -> tree P) m_set m_train m_copy m h n m' h' n' p h1 h1', honest_modules m_get m_set m_train -> wfn m -> (forall a, m_copy a = Ok a) ->
    (forall r, uses m r -> r < n) -> hcopy m_copy m (h, n) = Ok (m', (h', n')) ->
    hput m_set m p h' = (h1, Ok tt) -> hput m_set m' p h' = (h1', Ok tt) -> hget m_get h1 m = hget m_get h1' m'.
(** A module that occurs twice becomes two modules. *)
Theorem C104_refuted : ~ copy_behaves_always.
Proof.
  intros H.
  assert (T := H _ _ t_get t_set t_train (fun a => Ok a) (Nest twice) start 1 _ _ _ (Lst [Leaf 1; Leaf 2]) _ _ t_honest twice_wf (fun a => eq_refl)
    ltac:(intros r U; unfold uses in U; apply atoms_in in U; cbn in U; destruct U as [<-|[<-|[]]]; lia) eq_refl eq_refl eq_refl). discriminate T.
Qed.
Lemma tsub_leaf {X Y} (g : X -> Y) (t : tree X) : tsub (fun x => Leaf (g x)) t = tmap g t.
Proof.
  induction t as [x| |d IH|l IH|l IH] using tree_ind2; cbn [tsub tmap]; try reflexivity; f_equal.
  - induction IH as [|[k x] d E _ IHd]; [reflexivity|]. cbn in *. rewrite E, IHd. reflexivity.
  - induction IH as [|x l E _ IHd]; [reflexivity|]. cbn in *. rewrite E, IHd. reflexivity.
  - induction IH as [|x l E _ IHd]; [reflexivity|]. cbn in *. rewrite E, IHd. reflexivity.
Qed.
Lemma nrel_wfn {M} (R : M -> M -> Prop) m : forall m', nrel R m m' -> wfn m -> wfn m'.
Proof.
  induction m as [r|t IH] using net_ind2; intros m' C W; inversion C as [|? u T]; subst; constructor; inversion W as [|? Wt Wx]; subst.
  - eapply ReshapeMain.trel_wf; eauto.
  - intros y Hy. destruct (EigenProofs.map_has_leaf _ _ _ (ReshapeProofs.trel_flip _ _ _ T) y Hy) as (x & Hx & Hr). eapply IH; eauto.
Qed.
(** It does if no module occurs twice. *)
Theorem C104_behaves_partial {M P} (m_get : M -> tree P) m_set m_train (m_copy : M -> result M) m h n m' h' n' p h1 h1' :
  honest_modules m_get m_set m_train -> wfn m -> unshared m ->
  (forall r, uses m r -> r < n) -> hcopy m_copy m (h, n) = Ok (m', (h', n')) ->
  hput m_set m p h' = (h1, Ok tt) -> hput m_set m' p h' = (h1', Ok tt) -> trel eq p (hget m_get h1 m) /\ trel eq p (hget m_get h1' m').
Proof.
  intros HM W U B E E1 E2. destruct (C104_copy m_copy m h n m' h' n' B E) as (C & U' & _). assert (W' := nrel_wfn _ _ _ C W). clear C.
  assert (G : forall k hk, wfn k -> unshared k -> hput m_set k p h' = (hk, Ok tt) -> trel eq p (hget m_get hk k)); [|split; [apply G|apply G]; assumption].
  intros k hk Wk Uk Ek. pose proof (hput_put m_set k Uk p h') as EP. rewrite Ek in EP. cbn [fst snd] in EP. rewrite hget_view. eapply put_get; [exact HM| |exact EP].
  clear -Wk. induction k as [r|t IH] using net_ind2; [constructor|]. cbn [view]. inversion Wk as [|? Wt Wx]; subst. rewrite tsub_leaf. constructor; [apply TreeEqProofs.tmap_wf; exact Wt|].
  intros y Hy. apply BatchProofs.has_leaf_tmap in Hy as (x & Hx & ->). apply IH; auto.
Qed.
Example C104_example :
  exists m' h' n', hcopy (fun a => Ok a) small (start, 2) = Ok (m', (h', n')) /\ m' = Nest (Dict [("a", Leaf (Atom 2)); ("b", Leaf (Nest (Lst [Leaf (Atom 3); Leaf (Atom 4)])))]) /\ n' = 5 /\
  (forall r, uses small r -> r < 2) /\ hget t_get (fst (hput t_set m' (Dict [("a", Leaf 7); ("b", Lst [Leaf 8; Leaf 9])]) h')) m' = Dict [("a", Leaf 7); ("b", Lst [Leaf 8; Leaf 9])] /\
  hget t_get (fst (hput t_set m' (Dict [("a", Leaf 7); ("b", Lst [Leaf 8; Leaf 9])]) h')) small = hget t_get start small.
Proof.
  eexists _, _, _. split; [reflexivity|]. split; [reflexivity|]. split; [reflexivity|]. split; [|split; reflexivity].
  intros r U. unfold uses in U. apply atoms_in in U. vm_compute in U. destruct U as [<-|[<-|[<-|[]]]]; lia.
Qed.
Print Assumptions C104_copy.
Print Assumptions C104_independent.
Print Assumptions C104_behaves_partial.
Print Assumptions C104_refuted.
