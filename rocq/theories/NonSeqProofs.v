(** Evaluation of a graph model against the dataflow specification. *)
From Verif Require Import Base BaseLemmas TreeUtil TreeSpec TreeProofs ExtendProofs Resolve
  Connections ConcretizeSpec ConnSpec ConnProofs NonSeq NonSeqSpec.
Local Open Scope string_scope.
Local Open Scope list_scope.

Section TreeInd.
Context {X : Type} (P : tree X -> Prop).
Hypothesis HL : forall x, P (Leaf x).
Hypothesis HN : P NoneT.
Hypothesis HD : forall d, Forall (fun kv => P (snd kv)) d -> P (Dict d).
Hypothesis HLs : forall l, Forall P l -> P (Lst l).
Hypothesis HT : forall l, Forall P l -> P (Tup l).
Fixpoint tree_ind2 (t : tree X) : P t :=
  match t with
  | Leaf x => HL x
  | NoneT => HN
  | Dict d => HD d ((fix go (d : list (string * tree X)) : Forall (fun kv => P (snd kv)) d :=
                       match d with
                       | [] => Forall_nil _
                       | kv :: d' => Forall_cons kv (tree_ind2 (snd kv)) (go d')
                       end) d)
  | Lst l => HLs l ((fix go (l : list (tree X)) : Forall P l :=
                       match l with [] => Forall_nil _ | x :: l' => Forall_cons x (tree_ind2 x) (go l') end) l)
  | Tup l => HT l ((fix go (l : list (tree X)) : Forall P l :=
                       match l with [] => Forall_nil _ | x :: l' => Forall_cons x (tree_ind2 x) (go l') end) l)
  end.
End TreeInd.

Section Go.
Context {X Y : Type} (f : X -> result (tree Y)).
Fixpoint tmapM_list (l : list (tree X)) : result (list (tree Y)) :=
  match l with
  | [] => Ok []
  | x :: l' => let* y := tmapM f x in let* ys := tmapM_list l' in Ok (y :: ys)
  end.
Fixpoint tmapM_dict (d : list (string * tree X)) : result (list (string * tree Y)) :=
  match d with
  | [] => Ok []
  | (k, x) :: d' => let* y := tmapM f x in let* e := tmapM_dict d' in Ok ((k, y) :: e)
  end.
Lemma tmapM_lst l : tmapM f (Lst l) = (let* ys := tmapM_list l in Ok (Lst ys)).
Proof. reflexivity. Qed.
Lemma tmapM_tup l : tmapM f (Tup l) = (let* ys := tmapM_list l in Ok (Tup ys)).
Proof. reflexivity. Qed.
Lemma tmapM_dct d : tmapM f (Dict d) = (let* ys := tmapM_dict d in Ok (Dict ys)).
Proof. reflexivity. Qed.
End Go.

Lemma tmapM_filled {X Y} (f : X -> result (tree Y)) (t : tree X) : forall u,
  tmapM f t = Ok u -> filled (fun x y => f x = Ok y) t u.
Proof.
  induction t as [x| |d IH|l IH|l IH] using tree_ind2; intros u H.
  - constructor. exact H.
  - injection H as <-. constructor.
  - rewrite tmapM_dct in H. apply rbind_ok in H as [e [H1 H2]]. injection H2 as <-. constructor.
    revert e H1. induction IH as [|[k x] d Hx _ IHd]; intros e H1; cbn [tmapM_dict] in H1.
    + injection H1 as <-. constructor.
    + apply rbind_ok in H1 as [y [H1 H2]]. apply rbind_ok in H2 as [e' [H2 H3]]. injection H3 as <-.
      constructor; [split; [reflexivity|apply Hx; exact H1]|apply IHd; exact H2].
  - rewrite tmapM_lst in H. apply rbind_ok in H as [e [H1 H2]]. injection H2 as <-. constructor.
    revert e H1. induction IH as [|x d Hx _ IHd]; intros e H1; cbn [tmapM_list] in H1.
    + injection H1 as <-. constructor.
    + apply rbind_ok in H1 as [y [H1 H2]]. apply rbind_ok in H2 as [e' [H2 H3]]. injection H3 as <-.
      constructor; [apply Hx; exact H1|apply IHd; exact H2].
  - rewrite tmapM_tup in H. apply rbind_ok in H as [e [H1 H2]]. injection H2 as <-. constructor.
    revert e H1. induction IH as [|x d Hx _ IHd]; intros e H1; cbn [tmapM_list] in H1.
    + injection H1 as <-. constructor.
    + apply rbind_ok in H1 as [y [H1 H2]]. apply rbind_ok in H2 as [e' [H2 H3]]. injection H3 as <-.
      constructor; [apply Hx; exact H1|apply IHd; exact H2].
Qed.

Lemma filled_mono {X Y} (R S : X -> tree Y -> Prop) (t : tree X) : forall u,
  filled R t u -> (forall x y, has_leaf t x -> R x y -> S x y) -> filled S t u.
Proof.
  induction t as [x| |d IH|l IH|l IH] using tree_ind2; intros u H HRS; inversion H; subst.
  - constructor. apply HRS; [constructor|assumption].
  - constructor.
  - constructor. rename H1 into HF.
    assert (HRS' : forall k t x y, In (k, t) d -> has_leaf t x -> R x y -> S x y)
      by (intros k t x y Hi Hl; apply HRS; econstructor; eauto).
    clear H HRS. induction HF as [|[k a] [k' b] d e [E Hab] _ IHF]; constructor.
    + split; [exact E|]. inversion IH as [|? ? Hx _]; subst. apply Hx; [exact Hab|].
      intros x y Hl. eapply HRS'; [left; reflexivity|exact Hl].
    + apply IHF; [inversion IH; assumption|]. intros k0 t x y Hi. eapply HRS'. right; exact Hi.
  - constructor. rename H1 into HF.
    assert (HRS' : forall t x y, In t l -> has_leaf t x -> R x y -> S x y)
      by (intros t x y Hi Hl; apply HRS; econstructor; eauto).
    clear H HRS. induction HF as [|a b l m Hab _ IHF]; constructor.
    + inversion IH as [|? ? Hx _]; subst. apply Hx; [exact Hab|]. intros x y Hl. eapply HRS'; [left; reflexivity|exact Hl].
    + apply IHF; [inversion IH; assumption|]. intros t x y Hi. eapply HRS'. right; exact Hi.
  - constructor. rename H1 into HF.
    assert (HRS' : forall t x y, In t l -> has_leaf t x -> R x y -> S x y)
      by (intros t x y Hi Hl; apply HRS; econstructor; eauto).
    clear H HRS. induction HF as [|a b l m Hab _ IHF]; constructor.
    + inversion IH as [|? ? Hx _]; subst. apply Hx; [exact Hab|]. intros x y Hl. eapply HRS'; [left; reflexivity|exact Hl].
    + apply IHF; [inversion IH; assumption|]. intros t x y Hi. eapply HRS'. right; exact Hi.
Qed.

Lemma filled_tmapM {X Y} (f : X -> result (tree Y)) (t : tree X) : forall u,
  filled (fun x y => f x = Ok y) t u -> tmapM f t = Ok u.
Proof.
  induction t as [x| |d IH|l IH|l IH] using tree_ind2; intros u H; inversion H as [? ? E| |? ? HF|? ? HF|? ? HF]; subst.
  - exact E.
  - reflexivity.
  - rewrite tmapM_dct. enough (tmapM_dict f d = Ok e) as -> by reflexivity. clear H.
    induction HF as [|[k a] [k' b] d e [E Hab] _ IHF]; [reflexivity|]. simpl in E, Hab; subst k'.
    inversion IH as [|? ? Hx IH']; subst. cbn [tmapM_dict]. simpl in Hx. rewrite (Hx _ Hab). cbn [rbind].
    rewrite (IHF IH'). reflexivity.
  - rewrite tmapM_lst. enough (tmapM_list f l = Ok m) as -> by reflexivity. clear H.
    induction HF as [|a b l m Hab _ IHF]; [reflexivity|].
    inversion IH as [|? ? Hx IH']; subst. cbn [tmapM_list]. rewrite (Hx _ Hab). cbn [rbind].
    rewrite (IHF IH'). reflexivity.
  - rewrite tmapM_tup. enough (tmapM_list f l = Ok m) as -> by reflexivity. clear H.
    induction HF as [|a b l m Hab _ IHF]; [reflexivity|].
    inversion IH as [|? ? Hx IH']; subst. cbn [tmapM_list]. rewrite (Hx _ Hab). cbn [rbind].
    rewrite (IHF IH'). reflexivity.
Qed.

Section Look.
Variable sep : ascii.
Context {A : Type}.

Lemma getitem_fuel_no_leaf lf n : forall (t : tree A) s r,
  getitem_fuel sep lf false n t s = Ok r -> getitem_fuel sep no_leaf false n t s = Ok r.
Proof.
  induction n as [|n IH]; intros t s r H; [discriminate|]. cbn [getitem_fuel] in *.
  destruct s as [|c s]; [exact H|]. destruct (lf t); [discriminate|]. cbn [no_leaf] in *.
  destruct (split1 sep (String c s)) as [key rest].
  destruct t as [a| |d|l|l]; try discriminate.
  - destruct (dget d key); [apply IH; exact H|discriminate].
  - destruct (isdigit key); [|discriminate]. destruct (nth_error l (int_of key)); [apply IH; exact H|discriminate].
  - destruct (isdigit key); [|discriminate]. destruct (nth_error l (int_of key)); [apply IH; exact H|discriminate].
Qed.

Lemma trim_clean ks : ks <> [] -> Forall (fun k => k <> EmptyString) ks -> trim_end ks = ks.
Proof.
  intros Hne H. unfold trim_end. destruct (String.eqb_spec (last ks EmptyString) EmptyString) as [E|]; [|reflexivity].
  exfalso. rewrite Forall_forall in H. apply (H (last ks EmptyString)); [apply last_In'; exact Hne|exact E].
Qed.
Lemma path_keys_clean p : clean sep p -> path_keys sep p = split sep p.
Proof. intros [_ H]. apply trim_clean; [apply split_nonempty|exact H]. Qed.

Lemma look_walk lf (t : tree A) p u :
  clean sep p -> look sep lf t p = Ok u -> walk t (split sep p) = Some u.
Proof.
  intros Hc H. unfold look in H. destruct (getitem sep lf false t p) as [[u' r]|e] eqn:E; [|discriminate].
  injection H as <-. unfold getitem in E. apply getitem_fuel_no_leaf in E. fold (getitem sep no_leaf false t p) in E.
  assert (r = EmptyString).
  { rewrite getitem_split in E. destruct (getp false t (split sep p)) as [[u2 r2]|e] eqn:E2; [|discriminate].
    assert (r2 = []) by (eapply getp_false_rem; eauto). subst r2. injection E as _ <-. reflexivity. }
  subst r. apply getitem_full_walk in E. rewrite path_keys_clean in E by exact Hc. exact E.
Qed.

Lemma look_walk_iff (t : tree A) p u :
  clean sep p -> look sep no_leaf t p = Ok u <-> walk t (split sep p) = Some u.
Proof.
  intros Hc. split; [apply look_walk; exact Hc|]. intros H. unfold look.
  rewrite <- (path_keys_clean p Hc) in H. apply getitem_full_walk in H. rewrite H. reflexivity.
Qed.

Lemma getitem_fuel_leaf lf n : (forall t, lf t = true -> forall k, child t k = None) ->
  forall (t : tree A) s r,
  getitem_fuel sep no_leaf false n t s = Ok r -> getitem_fuel sep lf false n t s = Ok r.
Proof.
  intros Hlf. induction n as [|n IH]; intros t s r H; [discriminate|]. cbn [getitem_fuel] in *.
  destruct s as [|c s]; [exact H|]. cbn [no_leaf] in H.
  destruct (split1 sep (String c s)) as [key rest]. destruct (lf t) eqn:El.
  - specialize (Hlf t El key). destruct t as [a| |d|l|l]; simpl in Hlf; try discriminate.
    + rewrite Hlf in H. discriminate.
    + destruct (isdigit key); [rewrite Hlf in H|]; discriminate.
    + destruct (isdigit key); [rewrite Hlf in H|]; discriminate.
  - destruct t as [a| |d|l|l]; try discriminate.
    + destruct (dget d key); [apply IH; exact H|discriminate].
    + destruct (isdigit key); [|discriminate]. destruct (nth_error l (int_of key)); [apply IH; exact H|discriminate].
    + destruct (isdigit key); [|discriminate]. destruct (nth_error l (int_of key)); [apply IH; exact H|discriminate].
Qed.
Lemma walk_look lf (t : tree A) p u : (forall t, lf t = true -> forall k, child t k = None) ->
  clean sep p -> walk t (split sep p) = Some u -> look sep lf t p = Ok u.
Proof.
  intros Hlf Hc H. rewrite <- (path_keys_clean p Hc) in H. apply getitem_full_walk in H.
  unfold look. unfold getitem in *. apply (getitem_fuel_leaf lf _ Hlf) in H. rewrite H. reflexivity.
Qed.
Lemma shape_leaf_data_childless (t : tree A) : shape_leaf_data t = true -> forall k, child t k = None.
Proof.
  destruct t as [a| |d|l|[|x l]]; try discriminate; intros _ k; simpl; [reflexivity|].
  destruct (isdigit k); [apply nth_error_nil|reflexivity].
Qed.
Lemma shape_leaf_shape_childless (t : tree A) : shape_leaf_shape t = true -> forall k, child t k = None.
Proof.
  destruct t as [a| |d|l|[|x l]]; try discriminate; intros _ k; simpl; try reflexivity.
  destruct (isdigit k); [apply nth_error_nil|reflexivity].
Qed.

Lemma walk_app (t : tree A) p q :
  walk t (p ++ q) = match walk t p with Some u => walk u q | None => None end.
Proof.
  revert t; induction p as [|k p IH]; intros t; [reflexivity|]. simpl. destruct (child t k); [apply IH|reflexivity].
Qed.

Lemma set_walk_same (t t' : tree A) p v :
  clean sep p -> setitem sep no_leaf t p v = Ok t' -> walk t' (split sep p) = Some v.
Proof.
  intros Hc H. apply (setitem_getitem sep false) in H. apply getitem_full_walk in H.
  rewrite path_keys_clean in H by exact Hc. exact H.
Qed.

(** a write at [p] is invisible through every key list that leaves [p] *)
Lemma setp_walk_other (t t' : tree A) ps v ks :
  setp t ps v = Ok t' -> diverge ps ks -> walk t' ks = walk t ks.
Proof.
  revert t t' ks.
  induction ps as [|k ps IH]; intros t t' ks H Hd; [discriminate|].
  destruct ks as [|k2 ks]; [exfalso; eapply diverge_nil_r; eauto|].
  cbn [setp] in H. apply diverge_cons in Hd.
  destruct (String.eqb k EmptyString && _); [discriminate|].
  destruct t as [a| |d|l|l]; try discriminate.
  - destruct ps as [|k3 ps].
    + injection H as <-. simpl. destruct Hd as [[Hne _]|Hd]; [|exfalso; eapply diverge_nil_l; eauto].
      rewrite dget_dset_other by exact Hne. reflexivity.
    + destruct (dget d k) as [c|] eqn:Ec; [|discriminate]. apply rbind_ok in H as [c' [H1 H2]]. injection H2 as <-.
      simpl. destruct (String.eqb_spec k k2) as [<-|Hne].
      * rewrite dget_dset_same, Ec. destruct Hd as [[Hd _]|Hd]; [congruence|].
        apply (IH _ _ _ H1 Hd).
      * rewrite dget_dset_other by exact Hne. reflexivity.
  - destruct (isdigit k) eqn:Ek; [|discriminate]. destruct ps as [|k3 ps].
    + destruct (int_of k <? length l)%nat; [|discriminate]. injection H as <-.
      simpl. destruct Hd as [[Hne Hint]|Hd]; [|exfalso; eapply diverge_nil_l; eauto].
      destruct (isdigit k2) eqn:Ek2; [|reflexivity]. rewrite nth_upd_other by (apply Hint; auto). reflexivity.
    + destruct (nth_error l (int_of k)) as [c|] eqn:Ec; [|discriminate].
      apply rbind_ok in H as [c' [H1 H2]]. injection H2 as <-. simpl.
      destruct (isdigit k2) eqn:Ek2; [|reflexivity].
      destruct (Nat.eq_dec (int_of k) (int_of k2)) as [Ei|Hi].
      * rewrite <- Ei, nth_upd_same by (eapply nth_error_lt; eauto). rewrite Ec.
        destruct Hd as [[_ Hd]|Hd]; [exfalso; apply Hd; auto|]. apply (IH _ _ _ H1 Hd).
      * rewrite nth_upd_other by exact Hi. reflexivity.
  - destruct (isdigit k) eqn:Ek; [|discriminate]. destruct ps as [|k3 ps]; [discriminate|].
      destruct (nth_error l (int_of k)) as [c|] eqn:Ec; [|discriminate].
      apply rbind_ok in H as [c' [H1 H2]]. injection H2 as <-. simpl.
      destruct (isdigit k2) eqn:Ek2; [|reflexivity].
      destruct (Nat.eq_dec (int_of k) (int_of k2)) as [Ei|Hi].
      * rewrite <- Ei, nth_upd_same by (eapply nth_error_lt; eauto). rewrite Ec.
        destruct Hd as [[_ Hd]|Hd]; [exfalso; apply Hd; auto|]. apply (IH _ _ _ H1 Hd).
      * rewrite nth_upd_other by exact Hi. reflexivity.
Qed.
Lemma set_walk_other (t t' : tree A) p v ks :
  setitem sep no_leaf t p v = Ok t' -> diverge (split sep p) ks -> walk t' ks = walk t ks.
Proof. rewrite setitem_split. apply setp_walk_other. Qed.
End Look.
