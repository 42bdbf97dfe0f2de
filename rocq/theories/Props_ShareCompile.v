(** C106: after [compile], every module is compiled for what it gets. *)
From Verif Require Import Base BaseLemmas TreeUtil NonSeqSpec NonSeqProofs TrainArgsProofs Params ParamsSpec ParamsProofs Share ShareSpec ShareProofs.
Local Open Scope list_scope.

(** From [h] to [h'] the model was compiled with the key [k] for the shape [s],
    which it turns into [s']: each module, as it is in the end, is the result of
    compiling it for the shape the modules before it produce, and no model in it gives data without
    axes besides the samples. *)
Inductive settled {M Rng Sh} (m_compile : M -> Rng -> Sh -> M * result unit) (m_out : M -> Sh -> result Sh) (wide : Sh -> bool) (split : Rng -> Rng * Rng) (h h' : nat -> M) :
  net nat -> Rng -> Sh -> Sh -> Prop :=
| se_atom r k s s' : m_compile (h r) k s = (h' r, Ok tt) -> m_out (h' r) s = Ok s' -> settled m_compile m_out wide split h h' (Atom r) k s s'
| se_nest t k s s' : settled_all m_compile m_out wide split h h' (leaves t) k s s' -> wide s' = true -> settled m_compile m_out wide split h h' (Nest t) k s s'
with settled_all {M Rng Sh} (m_compile : M -> Rng -> Sh -> M * result unit) (m_out : M -> Sh -> result Sh) (wide : Sh -> bool) (split : Rng -> Rng * Rng) (h h' : nat -> M) :
  list (net nat) -> Rng -> Sh -> Sh -> Prop :=
| sa_nil k s : settled_all m_compile m_out wide split h h' [] k s s
| sa_cons x l k s1 s2 s3 : settled m_compile m_out wide split h h' x (snd (split k)) s1 s2 -> settled_all m_compile m_out wide split h h' l (fst (split k)) s2 s3 ->
    settled_all m_compile m_out wide split h h' (x :: l) k s1 s3.

Section Compile.
Context {M Rng Sh : Type} (m_compile : M -> Rng -> Sh -> M * result unit) (m_out : M -> Sh -> result Sh) (wide : Sh -> bool) (split : Rng -> Rng * Rng).
Notation comp := (hcompile m_compile m_out wide split).
Notation set := (settled m_compile m_out wide split).
Notation sets := (settled_all m_compile m_out wide split).

Lemma settled_ext m : forall h h' g g' k s s', (forall r, uses m r -> h r = g r /\ h' r = g' r) -> set h h' m k s s' -> set g g' m k s s'.
Proof.
  induction m as [r|t IH] using net_ind2; intros h h' g g' k s s' A H.
  - inversion H as [? ? ? ? E1 E2|]; subst. destruct (A r) as [Ea Eb]; [constructor|]. rewrite Ea, Eb in E1. rewrite Eb in E2. constructor; assumption.
  - inversion H as [|? ? ? ? HA HW]; subst. constructor; [|exact HW]. clear H HW.
    assert (L : forall x, In x (leaves t) -> forall k s s', set h h' x k s s' -> set g g' x k s s').
    { intros x Hx k0 s0 s0'. apply leaves_has_leaf in Hx. apply (IH x Hx). intros r Hr. apply A. econstructor; eauto. }
    clear IH A. revert k s s' HA. induction (leaves t) as [|x l IHl]; intros k s s' HA; inversion HA as [|? ? ? ? s2 ? Hx Hl]; subst; [constructor|].
    econstructor; [apply L; [left; reflexivity|exact Hx]|]. apply IHl; [|exact Hl]. intros y Hy. apply L. right. exact Hy.
Qed.
Lemma settled_all_ext l : forall h h' g g' k s s', (forall r, In r (concat (map atoms l)) -> h r = g r /\ h' r = g' r) -> sets h h' l k s s' -> sets g g' l k s s'.
Proof.
  induction l as [|x l IH]; intros h h' g g' k s s' A H; inversion H as [|? ? ? ? s2 ? Hx Hl]; subst; [constructor|]. cbn in A. econstructor.
  - eapply settled_ext; [|exact Hx]. intros r Hr. apply A, in_or_app. left. apply atoms_in. exact Hr.
  - eapply IH; [|exact Hl]. intros r Hr. apply A, in_or_app. auto.
Qed.
Lemma fold_err l rng (h : @heap M) e : fold_left (cstep m_compile m_out wide split) l (rng, h, Err e) = (rng, h, Err e).
Proof. induction l as [|x l IH]; [reflexivity|exact IH]. Qed.
Lemma fold_frame l : forall rng (h : @heap M) e r, ~ In r (concat (map atoms l)) -> snd (fst (fold_left (cstep m_compile m_out wide split) l (rng, h, e))) r = h r.
Proof.
  induction l as [|x l IH]; intros rng h e r N; [reflexivity|]. cbn [map concat] in N. cbn [fold_left]. unfold cstep at 2. destruct e as [s|er].
  - destruct (split rng) as [rng' k]. pose proof (hcompile_frame m_compile m_out wide split x r) as F. specialize (F ltac:(intros C; apply N, in_or_app; left; apply atoms_in; exact C) k s h).
    destruct (comp x k s h) as [h1 e1]. cbn in F. rewrite <- F. apply IH. intros C. apply N, in_or_app. auto.
  - apply IH. intros C. apply N, in_or_app. auto.
Qed.
Lemma compile_settled m : unshared m -> forall k s h h' s', comp m k s h = (h', Ok s') -> set h h' m k s s'.
Proof.
  induction m as [r|t IH] using net_ind2; intros U k s h h' s' E.
  - cbn in E. destruct (m_compile (h r) k s) as [x [[]|e]] eqn:Ec; [|discriminate]. injection E as <- Eo. constructor; rewrite upd_same; assumption.
  - rewrite hcompile_nest in E. unfold unshared in U. rewrite atoms_nest in U. unfold refs in U.
    destruct (fold_left (cstep m_compile m_out wide split) (leaves t) (k, h, Ok s)) as [[rr0 hh0] ee0] eqn:Ef. destruct ee0 as [o|]; [|discriminate]. destruct (wide o) eqn:Ew; [|discriminate]. injection E as -> ->. constructor; [|exact Ew].
    assert (E : (let '(_, h', e) := fold_left (cstep m_compile m_out wide split) (leaves t) (k, h, Ok s) in (h', e)) = (h', Ok s')) by (rewrite Ef; reflexivity). clear Ef Ew.
    assert (L : forall x, In x (leaves t) -> unshared x -> forall k s h h' s', comp x k s h = (h', Ok s') -> set h h' x k s s') by (intros x Hx; apply IH, leaves_has_leaf; exact Hx).
    clear IH. revert k s h h' s' E U L. induction (leaves t) as [|x l IHl]; intros k s h h' s' E U L; [cbn in E; injection E as <- <-; constructor|].
    cbn [map concat] in U. apply nodup_app in U as (U1 & U2 & U3). cbn [fold_left] in E. unfold cstep at 2 in E. destruct (split k) as [rng' k'] eqn:Es. destruct (comp x k' s h) as [h1 [s1|e]] eqn:Ex.
    + assert (X := L x (or_introl eq_refl) U1 k' s h h1 s1 Ex). assert (Y := IHl rng' s1 h1 h' s' E U2 (fun y Hy => L y (or_intror Hy))).
      pose proof (fold_frame l rng' h1 (Ok s1)) as FF. destruct (fold_left (cstep m_compile m_out wide split) l (rng', h1, Ok s1)) as [[rr hh] ee]. injection E as -> ->. cbn in FF.
      econstructor; rewrite Es; cbn [fst snd].
      * eapply settled_ext; [|exact X]. intros r Hr. split; [reflexivity|]. symmetry. apply FF. intros C. apply (U3 r); [apply atoms_in; exact Hr|exact C].
      * eapply settled_all_ext; [|exact Y]. intros r Hr. split; [|reflexivity]. pose proof (hcompile_frame m_compile m_out wide split x r) as F.
        specialize (F ltac:(intros C; apply atoms_in in C; exact (U3 r C Hr)) k' s h). rewrite Ex in F. exact F.
    + exfalso. rewrite fold_err in E. discriminate.
Qed.
(** Conversely a model whose modules can be compiled one after the other is
    compiled, and the result is that one. *)
Lemma settled_compile m : unshared m -> forall k s (h : @heap M) g s', set h g m k s s' -> exists h', comp m k s h = (h', Ok s') /\ forall r, uses m r -> h' r = g r.
Proof.
  induction m as [r|t IH] using net_ind2; intros U k s h g s' H.
  - inversion H as [? ? ? ? E1 E2|]; subst. exists (upd h r (g r)). split; [cbn; rewrite E1, E2; reflexivity|]. intros r' Hr. inversion Hr; subst. apply upd_same.
  - inversion H as [|? ? ? ? HA HW]; subst. clear H. unfold unshared in U. rewrite atoms_nest in U. unfold refs in U.
    assert (L : forall x, In x (leaves t) -> unshared x -> forall k s (h : @heap M) g s', set h g x k s s' -> exists h', comp x k s h = (h', Ok s') /\ forall r, uses x r -> h' r = g r) by (intros x Hx; apply IH, leaves_has_leaf; exact Hx).
    clear IH. rewrite hcompile_nest.
    enough (G : exists h', (let '(_, h', e) := fold_left (cstep m_compile m_out wide split) (leaves t) (k, h, Ok s) in (h', e)) = (h', Ok s') /\ forall r, In r (concat (map atoms (leaves t))) -> h' r = g r).
    { destruct G as (h' & E & A). exists h'. destruct (fold_left (cstep m_compile m_out wide split) (leaves t) (k, h, Ok s)) as [[rr0 hh0] ee0]. injection E as -> ->. rewrite HW. split; [reflexivity|]. intros r Hr. apply A. apply uses_nest in Hr. exact Hr. }
    clear HW. revert k s h s' HA U L. induction (leaves t) as [|x l IHl]; intros k s h s' HA U L; inversion HA as [|? ? ? ? s2 ? Hx Hl]; subst; [exists h; split; [reflexivity|intros r []]|].
    cbn [map concat] in U. apply nodup_app in U as (U1 & U2 & U3). destruct (L x (or_introl eq_refl) U1 _ _ _ _ _ Hx) as (h1 & E1 & A1).
    assert (Hf : forall r, In r (concat (map atoms l)) -> h1 r = h r).
    { intros r Hr. pose proof (hcompile_frame m_compile m_out wide split x r ltac:(intros C; apply atoms_in in C; exact (U3 r C Hr)) (snd (split k)) s h) as F. rewrite E1 in F. exact F. }
    destruct (IHl (fst (split k)) s2 h1 s') as (h2 & E2 & A2); [|exact U2|intros y Hy; apply L; right; exact Hy|].
    { eapply settled_all_ext; [|exact Hl]. intros r Hr. split; [symmetry; apply Hf; exact Hr|reflexivity]. }
    exists h2. cbn [fold_left]. unfold cstep at 2. destruct (split k) as [rng' k'] eqn:Es. cbn [fst snd] in *. rewrite E1. split; [exact E2|].
    pose proof (fold_frame l rng' h1 (Ok s2)) as FF. destruct (fold_left (cstep m_compile m_out wide split) l (rng', h1, Ok s2)) as [[rr hh] ee]. injection E2 as -> ->. cbn in FF.
    intros r Hr. cbn [map concat] in Hr. apply in_app_or in Hr as [Hr|Hr]; [|exact (A2 r Hr)]. rewrite FF; [apply A1, atoms_in; exact Hr|]. intros C. exact (U3 r Hr C).
Qed.
End Compile.

Theorem C106_compiled_partial {M Rng Sh} (m_compile : M -> Rng -> Sh -> M * result unit) m_out wide split m k s h h' s' :
  unshared m -> hcompile m_compile m_out wide split m k s h = (h', Ok s') -> settled m_compile m_out wide split h h' m k s s'.
Proof. intros U. apply compile_settled. exact U. Qed.
Theorem C106_compiles {M Rng Sh} (m_compile : M -> Rng -> Sh -> M * result unit) m_out wide split m k s h g s' :
  unshared m -> settled m_compile m_out wide split h g m k s s' -> exists h', hcompile m_compile m_out wide split m k s h = (h', Ok s') /\ forall r, uses m r -> h' r = g r.
Proof. intros U. apply settled_compile. exact U. Qed.

(** A module that occurs twice is compiled twice, and what it keeps from the
    first time is replaced, e.g. the shape that Flatten keeps (flatten.py L36-49). *)
Definition compiled_always : Prop := forall M Rng Sh (m_compile : M -> Rng -> Sh -> M * result unit) m_out wide split m k s h h' s',
  hcompile m_compile m_out wide split m k s h = (h', Ok s') -> settled m_compile m_out wide split h h' m k s s'.
(** keeps the shape it was compiled for and adds one to it *)
Definition k_compile (x : option nat) (_ : nat) (s : nat) : option nat * result unit := (Some s, Ok tt).
Definition k_out (x : option nat) (s : nat) : result nat := match x with Some n => if Nat.eqb n s then Ok (S s) else Err ValueError | None => Err RuntimeError end.
Definition k_split (k : nat) : nat * nat := (2 * k, 2 * k + 1).
Theorem C106_refuted : ~ compiled_always.
Proof.
  intros H. assert (T := H _ _ _ k_compile k_out (Nat.leb 1) k_split (Nest (Lst [Leaf (Atom 0); Leaf (Atom 0)])) 1 1 (fun _ => None) _ 3 eq_refl).
  inversion T as [|? ? ? ? A _]; subst. inversion A as [|? ? ? ? s2 ? Hx _]; subst. inversion Hx as [? ? ? ? _ E|]; subst. discriminate E.
Qed.
Example C106_example : let m := Nest (Lst [Leaf (Atom 0); Leaf (Nest (Lst [Leaf (Atom 2)])); Leaf (Atom 1)]) in
  unshared m /\ exists h', hcompile k_compile k_out (Nat.leb 1) k_split m 1 5 (fun _ => None) = (h', Ok 8) /\ settled k_compile k_out (Nat.leb 1) k_split (fun _ => None) h' m 1 5 8 /\ h' 0 = Some 5 /\ h' 2 = Some 6 /\ h' 1 = Some 7.
Proof.
  cbn zeta. assert (U : unshared (Nest (Lst [Leaf (Atom 0); Leaf (Nest (Lst [Leaf (Atom 2)])); Leaf (Atom 1)]))) by (unfold unshared; cbn; repeat constructor; cbn; intuition discriminate).
  split; [exact U|]. eexists. split; [reflexivity|]. split; [apply C106_compiled_partial; [exact U|reflexivity]|]. repeat split.
Qed.
Print Assumptions C106_compiled_partial.
Print Assumptions C106_compiles.
Print Assumptions C106_refuted.
