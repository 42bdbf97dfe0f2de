(** Lemmas on the arguments of training. *)
From Coq Require Import ZArith.
From Verif Require Import Base BaseLemmas TreeUtil NonSeqSpec NonSeqProofs MutableProofs BatchSpec BatchProofs TrainArgs.
Local Open Scope list_scope.

(** ** specification *)
(** all arrays of the tree have [n] samples *)
Definition counts {A} (shape : A -> list nat) (n : nat) (t : tree A) : Prop :=
  forall x, has_leaf t x -> exists rest, shape x = n :: rest.

(** combinations of optional arguments that make no sense *)
Inductive senseless {A} (a : targs (A := A)) : Prop :=
| sl_resume : a_resume a = true -> a_adam a = None -> senseless a
| sl_start : a_resume a = false -> a_params a = None -> senseless a
| sl_val_targets y : a_Y a = None -> a_Y_val a = Some y -> senseless a
| sl_unc u : a_Y a = None -> a_Y_unc a = Some u -> senseless a
| sl_val_unc u : a_Y_val a = None -> a_Y_val_unc a = Some u -> senseless a
| sl_no_val_unc u y : a_Y_unc a = Some u -> a_Y_val a = Some y -> a_Y_val_unc a = None -> senseless a
| sl_no_val_targets y x : a_Y a = Some y -> has_leaf y x -> a_X_val a <> None -> a_Y_val a = None -> senseless a.

Section Proofs.
Context {A : Type} (shape : A -> list nat).

Lemma leaves_has_leaf (t : tree A) : forall y, In y (leaves t) <-> has_leaf t y.
Proof.
  induction t as [x| |d IH|l IH|l IH] using tree_ind2; intros y; cbn [leaves].
  - split; [intros [<-|[]]; constructor|]. intros H; inversion H; left; reflexivity.
  - split; [intros []|intros H; inversion H].
  - rewrite in_concat. split.
    + intros (xs & Hin & Hy). apply in_map_iff in Hin as ((k & ys) & <- & Hin). cbn [snd] in Hy.
      apply (Permutation.Permutation_in _ (sort_kvs_perm _)) in Hin. apply in_map_iff in Hin as ((k' & t) & E & Hin).
      cbn [fst snd] in E. injection E as -> <-. rewrite Forall_forall in IH. specialize (IH _ Hin y). cbn [snd] in IH.
      econstructor; [exact Hin|]. apply IH. exact Hy.
    + intros H. inversion H as [|d' k t' x' Hin Hlf| |]; subst. exists (leaves t'). split.
      * apply in_map_iff. exists (k, leaves t'). split; [reflexivity|].
        apply (Permutation.Permutation_in _ (Permutation.Permutation_sym (sort_kvs_perm _))).
        apply in_map_iff. exists (k, t'). auto.
      * rewrite Forall_forall in IH. apply (IH _ Hin y). exact Hlf.
  - rewrite in_concat. split.
    + intros (xs & Hin & Hy). apply in_map_iff in Hin as (t & <- & Hin). econstructor; [exact Hin|].
      rewrite Forall_forall in IH. apply (IH _ Hin y). exact Hy.
    + intros H. inversion H as [| |l' t' x' Hin Hlf|]; subst. exists (leaves t'). split; [apply in_map; exact Hin|].
      rewrite Forall_forall in IH. apply (IH _ Hin y). exact Hlf.
  - rewrite in_concat. split.
    + intros (xs & Hin & Hy). apply in_map_iff in Hin as (t & <- & Hin). econstructor; [exact Hin|].
      rewrite Forall_forall in IH. apply (IH _ Hin y). exact Hy.
    + intros H. inversion H as [| | |l' t' x' Hin Hlf]; subst. exists (leaves t'). split; [apply in_map; exact Hin|].
      rewrite Forall_forall in IH. apply (IH _ Hin y). exact Hlf.
Qed.

Lemma require_ok b e x : require b e = Ok x -> b = true.
Proof. destruct b; [reflexivity|discriminate]. Qed.

Lemma one_count_ok ts : one_count shape ts = true -> exists n, forall t, In t ts -> counts shape n t.
Proof.
  unfold one_count. intros H. destruct (concat (map leaves ts)) as [|a l] eqn:E.
  - exists 0. intros t Ht x Hx. exfalso. apply leaves_has_leaf in Hx.
    assert (Hin : In x (concat (map leaves ts))) by (apply in_concat; exists (leaves t); split; [apply in_map; exact Ht|exact Hx]).
    rewrite E in Hin. exact Hin.
  - exists (hd 0 (shape a)). intros t Ht x Hx. apply leaves_has_leaf in Hx.
    assert (Hin : In x (concat (map leaves ts))) by (apply in_concat; exists (leaves t); split; [apply in_map; exact Ht|exact Hx]).
    rewrite E in Hin. rewrite forallb_forall in H. specialize (H _ Hin). destruct (shape x) as [|m [|m' r]]; try discriminate H.
    apply Nat.eqb_eq in H. subst. eauto.
Qed.

Lemma num_samples_ok t n m : counts shape n t -> num_samples shape t = Ok m -> m = n.
Proof.
  intros Hc H. unfold num_samples in H. destruct (leaves t) as [|x l] eqn:E; [discriminate H|].
  destruct (Hc x) as (r & Hr); [apply leaves_has_leaf; rewrite E; left; reflexivity|].
  unfold dim0 in H. rewrite Hr in H. congruence.
Qed.

Lemma num_samples_populated t m : num_samples shape t = Ok m -> populated t.
Proof.
  intros H. unfold num_samples in H. destruct (leaves t) as [|x l] eqn:E; [discriminate H|].
  exists x. apply leaves_has_leaf. rewrite E. left. reflexivity.
Qed.

Lemma same_struct_none (t : tree A) : same_struct t (NoneT (A := A)) = true -> t = NoneT.
Proof. destruct t; cbn; try discriminate; reflexivity. Qed.

Theorem train_args_accepted a d : train_args shape a = Ok d ->
  d_X d = a_X a /\ d_Y d = a_Y a /\ d_Y_unc d = a_Y_unc a /\
  (a_X_val a = None -> d_X_val d = a_X a /\ d_Y_val d = a_Y a /\ d_Y_val_unc d = a_Y_unc a) /\
  (forall x, a_X_val a = Some x -> d_X_val d = x /\ d_Y_val d = a_Y_val a /\
     (a_Y_unc a <> None -> d_Y_val_unc d = a_Y_val_unc a) /\ (a_Y_unc a = None -> d_Y_val_unc d = None)) /\
  ~ senseless a /\
  (exists n, populated (a_X a) /\ counts shape n (a_X a) /\ (forall y, a_Y a = Some y -> counts shape n y) /\
     (forall u, a_Y_unc a = Some u -> counts shape n u) /\ (d_batch d <= Z.of_nat n)%Z /\ (a_batch a <= Z.of_nat n -> d_batch d = a_batch a)%Z) /\
  (exists m, populated (d_X_val d) /\ counts shape m (d_X_val d) /\ (forall y, d_Y_val d = Some y -> counts shape m y) /\
     (forall u, d_Y_val_unc d = Some u -> counts shape m u) /\ (d_val_batch d <= Z.of_nat m)%Z /\ (1 <= m -> (1 <= d_val_batch d)%Z)).
Proof.
  intros H. unfold train_args in H.
  apply rbind_ok in H as (? & H0 & H). apply require_ok in H0.
  apply rbind_ok in H as (? & H1 & H). apply require_ok in H1.
  apply rbind_ok in H as (? & H2 & H). apply require_ok in H2.
  apply rbind_ok in H as (n & H3 & H).
  apply rbind_ok in H as (? & H4 & H). apply require_ok in H4.
  apply rbind_ok in H as (? & H5 & H). apply require_ok in H5.
  apply rbind_ok in H as (? & H6 & H). apply require_ok in H6.
  apply rbind_ok in H as (? & H7 & H). apply require_ok in H7.
  set (V := match a_X_val a with
    | Some x => (x, a_Y_val a, if negb (given (a_Y_unc a)) && given (a_Y_val a) then None else a_Y_val_unc a)
    | None => (a_X a, a_Y a, a_Y_unc a)
    end) in H. destruct V as [[XV YV] UV] eqn:EV. subst V.
  apply rbind_ok in H as (? & H8 & H). apply rbind_ok in H as (? & H9 & H). apply rbind_ok in H as (? & H10 & H).
  apply rbind_ok in H as (? & H11 & H). apply rbind_ok in H as (? & H12 & H). apply require_ok in H12.
  apply rbind_ok in H as (? & H13 & H). apply rbind_ok in H as (? & H14 & H). apply rbind_ok in H as (? & H15 & H).
  apply rbind_ok in H as (m & H16 & H). injection H as <-. cbn [d_X d_Y d_Y_unc d_X_val d_Y_val d_Y_val_unc d_batch d_val_batch].
  unfold annotated in H0. rewrite !andb_true_iff in H0. destruct H0 as [[[C1 C2] _] _].
  apply one_count_ok in C1 as (n1 & C1). apply one_count_ok in C2 as (m1 & C2).
  assert (CX : counts shape n1 (a_X a)) by (apply C1; left; reflexivity).
  assert (CY : forall y, a_Y a = Some y -> counts shape n1 y).
  { intros y E. apply C1. right. rewrite E. left. reflexivity. }
  assert (CU : forall y, a_Y_unc a = Some y -> counts shape n1 y).
  { intros y E. apply C1. right. apply in_app_iff. right. rewrite E. left. reflexivity. }
  pose proof (num_samples_ok _ _ _ CX H3) as ->.
  split; [reflexivity|]. split; [reflexivity|]. split; [reflexivity|].
  split; [intros E; rewrite E in EV; injection EV as <- <- <-; auto|].
  split.
  { intros xv E. rewrite E in EV. injection EV as <- <- <-. split; [reflexivity|]. split; [reflexivity|].
    destruct (a_Y_unc a); cbn [given negb andb] in *; (split; [|try reflexivity]).
    - intros _; reflexivity.
    - discriminate.
    - congruence.
    - intros _. destruct (a_Y_val a); cbn in *; [reflexivity|]. destruct (a_Y_val_unc a); [discriminate H6|reflexivity]. }
  split.
  { intros S. destruct S as [E1 E2|E1 E2|y E1 E2|u E1 E2|u E1 E2|u y E1 E2 E3|y xx E1 E2 E3 E4].
    - rewrite E1, E2 in H1. discriminate H1.
    - rewrite E1, E2 in H2. discriminate H2.
    - rewrite E1, E2 in H4. discriminate H4.
    - rewrite E1, E2 in H5. discriminate H5.
    - rewrite E1, E2 in H6. discriminate H6.
    - rewrite E1, E2, E3 in H7. discriminate H7.
    - destruct (a_X_val a) as [xv|]; [|congruence]. injection EV as <- <- <-. rewrite E1, E4 in H13. apply require_ok in H13.
      cbn [or_none] in H13. unfold shapes_equal_1 in H13. apply andb_true_iff in H13 as [H13 _]. apply same_struct_none in H13.
      subst y. inversion E2. }
  split.
  { exists n1. split; [eapply num_samples_populated; exact H3|]. split; [exact CX|]. split; [exact CY|]. split; [exact CU|].
    destruct (Z.ltb_spec (Z.of_nat n1) (a_batch a)); split; lia. }
  assert (HV : exists m', counts shape m' XV /\ (forall y, YV = Some y -> counts shape m' y) /\ forall u, UV = Some u -> counts shape m' u).
  { destruct (a_X_val a) as [xv|] eqn:EX.
    - injection EV as <- <- <-. exists m1. split; [apply C2; left; reflexivity|]. split.
      + intros y E. apply C2. apply in_app_iff. right. apply in_app_iff. left. rewrite E. left. reflexivity.
      + intros u E. apply C2. apply in_app_iff. right. apply in_app_iff. right. destruct (negb (given (a_Y_unc a)) && given (a_Y_val a)); [discriminate E|].
        rewrite E. left. reflexivity.
    - injection EV as <- <- <-. exists n1. auto. }
  destruct HV as (m' & D1 & D2 & D3). pose proof (num_samples_ok _ _ _ D1 H16) as ->.
  exists m'. split; [eapply num_samples_populated; exact H16|]. split; [exact D1|]. split; [exact D2|]. split; [exact D3|].
  destruct (Z.leb_spec (a_val_batch a) 0); [split; lia|]. destruct (Z.ltb_spec (Z.of_nat m') (a_val_batch a)); split; lia.
Qed.

(** every senseless combination is refused, and with ValueError when the data
    themselves are fine *)
Theorem train_args_rejects a : senseless a -> is_ok (train_args shape a) = false.
Proof.
  intros S. destruct (train_args shape a) as [d|e] eqn:E; [|reflexivity].
  destruct (train_args_accepted a d E) as (_ & _ & _ & _ & _ & N & _). contradiction.
Qed.

Lemma uniform_ok n t : counts shape n t -> has_uniform_0 shape t = Ok true.
Proof.
  intros H. unfold has_uniform_0. assert (HL : forall x, In x (leaves t) -> exists r, shape x = n :: r).
  { intros x Hx. apply H, leaves_has_leaf, Hx. }
  destruct (leaves t) as [|a l]; [reflexivity|]. destruct (HL a (or_introl eq_refl)) as (ra & Ea).
  assert (HL' : forall x, In x l -> exists r, shape x = n :: r) by (intros x Hx; apply HL; right; exact Hx). clear HL.
  induction l as [|b l IH]; [reflexivity|]. cbn [rfold]. destruct (HL' b (or_introl eq_refl)) as (rb & Eb).
  unfold dim0 at 1 2. rewrite Ea, Eb. cbn [rbind]. rewrite Nat.eqb_refl. apply IH. intros x Hx. apply HL'. right. exact Hx.
Qed.
Lemma uniform_equal_ok n t u : counts shape n t -> counts shape n u -> populated t -> populated u -> uniform_equal_0 shape t u = Ok true.
Proof.
  intros H1 H2 (x & Hx) (y & Hy). unfold uniform_equal_0. rewrite (uniform_ok n t H1), (uniform_ok n u H2). cbn [rbind].
  apply leaves_has_leaf in Hx, Hy.
  assert (HL1 : forall x, In x (leaves t) -> exists r, shape x = n :: r) by (intros z Hz; apply H1, leaves_has_leaf, Hz).
  assert (HL2 : forall x, In x (leaves u) -> exists r, shape x = n :: r) by (intros z Hz; apply H2, leaves_has_leaf, Hz).
  destruct (leaves t) as [|a l]; [destruct Hx|]. destruct (leaves u) as [|b m]; [destruct Hy|].
  destruct (HL1 a (or_introl eq_refl)) as (ra & Ea). destruct (HL2 b (or_introl eq_refl)) as (rb & Eb).
  unfold dim0. rewrite Ea, Eb. cbn [rbind]. rewrite Nat.eqb_refl. reflexivity.
Qed.

Theorem train_args_value_error a : senseless a -> annotated shape a = true -> populated (a_X a) ->
  (forall y, a_Y a = Some y -> populated y) -> (forall y, a_Y_unc a = Some y -> a_X_val a = None \/ a_Y_val a <> None) ->
  train_args shape a = Err ValueError.
Proof.
  intros S Han HX HYp HU. pose proof (train_args_rejects a S) as HR.
  unfold annotated in Han. pose proof Han as Han'. rewrite !andb_true_iff in Han. destruct Han as [[[C1 C2] _] _].
  apply one_count_ok in C1 as (n1 & C1).
  assert (CX : counts shape n1 (a_X a)) by (apply C1; left; reflexivity).
  assert (CY : forall y, a_Y a = Some y -> counts shape n1 y).
  { intros y E. apply C1. right. rewrite E. left. reflexivity. }
  unfold train_args in *. unfold annotated in *. rewrite Han' in *. cbn [require rbind] in *.
  assert (EN : num_samples shape (a_X a) = Ok n1).
  { destruct HX as (x & Hx). apply leaves_has_leaf in Hx. unfold num_samples.
    assert (HL : forall x, In x (leaves (a_X a)) -> exists r, shape x = n1 :: r) by (intros z Hz; apply CX, leaves_has_leaf, Hz).
    destruct (leaves (a_X a)) as [|y l]; [destruct Hx|]. destruct (HL y (or_introl eq_refl)) as (r & Er). unfold dim0. rewrite Er. reflexivity. }
  rewrite EN in *. cbn [rbind] in *.
  destruct S as [E1 E2|E1 E2|y E1 E2|u E1 E2|u E1 E2|u y E1 E2 E3|y xx E1 E2 E3 E4].
  - rewrite E1, E2. reflexivity.
  - destruct (negb _); [|reflexivity]. cbn [require rbind]. rewrite E1, E2. reflexivity.
  - do 2 (match goal with |- context [require ?b ValueError] => destruct b; [|reflexivity] end; cbn [require rbind]).
    rewrite E1, E2. reflexivity.
  - do 3 (match goal with |- context [require ?b ValueError] => destruct b; [|reflexivity] end; cbn [require rbind]).
    rewrite E1, E2. reflexivity.
  - do 4 (match goal with |- context [require ?b ValueError] => destruct b; [|reflexivity] end; cbn [require rbind]).
    rewrite E1, E2. reflexivity.
  - do 5 (match goal with |- context [require ?b ValueError] => destruct b; [|reflexivity] end; cbn [require rbind]).
    rewrite E1, E2, E3. reflexivity.
  - do 6 (match goal with |- context [require ?b ValueError] => destruct b; [|reflexivity] end; cbn [require rbind]).
    destruct (a_X_val a) as [xv|] eqn:EX; [|congruence]. rewrite E1, E4.
    rewrite (uniform_equal_ok n1) by (try exact HX; try exact CX; auto). cbn [rbind require given].
    destruct (a_Y_unc a) as [u|] eqn:EU.
    + destruct (HU u eq_refl); congruence.
    + cbn [rbind]. match goal with |- context [require ?b ValueError] => destruct b; [|reflexivity] end. cbn [require rbind].
      cbn [or_none]. unfold shapes_equal_1.
      destruct (same_struct y NoneT) eqn:ES; [|reflexivity]. apply same_struct_none in ES. subst y. inversion E2.
Qed.

(** the loss functions are called with the number of arguments they take *)
Theorem losses_match a d loss : train_args shape a = Ok d ->
  (loss = Named (train_calls (given (a_Y a)) (given (a_Y_unc a))) \/
   loss = Custom (inner_args (train_calls (given (a_Y a)) (given (a_Y_unc a))))) ->
  (forall y x, a_Y a = Some y -> a_X_val a = Some x -> populated y) ->
  losses a loss None d = Ok (true, true).
Proof.
  intros H HL Hpop. destruct (train_args_accepted a d H) as (EX & EY & EU & EN & ES & NS & _).
  assert (G : given (d_Y_val d) = given (a_Y a) /\ given (d_Y_val_unc d) = given (a_Y_unc a)).
  { destruct (a_X_val a) as [x|] eqn:Exv.
    - destruct (ES x eq_refl) as (_ & -> & H1 & H2). split.
      + destruct (a_Y a) as [y|] eqn:E1, (a_Y_val a) as [yv|] eqn:E2; try reflexivity; exfalso; apply NS.
        * destruct (Hpop y x eq_refl eq_refl) as (z & Hz). eapply sl_no_val_targets; try eassumption. congruence.
        * eapply sl_val_targets; eassumption.
      + destruct (a_Y_unc a) as [u|] eqn:E1; [|rewrite H2 by reflexivity; reflexivity].
        rewrite H1 by discriminate. destruct (a_Y_val_unc a) eqn:E2; [reflexivity|]. exfalso. apply NS.
        destruct (a_Y_val a) as [yv|] eqn:E3.
        * eapply sl_no_val_unc; eassumption.
        * destruct (a_Y a) as [y|] eqn:E4.
          -- destruct (Hpop y x eq_refl eq_refl) as (z & Hz). eapply sl_no_val_targets; try eassumption. congruence.
          -- eapply sl_unc; eassumption.
    - destruct (EN eq_refl) as (_ & -> & ->). auto. }
  destruct G as [G1 G2]. unfold losses. rewrite G1, G2, EY, EU.
  assert (NU : given (a_Y a) = false -> given (a_Y_unc a) = false).
  { intros E. destruct (a_Y a) eqn:E1; [discriminate E|]. destruct (a_Y_unc a) eqn:E2; [|reflexivity]. exfalso. apply NS. eapply sl_unc; eassumption. }
  destruct HL as [-> | ->]; destruct (given (a_Y a)), (given (a_Y_unc a)); try reflexivity; specialize (NU eq_refl); discriminate NU.
Qed.
End Proofs.
