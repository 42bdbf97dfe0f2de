(** C122: gradients are taken in a direction that fits. *)
From Verif Require Import Base TreeUtil NonSeqSpec TreeSpec TrainArgsProofs Precision Modes ModesSpec.
Local Open Scope string_scope. Local Open Scope list_scope.

Lemma reals_iff l : forallb real l = true <-> reals l.
Proof.
  rewrite forallb_forall. split; intros H d Hd; specialize (H d Hd); [destruct d; try discriminate; eauto|destruct H as [w ->]; reflexivity].
Qed.
Lemma inexact_iff l : forallb inexact l = true <-> reals_or_complex l.
Proof.
  rewrite forallb_forall. split; intros H d Hd; specialize (H d Hd); [destruct d; try discriminate; eauto|destruct H as [w [ -> | -> ]]; reflexivity].
Qed.
Lemma jacfwd_iff arg out : jacfwd arg = Ok tt <-> forward_works arg out.
Proof.
  unfold jacfwd, forward_works. rewrite <- reals_iff. destruct (forallb real arg); [|split; [discriminate|intros [H _]; discriminate]].
  destruct arg; split; try discriminate; try reflexivity; [intros [_ H]; congruence|intros _; split; [reflexivity|discriminate]].
Qed.
Lemma jacrev_iff arg out : jacrev arg out = Ok tt <-> reverse_works arg out.
Proof.
  unfold jacrev, reverse_works. rewrite <- reals_iff, <- inexact_iff. destruct (forallb inexact arg), (forallb real out); cbn; split; try discriminate; try reflexivity; auto; intros [H1 H2]; discriminate.
Qed.

(** * Which direction is taken when none is asked for *)
Lemma num_sum l : forall a, fold_left (fun count n => count + n) l a = a + fold_left (fun count n => count + n) l 0.
Proof. induction l as [|n l IH]; intros a; cbn; [lia|]. rewrite IH, (IH n). lia. Qed.
Lemma vectors_numbers (l : list (list nat)) n : (forall s, In s l -> length s = 1) -> holds l n ->
  fold_left (fun count n => count + n) (concat l) 0 = n.
Proof.
  intros H HH. induction HH as [|s l n HH IH]; [reflexivity|]. cbn [concat]. destruct s as [|m [|? ?]]; try (specialize (H _ (or_introl eq_refl)); discriminate).
  cbn [app fold_left entries]. rewrite num_sum, IH; [lia|]. intros s' Hs. apply H. right. exact Hs.
Qed.

Section Calls.
Context {O : Type} (opts_eqb : O -> O -> bool) (opts_refl : forall o, opts_eqb o o = true).
Notation gradient := (gradient opts_eqb).
Notation gradients := (gradients opts_eqb).

(** The first gradient, if no direction is asked for, of a model whose inputs and
    outputs are vectors: it exists exactly if jax can take it forward, if there
    are fewer numbers to go in than to come out, and backward otherwise. Missing:
    other shapes (C122_direction_refuted) and later gradients (C60). *)
Theorem C122_direction_partial (i o : tree (list nat)) arg out (opts : O) n m : vectors i -> vectors o -> numbers i n -> numbers o m ->
  (n < m -> snd (gradient i o arg out fresh None opts) = Ok tt <-> forward_works arg out) /\
  (m <= n -> snd (gradient i o arg out fresh None opts) = Ok tt <-> reverse_works arg out).
Proof.
  intros Vi Vo Ni No. unfold Modes.gradient. cbn [fresh g auto snd]. unfold fewer, num_elems.
  rewrite (vectors_numbers _ _ (fun s H => Vi s (proj1 (leaves_has_leaf i s) H)) Ni), (vectors_numbers _ _ (fun s H => Vo s (proj1 (leaves_has_leaf o s) H)) No).
  split; intros H.
  - rewrite (proj2 (Nat.ltb_lt n m) H). apply jacfwd_iff.
  - rewrite (proj2 (Nat.ltb_ge n m) H). apply jacrev_iff.
Qed.
(** * A direction that is asked for first is taken *)
Theorem C122_asked (i o : tree (list nat)) arg out (opts : O) b :
  snd (gradient i o arg out fresh (Some b) opts) = Ok tt <-> (if b then forward_works arg out else reverse_works arg out).
Proof. destruct b; [apply jacfwd_iff|apply jacrev_iff]. Qed.
(** * With real numbers everywhere (and at least one to differentiate by) every
    gradient exists, however often and in whichever way it is asked for.
    Missing: complex parameters, inputs or outputs. *)
Theorem C122_real_partial (i o : tree (list nat)) arg out : reals arg -> arg <> [] -> reals out ->
  forall s l r, In r (gradients i o arg out s l) -> r = Ok tt.
Proof.
  intros HA HN HO s l. revert s. induction l as [|[fwd opts] l IH]; intros s r; cbn [Modes.gradients]; [intros []|].
  destruct (gradient i o arg out s fwd opts) as [s' r'] eqn:E. intros [ <- | H ]; [|exact (IH s' r H)].
  unfold Modes.gradient in E. injection E as _ <-. unfold differentiate. destruct (snd _); [apply (jacfwd_iff arg out)|apply jacrev_iff]; split; auto.
  intros d Hd. destruct (HA d Hd) as [w ->]. eauto.
Qed.
(** * A first gradient that fails stays: all that follow with the same options
    fail in the same way, whichever direction is asked for. *)
Theorem C122_stuck (i o : tree (list nat)) arg out (opts : O) fwd e : snd (gradient i o arg out fresh fwd opts) = Err e ->
  forall l r, In r (gradients i o arg out (fst (gradient i o arg out fresh fwd opts)) (map (fun f => (f, opts)) l)) -> r = Err e.
Proof.
  intros H l. cbn [Modes.gradient fresh g auto fst snd] in *.
  set (b := match (match fwd with Some _ => fwd | None => Some (fewer i o) end) with Some b' => b' | None => false end).
  assert (Hb : differentiate b arg out = Err e) by (unfold b; destruct fwd; exact H).
  assert (G : forall l s, auto s = Some (opts, b) -> forall r, In r (gradients i o arg out s (map (fun f => (f, opts)) l)) -> r = Err e).
  { clear l H. induction l as [|f l IH]; intros s Hs r; cbn [map Modes.gradients]; [intros []|]. unfold Modes.gradient. rewrite Hs, opts_refl. cbn [snd].
    intros [ <- | H ]; [exact Hb|]. revert r H. apply IH. reflexivity. }
  apply G. unfold b. destruct fwd; reflexivity.
Qed.
(** Other options (for example another max_batch_size) help. *)
Theorem C122_recover (i o : tree (list nat)) arg out (opts opts' : O) fwd b : opts_eqb opts opts' = false ->
  snd (gradient i o arg out (fst (gradient i o arg out fresh fwd opts)) (Some b) opts') = Ok tt <-> (if b then forward_works arg out else reverse_works arg out).
Proof.
  intros H. cbn [Modes.gradient fresh g auto fst snd]. destruct fwd; cbn; rewrite H; (destruct b; [apply jacfwd_iff|apply jacrev_iff]).
Qed.
End Calls.

(** * Training *)
Lemma chosen_in {A} flags : forall (l : list A) a, In a (chosen flags l) <-> exists i, nth_error flags i = Some true /\ nth_error l i = Some a.
Proof.
  induction flags as [|b flags IH]; intros l a; [cbn; split; [intros []|intros ([|i] & H & _); discriminate]|].
  destruct l as [|x l]; [cbn; split; [intros []|intros ([|i] & _ & H); discriminate]|]. destruct b; cbn [chosen].
  - cbn [In]. rewrite IH. split.
    + intros [ -> | (i & H1 & H2) ]; [exists 0; auto|exists (S i); auto].
    + intros ([|i] & H1 & H2); [left; injection H2 as ->; reflexivity|right; exists i; auto].
  - rewrite IH. split; [intros (i & H); exists (S i); exact H|intros ([|i] & H1 & H2); [discriminate|exists i; auto]].
Qed.
(** Reverse: exactly if something is trainable (parameters are floating-point
    numbers); forward: exactly if, moreover, all that is trainable is real. *)
Definition trainable (flags : list bool) (params : list dtype) (d : dtype) : Prop := exists i, nth_error flags i = Some true /\ nth_error params i = Some d.
Theorem C122_train flags params : reals_or_complex params ->
  (train_gradient false flags params = Ok tt <-> exists d, trainable flags params d) /\
  (train_gradient true flags params = Ok tt <-> (exists d, trainable flags params d) /\ forall d, trainable flags params d -> exists w, d = DFloat w).
Proof.
  intros HP. unfold train_gradient, trainable.
  assert (HC : forall d, In d (chosen flags params) -> exists w, d = DFloat w \/ d = DComplex w).
  { intros d Hd. apply chosen_in in Hd. destruct Hd as (i & _ & Hd). apply nth_error_In in Hd. exact (HP d Hd). }
  assert (HI := chosen_in flags params). destruct (chosen flags params) as [|c l] eqn:E.
  - split; (split; [discriminate|]); [intros [d Hd]|intros [[d Hd] _]]; apply (proj2 (HI d)) in Hd; destruct Hd.
  - split.
    + rewrite jacrev_iff. split; intros _; [exists c; apply HI; left; reflexivity|]. split; [exact HC|]. intros d [ <- | [] ]. eauto.
    + rewrite (jacfwd_iff (c :: l) []). unfold forward_works, reals. split.
      * intros [H _]. split; [exists c; apply HI; left; reflexivity|]. intros d Hd. apply H, HI, Hd.
      * intros [_ H]. split; [|discriminate]. intros d Hd. apply H, HI, Hd.
Qed.

(** * What is false *)
(** Without a request the direction is forward exactly if fewer numbers go in
    than come out. *)
Definition direction_fits_always : Prop := forall i o n m, numbers i n -> numbers o m -> (fewer i o = true <-> n < m).
(** A gradient that can be taken in some way is taken. *)
Definition gradient_exists_always : Prop := forall (i o : tree (list nat)) arg out, some_way_works arg out ->
  snd (gradient Nat.eqb i o arg out fresh None 0) = Ok tt.
(** A gradient that can be taken in the direction asked for is taken. *)
Definition request_served_always : Prop := forall (i o : tree (list nat)) arg out s b, reverse_works arg out ->
  s = fst (gradient Nat.eqb i o arg out fresh b 0) -> snd (gradient Nat.eqb i o arg out s (Some false) 0) = Ok tt.

(** Matrices of 10 by 10 go in, vectors of 30 come out: 100 numbers count as 20. *)
Theorem C122_direction_refuted : fewer (Leaf [10; 10]) (Leaf [30]) = true /\ ~ direction_fits_always.
Proof.
  split; [reflexivity|]. intros H. assert (X := proj1 (H (Leaf [10; 10]) (Leaf [30]) 100 30 (h_cons [10; 10] [] 0 h_nil) (h_cons [30] [] 0 h_nil)) eq_refl). lia.
Qed.
(** One number in, two out, complex parameters (the default of the matrix
    modules): grad_params fails, and goes on failing with [fwd=False]. *)
Definition x_params : list dtype := [DComplex 64; DFloat 32].
Theorem C122_refuted :
  some_way_works x_params [DFloat 32] /\
  gradients Nat.eqb (Leaf [1]) (Leaf [2]) x_params [DFloat 32] fresh [(None, 0); (Some false, 0); (Some false, 1)] = [Err TypeError; Err TypeError; Ok tt] /\
  ~ gradient_exists_always /\ ~ request_served_always.
Proof.
  assert (W : reverse_works x_params [DFloat 32]).
  { split; [intros d [ <- | [ <- | [] ] ]; eauto|intros d [ <- | [] ]; eauto]. }
  refine (conj (or_intror W) (conj eq_refl (conj _ _))).
  - intros H. specialize (H (Leaf [1]) (Leaf [2]) x_params [DFloat 32] (or_intror W)). discriminate.
  - intros H. specialize (H (Leaf [1]) (Leaf [2]) x_params [DFloat 32] _ None W eq_refl). discriminate.
Qed.

Example C122_example :
  snd (gradient Nat.eqb (Dict [("a", Leaf [2]); ("b", Leaf [1])]) (Leaf [4]) [DFloat 64; DFloat 32] [DComplex 64] fresh None 0) = Ok tt /\
  snd (gradient Nat.eqb (Leaf [4]) (Leaf [2]) x_params [DFloat 32] fresh None 0) = Ok tt /\
  train_gradient true [false; true] x_params = Ok tt /\ train_gradient true [true; true] x_params = Err TypeError /\ train_gradient false [true; true] x_params = Ok tt.
Proof.
  refine (conj _ (conj _ (conj _ (conj eq_refl _)))).
  - apply (proj1 (C122_direction_partial Nat.eqb (Dict [("a", Leaf [2]); ("b", Leaf [1])]) (Leaf [4]) [DFloat 64; DFloat 32] [DComplex 64] 0 3 4
      ltac:(intros s Hs; apply leaves_has_leaf in Hs; cbn in Hs; destruct Hs as [ <- | [ <- | [] ] ]; reflexivity)
      ltac:(intros s Hs; apply leaves_has_leaf in Hs; cbn in Hs; destruct Hs as [ <- | [] ]; reflexivity)
      (h_cons [2] _ 1 (h_cons [1] [] 0 h_nil)) (h_cons [4] [] 0 h_nil)) ltac:(lia)).
    split; [intros d [ <- | [ <- | [] ] ]; eauto|discriminate].
  - apply (proj2 (C122_direction_partial Nat.eqb (Leaf [4]) (Leaf [2]) x_params [DFloat 32] 0 4 2
      ltac:(intros s Hs; apply leaves_has_leaf in Hs; cbn in Hs; destruct Hs as [ <- | [] ]; reflexivity)
      ltac:(intros s Hs; apply leaves_has_leaf in Hs; cbn in Hs; destruct Hs as [ <- | [] ]; reflexivity)
      (h_cons [4] [] 0 h_nil) (h_cons [2] [] 0 h_nil)) ltac:(lia)).
    split; [intros d [ <- | [ <- | [] ] ]; eauto|intros d [ <- | [] ]; eauto].
  - apply C122_train; [intros d [ <- | [ <- | [] ] ]; eauto|]. split; [exists (DFloat 32), 1; split; reflexivity|].
    intros d ([|[|i]] & H1 & H2); try discriminate; [injection H2 as <-; eauto|destruct i; discriminate].
  - apply C122_train; [intros d [ <- | [ <- | [] ] ]; eauto|]. exists (DComplex 64), 0. split; reflexivity.
Qed.

Print Assumptions C122_direction_partial.
Print Assumptions C122_asked.
Print Assumptions C122_real_partial.
Print Assumptions C122_stuck.
Print Assumptions C122_recover.
Print Assumptions C122_train.
Print Assumptions C122_direction_refuted.
Print Assumptions C122_refuted.
Print Assumptions C122_example.
