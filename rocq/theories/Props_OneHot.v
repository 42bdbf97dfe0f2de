(** C41: one-hot encoding. *)
From Coq Require Import ZArith Permutation.
From Verif Require Import Base TreeUtil TreeSpec NonSeqSpec SerialSpec Serial EigenProofs Scaler OneHot OneHotSpec OneHotProofs ScalerTyped ScalerTypedProofs.
Local Open Scope string_scope.
Local Open Scope list_scope.
Local Open Scope nat_scope.

Definition Zops : ops Z := mk_ops Z 0%Z 1%Z Z.add Z.mul Z.leb.
Example Zops_lawful : lawful Zops.
Proof.
  constructor; cbn; intros; try (destruct a; reflexivity); try discriminate; try (rewrite ?Z.leb_le in *; lia).
Qed.

(** Fit on one tree of data and use on another of the same structure and shapes:
    if in each leaf the fitted rows are comparable entry by entry, and all leaves
    have the same number of different rows, each row is encoded by its position
    in a listing of the different fitted rows, decoding gives back rows that were
    seen and zeros for the others. *)
Definition osampled {V} (n : nat) (X : tree (odata V)) : Prop := forall x, has_leaf X x -> length (o_rows x) = n.
Theorem C41_chain_partial : forall V (o : ops V), lawful o -> forall (r : tree (odata V * odata V)) X X' n n' k,
  wf_tree r -> trel (fun p x => fst p = x) r X -> trel (fun p x => snd p = x) r X' -> osampled n X -> osampled n' X' ->
  (forall x x', has_leaf r (x, x') -> rows_fit x /\ chain o (o_rows x) /\ rows_fit x' /\ o_shape x = o_shape x') ->
  (forall x x' u, has_leaf r (x, x') -> listing x u -> length u = k) ->
  exists s E Z, onehot_fit o X = Ok s /\ onehot_transform o (Some s) X' = Ok E /\ onehot_inverse o (Some s) E = Ok Z /\
    trel (fun p e => exists u, listing (fst p) u /\ Forall2 (code o u) (o_rows (snd p)) e) r E /\
    trel (fun p z => o_shape z = o_shape (snd p) /\
            Forall2 (fun a b => (In a (o_rows (fst p)) -> b = a) /\ (~ In a (o_rows (fst p)) -> b = repeat (zero o) (features (fst p)))) (o_rows (snd p)) (o_rows z)) r Z.
Proof.
  intros V o L r X X' n n' k W TX TX' SX SX' H K. destruct (onehot_tree o L r X X' W TX TX' H) as (s & E & Z & A & B & C & D & F). exists s, E, Z.
  assert (SR : forall p, has_leaf r p -> length (o_rows (snd p)) = n').
  { intros p Hp. destruct (map_has_leaf _ _ _ TX' p Hp) as (x & Hx & <-). apply SX'. exact Hx. }
  assert (SE : forall e, has_leaf E e -> length e = n').
  { intros e He. destruct (trel_back _ _ _ D e He) as (p & Hp & u & _ & G). rewrite <- (SR p Hp). clear -G. induction G; cbn; congruence. }
  assert (SZ : forall z, has_leaf Z z -> length (o_rows z) = n').
  { intros z Hz. destruct (trel_back _ _ _ F z Hz) as (p & Hp & _ & G). rewrite <- (SR p Hp). clear -G. induction G; cbn; congruence. }
  assert (WE : one_width E = true).
  { apply width_spec. exists k. intros e c He Hc. destruct (trel_back _ _ _ D e He) as ([x x'] & Hp & u & Lu & G). cbn [fst snd] in *.
    rewrite <- (K x x' u Hp Lu). clear -G Hc. induction G as [|a b l m [Q _] G IH]; [destruct Hc|]. destruct Hc as [ -> |Hc]; auto. }
  split; [|split; [|split; [|auto]]].
  - unfold onehot_fit. rewrite (call_fit_ok _ _ X n SX). exact A.
  - apply (call_ok _ _ _ _ _ n'); auto. rewrite B. cbn. rewrite WE. reflexivity.
  - apply (call_ok _ _ _ _ _ n'); auto. rewrite WE. exact C.
Qed.

(** Two leaves with different numbers of different rows: the codes are refused. *)
Theorem C41_categories : forall V (o : ops V), lawful o -> forall (r : tree (odata V * odata V)) X X' n n',
  wf_tree r -> trel (fun p x => fst p = x) r X -> trel (fun p x => snd p = x) r X' -> osampled n X -> osampled n' X' -> 0 < n' ->
  (forall x x', has_leaf r (x, x') -> rows_fit x /\ chain o (o_rows x) /\ rows_fit x' /\ o_shape x = o_shape x') ->
  forall x1 x1' u1 x2 x2' u2, has_leaf r (x1, x1') -> has_leaf r (x2, x2') -> listing x1 u1 -> listing x2 u2 -> length u1 <> length u2 ->
  exists s, onehot_fit o X = Ok s /\ onehot_transform o (Some s) X' = Err TypeError.
Proof.
  intros V o L r X X' n n' W TX TX' SX SX' Pn H x1 x1' u1 x2 x2' u2 H1 H2 L1 L2 D. destruct (onehot_tree o L r X X' W TX TX' H) as (s & E & Z & A & B & _ & C & _). exists s.
  split; [unfold onehot_fit; rewrite (call_fit_ok _ _ X n SX); exact A|]. apply (call_err _ _ _ _ n' _ SX'). rewrite B. cbn. destruct (one_width E) eqn:WE; [|reflexivity].
  exfalso. apply D. apply width_spec in WE as (k & K).
  assert (G : forall x x' u, has_leaf r (x, x') -> listing x u -> length u = k).
  { intros x x' u Hp [N I]. destruct (map_has_leaf _ _ _ C _ Hp) as (e & He & v & [N' I'] & F). destruct (map_has_leaf _ _ _ TX' _ Hp) as (y & Hy & Ey). cbn [fst snd] in *. subst y.
    pose proof (SX' _ Hy) as Sy. destruct F as [|a c l m [Q _] F]; [cbn in Sy; lia|]. rewrite <- (K _ c He (or_introl eq_refl)), Q.
    apply Permutation_length. apply NoDup_Permutation; [exact N|exact N'|]. intros a'. rewrite I, I'. reflexivity. }
  rewrite (G _ _ _ H1 L1), (G _ _ _ H2 L2). reflexivity.
Qed.

(** Codes: those of listed rows have exactly one 1, and different rows have
    different codes. *)
Theorem C41_one_hot : forall V (o : ops V), lawful o -> forall x u r c, listing x u -> In r (o_rows x) -> code o u r c -> one_hot o c.
Proof. intros V o L x u r c [ND IN] Hr. eapply code_one_hot; eauto. apply IN. exact Hr. Qed.
Theorem C41_distinct : forall V (o : ops V), lawful o -> forall x u r s c, listing x u -> In r (o_rows x) -> code o u r c -> code o u s c -> r = s.
Proof. intros V o L x u r s c [ND IN] Hr. apply code_inj; auto. apply IN. exact Hr. Qed.

(** One feature per sample: always the case. *)
Theorem C41_one_feature : forall V (o : ops V), lawful o -> forall l, Forall (fun r => length r = 1) l -> chain o l.
Proof. exact (fun V => @chain_one V). Qed.

(** Otherwise some fitted row is not recognised: the condition is exact. *)
Theorem C41_chain_needed : forall V (o : ops V), lawful o -> forall x, rows_fit x ->
  ((forall r, In r (o_rows x) -> In r (fst (oh_fit_leaf o x))) <-> chain o (o_rows x)).
Proof.
  intros V o L x W. split; [apply fit_only_chain; exact L|]. intros C r Hr. rewrite (fit_chain o L x W C). apply (unique_listing o L x). exact Hr.
Qed.
Theorem C41_unseen : forall V (o : ops V), lawful o -> forall u r, ~ In r u -> encode o u r = repeat (zero o) (length u).
Proof. exact (fun V => @encode_unseen V). Qed.

(** Two features: after fitting to (0,1) and (1,0) both are encoded as zeros,
    while (0,0), never seen, is encoded as a value. *)
Definition C41_always := forall x s E, rows_fit x -> onehot_fit Zops (Leaf x) = Ok s -> onehot_transform Zops (Some s) (Leaf x) = Ok (Leaf E) ->
  Forall (one_hot Zops) E.
Definition ex_two : odata Z := mk_odata [2] [[0%Z; 1%Z]; [1%Z; 0%Z]].
Theorem C41_refuted : exists x s, rows_fit x /\ onehot_fit Zops (Leaf x) = Ok s /\
  onehot_transform Zops (Some s) (Leaf x) = Ok (Leaf [[0%Z; 0%Z]; [0%Z; 0%Z]]) /\
  onehot_transform Zops (Some s) (Leaf (mk_odata [2] [[0%Z; 0%Z]])) = Ok (Leaf [[1%Z; 0%Z]]).
Proof. exists ex_two. eexists. repeat split; try (vm_compute; reflexivity). repeat constructor. Qed.
Theorem C41_always_refuted : ~ C41_always.
Proof.
  intros H. specialize (H ex_two (Leaf ([[0%Z; 0%Z]; [1%Z; 1%Z]], [2])) [[0%Z; 0%Z]; [0%Z; 0%Z]]).
  assert (F : Forall (one_hot Zops) [[0%Z; 0%Z]; [0%Z; 0%Z]]) by (apply H; [repeat constructor|vm_compute; reflexivity|vm_compute; reflexivity]).
  inversion F as [|? ? (l1 & l2 & E & _) _]; subst. destruct l1 as [|a [|b l1]]; cbn in E; inversion E. destruct l1; discriminate.
Qed.

(** Fitting to two categorical features with two and three values and encoding
    the same data. *)
Definition C41_categories_always := forall X s, (forall x, has_leaf X x -> rows_fit x /\ o_shape x = [1]) -> (exists n, osampled n X) -> onehot_fit Zops X = Ok s ->
  exists E, onehot_transform Zops (Some s) X = Ok E.
Definition ex_colours : tree (odata Z) := Dict [("colour", Leaf (mk_odata [1] [[0%Z]; [1%Z]; [0%Z]])); ("size", Leaf (mk_odata [1] [[0%Z]; [1%Z]; [2%Z]]))].
Example ex_colours_ok : (forall x, has_leaf ex_colours x -> rows_fit x /\ o_shape x = [1]) /\ osampled 3 ex_colours.
Proof.
  split; intros x H; inversion H as [|? ? ? ? Hin Hl| |]; subst; destruct Hin as [[= <- <-]|[[= <- <-]|[]]]; inversion Hl; subst; try reflexivity; (split; [repeat constructor|reflexivity]).
Qed.
Theorem C41_categories_refuted : exists s, onehot_fit Zops ex_colours = Ok s /\ onehot_transform Zops (Some s) ex_colours = Err TypeError /\
  (exists E, oh_transform Zops (Some s) ex_colours = Ok E) /\ ~ C41_categories_always.
Proof.
  eexists. split; [vm_compute; reflexivity|]. split; [vm_compute; reflexivity|]. split; [eexists; vm_compute; reflexivity|]. intros H. destruct ex_colours_ok as [A B].
  destruct (H ex_colours _ A (ex_intro _ 3 B) eq_refl) as (E & F). vm_compute in F. discriminate.
Qed.

Definition ex_train : odata Z := mk_odata [1] [[5%Z]; [3%Z]; [5%Z]; [4%Z]].
Definition ex_test : odata Z := mk_odata [1] [[4%Z]; [9%Z]].
Example C41_ex : wf_tree (Dict [("b", Leaf (ex_train, ex_test))]) /\
  (forall x x', has_leaf (Dict [("b", Leaf (ex_train, ex_test))]) (x, x') -> rows_fit x /\ chain Zops (o_rows x) /\ rows_fit x' /\ o_shape x = o_shape x') /\
  onehot_fit Zops (Dict [("b", Leaf ex_train)]) = Ok (Dict [("b", Leaf ([[3%Z]; [4%Z]; [5%Z]], [1]))]) /\
  onehot_transform Zops (Some (Dict [("b", Leaf ([[3%Z]; [4%Z]; [5%Z]], [1]))])) (Dict [("b", Leaf ex_test)]) = Ok (Dict [("b", Leaf [[0%Z; 1%Z; 0%Z]; [0%Z; 0%Z; 0%Z]])]) /\
  onehot_inverse Zops (Some (Dict [("b", Leaf ([[3%Z]; [4%Z]; [5%Z]], [1]))])) (Dict [("b", Leaf [[0%Z; 1%Z; 0%Z]; [0%Z; 0%Z; 0%Z]])]) = Ok (Dict [("b", Leaf (mk_odata [1] [[4%Z]; [0%Z]]))]).
Proof.
  split; [constructor; [|repeat constructor]; repeat constructor; cbn; intuition discriminate|]. split; [|vm_compute; auto].
  intros x x' H. inversion H as [|? ? ? ? Hin Hl| |]; subst. destruct Hin as [[= <- <-]|[]]. inversion Hl; subst.
  split; [repeat constructor|]. split; [apply (C41_one_feature _ _ Zops_lawful); repeat constructor|]. split; [repeat constructor|reflexivity].
Qed.
Example C41_ex_chain : chain Zops [[1%Z; 2%Z]; [3%Z; 2%Z]].
Proof. intros r s [<-|[<-|[]]] [<-|[<-|[]]]; ((left; repeat constructor; fail) || (right; repeat constructor; fail)). Qed.

Print Assumptions C41_chain_partial.
Print Assumptions C41_categories.
Print Assumptions C41_categories_refuted.
Print Assumptions C41_one_hot.
Print Assumptions C41_distinct.
Print Assumptions C41_one_feature.
Print Assumptions C41_chain_needed.
Print Assumptions C41_refuted.
