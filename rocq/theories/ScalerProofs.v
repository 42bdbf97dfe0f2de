From Coq Require Import Reals Lra Permutation.
From Verif Require Import Base BaseLemmas TreeUtil TreeSpec NonSeqSpec NonSeqProofs MutableProofs Serial SerialSpec SerialProofs Scaler ScalerSpec.
Local Open Scope R_scope.
Local Open Scope list_scope.

(* ------------------------------------------------------------------ *)
(** * Zipping trees that agree up to dictionary order *)
Lemma perm_F2 {X Y} (Q : X -> Y -> Prop) l m : Permutation l m -> forall r, Forall2 Q l r -> exists r', Permutation r r' /\ Forall2 Q m r'.
Proof.
  induction 1 as [|x l m P IH|x y l|l m n P1 IH1 P2 IH2]; intros r F.
  - inversion F; subst. exists []. split; constructor.
  - inversion F as [|? z ? r0 Hz F0]; subst. destruct (IH _ F0) as (r' & P' & F'). exists (z :: r'). split; constructor; auto.
  - inversion F as [|? z ? r0 Hz F0]; subst. inversion F0 as [|? z' ? r1 Hz' F1]; subst.
    exists (z' :: z :: r1). split; [apply perm_swap|repeat constructor; auto].
  - destruct (IH1 _ F) as (r1 & Pa & F1). destruct (IH2 _ F1) as (r2 & Pb & F2). exists r2. split; [etransitivity; eauto|exact F2].
Qed.

Lemma jm_trel {X Y Z} (f : Y -> result Z) (R : X -> Y -> Prop) (S : X -> Z -> Prop) t :
  (forall x y, has_leaf t x -> R x y -> exists z, f y = Ok z /\ S x z) ->
  forall u, trel R t u -> exists v, jmapM f u = Ok v /\ trel S t v.
Proof.
  assert (L : forall l, Forall (fun t => (forall x y, has_leaf t x -> R x y -> exists z, f y = Ok z /\ S x z) ->
      forall u, trel R t u -> exists v, jmapM f u = Ok v /\ trel S t v) l ->
    (forall t x y, In t l -> has_leaf t x -> R x y -> exists z, f y = Ok z /\ S x z) ->
    forall m, Forall2 (trel R) l m -> exists n, jm_list f m = Ok n /\ Forall2 (trel S) l n).
  { induction 1 as [|s l Hs _ IH]; intros H m F; inversion F as [|? u ? m' F1 F2]; subst.
    - exists []. split; [reflexivity|constructor].
    - destruct (Hs (fun x y => H s x y (or_introl eq_refl)) u F1) as (v & E & T). destruct (IH (fun t x y Hin => H t x y (or_intror Hin)) m' F2) as (n & E' & T').
      exists (v :: n). cbn. rewrite E. cbn. rewrite E'. split; [reflexivity|constructor; auto]. }
  induction t as [x| |d IH|l IH|l IH] using tree_ind2; intros H u T; inversion T as [? y HR| |? m F|? m F|? e e' P F]; subst.
  - destruct (H x y) as (z & E & HS); auto. { constructor. } exists (Leaf z). cbn. rewrite E. split; [reflexivity|constructor; auto].
  - exists NoneT. split; [reflexivity|constructor].
  - assert (exists n, Forall2 (krel (fun u v => jmapM f u = Ok v)) e' n /\
                      Forall2 (fun a b => fst a = fst b /\ trel S (snd a) (snd b)) d n) as (n & F1 & F2).
    { assert (H' : forall k t x y, In (k, t) d -> has_leaf t x -> R x y -> exists z, f y = Ok z /\ S x z).
      { intros k t x y Hin Hl. apply H. econstructor; eauto. }
      clear T P H. induction F as [|[k s] [k' u] d e' [Hk O] F IHF]; [exists []; split; constructor|].
      inversion IH as [|? ? Hs IH']; subst. cbn in Hk, O, Hs. subst k'.
      destruct (Hs (fun x y => H' k s x y (or_introl eq_refl)) u O) as (v & E & T).
      destruct (IHF IH') as (n & ? & ?); [intros k' t x y Hin; apply (H' k' t x y (or_intror Hin))|].
      exists ((k, v) :: n). split; constructor; auto; split; auto. }
    destruct (perm_F2 _ _ _ P _ F1) as (n' & Pn & F1').
    exists (Dict (sort_kvs n')). rewrite jmapM_dct, (jm_dict_ok _ _ _ F1'). split; [reflexivity|].
    apply tr_dict with (e' := n); [|exact F2]. etransitivity; [exact Pn|symmetry; apply sort_kvs_perm].
  - destruct (L l IH) with (m := m) as (n & E & T'); auto. { intros t x y Hin Hl. apply H. econstructor; eauto. }
    exists (Lst n). rewrite jmapM_lst, E. split; [reflexivity|constructor; auto].
  - destruct (L l IH) with (m := m) as (n & E & T'); auto. { intros t x y Hin Hl. apply H. econstructor; eauto. }
    exists (Tup n). rewrite jmapM_tup, E. split; [reflexivity|constructor; auto].
Qed.
Lemma jm_id {X Y} (R : X -> Y -> Prop) t u : trel R t u -> exists v, jmapM (fun z => Ok z) u = Ok v /\ trel R t v.
Proof. apply jm_trel. eauto. Qed.

Lemma tzip3 {X Y Q Z} (h : Y -> Q -> result Z) (R : X -> Y -> Prop) (P : X -> Q -> Prop) (S : X -> Z -> Prop) t :
  wf_tree t ->
  (forall x y q, has_leaf t x -> R x y -> P x q -> exists z, h y q = Ok z /\ S x z) ->
  forall u p, trel R t u -> trel P t p -> exists v, tzipM h u p = Ok v /\ trel S t v.
Proof.
  assert (HL : forall l, Forall (fun t => wf_tree t -> (forall x y q, has_leaf t x -> R x y -> P x q -> exists z, h y q = Ok z /\ S x z) ->
      forall u p, trel R t u -> trel P t p -> exists v, tzipM h u p = Ok v /\ trel S t v) l ->
    Forall wf_tree l ->
    (forall t x y q, In t l -> has_leaf t x -> R x y -> P x q -> exists z, h y q = Ok z /\ S x z) ->
    forall m p, Forall2 (trel R) l m -> Forall2 (trel P) l p -> exists r, tz_list h m p = Ok r /\ Forall2 (trel S) l r).
  { clear t. induction 1 as [|t l Ht _ IH]; intros W H m p F1 F2; inversion F1; subst; inversion F2; subst.
    - exists []. split; [reflexivity|constructor].
    - inversion W as [|? ? W1 W2]; subst.
      destruct (Ht W1 (fun x y q Hx => H t x y q (or_introl eq_refl) Hx) y y0) as (v & E & HS); auto.
      destruct (IH W2 (fun t x y q Hin => H t x y q (or_intror Hin)) l' l'0) as (r & E' & HS'); auto.
      exists (v :: r). cbn. rewrite E. cbn. rewrite E'. split; [reflexivity|constructor; auto]. }
  induction t as [x| |d IH|l IH|l IH] using tree_ind2; intros W H u p Hu Hp;
    inversion Hu as [? y HR| |? m F|? m F|? e e' Pe F]; subst; inversion Hp as [? y2 HP| |? m2 F2|? m2 F2|? q q' Pq F2]; subst.
  - destruct (H x y y2) as (z & E & HS); auto. { constructor. }
    exists (Leaf z). cbn. rewrite E. split; [reflexivity|constructor; auto].
  - exists NoneT. split; [reflexivity|constructor].
  - inversion W as [| |? ND WF| |]; subst.
    assert (Kq : Permutation (dkeys d) (dkeys q)).
    { replace (dkeys d) with (dkeys q'); [apply Permutation_map; exact Pq|].
      clear -F2. unfold dkeys. induction F2 as [|a b d e [Hk _] _ IH]; cbn; congruence. }
    assert (NDq : NoDup (dkeys q)) by (eapply Permutation_NoDup; eauto).
    assert (exists n, Forall2 (fun a b => fst a = fst b /\ (exists y, dget q (fst a) = Some y /\ tzipM h (snd a) y = Ok (snd b))) e' n
                      /\ Forall2 (fun a b => fst a = fst b /\ trel S (snd a) (snd b)) d n) as (n & F3 & F4).
    { assert (G : forall k y, In (k, y) q' -> dget q k = Some y).
      { intros k y Hin. apply In_dget; [exact NDq|]. eapply Permutation_in; eauto. }
      assert (IH' : Forall (fun kt => forall y q, trel R (snd kt) y -> trel P (snd kt) q -> exists v, tzipM h y q = Ok v /\ trel S (snd kt) v) d).
      { rewrite Forall_forall in *. intros [k t] Hin y' q1 Hy' Hq'. refine (IH _ Hin (WF _ Hin) _ _ _ Hy' Hq').
        intros a b c Ha. apply H. econstructor; eauto. }
      clear -G IH' F F2. revert q' F2 G.
      induction F as [|[k t] [k1 y] d e [Hk HR] F1 IH]; intros q' F2 G; inversion F2 as [|? [k2 p] ? q2 [Hk2 HP] F2']; subst.
      - exists []. split; constructor.
      - cbn in *. subst k1 k2. inversion IH' as [|? ? I1 I2]; subst. destruct (I1 y p) as (v & E & HS); auto.
        destruct (IH I2 q2 F2') as (n & ? & ?); [intros k' y' Hin'; apply G; right; exact Hin'|].
        exists ((k, v) :: n). split; constructor; auto; split; auto. exists p. split; auto. }
    destruct (perm_F2 _ _ _ Pe _ F3) as (n' & Pn & F3').
    exists (Dict n'). rewrite tzipM_dct, (tz_dict_ok _ _ _ _ F3').
    replace (length e =? length q)%nat with true.
    { split; [reflexivity|]. apply tr_dict with (e' := n); auto. }
    symmetry. apply Nat.eqb_eq. rewrite <- (Permutation_length Pe), <- (Permutation_length Pq).
    rewrite <- (F2_length _ _ _ F), <- (F2_length _ _ _ F2). reflexivity.
  - inversion W as [| | |? W'|]; subst. destruct (HL l IH W') with (m := m) (p := m2) as (r & E & HS); auto.
    { intros t x y q Hin Hx. apply H. econstructor; eauto. }
    exists (Lst r). rewrite tzipM_lst, E. split; [reflexivity|constructor; auto].
  - inversion W as [| | | |? W']; subst. destruct (HL l IH W') with (m := m) (p := m2) as (r & E & HS); auto.
    { intros t x y q Hin Hx. apply H. econstructor; eauto. }
    exists (Tup r). rewrite tzipM_tup, E. split; [reflexivity|constructor; auto].
Qed.

Lemma jzip3 {X Y Q Z} (h : Y -> Q -> result Z) (R : X -> Y -> Prop) (P : X -> Q -> Prop) (S : X -> Z -> Prop) t :
  wf_tree t ->
  (forall x y q, has_leaf t x -> R x y -> P x q -> exists z, h y q = Ok z /\ S x z) ->
  forall u p, trel R t u -> trel P t p -> exists v, jzipM h u p = Ok v /\ trel S t v.
Proof.
  intros W H u p Hu Hp. destruct (tzip3 h R P S t W H u p Hu Hp) as (v & E & T). unfold jzipM. rewrite E. cbn [rbind].
  apply jm_id. exact T.
Qed.

Lemma trel_refl {X} (t : tree X) : trel eq t t.
Proof.
  induction t as [x| |d IH|l IH|l IH] using tree_ind2; try (constructor; auto; fail).
  - apply tr_dict with (e' := d); [reflexivity|]. induction IH; constructor; auto.
  - constructor. induction IH; constructor; auto.
  - constructor. induction IH; constructor; auto.
Qed.

(** Two trees of the same structure come from one tree of pairs. *)
Lemma trel_pair {X Q} (P : X -> Q -> Prop) (t : tree X) : forall s, trel P t s ->
  exists r : tree (X * Q), trel (fun p x => fst p = x) r t /\ trel (fun p q => snd p = q /\ P (fst p) q) r s /\ (wf_tree t -> wf_tree r).
Proof.
  assert (L : forall l, Forall (fun t => forall s, trel P t s ->
      exists r : tree (X * Q), trel (fun p x => fst p = x) r t /\ trel (fun p q => snd p = q /\ P (fst p) q) r s /\ (wf_tree t -> wf_tree r)) l ->
    forall m, Forall2 (trel P) l m ->
      exists n : list (tree (X * Q)), Forall2 (trel (fun p x => fst p = x)) n l /\ Forall2 (trel (fun p q => snd p = q /\ P (fst p) q)) n m /\
        (Forall wf_tree l -> Forall wf_tree n)).
  { clear t. induction 1 as [|t l Ht _ IH]; intros m F; inversion F as [|? u ? m' F1 F2]; subst.
    - exists []. repeat split; constructor.
    - destruct (Ht u F1) as (r & A1 & A2 & A3). destruct (IH m' F2) as (n & B1 & B2 & B3).
      exists (r :: n). split; [constructor; auto|]. split; [constructor; auto|]. intros W. inversion W; subst. constructor; auto. }
  induction t as [x| |d IH|l IH|l IH] using tree_ind2; intros s T; inversion T as [? y HR| |? m F|? m F|? e e' Pe F]; subst.
  - exists (Leaf (x, y)). repeat split; constructor; auto.
  - exists NoneT. repeat split; constructor.
  - assert (exists n : list (string * tree (X * Q)),
      Forall2 (fun a b => fst a = fst b /\ trel (fun p x => fst p = x) (snd a) (snd b)) n d /\
      Forall2 (fun a b => fst a = fst b /\ trel (fun p q => snd p = q /\ P (fst p) q) (snd a) (snd b)) n e' /\
      map fst n = map fst d /\ (Forall (fun kt => wf_tree (snd kt)) d -> Forall (fun kt => wf_tree (snd kt)) n)) as (n & A & B & C & D).
    { clear T Pe. induction F as [|[k t] [k' u] d e' [Hk O] F IHF]; [exists []; repeat split; constructor|].
      inversion IH as [|? ? Hs IH']; subst. cbn in Hk, O, Hs. subst k'. destruct (Hs u O) as (r & A1 & A2 & A3).
      destruct (IHF IH') as (n & B1 & B2 & B3 & B4). exists ((k, r) :: n).
      split; [constructor; auto|]. split; [constructor; auto|]. split; [cbn; congruence|].
      intros W. inversion W; subst. constructor; auto. }
    exists (Dict n). split; [apply tr_dict with (e' := d); auto|]. split; [apply tr_dict with (e' := e'); auto|].
    intros W. inversion W as [| |? ND WF| |]; subst. constructor; auto. unfold dkeys in *. rewrite C. exact ND.
  - destruct (L l IH m F) as (n & A & B & C). exists (Lst n). split; [constructor; auto|]. split; [constructor; auto|].
    intros W. inversion W; subst. constructor; auto.
  - destruct (L l IH m F) as (n & A & B & C). exists (Tup n). split; [constructor; auto|]. split; [constructor; auto|].
    intros W. inversion W; subst. constructor; auto.
Qed.

Lemma trel_impl {X Y} (R S : X -> Y -> Prop) (H : forall x y, R x y -> S x y) (t : tree X) : forall u, trel R t u -> trel S t u.
Proof.
  induction t as [x| |d IH|l IH|l IH] using tree_ind2; intros u T; inversion T as [? y HR| |? m F|? m F|? e e' Pe F]; subst.
  - constructor. auto.
  - constructor.
  - apply tr_dict with (e' := e'); auto. clear -F IH. induction F as [|a b d e [Hk O] F IHF]; constructor.
    + inversion IH; subst. split; auto.
    + inversion IH; subst. auto.
  - constructor. clear -F IH. induction F; constructor; inversion IH; subst; auto.
  - constructor. clear -F IH. induction F; constructor; inversion IH; subst; auto.
Qed.

(** Two images of one tree are related to each other. *)
Lemma trel_join {X Y Z} (R : X -> Y -> Prop) (S : X -> Z -> Prop) (U : Y -> Z -> Prop) (H : forall x y z, R x y -> S x z -> U y z) (t : tree X) :
  forall u v, trel R t u -> trel S t v -> trel U u v.
Proof.
  assert (L : forall l, Forall (fun t => forall u v, trel R t u -> trel S t v -> trel U u v) l ->
    forall m n, Forall2 (trel R) l m -> Forall2 (trel S) l n -> Forall2 (trel U) m n).
  { clear t. induction 1 as [|t l Ht _ IH]; intros m n F1 F2; inversion F1; subst; inversion F2; subst; constructor; auto. }
  induction t as [x| |d IH|l IH|l IH] using tree_ind2; intros u v Hu Hv;
    inversion Hu as [? y HR| |? m F|? m F|? e e' Pe F]; subst; inversion Hv as [? y2 HP| |? m2 F2|? m2 F2|? q q' Pq F2]; subst;
    try (constructor; eauto; fail).
  assert (F3 : Forall2 (fun a b => fst a = fst b /\ trel U (snd a) (snd b)) e' q').
  { clear -IH F F2. revert q' F2. induction F as [|a b d e [Hk HR] F1 IHF]; intros q' F2; inversion F2 as [|? c ? q2 [Hk2 HP] F2']; subst; constructor.
    - inversion IH; subst. split; [congruence|eauto].
    - inversion IH; subst. auto. }
  destruct (perm_F2 _ _ _ Pe _ F3) as (q'' & P' & F4). apply tr_dict with (e' := q''); [|exact F4].
  etransitivity; [symmetry; exact P'|exact Pq].
Qed.

(** Doing a leafwise operation and undoing it. *)
Lemma tree_undo {Q} (f g : batch -> Q -> result batch) (P : batch -> Q -> Prop) X s :
  wf_tree X -> trel P X s ->
  (forall x q, P x q -> exists y, f x q = Ok y /\ g y q = Ok x) ->
  exists Y Z, jzipM f X s = Ok Y /\ jzipM g Y s = Ok Z /\ trel eq X Z /\ trel (fun x y => exists q, P x q /\ f x q = Ok y) X Y.
Proof.
  intros W T H. destruct (trel_pair P X s T) as (r & A & B & C). specialize (C W).
  destruct (jzip3 f (fun p x => fst p = x) (fun p q => snd p = q /\ P (fst p) q) (fun p y => f (fst p) (snd p) = Ok y /\ P (fst p) (snd p)) r C) with (u := X) (p := s)
    as (Y & EY & TY); auto.
  { intros [x q] y q' _ E1 [E2 Hp]. cbn in *. subst. destruct (H _ _ Hp) as (z & ? & ?). eauto. }
  destruct (jzip3 g (fun p y => f (fst p) (snd p) = Ok y /\ P (fst p) (snd p)) (fun p q => snd p = q /\ P (fst p) q) (fun p x => fst p = x) r C) with (u := Y) (p := s)
    as (Z & EZ & TZ); auto.
  { intros [x q] y q' _ [E1 Hp] [E2 _]. cbn in *. subst. destruct (H _ _ Hp) as (z & E3 & E4). exists x. split; auto. congruence. }
  exists Y, Z. split; auto. split; auto. split.
  - eapply trel_join; [|exact A|exact TZ]. cbn. congruence.
  - eapply trel_join; [|exact A|exact TY]. cbn. intros [x q] y z <- [? ?]. cbn in *. eauto.
Qed.

(* ------------------------------------------------------------------ *)
(** * One leaf *)
Lemma zip3_nth {A B C D} (f : A -> B -> C -> D) da db dc dd : forall l m n j,
  length m = length l -> length n = length l -> (j < length l)%nat ->
  nth j (zip3 f l m n) dd = f (nth j l da) (nth j m db) (nth j n dc).
Proof.
  induction l as [|x l IH]; intros [|y m] [|z n] j E1 E2 Hj; cbn in *; try lia. destruct j; [reflexivity|]. apply IH; lia.
Qed.
Lemma zip3_length {A B C D} (f : A -> B -> C -> D) : forall l m n, length m = length l -> length n = length l -> length (zip3 f l m n) = length l.
Proof. induction l as [|x l IH]; intros [|y m] [|z n] E1 E2; cbn in *; try lia. rewrite IH; lia. Qed.

Lemma map_nth_lt {A B} (h : A -> B) l da db i : (i < length l)%nat -> nth i (map h l) db = h (nth i l da).
Proof. revert i. induction l as [|x l IH]; intros [|i] Hi; cbn in *; try lia; [reflexivity|]. apply IH. lia. Qed.
Lemma list_nth_eq {A} (d : A) : forall l m, length l = length m -> (forall j, (j < length l)%nat -> nth j l d = nth j m d) -> l = m.
Proof.
  induction l as [|x l IH]; intros [|y m] E H; cbn in *; try lia; [reflexivity|].
  f_equal; [apply (H 0%nat); lia|]. apply IH; [lia|]. intros j Hj. apply (H (S j)); lia.
Qed.
Lemma finite_nth w r j : finite_row w r -> (j < w)%nat -> exists v, nth j r None = Some v.
Proof.
  intros [Hl Hf] Hj. destruct (nth j r None) eqn:E; eauto. exfalso. apply (Hf None); auto. rewrite <- E. apply nth_In. lia.
Qed.

Definition undoes3 (F : R -> R -> Prop) (f g : num -> num -> num -> num) : Prop :=
  forall p q, F p q -> forall v, g (f (Some v) (Some p) (Some q)) (Some p) (Some q) = Some v.

Lemma zip3_undo F f g w r a b : undoes3 F f g -> stat_rows F w a b -> finite_row w r -> zip3 g (zip3 f r a b) a b = r.
Proof.
  intros U (La & Lb & H) Hr. pose proof (proj1 Hr) as Lr.
  assert (L1 : length (zip3 f r a b) = length r) by (apply zip3_length; lia).
  assert (L2 : length (zip3 g (zip3 f r a b) a b) = length r) by (rewrite zip3_length; lia).
  apply (list_nth_eq None); [exact L2|]. intros j Hj0.
  assert (Hj : (j < length (zip3 g (zip3 f r a b) a b))%nat) by exact Hj0. rewrite L2 in Hj. clear Hj0.
  transitivity (g (f (nth j r None) (nth j a None) (nth j b None)) (nth j a None) (nth j b None)).
  { rewrite (zip3_nth g None None None None) by lia. f_equal. apply (zip3_nth f); lia. }
  destruct (H j) as (p & q & -> & -> & Hpq); [lia|]. destruct (finite_nth w r j Hr) as (v & Ev); [lia|].
  transitivity (Some v); [|symmetry; exact Ev]. rewrite Ev. apply U. exact Hpq.
Qed.

Lemma with_stats_undo F f g x a b : undoes3 F f g -> stat_rows F (width x) a b -> finite_batch x ->
  exists y, with_stats f x a b = Ok y /\ with_stats g y a b = Ok x.
Proof.
  intros U S Hx. pose proof S as (La & Lb & _). unfold with_stats. rewrite La, Lb, !Nat.eqb_refl. cbn [andb].
  eexists; split; [reflexivity|]. cbn [width rows]. rewrite !Nat.eqb_refl. cbn [andb].
  f_equal. destruct x as [w rs]. cbn in *. f_equal. rewrite map_map. rewrite <- map_id. apply map_ext_in.
  intros r Hr. eapply zip3_undo; eauto. unfold finite_batch in Hx. cbn in Hx. rewrite Forall_forall in Hx. auto.
Qed.

Lemma with_stats_affine (F : R -> R -> Prop) (G : R -> Prop) f x a b y :
  (forall p q, F p q -> exists k c, G k /\ forall v, f (Some v) (Some p) (Some q) = Some (k * v + c)) ->
  stat_rows F (width x) a b -> finite_batch x -> with_stats f x a b = Ok y -> rescaled G x y.
Proof.
  intros HF S Hx E. pose proof S as (La & Lb & Hs). unfold with_stats in E. rewrite La, Lb, !Nat.eqb_refl in E. cbn [andb] in E.
  inversion E; subst; clear E. split; [split; cbn; [reflexivity|rewrite map_length; reflexivity]|].
  intros j Hj. destruct (Hs j Hj) as (p & q & Ep & Eq & Hpq). destruct (HF p q Hpq) as (k & c & Hk & Hv).
  exists k, c. split; auto. intros i v Ev. unfold entry in *. cbn [rows].
  destruct (Nat.lt_ge_cases i (length (rows x))) as [Hi|Hi].
  - rewrite (map_nth_lt _ _ [] []) by exact Hi. assert (Hr : finite_row (width x) (nth i (rows x) [])).
    { unfold finite_batch in Hx. rewrite Forall_forall in Hx. apply Hx, nth_In. exact Hi. }
    pose proof (proj1 Hr) as Lr.
    transitivity (f (nth j (nth i (rows x) []) None) (nth j a None) (nth j b None)); [apply (@zip3_nth num num num num f None None None None); lia|].
    transitivity (f (Some v) (Some p) (Some q)); [f_equal; auto|apply Hv].
  - rewrite (nth_overflow (rows x)) in Ev by exact Hi. destruct j; discriminate.
Qed.

(** StandardScaler. *)
Lemma std_undoes : undoes3 (fun _ q => q <> 0) (fun v m sc => ndiv (nsub v m) sc) (fun v m sc => nadd (nmul v sc) m).
Proof.
  intros p q Hq v. cbn. destruct (Req_EM_T q 0) as [|]; [contradiction|]. cbn. f_equal. field. exact Hq.
Qed.

Lemma std_round (F : R -> Prop) X s : (forall q, F q -> q <> 0) -> (forall q, F q -> F (/ q)) -> wf_tree X -> trel (std_usable F) X s ->
  exists Y Z, std_transform (Some s) X = Ok Y /\ std_inverse (Some s) Y = Ok Z /\ trel eq X Z /\ trel (rescaled F) X Y.
Proof.
  intros H0 HF W T.
  destruct (tree_undo (fun x ms => with_stats (fun v m sc => ndiv (nsub v m) sc) x (fst ms) (snd ms))
                      (fun x ms => with_stats (fun v m sc => nadd (nmul v sc) m) x (fst ms) (snd ms)) (std_usable F) X s W T)
    as (Y & Z & E1 & E2 & TZ & TY).
  - intros x q [Hf (La & Lb & Hs)]. eapply (with_stats_undo (fun _ q => q <> 0)); auto using std_undoes. split; [exact La|]. split; [exact Lb|].
    intros j Hj. destruct (Hs j Hj) as (p & s0 & ? & ? & ?). eauto 6.
  - exists Y, Z. repeat split; auto. eapply trel_impl; [|exact TY].
    intros x y (q & [Hf Hs] & E). eapply with_stats_affine; eauto.
    cbn. intros p s0 Hs0. exists (/ s0), (- (p / s0)). split; [auto|]. apply H0 in Hs0.
    intros v. destruct (Req_EM_T s0 0); [contradiction|]. f_equal. field. exact Hs0.
Qed.

(** MinMaxScaler. *)
Lemma zip5_nth {A B C D E F} (f : A -> B -> C -> D -> E -> F) da db dc dd de df : forall l m n o p j,
  length m = length l -> length n = length l -> length o = length l -> length p = length l -> (j < length l)%nat ->
  nth j (zip5 f l m n o p) df = f (nth j l da) (nth j m db) (nth j n dc) (nth j o dd) (nth j p de).
Proof.
  induction l as [|x l IH]; intros [|y m] [|z n] [|u o] [|v p] j E1 E2 E3 E4 Hj; cbn in *; try lia. destruct j; [reflexivity|]. apply IH; lia.
Qed.
Lemma zip5_length {A B C D E F} (f : A -> B -> C -> D -> E -> F) : forall l m n o p,
  length m = length l -> length n = length l -> length o = length l -> length p = length l -> length (zip5 f l m n o p) = length l.
Proof. induction l as [|x l IH]; intros [|y m] [|z n] [|u o] [|v p] E1 E2 E3 E4; cbn in *; try lia. rewrite IH; lia. Qed.

Definition mm_fwd : num -> num -> num -> num -> num -> num := fun x dmin dmax lo hi =>
  nadd (nmul (ndiv (nsub x dmin) (nsub dmax dmin)) (nsub hi lo)) lo.
Definition mm_bwd : num -> num -> num -> num -> num -> num := fun x dmin dmax lo hi =>
  nadd (nmul (ndiv (nsub x lo) (nsub hi lo)) (nsub dmax dmin)) dmin.
Lemma mm_fwd_val v a b lo hi : a <> b -> mm_fwd (Some v) (Some a) (Some b) (Some lo) (Some hi) = Some ((v - a) / (b - a) * (hi - lo) + lo).
Proof. intros H. unfold mm_fwd. cbn. destruct (Req_EM_T (b - a) 0); [exfalso; lra|reflexivity]. Qed.
Lemma mm_bwd_val v a b lo hi : lo <> hi -> mm_bwd (Some v) (Some a) (Some b) (Some lo) (Some hi) = Some ((v - lo) / (hi - lo) * (b - a) + a).
Proof. intros H. unfold mm_bwd. cbn. destruct (Req_EM_T (hi - lo) 0); [exfalso; lra|reflexivity]. Qed.
Lemma mm_undo1 v a b lo hi : a <> b -> lo <> hi ->
  mm_bwd (mm_fwd (Some v) (Some a) (Some b) (Some lo) (Some hi)) (Some a) (Some b) (Some lo) (Some hi) = Some v.
Proof. intros H1 H2. rewrite mm_fwd_val by exact H1. rewrite mm_bwd_val by exact H2. f_equal. field. split; lra. Qed.

Lemma mm_leaf_undo (O : R -> R -> Prop) (G : R -> Prop) m :
  (forall p q, O p q -> p <> q) -> G 1 -> (forall p q p' q', O p q -> O p' q' -> G ((q' - p') / (q - p))) -> mm_usable O m ->
  exists y, mm_leaf mm_fwd (l_x m) ((l_min m, l_max m), (l_lo m, l_hi m)) = Ok y /\
            mm_leaf mm_bwd y ((l_min m, l_max m), (l_lo m, l_hi m)) = Ok (l_x m) /\
            rescaled G (l_x m) y.
Proof.
  intros HO G1 HG. destruct m as [x a b olo ohi]. cbn. intros [Hf H].
  assert (Id : rescaled G x x).
  { split; [split; reflexivity|]. intros j Hj. exists 1, 0. split; [exact G1|]. intros i v E. rewrite E. f_equal. ring. }
  destruct olo as [lo|]; [|exists x; auto]. destruct ohi as [hi|]; [|exists x; auto].
  destruct H as [(La & Lb & Hs) (Ll & Lh & Hr)]. cbn in *.
  rewrite La, Lb, Ll, Lh, !Nat.eqb_refl. cbn [andb].
  eexists; split; [reflexivity|]. cbn [width rows]. rewrite !Nat.eqb_refl. cbn [andb]. split.
  - f_equal. destruct x as [w rs]. cbn in *. f_equal. rewrite map_map. rewrite <- map_id. apply map_ext_in.
    intros r Hr'. unfold finite_batch in Hf. cbn in Hf. rewrite Forall_forall in Hf. specialize (Hf r Hr'). pose proof (proj1 Hf) as Lr.
    assert (L1 : length (zip5 mm_fwd r a b lo hi) = length r) by (apply zip5_length; lia).
    assert (L2 : length (zip5 mm_bwd (zip5 mm_fwd r a b lo hi) a b lo hi) = length r) by (rewrite zip5_length; lia).
    apply (@list_nth_eq num None); [exact L2|]. intros j Hj0. assert (Hj : (j < length r)%nat) by (rewrite <- L2; exact Hj0).
    rewrite (@zip5_nth num num num num num num mm_bwd None None None None None None) by lia.
    rewrite (@zip5_nth num num num num num num mm_fwd None None None None None None) by lia.
    destruct (Hs j) as (p & q & Ep & Eq & Hpq); [lia|]. destruct (Hr j) as (p' & q' & Ep' & Eq' & Hpq'); [lia|].
    destruct (finite_nth w r j Hf) as (v & Ev); [lia|].
    replace (@nth num j a None) with (Some p) by (symmetry; exact Ep). replace (@nth num j b None) with (Some q) by (symmetry; exact Eq).
    replace (@nth num j lo None) with (Some p') by (symmetry; exact Ep'). replace (@nth num j hi None) with (Some q') by (symmetry; exact Eq').
    replace (@nth num j r None) with (Some v) by (symmetry; exact Ev). apply mm_undo1; auto.
  - split; [split; cbn; [reflexivity|rewrite map_length; reflexivity]|].
    intros j Hj. destruct (Hs j Hj) as (p & q & Ep & Eq & Hpq). destruct (Hr j Hj) as (p' & q' & Ep' & Eq' & Hpq').
    exists ((q' - p') / (q - p)), (p' - p * ((q' - p') / (q - p))). split; [auto|]. apply HO in Hpq. apply HO in Hpq'.
    intros i v Ev. unfold entry in *. cbn [rows].
    destruct (Nat.lt_ge_cases i (length (rows x))) as [Hi|Hi].
    + rewrite (map_nth_lt _ _ [] []) by exact Hi. assert (Hr' : finite_row (width x) (nth i (rows x) [])).
      { unfold finite_batch in Hf. rewrite Forall_forall in Hf. apply Hf, nth_In. exact Hi. }
      pose proof (proj1 Hr') as Lr. etransitivity; [apply (@zip5_nth num num num num num num mm_fwd None None None None None None); lia|].
      replace (@nth num j a None) with (Some p) by (symmetry; exact Ep). replace (@nth num j b None) with (Some q) by (symmetry; exact Eq).
      replace (@nth num j lo None) with (Some p') by (symmetry; exact Ep'). replace (@nth num j hi None) with (Some q') by (symmetry; exact Eq').
      replace (@nth num j (@nth (list num) i (rows x) []) None) with (Some v) by (symmetry; exact Ev). rewrite mm_fwd_val by exact Hpq. f_equal. field. lra.
    + rewrite (nth_overflow (rows x)) in Ev by exact Hi. destruct j; discriminate.
Qed.

Definition mm_stats (m : mmleaf) := (l_min m, l_max m).

Lemma bound_get r sel b s : wf_tree r -> bound_is r sel b -> trel (fun m st => mm_stats m = st) r s ->
  exists t, mm_bound b s = Ok t /\ trel (fun m o => sel m = o) r t.
Proof.
  intros W [v H|t H] T; cbn [mm_bound].
  - eapply jm_trel; [|exact T]. cbn. intros m st Hm <-. eexists; split; [reflexivity|]. rewrite (H m Hm). cbn.
    f_equal. induction (l_min m); cbn; congruence.
  - eauto.
Qed.

Lemma mm_round (O : R -> R -> Prop) (G : R -> Prop) r X s lo hi :
  (forall p q, O p q -> p <> q) -> G 1 -> (forall p q p' q', O p q -> O p' q' -> G ((q' - p') / (q - p))) ->
  wf_tree r -> (forall m, has_leaf r m -> mm_usable O m) ->
  trel (fun m x => l_x m = x) r X -> trel (fun m st => (l_min m, l_max m) = st) r s -> bound_is r l_lo lo -> bound_is r l_hi hi ->
  exists Y Z, mm_transform lo hi (Some s) X = Ok Y /\ mm_inverse lo hi (Some s) Y = Ok Z /\ trel eq X Z /\ trel (rescaled G) X Y.
Proof.
  intros HO G1 HG W HU TX TS BL BH.
  destruct (bound_get r l_lo lo s W BL TS) as (tl & El & Tl). destruct (bound_get r l_hi hi s W BH TS) as (th & Eh & Th).
  destruct (jzip3 (fun a b => Ok (a, b)) (fun m o => l_lo m = o) (fun m o => l_hi m = o) (fun m p => (l_lo m, l_hi m) = p) r W) with (u := tl) (p := th)
    as (lh & Elh & Tlh); auto. { intros m y q _ <- <-. eauto. }
  destruct (jzip3 (fun a b => Ok (a, b)) (fun m st => (l_min m, l_max m) = st) (fun m p => (l_lo m, l_hi m) = p)
              (fun m p => ((l_min m, l_max m), (l_lo m, l_hi m)) = p) r W) with (u := s) (p := lh)
    as (q & Eq & Tq); auto. { intros m y q _ <- <-. eauto. }
  destruct (jzip3 (mm_leaf mm_fwd) (fun m x => l_x m = x) (fun m p => ((l_min m, l_max m), (l_lo m, l_hi m)) = p)
              (fun m y => mm_leaf mm_bwd y ((l_min m, l_max m), (l_lo m, l_hi m)) = Ok (l_x m) /\ rescaled G (l_x m) y) r W) with (u := X) (p := q)
    as (Y & EY & TY); auto.
  { intros m y p Hm <- <-. destruct (mm_leaf_undo O G m HO G1 HG (HU m Hm)) as (z & ? & ? & ?). eauto. }
  destruct (jzip3 (mm_leaf mm_bwd) (fun m y => mm_leaf mm_bwd y ((l_min m, l_max m), (l_lo m, l_hi m)) = Ok (l_x m) /\ rescaled G (l_x m) y)
              (fun m p => ((l_min m, l_max m), (l_lo m, l_hi m)) = p) (fun m x => l_x m = x) r W) with (u := Y) (p := q)
    as (Z & EZ & TZ); auto.
  { intros m y p Hm [E _] <-. eauto. }
  exists Y, Z. unfold mm_transform, mm_inverse, mm_apply. rewrite El, Eh. cbn [rbind]. rewrite Elh. cbn [rbind]. rewrite Eq. cbn [rbind].
  split; [exact EY|]. split; [exact EZ|]. split.
  - eapply trel_join; [|exact TX|exact TZ]. cbn. congruence.
  - eapply trel_join; [|exact TX|exact TY]. cbn. intros m x y <- [_ H]. exact H.
Qed.

(** RobustScaler: leaves whose scale is a number, or a row of at most one entry. *)
Lemma row_of_finite w s : stat_finite w s ->
  finite_row w (row_of w s).
Proof.
  destruct s as [v|l]; cbn; [|auto]. intros _. split; [apply repeat_length|]. intros a Ha. apply repeat_spec in Ha. congruence.
Qed.

Lemma rob_leaf eps x ms : 0 <= eps -> rob_usable x ms ->
  let h f x (ms : rstat * rstat) := let* b := scale_big eps (snd ms) in with_stats (f b) x (row_of (width x) (fst ms)) (row_of (width x) (snd ms)) in
  exists y, h (fun (b : bool) v m sc => if b then ndiv (nsub v m) sc else nsub v m) x ms = Ok y /\
            h (fun (b : bool) v m sc => if b then nadd (nmul v sc) m else nadd v m) y ms = Ok x /\ rescaled (fun a => a <> 0) x y.
Proof.
  intros He (Hf & Hm & Hs) h. destruct ms as [m sc]. cbn [fst snd] in *.
  pose proof (row_of_finite _ _ Hm) as F1. destruct Hs as [Hs Hw]. pose proof (row_of_finite _ _ Hs) as F2.
  destruct (scale_big eps sc) as [b|e] eqn:Eb.
  2:{ exfalso. destruct sc as [v|[|a [|b l]]]; cbn in Eb; try discriminate. destruct Hs as [Ls _]. cbn in Ls. lia. }
  set (F := fun (_ q : R) => b = true -> q <> 0).
  assert (S : stat_rows F (width x) (row_of (width x) m) (row_of (width x) sc)).
  { split; [apply F1|]. split; [apply F2|]. intros j Hj.
    destruct (finite_nth _ _ j F1 Hj) as (p & Ep). destruct (finite_nth _ _ j F2 Hj) as (q & Eq).
    exists p, q. split; [exact Ep|]. split; [exact Eq|]. intros ->.
    assert (big eps (Some q) = true).
    { destruct sc as [v|l].
      - cbn [row_of] in Eq. assert (Some v = Some q) as E.
        { rewrite <- Eq. symmetry. apply (repeat_spec (width x)). apply nth_In. rewrite repeat_length. exact Hj. }
        inversion E; subst. cbn [scale_big] in Eb. inversion Eb. reflexivity.
      - cbn [row_of] in Eq. destruct l as [|a [|c l]]; cbn [scale_big] in Eb; try discriminate.
        destruct Hs as [Ls _]. cbn in Ls. assert (j = 0)%nat by lia. subst j. cbn in Eq. subst a. inversion Eb. reflexivity. }
    cbn in H. destruct (Rlt_dec eps (Rabs q)) as [Hlt|]; [|discriminate]. intros ->. rewrite Rabs_R0 in Hlt. lra. }
  destruct (with_stats_undo F (fun v m sc => if b then ndiv (nsub v m) sc else nsub v m) (fun v m sc => if b then nadd (nmul v sc) m else nadd v m) x
    (row_of (width x) m) (row_of (width x) sc)) as (y & E1 & E2); auto.
  { intros p q Hq v. unfold F in Hq. destruct b; cbn.
    - destruct (Req_EM_T q 0) as [|]; [exfalso; apply Hq; auto|]. cbn. f_equal. field. auto.
    - f_equal. ring. }
  assert (width y = width x) as Wy.
  { unfold with_stats in E1. destruct (_ && _); inversion E1. reflexivity. }
  exists y. unfold h. cbn [fst snd]. rewrite Eb. cbn [rbind]. rewrite Wy. split; [exact E1|]. split; [exact E2|].
  eapply with_stats_affine with (F := F); eauto.
  intros p q Hq. unfold F in Hq. destruct b; cbn.
  - exists (/ q), (- (p / q)). split; [apply Rinv_neq_0_compat; auto|]. intros v. destruct (Req_EM_T q 0); [exfalso; apply Hq; auto|]. f_equal. field. auto.
  - exists 1, (- p). split; [lra|]. intros v. f_equal. ring.
Qed.

Lemma rob_round eps X s : 0 <= eps -> wf_tree X -> trel rob_usable X s ->
  exists Y Z, rob_transform eps (Some s) X = Ok Y /\ rob_inverse eps (Some s) Y = Ok Z /\ trel eq X Z /\ trel (rescaled (fun a => a <> 0)) X Y.
Proof.
  intros He W T. cbn [rob_transform rob_inverse]. edestruct (tree_undo (Q := rstat * rstat)) as (Y & Z & E1 & E2 & TZ & TY); [exact W|exact T| |].
  2:{ exists Y, Z. split; [exact E1|]. split; [exact E2|]. split; [exact TZ|]. eapply trel_impl; [|exact TY]. cbn.
      intros x y (q & U & E). destruct (rob_leaf eps x q He U) as (y' & E1' & _ & R). cbn in E1'. rewrite E1' in E. inversion E; subst. exact R. }
  intros x q U. destruct (rob_leaf eps x q He U) as (y' & E1' & E2' & R). eauto.
Qed.

(** Two or more features with scaling cannot be transformed at all. *)
Lemma rob_multi eps x m a b l : rob_transform eps (Some (Leaf (m, RRow (a :: b :: l)))) (Leaf x) = Err ValueError.
Proof. reflexivity. Qed.
Lemma rob_fit_multi quant med ql qh ce x s : (2 <= width x)%nat ->
  rob_fit quant med (Leaf (Some ql)) (Leaf (Some qh)) (Leaf ce) (Leaf true) (Leaf x) = Ok s ->
  forall eps, rob_transform eps (Some s) (Leaf x) = Err ValueError.
Proof.
  intros Hw E eps. cbn in E. inversion E; subst; clear E. destruct (width x) as [|[|w]]; try lia. reflexivity.
Qed.

(* ------------------------------------------------------------------ *)
(** * MixedScaler *)
Definition pm_dict (f : scaler -> tree batch -> result (tree batch)) (e : list (string * tree batch)) :=
  fix go (d : list (string * tree scaler)) : result (list (string * tree batch)) := match d with
    | [] => Ok []
    | (k, s) :: d' =>
        match dget e k with
        | Some x => let* y := prefix_map f s x in let* r := go d' in Ok ((k, y) :: r)
        | None => Err ValueError
        end
    end.
Definition pm_list (f : scaler -> tree batch -> result (tree batch)) :=
  fix go (l : list (tree scaler)) (m : list (tree batch)) : result (list (tree batch)) := match l, m with
    | [], [] => Ok []
    | s :: l', x :: m' => let* y := prefix_map f s x in let* r := go l' m' in Ok (y :: r)
    | _, _ => Err ValueError
    end.
Lemma pm_dct f d e : prefix_map f (Dict d) (Dict e) =
  if (length d =? length e)%nat then let* r := pm_dict f e d in Ok (Dict (sort_kvs r)) else Err ValueError.
Proof. reflexivity. Qed.
Lemma pm_lst f l m : prefix_map f (Lst l) (Lst m) = let* r := pm_list f l m in Ok (Lst r).
Proof. reflexivity. Qed.
Lemma pm_tup f l m : prefix_map f (Tup l) (Tup m) = let* r := pm_list f l m in Ok (Tup r).
Proof. reflexivity. Qed.

Lemma pm_dict_ok f e : forall d r, Forall2 (fun a b => fst a = fst b /\ exists x, dget e (fst a) = Some x /\ prefix_map f (snd a) x = Ok (snd b)) d r ->
  pm_dict f e d = Ok r.
Proof.
  induction 1 as [|[k s] [k' y] d r [Hk (x & E1 & E2)] F IH]; [reflexivity|]. cbn in *. subst k'. rewrite E1, E2. cbn. rewrite IH. reflexivity.
Qed.

Lemma mixed_round (t : tree scaler) : forall X, placed t X ->
  exists Y Z, prefix_map s_tr t X = Ok Y /\ prefix_map s_inv t Y = Ok Z /\ trel eq X Z /\ forall n, sampled n X -> sampled n Y.
Proof.
  assert (L : forall l, Forall (fun t => forall X, placed t X ->
      exists Y Z, prefix_map s_tr t X = Ok Y /\ prefix_map s_inv t Y = Ok Z /\ trel eq X Z /\ forall n, sampled n X -> sampled n Y) l ->
    forall m, Forall2 placed l m -> exists Y Z, pm_list s_tr l m = Ok Y /\ pm_list s_inv l Y = Ok Z /\ Forall2 (trel eq) m Z /\ forall n, Forall (sampled n) m -> Forall (sampled n) Y).
  { clear t. induction 1 as [|t l Ht _ IH]; intros m F; inversion F as [|? x ? m' F1 F2]; subst.
    - exists [], []. repeat split; try constructor; auto.
    - destruct (Ht x F1) as (y & z & A & B & C & D). destruct (IH m' F2) as (Y & Z & A' & B' & C' & D').
      exists (y :: Y), (z :: Z). cbn. rewrite A, B. cbn. rewrite A'. cbn. split; [reflexivity|]. rewrite B'. split; [reflexivity|]. split; [constructor; auto|]. intros n S. inversion S; subst. constructor; auto. }
  induction t as [x| |d IH|l IH|l IH] using tree_ind2; intros X P; inversion P as [? ? U| |? m F|? m F|? e ND NE LE F]; subst.
  - exact U.
  - exists X, X. repeat split; auto using trel_refl.
  - assert (exists ex ry rz,
        Forall2 (fun a b => fst a = fst b /\ exists x, dget e (fst a) = Some x /\ prefix_map s_tr (snd a) x = Ok (snd b)) d ry /\
        Forall2 (fun (a : string * tree scaler) (b : string * tree batch * tree batch) =>
                   fst a = fst (fst b) /\ prefix_map s_inv (snd a) (snd (fst b)) = Ok (snd b)) d (combine ry (map snd rz)) /\
        map fst rz = map fst d /\ map fst ry = map fst d /\ map fst ex = map fst d /\
        (forall k x, In (k, x) ex -> dget e k = Some x) /\
        Forall2 (fun a b => fst a = fst b /\ trel eq (snd a) (snd b)) ex rz /\
        (forall n, (forall k x, dget e k = Some x -> sampled n x) -> forall k y, In (k, y) ry -> sampled n y)) as (ex & ry & rz & F1 & F2 & K1 & K2 & K3 & Hex & F3 & F4s).
    { clear P LE ND. induction F as [|[k s] d (x & Ex & Hp) F IHF].
      - exists [], [], []. repeat split; try constructor; [intros k x []|intros n _ k y []].
      - inversion IH as [|? ? Hs IH']; subst. cbn in Ex, Hp, Hs. destruct (Hs x Hp) as (y & z & A & B & C & D).
        destruct (IHF IH') as (ex & ry & rz & F1 & F2 & K1 & K2 & K3 & Hex & F3 & F4s).
        exists ((k, x) :: ex), ((k, y) :: ry), ((k, z) :: rz). cbn. rewrite K1, K2, K3.
        repeat split; try (constructor; cbn; eauto).
        * intros k' x' [E|Hin]; [inversion E; subst; exact Ex|auto].
        * intros n Hn k' y' [E|Hin]; [inversion E; subst; apply D; exact (Hn _ _ Ex)|exact (F4s n Hn _ _ Hin)]. }
    rewrite pm_dct, (proj2 (Nat.eqb_eq _ _) LE), (pm_dict_ok _ _ _ _ F1). cbn [rbind].
    assert (Ly : length ry = length d) by (rewrite <- (map_length fst ry), K2, map_length; reflexivity).
    assert (NDy : NoDup (dkeys (sort_kvs ry))).
    { eapply Permutation_NoDup; [apply Permutation_map; symmetry; apply sort_kvs_perm|]. fold (@fst string (tree batch)). rewrite K2. exact ND. }
    eexists _, (Dict (sort_kvs rz)). split; [reflexivity|]. split; [|split].
    + rewrite pm_dct. replace (length d =? length (sort_kvs ry))%nat with true.
      2:{ symmetry. apply Nat.eqb_eq. rewrite (Permutation_length (sort_kvs_perm ry)). lia. }
      rewrite (pm_dict_ok _ _ _ rz); [reflexivity|].
      assert (Hry : forall k y, In (k, y) ry -> dget (sort_kvs ry) k = Some y).
      { intros k y Hin. apply In_dget; [exact NDy|]. eapply Permutation_in; [symmetry; apply sort_kvs_perm|exact Hin]. }
      clear - F2 K1 K2 Hry. revert Hry. generalize (sort_kvs ry) as sy. intros sy Hry. revert ry rz F2 K1 K2 Hry.
      induction d as [|[k s] d IH]; intros [|[k1 y] ry] [|[k2 z] rz] F2 K1 K2 Hry; cbn in *; try discriminate; [constructor|].
      inversion F2 as [|? ? ? ? [_ E] F2']; subst. inversion K1; subst. inversion K2; subst. cbn in E. constructor.
      * cbn. split; [reflexivity|]. exists y. split; [apply Hry; auto|exact E].
      * apply (IH ry rz); auto.
    + assert (Permutation ex e) as Pe.
      { apply NoDup_Permutation_bis.
        - apply (NoDup_map_inv fst). rewrite K3. exact ND.
        - rewrite <- (map_length fst ex), K3, map_length. lia.
        - intros [k x] Hin. apply dget_In. apply Hex. exact Hin. }
      destruct (perm_F2 _ _ _ Pe _ F3) as (r' & P' & F4). apply tr_dict with (e' := r'); [|exact F4].
      etransitivity; [symmetry; exact P'|symmetry; apply sort_kvs_perm].
    + intros n S y Hy. inversion Hy as [|? k ty ? Hin Hl| |]; subst. apply (F4s n) with (k := k) (y := ty); [|eapply Permutation_in; [apply sort_kvs_perm|exact Hin]|exact Hl].
      intros k' x' Ek x Hx. apply S. apply (hl_dict _ k' x'); [apply dget_In; exact Ek|exact Hx].
  - destruct (L l IH m F) as (Y & Z & A & B & C & D). exists (Lst Y), (Lst Z). rewrite !pm_lst, A, B. split; [reflexivity|]. split; [reflexivity|]. split; [constructor; auto|].
    intros n S y Hy. inversion Hy; subst. assert (S' : Forall (sampled n) m) by (apply Forall_forall; intros t0 Ht x Hx; apply S; econstructor; eauto).
    specialize (D n S'). rewrite Forall_forall in D. eapply D; eauto.
  - destruct (L l IH m F) as (Y & Z & A & B & C & D). exists (Tup Y), (Tup Z). rewrite !pm_tup, A, B. split; [reflexivity|]. split; [reflexivity|]. split; [constructor; auto|].
    intros n S y Hy. inversion Hy; subst. assert (S' : Forall (sampled n) m) by (apply Forall_forall; intros t0 Ht x Hx; apply S; econstructor; eauto).
    specialize (D n S'). rewrite Forall_forall in D. eapply D; eauto.
Qed.
