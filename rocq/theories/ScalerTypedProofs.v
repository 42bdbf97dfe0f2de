(** Calls of scalers with checked annotations. *)
From Coq Require Import Permutation.
From Verif Require Import Base BaseLemmas TreeUtil TreeSpec NonSeqSpec NonSeqProofs TrainArgsProofs Serial SerialSpec Scaler ScalerSpec OneHot ScalerTyped.
Local Open Scope list_scope.

Lemma trel_back {X Y} (R : X -> Y -> Prop) (t : tree X) : forall u, trel R t u -> forall y, has_leaf u y -> exists x, has_leaf t x /\ R x y.
Proof.
  assert (L : forall l m, Forall (fun t => forall u, trel R t u -> forall y, has_leaf u y -> exists x, has_leaf t x /\ R x y) l -> Forall2 (trel R) l m ->
    forall b y, In b m -> has_leaf b y -> exists a x, In a l /\ has_leaf a x /\ R x y).
  { intros l m IH F. induction F as [|a b l m T F IHF]; intros b' y Hb Hy; [destruct Hb|]. inversion IH as [|? ? Ha Hr]; subst. destruct Hb as [ -> |Hb].
    - destruct (Ha _ T _ Hy) as (x & H1 & H2). exists a, x. split; [left; reflexivity|auto].
    - destruct (IHF Hr _ _ Hb Hy) as (a' & x & H1 & H2). exists a', x. split; [right; exact H1|exact H2]. }
  induction t as [x| |d IH|l IH|l IH] using tree_ind2; intros u T y H; inversion T as [? y' HR| |? m F|? m F|? e e' Pe F]; subst; inversion H as [|? k b ? Hin Hl|? b ? Hin Hl|? b ? Hin Hl]; subst.
  - exists x. split; [constructor|exact HR].
  - apply (Permutation_in _ (Permutation_sym Pe)) in Hin. assert (G : exists a x, In a d /\ has_leaf (snd a) x /\ R x y).
    { clear -IH F Hin Hl. induction F as [|a b' d e [_ T] F IHF]; [destruct Hin|]. inversion IH as [|? ? Ha Hr]; subst. destruct Hin as [ -> |Hin].
      - destruct (Ha _ T _ Hl) as (x & H1 & H2). exists a, x. split; [left; reflexivity|auto].
      - destruct (IHF Hr Hin) as (a' & x & H1 & H2). exists a', x. split; [right; exact H1|exact H2]. }
    destruct G as ([k2 a] & x & H1 & H2 & H3). exists x. split; [|exact H3]. eapply hl_dict; [exact H1|exact H2].
  - destruct (L l m IH F b y Hin Hl) as (a & x & H1 & H2 & H3). exists x. split; [eapply hl_lst; eauto|exact H3].
  - destruct (L l m IH F b y Hin Hl) as (a & x & H1 & H2 & H3). exists x. split; [eapply hl_tup; eauto|exact H3].
Qed.

Lemma one_number_spec l : one_number l = true <-> exists n, forall m, In m l -> m = n.
Proof.
  destruct l as [|n l]; cbn.
  - split; [intros _; exists 0; intros m []|reflexivity].
  - rewrite forallb_forall. split.
    + intros H. exists n. intros m [<-|Hm]; [reflexivity|]. specialize (H m Hm). apply Nat.eqb_eq in H. lia.
    + intros (k & H) m Hm. apply Nat.eqb_eq. rewrite (H n (or_introl eq_refl)), (H m (or_intror Hm)). reflexivity.
Qed.
Lemma count_spec {A} (na : A -> nat) X : one_number (map na (leaves X)) = true <-> exists n, forall x, has_leaf X x -> na x = n.
Proof.
  rewrite one_number_spec. split; intros (n & H); exists n.
  - intros x Hx. apply H. apply in_map. apply leaves_has_leaf. exact Hx.
  - intros m Hm. apply in_map_iff in Hm as (x & <- & Hx). apply H. apply leaves_has_leaf. exact Hx.
Qed.
Lemma call_fit_ok {A S} (na : A -> nat) (f : tree A -> result S) X n : (forall x, has_leaf X x -> na x = n) -> call_fit na f X = f X.
Proof. intros H. unfold call_fit. replace (one_number _) with true; [reflexivity|]. symmetry. apply count_spec. eauto. Qed.
Lemma call_fit_bad {A S} (na : A -> nat) (f : tree A -> result S) X : ~ (exists n, forall x, has_leaf X x -> na x = n) -> call_fit na f X = Err TypeError.
Proof. intros H. unfold call_fit. destruct (one_number _) eqn:E; [|reflexivity]. apply count_spec in E. contradiction. Qed.
Lemma call_bad {A B} (na : A -> nat) (nb : B -> nat) f X : ~ (exists n, forall x, has_leaf X x -> na x = n) -> call na nb f X = Err TypeError.
Proof. intros H. unfold call. destruct (one_number _) eqn:E; [|reflexivity]. apply count_spec in E. contradiction. Qed.
Lemma call_ok {A B} (na : A -> nat) (nb : B -> nat) f X Y n : (forall x, has_leaf X x -> na x = n) -> (forall y, has_leaf Y y -> nb y = n) -> f X = Ok Y -> call na nb f X = Ok Y.
Proof.
  intros HX HY E. unfold call. replace (one_number _) with true by (symmetry; apply count_spec; eauto). rewrite E. cbn.
  replace (one_number _) with true; [reflexivity|]. symmetry. apply one_number_spec. exists n. intros m Hm. apply in_app_or in Hm as [Hm|Hm]; apply in_map_iff in Hm as (x & <- & Hx); [apply HX|apply HY]; apply leaves_has_leaf; exact Hx.
Qed.
Lemma call_err {A B} (na : A -> nat) (nb : B -> nat) f X n e : (forall x, has_leaf X x -> na x = n) -> f X = Err e -> call na nb f X = Err e.
Proof. intros HX E. unfold call. replace (one_number _) with true by (symmetry; apply count_spec; eauto). rewrite E. reflexivity. Qed.

Lemma same_count (R : batch -> batch -> Prop) n X Y : (forall x y, R x y -> length (rows x) = length (rows y)) -> trel R X Y -> sampled n X -> sampled n Y.
Proof. intros H T S y Hy. destruct (trel_back _ _ _ T y Hy) as (x & Hx & E). rewrite <- (H _ _ E). apply S. exact Hx. Qed.
Lemma rescaled_count F n X Y : trel (rescaled F) X Y -> sampled n X -> sampled n Y.
Proof. apply same_count. intros x y [[_ E] _]. exact E. Qed.
Lemma eq_count n X Y : trel eq X Y -> sampled n X -> sampled n Y.
Proof. apply same_count. intros x y ->. reflexivity. Qed.
Lemma round_calls n f g X Y Z : sampled n X -> sampled n Y -> f X = Ok Y -> g Y = Ok Z -> trel eq X Z -> scaler_call f X = Ok Y /\ scaler_call g Y = Ok Z.
Proof. intros SX SY E1 E2 T. pose proof (eq_count _ _ _ T SX) as SZ. split; apply (call_ok nrows nrows _ _ _ n); auto. Qed.
Lemma leaf_call f x : f (Leaf x) = Err ValueError -> scaler_call f (Leaf x) = Err ValueError.
Proof. apply (call_err nrows nrows f (Leaf x) (nrows x)). intros y Hy. inversion Hy; reflexivity. Qed.
Lemma leaf_sampled x : sampled (length (rows x)) (Leaf x).
Proof. intros y Hy. inversion Hy; reflexivity. Qed.

(** One-hot codes of one width. *)
Lemma width_spec {V} (E : tree (list (list V))) : one_width E = true <-> exists k, forall e c, has_leaf E e -> In c e -> length c = k.
Proof.
  unfold one_width. rewrite one_number_spec. split; intros (k & H); exists k.
  - intros e c He Hc. apply H. apply in_map. apply in_concat. exists e. split; [apply leaves_has_leaf; exact He|exact Hc].
  - intros m Hm. apply in_map_iff in Hm as (c & <- & Hc). apply in_concat in Hc as (e & He & Hc). apply (H e c); [apply leaves_has_leaf; exact He|exact Hc].
Qed.
