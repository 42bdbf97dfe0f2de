From Coq Require Import Reals ZArith Lra Lia Permutation Sorted.
From Verif Require Import Base BaseLemmas TreeUtil TreeSpec NonSeqSpec NonSeqProofs TrainArgsProofs Serial SerialSpec SerialProofs Scaler ScalerProofs OneHot OneHotProofs Conformal ConformalProofs Eigen EigenSpec.
Local Open Scope list_scope.
Local Open Scope nat_scope.

Lemma slice_to {A} k (l : list A) : k <= length l -> pyslice None (Some (Z.of_nat k)) l = firstn k l.
Proof.
  intros H. unfold pyslice, bound_of. destruct (Z.ltb_spec (Z.of_nat k) 0); [lia|]. rewrite Z.min_l by lia. rewrite Z.sub_0_r, Nat2Z.id. reflexivity.
Qed.
Lemma slice_last {A} k (l : list A) : 1 <= k <= length l -> pyslice (Some (- Z.of_nat k)%Z) None l = skipn (length l - k) l.
Proof.
  intros H. unfold pyslice, bound_of. destruct (Z.ltb_spec (- Z.of_nat k) 0); [|lia]. rewrite Z.max_r by lia.
  replace (Z.to_nat (- Z.of_nat k + Z.of_nat (length l))) with (length l - k) by lia. apply firstn_all2. rewrite skipn_length. lia.
Qed.
Lemma slice_mid {A} a b (l : list A) : a <= b <= length l -> pyslice (Some (Z.of_nat a)) (Some (Z.of_nat b)) l = firstn (b - a) (skipn a l).
Proof.
  intros H. unfold pyslice, bound_of. destruct (Z.ltb_spec (Z.of_nat a) 0); [lia|]. destruct (Z.ltb_spec (Z.of_nat b) 0); [lia|].
  rewrite !Z.min_l by lia. rewrite Nat2Z.id. f_equal. lia.
Qed.

Lemma skipn_skipn {A} x y : forall l : list A, skipn x (skipn y l) = skipn (y + x) l.
Proof. induction y as [|y IH]; intros l; [reflexivity|]. destruct l; cbn; [destruct x; reflexivity|apply IH]. Qed.
Section Key.
Context (key : nat -> R).
Definition kle (i j : nat) : Prop := rle (key i) (key j) = true.
Lemma split_sorted A B : StronglySorted kle (A ++ B) -> StronglySorted kle A /\ StronglySorted kle B /\ below_all key A B.
Proof.
  induction A as [|x A IH]; cbn [app]; intros H.
  - split; [constructor|]. split; [exact H|]. intros i j [].
  - inversion H as [|? ? H1 H2]; subst. destruct (IH H1) as (HA & HB & HAB). rewrite Forall_forall in H2. split.
    + constructor; [exact HA|]. apply Forall_forall. intros y Hy. apply H2, in_or_app. auto.
    + split; [exact HB|]. intros i j [ <- |Hi] Hj; [|apply HAB; assumption]. apply rle_spec. apply H2, in_or_app. auto.
Qed.
Lemma sorted_ascending I : StronglySorted kle I -> ascending key I.
Proof.
  intros H a b Hab Hb. apply rle_spec. apply (sorted_nth kle); auto. intros i. apply rle_spec. lra.
Qed.
Lemma ascending_app A B : StronglySorted kle A -> StronglySorted kle B -> below_all key A B -> StronglySorted kle (A ++ B).
Proof.
  induction 1 as [|x A HA IH F]; intros HB H; cbn [app]; [exact HB|]. constructor.
  - apply IH; auto. intros i j Hi Hj. apply H; [right; exact Hi|exact Hj].
  - rewrite Forall_forall in *. intros y Hy. apply in_app_or in Hy as [Hy|Hy]; [apply F; exact Hy|]. apply rle_spec. apply H; [left; reflexivity|exact Hy].
Qed.
End Key.

Lemma argsort_perm alg E : Permutation (argsort alg E) (seq 0 (length E)).
Proof. symmetry. apply isort_perm. Qed.
Lemma argsort_length alg E : length (argsort alg E) = length E.
Proof. rewrite (Permutation_length (argsort_perm alg E)), seq_length. reflexivity. Qed.
Lemma argsort_sorted alg E : StronglySorted (kle (key_of alg E)) (argsort alg E).
Proof. apply isort_sorted; [intros; apply rle_total|intros a b c; apply rle_trans]. Qed.

Lemma half_le k : k / 2 <= k.
Proof. apply Nat.div_le_upper_bound; lia. Qed.
Lemma half_Z k : (Z.of_nat k / 2)%Z = Z.of_nat (k / 2).
Proof. rewrite Nat2Z.inj_div. reflexivity. Qed.
Lemma halves_mono k n : k <= n -> k / 2 <= n / 2 /\ k - k / 2 <= n - n / 2.
Proof.
  intros H. pose proof (Nat.div_mod k 2 ltac:(lia)). pose proof (Nat.div_mod n 2 ltac:(lia)). pose proof (Nat.mod_upper_bound k 2 ltac:(lia)). pose proof (Nat.mod_upper_bound n 2 ltac:(lia)). lia.
Qed.

Lemma pick_chosen p alg k E : 1 <= k <= length E -> chosen (key_of alg E) (length E) p k (pick_indices p alg k E).
Proof.
  intros Hk. set (n := length E) in *. set (key := key_of alg E). unfold pick_indices. fold n. set (s := argsort alg E).
  assert (Ls : length s = n) by apply argsort_length. assert (Ps : Permutation s (seq 0 n)) by apply argsort_perm. assert (Ss : StronglySorted (kle key) s) by apply argsort_sorted.
  clearbody s. destruct (halves_mono k n ltac:(lia)) as [Hh1 Hh2]. pose proof (half_le k) as Hk2. pose proof (half_le n) as Hn2.
  assert (Hr : 1 <= k - k / 2) by (pose proof (Nat.div_lt k 2 ltac:(lia) ltac:(lia)); lia).
  destruct p.
  - rewrite slice_to by lia. rewrite <- (firstn_skipn k s) in Ss, Ps. apply split_sorted in Ss as (S1 & S2 & S3).
    split; [rewrite firstn_length; lia|]. split; [apply sorted_ascending; exact S1|]. exists (skipn k s). split; [exact Ps|exact S3].
  - rewrite slice_last by lia. rewrite Ls. rewrite <- (firstn_skipn (n - k) s) in Ss, Ps. apply split_sorted in Ss as (S1 & S2 & S3).
    split; [rewrite skipn_length; lia|]. split; [apply sorted_ascending; exact S2|]. exists (firstn (n - k) s). split; [|exact S3].
    rewrite Permutation_app_comm. exact Ps.
  - rewrite half_Z. replace (Z.of_nat k - Z.of_nat (k / 2))%Z with (Z.of_nat (k - k / 2)) by lia.
    rewrite slice_to by lia. rewrite slice_last by lia. rewrite Ls.
    set (A := firstn (k / 2) s). set (B := skipn (n - (k - k / 2)) s). set (rest := firstn (n - k) (skipn (k / 2) s)).
    assert (E0 : s = A ++ rest ++ B).
    { unfold A, B, rest. rewrite <- (firstn_skipn (k / 2) s) at 1. f_equal. rewrite <- (firstn_skipn (n - k) (skipn (k / 2) s)) at 1. f_equal.
      rewrite skipn_skipn. f_equal. lia. }
    assert (LA : length A = k / 2) by (unfold A; rewrite firstn_length; lia). assert (LB : length B = k - k / 2) by (unfold B; rewrite skipn_length; lia).
    clearbody A B rest. subst s. pose proof Ss as Ss'. apply split_sorted in Ss as (S1 & S2 & S3). apply split_sorted in S2 as (S4 & S5 & S6).
    assert (HAB : below_all key A B) by (intros i j Hi Hj; apply S3; [exact Hi|apply in_or_app; auto]).
    split; [rewrite app_length; lia|]. split; [apply sorted_ascending, ascending_app; assumption|].
    exists A, B, rest. split; [reflexivity|]. split; [exact LA|]. split.
    + rewrite <- Ps, <- app_assoc. apply Permutation_app_head, Permutation_app_comm.
    + split; [|exact S6]. intros i j Hi Hj. apply S3; [exact Hi|apply in_or_app; auto].
  - rewrite !half_Z. replace (Z.of_nat (n / 2) - Z.of_nat (k / 2))%Z with (Z.of_nat (n / 2 - k / 2)) by lia.
    replace (Z.of_nat (n / 2) + (Z.of_nat k - Z.of_nat (k / 2)))%Z with (Z.of_nat (n / 2 + (k - k / 2))) by lia.
    rewrite !slice_mid by lia. replace (n / 2 - (n / 2 - k / 2)) with (k / 2) by lia. replace (n / 2 + (k - k / 2) - n / 2) with (k - k / 2) by lia.
    set (lo := firstn (n / 2 - k / 2) s). set (u := skipn (n / 2 - k / 2) s).
    assert (E1 : skipn (n / 2) s = skipn (k / 2) u) by (unfold u; rewrite skipn_skipn; f_equal; lia). rewrite E1.
    assert (E2 : firstn (k / 2) u ++ firstn (k - k / 2) (skipn (k / 2) u) = firstn k u).
    { rewrite <- (firstn_skipn (k / 2) u) at 3. rewrite firstn_app. rewrite firstn_firstn, Nat.min_r by lia. f_equal.
      rewrite firstn_length. f_equal. unfold u. rewrite skipn_length. lia. }
    rewrite E2. set (I := firstn k u). set (hi := skipn k u). assert (E3 : s = lo ++ I ++ hi) by (unfold I, hi, lo, u; rewrite !firstn_skipn; reflexivity).
    assert (Llo : length lo = n / 2 - k / 2) by (unfold lo; rewrite firstn_length; lia).
    assert (LI : length I = k) by (unfold I, u; rewrite firstn_length, skipn_length; lia).
    assert (Lhi : length hi = n - (n / 2 - k / 2) - k) by (unfold hi, u; rewrite !skipn_length; lia).
    clearbody lo I hi. rewrite E3 in Ss, Ps. apply split_sorted in Ss as (S1 & S2 & S3). apply split_sorted in S2 as (S4 & S5 & S6).
    split; [exact LI|]. split; [apply sorted_ascending; exact S4|]. exists lo, hi. split.
    + rewrite <- Ps. rewrite !app_assoc. apply Permutation_app_tail, Permutation_app_comm.
    + split; [intros i j Hi Hj; apply S3; [exact Hi|apply in_or_app; auto]|]. split; [exact S6|]. split; [exact Llo|].
      rewrite Llo, Lhi. pose proof (Nat.div_mod k 2 ltac:(lia)). pose proof (Nat.div_mod n 2 ltac:(lia)). pose proof (Nat.mod_upper_bound k 2 ltac:(lia)). pose proof (Nat.mod_upper_bound n 2 ltac:(lia)). lia.
Qed.

Lemma documented_parse which p alg : In (which, (p, alg)) documented -> parse_which which = Ok (p, alg).
Proof.
  unfold documented. intros H. repeat (destruct H as [H|H]; [injection H as <- <- <-; reflexivity|]). destruct H.
Qed.

Lemma jm_from {X Y Z} (R : X -> Y -> Prop) t u (T : trel R t u) (f : Y -> result Z) (S : X -> Z -> Prop) :
  (forall x y, has_leaf t x -> R x y -> exists z, f y = Ok z /\ S x z) -> exists v, jmapM f u = Ok v /\ trel S t v.
Proof. intros H. eapply jm_trel; eauto. Qed.
(** A map whose function always raises. *)
Lemma raising_map {X Y} (e : err) (t : tree X) : jmapM (fun _ => @Err Y e) t = Err e \/ (exists u, jmapM (fun _ => @Err Y e) t = Ok u) /\ forall s, ~ has_leaf t s.
Proof.
  assert (L : forall l, Forall (fun t : tree X => jmapM (fun _ => @Err Y e) t = Err e \/ (exists u, jmapM (fun _ => @Err Y e) t = Ok u) /\ forall s, ~ has_leaf t s) l ->
    jm_list (fun _ : X => @Err Y e) l = Err e \/ (exists u, jm_list (fun _ : X => @Err Y e) l = Ok u) /\ forall t s, In t l -> ~ has_leaf t s).
  { clear t. induction 1 as [|t l Ht _ IH]; cbn [jm_list]; [right; split; [eauto|intros ? ? []]|].
    destruct Ht as [ -> |[(u & ->) Hn]]; [left; reflexivity|]. cbn [rbind]. destruct IH as [ -> |[(m & ->) Hm]]; [left; reflexivity|]. right. split; [eexists; reflexivity|].
    intros t' s [ <- |Hin]; auto. }
  induction t as [x| |d IH|l IH|l IH] using tree_ind2.
  - left. reflexivity.
  - right. split; [eexists; reflexivity|]. intros s H. inversion H.
  - rewrite jmapM_dct. assert (G : jm_dict (fun _ : X => @Err Y e) d = Err e \/ (exists u, jm_dict (fun _ : X => @Err Y e) d = Ok u) /\ forall k t s, In (k, t) d -> ~ has_leaf t s).
    { induction IH as [|[k t] l Ht _ IHd]; cbn [jm_dict]; [right; split; [eauto|intros ? ? ? []]|]. cbn [snd] in Ht.
      destruct Ht as [ -> |[(u & ->) Hn]]; [left; reflexivity|]. cbn [rbind]. destruct IHd as [ -> |[(m & ->) Hm]]; [left; reflexivity|]. right. split; [eexists; reflexivity|].
      intros k' t' s [[= <- <-]|Hin]; eauto. }
    destruct G as [ -> |[(u & ->) Hn]]; [left; reflexivity|]. right. split; [eexists; reflexivity|]. intros s H. inversion H as [|? ? ? ? Hin Hl| |]; subst. eapply Hn; eauto.
  - rewrite jmapM_lst. destruct (L l IH) as [ -> |[(u & ->) Hn]]; [left; reflexivity|]. right. split; [eexists; reflexivity|]. intros s H. inversion H as [| |? ? ? Hin Hl|]; subst. eapply Hn; eauto.
  - rewrite jmapM_tup. destruct (L l IH) as [ -> |[(u & ->) Hn]]; [left; reflexivity|]. right. split; [eexists; reflexivity|]. intros s H. inversion H as [| | |? ? ? Hin Hl]; subst. eapply Hn; eauto.
Qed.

Section Entries.
Context {B : Type} (d : B).
Lemma select_ok E V k which p alg : 1 <= k <= length E -> In (which, (p, alg)) documented ->
  exists I E' V', select_eigenpairs d E (Some V) (Some k) which = Ok (E', Some V') /\ chosen (key_of alg E) (length E) p k I /\
    length E' = k /\ length V' = length V /\
    (forall r, In r V' -> length r = k) /\
    forall a, a < k -> nth a E' 0%R = nth (nth a I 0) E 0%R /\ forall r, r < length V -> nth a (nth r V' []) d = nth (nth a I 0) (nth r V []) d.
Proof.
  intros Hk Hw. unfold select_eigenpairs. rewrite (documented_parse _ _ _ Hw). cbn [rbind fst snd]. pose proof (pick_chosen p alg k E Hk) as C.
  set (I := pick_indices p alg k E) in *. unfold select_by_fn. fold I. assert (LI : length I = k) by apply C.
  eexists I, _, _. split; [reflexivity|]. split; [exact C|]. split; [rewrite firstn_length, map_length; lia|]. split; [apply map_length|]. split.
  - intros r Hr. apply in_map_iff in Hr as (r0 & <- & _). rewrite firstn_length, map_length. lia.
  - intros a Ha. rewrite firstn_all2 by (rewrite map_length; lia). split; [apply (map_nth_lt (fun i => nth i E 0%R) I 0 0%R); lia|].
    intros r Hr. rewrite (map_nth_lt _ _ [] []) by exact Hr. rewrite firstn_all2 by (rewrite map_length; lia). apply (map_nth_lt (fun i => nth i (nth r V []) d) I 0 d). lia.
Qed.
Lemma select_all E V which : select_eigenpairs d E V None which = select_eigenpairs d E V (Some (length E)) which.
Proof. reflexivity. Qed.
Lemma select_values E V k which E' V' : select_eigenpairs d E (Some V) k which = Ok (E', V') -> select_eigenvalues d E k which = Ok E'.
Proof.
  unfold select_eigenvalues, select_eigenpairs. destruct (parse_which which); cbn [rbind]; [|discriminate]. unfold select_by_fn. intros [= <- _]. reflexivity.
Qed.
Definition count (num_eig : option nat) (n : nat) : nat := match num_eig with Some k => k | None => n end.

Context {M : Type} (eigh : nat -> M -> list R * list (list B)) (Heigh : eigh_ok eigh).
Context (num_eig : option nat) (which : string) (p : pick) (alg : bool) (Hw : In (which, (p, alg)) documented).
Definition size_ok (n : nat) : Prop := 1 <= n /\ match num_eig with Some k => 1 <= k <= n | None => True end.
Lemma one_sample n m : size_ok n -> exists E' V', select_eigenpairs d (fst (eigh n m)) (Some (snd (eigh n m))) num_eig which = Ok (E', Some V') /\
  select_eigenvalues d (fst (eigh n m)) num_eig which = Ok E' /\ has_shape1 [count num_eig n] E' /\ has_shape2 [n; count num_eig n] V'.
Proof.
  intros [Hn Hs]. destruct (Heigh n m) as (L1 & L2 & L3).
  destruct (select_ok (fst (eigh n m)) (snd (eigh n m)) (count num_eig n) which p alg) as (I & E' & V' & E & C & LE & LV & LR & _).
  - rewrite L1. unfold count. destruct num_eig; lia.
  - exact Hw.
  - assert (E0 : select_eigenpairs d (fst (eigh n m)) (Some (snd (eigh n m))) num_eig which = Ok (E', Some V')).
    { rewrite <- E. unfold count. destruct num_eig as [k|]; [reflexivity|]. rewrite select_all, L1. reflexivity. }
    exists E', V'. split; [exact E0|]. split; [eapply select_values; exact E0|]. split; [unfold has_shape1; congruence|].
    exists (count num_eig n). split; [congruence|exact LR].
Qed.
Lemma rmapM_each {A C} (f : A -> result C) (P : C -> Prop) l : (forall a, In a l -> exists c, f a = Ok c /\ P c) -> exists r, rmapM f l = Ok r /\ samples_of P (length l) r.
Proof.
  induction l as [|a l IH]; intros H; cbn [rmapM].
  - exists []. split; [reflexivity|]. split; [reflexivity|intros x []].
  - destruct (H a (or_introl eq_refl)) as (c & -> & Pc). destruct (IH ltac:(intros b Hb; apply H; right; exact Hb)) as (r & -> & L & Hr). cbn [rbind].
    exists (c :: r). split; [reflexivity|]. split; [cbn; lia|]. intros x [ <- |Hx]; auto.
Qed.
Lemma samples_impl {A C} (P : A -> Prop) (Q : C -> Prop) (f : A -> C) n l : (forall x, P x -> Q (f x)) -> samples_of P n l -> samples_of Q n (map f l).
Proof. intros H [L E]. split; [rewrite map_length; exact L|]. intros x Hx. apply in_map_iff in Hx as (y & <- & Hy). auto. Qed.

Definition pair_ok (n : nat) (r : list R * option (list (list B))) : Prop := has_shape1 [count num_eig n] (fst r) /\ has_shape2 [n; count num_eig n] (the_vectors r).
Lemma pairs_ok x : size_ok (msize x) -> exists l, pairs_leaf d eigh num_eig which x = Ok l /\ samples_of (pair_ok (msize x)) (length (msamples x)) l.
Proof.
  intros Hs. apply rmapM_each. intros m _. destruct (eigh (msize x) m) as [E V] eqn:EV. destruct (one_sample (msize x) m Hs) as (E' & V' & H1 & _ & H2 & H3).
  rewrite EV in H1. cbn [fst snd] in H1. exists (E', Some V'). split; [exact H1|]. split; assumption.
Qed.

Context (shapes : tree (list nat)) (data : tree (@mats M)).
Context (Wf : wf_tree shapes) (Sq : trel square_of shapes data) (Sizes : forall s, has_leaf shapes s -> size_ok (hd 0 s)).

Lemma leaf_square s : has_leaf shapes s -> exists n, s = [n; n] /\ size_ok n.
Proof.
  intros Hs. pose proof (Sizes s Hs) as Hz.
  assert (G : forall (t : tree (list nat)) (u : tree (@mats M)), trel square_of t u -> forall s, has_leaf t s -> exists n, s = [n; n]).
  { clear. intros t. induction t as [x| |dd IH|l IH|l IH] using tree_ind2; intros u T s H; inversion T as [? y HR| |? m F|? m F|? e e' Pe F]; subst; inversion H as [|? ? ? ? Hin Hl|? ? ? Hin Hl|? ? ? Hin Hl]; subst.
    - exists (msize y). exact HR.
    - clear -IH F Hin Hl. induction F as [|a b dd ee [Hk HT] F IHF]; [destruct Hin|]. inversion IH as [|? ? Ha Hr]; subst. destruct Hin as [ -> |Hin]; [eapply Ha; eauto|auto].
    - clear -IH F Hin Hl. induction F as [|a b dd ee HT F IHF]; [destruct Hin|]. inversion IH as [|? ? Ha Hr]; subst. destruct Hin as [ -> |Hin]; [eapply Ha; eauto|auto].
    - clear -IH F Hin Hl. induction F as [|a b dd ee HT F IHF]; [destruct Hin|]. inversion IH as [|? ? Ha Hr]; subst. destruct Hin as [ -> |Hin]; [eapply Ha; eauto|auto]. }
  destruct (G _ _ Sq s Hs) as (n & ->). exists n. split; [reflexivity|exact Hz].
Qed.
Lemma validate_ok : validate num_eig shapes = Ok tt.
Proof.
  unfold validate. replace (forallb (valid_shape num_eig) (leaves shapes)) with true; [reflexivity|]. symmetry. apply forallb_forall. intros s Hs.
  apply leaves_has_leaf in Hs. destruct (leaf_square s Hs) as (n & -> & [Hn Hk]). unfold valid_shape. rewrite Nat.eqb_refl. destruct num_eig as [k|]; [|reflexivity].
  destruct (Nat.leb_spec k n); [reflexivity|lia].
Qed.
Lemma vectors_ok : exists t r, eigenvectors_shape num_eig shapes = Ok t /\ eigenvectors_call d eigh num_eig which data = Ok r /\
  trel (fun s o => each (has_shape2 s) o) t r.
Proof.
  unfold eigenvectors_shape, eigenvectors_call. rewrite validate_ok. cbn [rbind].
  destruct (jm_trel (fun s : list nat => match s with n :: _ => Ok [n; match num_eig with Some k => k | None => n end] | [] => Err IndexError end) eq
              (fun s o => o = [hd 0 s; count num_eig (hd 0 s)]) shapes) with (u := shapes) as (t & -> & Tt).
  { intros s s' Hs <-. destruct (leaf_square s Hs) as (n & -> & _). eexists; split; reflexivity. }
  { apply trel_refl. }
  destruct (jm_trel (fun x : @mats M => let* l := pairs_leaf d eigh num_eig which x in Ok (map the_vectors l)) square_of
              (fun s o => each (has_shape2 [hd 0 s; count num_eig (hd 0 s)]) o) shapes) with (u := data) as (r & -> & Tr).
  { intros s x Hs E. destruct (leaf_square s Hs) as (n & -> & Hn). injection E as E _. subst n. destruct (pairs_ok x Hn) as (l & -> & Hl). cbn [rbind].
    eexists. split; [reflexivity|]. cbn [hd]. intros v Hv. apply in_map_iff in Hv as (q & <- & Hq). apply (proj2 Hl) in Hq. apply Hq. }
  { exact Sq. }
  exists t, r. split; [reflexivity|]. split; [reflexivity|]. eapply trel_join; [|exact Tt|exact Tr]. intros s a o -> H. exact H.
Qed.
Lemma map_has_leaf {X Y} (R : X -> Y -> Prop) (t : tree X) : forall u, trel R t u -> forall x, has_leaf t x -> exists y, has_leaf u y /\ R x y.
Proof.
  induction t as [x| |dd IH|l IH|l IH] using tree_ind2; intros u T s H; inversion T as [? y HR| |? m F|? m F|? e e' Pe F]; subst; inversion H as [|? ? ? ? Hin Hl|? ? ? Hin Hl|? ? ? Hin Hl]; subst.
  - exists y. split; [constructor|exact HR].
  - assert (G : exists b y, In b e' /\ has_leaf (snd b) y /\ R s y).
    { clear -IH F Hin Hl. induction F as [|a b dd ee [Hk HT] F IHF]; [destruct Hin|]. inversion IH as [|? ? Ha Hr]; subst. destruct Hin as [ -> |Hin].
      - destruct (Ha _ HT _ Hl) as (y & H1 & H2). exists b, y. split; [left; reflexivity|auto].
      - destruct (IHF Hr Hin) as (b' & y & H1 & H2). exists b', y. split; [right; exact H1|exact H2]. }
    destruct G as ([k2 b] & y & H1 & H2 & H3). exists y. split; [|exact H3]. eapply hl_dict; [eapply Permutation_in; [exact Pe|exact H1]|exact H2].
  - clear -IH F Hin Hl. assert (G : exists b y, In b m /\ has_leaf b y /\ R s y).
    { induction F as [|a b dd ee HT F IHF]; [destruct Hin|]. inversion IH as [|? ? Ha Hr]; subst. destruct Hin as [ -> |Hin].
      - destruct (Ha _ HT _ Hl) as (y & H1 & H2). exists b, y. split; [left; reflexivity|auto].
      - destruct (IHF Hr Hin) as (b' & y & H1 & H2). exists b', y. split; [right; exact H1|exact H2]. }
    destruct G as (b & y & H1 & H2 & H3). exists y. split; [|exact H3]. eapply hl_lst; eauto.
  - clear -IH F Hin Hl. assert (G : exists b y, In b m /\ has_leaf b y /\ R s y).
    { induction F as [|a b dd ee HT F IHF]; [destruct Hin|]. inversion IH as [|? ? Ha Hr]; subst. destruct Hin as [ -> |Hin].
      - destruct (Ha _ HT _ Hl) as (y & H1 & H2). exists b, y. split; [left; reflexivity|auto].
      - destruct (IHF Hr Hin) as (b' & y & H1 & H2). exists b', y. split; [right; exact H1|exact H2]. }
    destruct G as (b & y & H1 & H2 & H3). exists y. split; [|exact H3]. eapply hl_tup; eauto.
Qed.
Lemma has_leaf_leaves {X Y} (R : X -> Y -> Prop) (t : tree X) u x : trel R t u -> has_leaf t x -> exists y l, leaves u = y :: l.
Proof.
  intros T H. destruct (map_has_leaf R t u T x H) as (y & Hy & _). apply leaves_has_leaf in Hy. destruct (leaves u) as [|z l]; [destruct Hy|eauto].
Qed.
Lemma system_ok : (exists s, has_leaf shapes s) -> exists te tv re rv, eigensystem_shape num_eig shapes = Ok (te, tv) /\
  eigensystem_call d eigh num_eig which data = Ok (re, rv) /\
  trel (fun s o => each (has_shape1 s) o) te re /\ trel (fun s o => each (has_shape2 s) o) tv rv.
Proof.
  intros (s0 & Hs0). unfold eigensystem_shape, eigensystem_call. rewrite validate_ok. cbn [rbind].
  destruct (jm_trel (fun s : list nat => match rev s with n :: _ => Ok ([match num_eig with Some k => k | None => n end], [n; match num_eig with Some k => k | None => n end]) | [] => Err IndexError end) eq
              (fun s o => o = ([count num_eig (hd 0 s)], [hd 0 s; count num_eig (hd 0 s)])) shapes) with (u := shapes) as (t & -> & Tt).
  { intros s s' Hs <-. destruct (leaf_square s Hs) as (n & -> & _). eexists; split; reflexivity. }
  { apply trel_refl. }
  cbn [rbind]. destruct (has_leaf_leaves _ _ _ _ Tt Hs0) as (y & l & ->).
  destruct (jm_from _ _ _ Tt (fun q : list nat * list nat => Ok (fst q)) (fun s o => o = [count num_eig (hd 0 s)])) as (te & -> & Te).
  { intros s o _ ->. eexists; split; reflexivity. }
  destruct (jm_from _ _ _ Tt (fun q : list nat * list nat => Ok (snd q)) (fun s o => o = [hd 0 s; count num_eig (hd 0 s)])) as (tv & -> & Tv).
  { intros s o _ ->. eexists; split; reflexivity. }
  cbn [rbind].
  destruct (jm_trel (pairs_leaf d eigh num_eig which) square_of (fun s o => each (pair_ok (hd 0 s)) o) shapes) with (u := data) as (r & -> & Tr).
  { intros s x Hs E. destruct (leaf_square s Hs) as (n & -> & Hn). injection E as E _. subst n. destruct (pairs_ok x Hn) as (l' & -> & Hl). eexists. split; [reflexivity|]. apply Hl. }
  { exact Sq. }
  cbn [rbind]. destruct (has_leaf_leaves _ _ _ _ Tr Hs0) as (y2 & l2 & ->).
  destruct (jm_from _ _ _ Tr (fun q : list (list R * option (list (list B))) => Ok (map fst q)) (fun s o => each (has_shape1 [count num_eig (hd 0 s)]) o)) as (re & -> & Re).
  { intros s o _ H. eexists; split; [reflexivity|]. intros v Hv. apply in_map_iff in Hv as (q & <- & Hq). apply H. exact Hq. }
  destruct (jm_from _ _ _ Tr (fun q : list (list R * option (list (list B))) => Ok (map the_vectors q)) (fun s o => each (has_shape2 [hd 0 s; count num_eig (hd 0 s)]) o)) as (rv & -> & Rv).
  { intros s o _ H. eexists; split; [reflexivity|]. intros v Hv. apply in_map_iff in Hv as (q & <- & Hq). apply H. exact Hq. }
  exists te, tv, re, rv. split; [reflexivity|]. split; [reflexivity|].
  split; (eapply trel_join; [|eassumption|eassumption]); intros s a o -> H; exact H.
Qed.
Lemma trel_graft (S : list nat -> list nat -> Prop) (t : tree (list nat)) : forall T, trel (fun s u => exists v, u = Leaf v /\ S s v) t T -> trel S t (graft T).
Proof.
  induction t as [x| |dd IH|l IH|l IH] using tree_ind2; intros T H; inversion H as [? y HR| |? m F|? m F|? e e' Pe F]; subst; cbn [graft].
  - destruct HR as (v & -> & HS). constructor. exact HS.
  - constructor.
  - apply tr_dict with (e' := map (fun kv => (fst kv, graft (snd kv))) e'); [apply Permutation_map; exact Pe|].
    clear -IH F. induction F as [|a b dd ee [Hk HT] F IHF]; [constructor|]. inversion IH as [|? ? Ha Hr]; subst. constructor; [split; [exact Hk|apply Ha; exact HT]|auto].
  - constructor. clear -IH F. induction F as [|a b dd ee HT F IHF]; [constructor|]. inversion IH as [|? ? Ha Hr]; subst. constructor; auto.
  - constructor. clear -IH F. induction F as [|a b dd ee HT F IHF]; [constructor|]. inversion IH as [|? ? Ha Hr]; subst. constructor; auto.
Qed.
Lemma values_ok : (num_eig <> None \/ exists s, shapes = Leaf s) -> exists t r, eigenvalues_shape num_eig shapes = Ok t /\ eigenvalues_call d eigh num_eig which data = Ok r /\
  trel (fun s o => each (has_shape1 s) o) t r.
Proof.
  intros Hcase. unfold eigenvalues_shape, eigenvalues_call. rewrite validate_ok. cbn [rbind].
  destruct (jm_trel (fun _ : list nat => match num_eig with Some k => Ok (Leaf [k]) | None => one_tuple shapes end) eq
              (fun s u => exists v, u = Leaf v /\ v = [count num_eig (hd 0 s)]) shapes) with (u := shapes) as (t & -> & Tt).
  { intros s s' Hs <-. destruct num_eig as [k|] eqn:Ek; [eexists; split; [reflexivity|]; eexists; split; reflexivity|].
    destruct Hcase as [?|(s2 & E)]; [congruence|]. destruct (leaf_square s Hs) as (n & Es & _). rewrite E in Hs |- *. inversion Hs; subst s2. rewrite Es.
    cbn [one_tuple]. eexists; split; [reflexivity|]. eexists; split; reflexivity. }
  { apply trel_refl. }
  cbn [rbind]. apply trel_graft in Tt.
  destruct (jm_trel (fun x : @mats M => rmapM (fun m => select_eigenvalues d (fst (eigh (msize x) m)) num_eig which) (msamples x)) square_of
              (fun s o => each (has_shape1 [count num_eig (hd 0 s)]) o) shapes) with (u := data) as (r & -> & Tr).
  { intros s x Hs E. destruct (leaf_square s Hs) as (n & -> & Hn). injection E as E _. subst n.
    destruct (rmapM_each (fun m => select_eigenvalues d (fst (eigh (msize x) m)) num_eig which) (has_shape1 [count num_eig (msize x)]) (msamples x)) as (l & -> & Hl).
    { intros m _. destruct (one_sample (msize x) m Hn) as (E' & V' & _ & H & H2 & _). eauto. }
    exists l. split; [reflexivity|]. apply Hl. }
  { exact Sq. }
  exists (graft t), r. split; [reflexivity|]. split; [reflexivity|]. eapply trel_join; [|exact Tt|exact Tr]. intros s a o -> H. exact H.
Qed.
(** With a dictionary of inputs and no count, announcing the shape fails. *)
Lemma values_dict e : shapes = Dict e -> (exists s, has_leaf shapes s) -> num_eig = None -> eigenvalues_shape num_eig shapes = Err KeyError.
Proof.
  intros E (s & Hs) Hn. unfold eigenvalues_shape. rewrite validate_ok. cbn [rbind]. rewrite Hn, E. cbn [one_tuple].
  destruct (@raising_map _ (tree (list nat)) KeyError (Dict e)) as [ -> |[_ N]]; [reflexivity|]. rewrite E in Hs. destruct (N s Hs).
Qed.
End Entries.
