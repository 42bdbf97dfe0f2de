(** Property C123: initial parameters are drawn independently. *)
From Coq Require Import QArith Lia.
From Verif Require Import Base BaseLemmas TreeUtil Draws DrawsSpec.
Local Open Scope list_scope.
Local Open Scope nat_scope.

(* ------------------------------------------------------------------ *)
(** ** Keys *)
Lemma derived_refl k : derived k k.
Proof. exists []. now rewrite app_nil_r. Qed.
Lemma derived_trans a b c : derived a b -> derived b c -> derived a c.
Proof. intros [p ->] [q ->]. exists (p ++ q). now rewrite app_assoc. Qed.
Lemma derived_child k i : derived k (child k i).
Proof. exists [i]. reflexivity. Qed.
Lemma child_apart k i j x y : derived (child k i) x -> derived (child k j) y -> i <> j -> unrelated x y.
Proof.
  unfold child. intros [p ->] [q ->] N. split; intros [r E]; rewrite <- !app_assoc in E; apply app_inv_head in E; cbn in E; injection E as E _; congruence.
Qed.
Lemma unrelated_sym a b : unrelated a b -> unrelated b a.
Proof. unfold unrelated. tauto. Qed.

Lemma independent_app a b : independent a -> independent b -> (forall x y, In x a -> In y b -> unrelated x y) -> independent (a ++ b).
Proof.
  intros A B H. induction A as [|x a Hx A IH]; cbn; [exact B|]. constructor.
  - apply Forall_app. split; [exact Hx|]. apply Forall_forall. intros y Hy. apply H; cbn; auto.
  - apply IH. intros u v Hu Hv. apply H; cbn; auto.
Qed.
(** keys under different children *)
Definition below (k : key) (ks : list key) : Prop := Forall (derived k) ks.
Lemma below_up k k' ks : derived k k' -> below k' ks -> below k ks.
Proof. intros D H. unfold below in *. rewrite Forall_forall in *. intros x Hx. eapply derived_trans; eauto. Qed.
Lemma below_app k a b : below k (a ++ b) <-> below k a /\ below k b.
Proof. apply Forall_app. Qed.
Definition good (k : key) (ks : list key) : Prop := below k ks /\ independent ks.
Lemma good_nil k : good k [].
Proof. split; constructor. Qed.
Lemma good_up k k' ks : derived k k' -> good k' ks -> good k ks.
Proof. intros D [B I]. split; [eapply below_up; eauto|exact I]. Qed.
Lemma good_join k i j a b : i <> j -> good (child k i) a -> good (child k j) b -> good k (a ++ b).
Proof.
  intros N [A IA] [B IB]. split.
  - apply below_app. split; [exact (below_up _ _ _ (derived_child k i) A)|exact (below_up _ _ _ (derived_child k j) B)].
  - apply independent_app; [exact IA|exact IB|]. intros x y Hx Hy. unfold below in A, B. rewrite Forall_forall in A, B. eapply child_apart; eauto.
Qed.
Lemma good_one k : good k [k].
Proof. split; [constructor; [apply derived_refl|constructor]|constructor; constructor]. Qed.

(** one part per key of a split *)
Lemma good_parts {A} (f : key -> A -> list key) k (l : list A) n : (forall q a, good q (f q a)) ->
  good k (flat_map (fun p => f (fst p) (snd p)) (combine (map (child k) (seq n (length l))) l)) /\
  forall x, In x (flat_map (fun p => f (fst p) (snd p)) (combine (map (child k) (seq n (length l))) l)) -> exists j, n <= j /\ derived (child k j) x.
Proof.
  intros Hf. revert n. induction l as [|a l IH]; intros n; cbn [length seq map combine flat_map]; [split; [apply good_nil|intros x []]|].
  destruct (IH (S n)) as [[B I] H]. cbn [fst snd]. pose proof (Hf (child k n) a) as [Ba Ia]. unfold below in *. rewrite Forall_forall in *. repeat split.
  - apply Forall_app. split; apply Forall_forall; [|exact B]. intros x Hx. eapply derived_trans; [apply derived_child|exact (Ba x Hx)].
  - apply independent_app; [exact Ia|exact I|]. intros x y Hx Hy. destruct (H y Hy) as (j & Hj & Dj). eapply child_apart; [exact (Ba x Hx)|exact Dj|lia].
  - intros x Hx. apply in_app_iff in Hx as [Hx|Hx]; [exists n; split; [lia|exact (Ba x Hx)]|]. destruct (H x Hx) as (j & Hj & Dj). exists j. split; [lia|exact Dj].
Qed.

Lemma keys_of_app a b : keys_of (a ++ b) = keys_of a ++ keys_of b.
Proof. unfold keys_of. now rewrite flat_map_app, map_app. Qed.
Lemma keys_of_map {A} (f : A -> par) l : keys_of (map f l) = flat_map (fun x => keys_of [f x]) l.
Proof. induction l as [|x l IH]; [reflexivity|]. change (map f (x :: l)) with ([f x] ++ map f l). rewrite keys_of_app, IH. reflexivity. Qed.

Lemma good_leaf real k s : good k (keys_of [init_leaf real k s]).
Proof.
  destruct real; cbn; [apply good_one|]. apply (good_join k 0 1 [child k 0] [child k 1]); [lia|apply good_one|apply good_one].
Qed.
Lemma good_leaves k l : good k (keys_of (init_leaves k l)).
Proof.
  unfold init_leaves. rewrite keys_of_map. unfold split.
  exact (proj1 (good_parts (fun q (a : bool * list nat) => keys_of [init_leaf (fst a) q (snd a)]) k l 0 (fun q a => good_leaf _ q _))).
Qed.
Lemma good_two k s t u v : good k (keys_of [Two (mk_draw (child k 0) s t) (mk_draw (child k 1) u v)]).
Proof. apply (good_join k 0 1 [child k 0] [child k 1]); [lia|apply good_one|apply good_one]. Qed.
Lemma good_child k i s t : good k (keys_of [One (mk_draw (child k i) s t)]).
Proof. apply (good_up k (child k i)); [apply derived_child|apply good_one]. Qed.

Lemma good_real k (l : list (list nat)) :
  good k (keys_of (map (fun p => One (mk_draw (fst p) (snd p) F32)) (combine (split k (length l)) l))).
Proof.
  rewrite keys_of_map. exact (proj1 (good_parts (fun q (a : list nat) => [q]) k l 0 (fun q a => good_one q))).
Qed.

(** complex leading arrays: real parts under one child, imaginary parts under the other *)
Lemma good_complex k (l : list (list nat)) :
  good k (keys_of (map (fun p : (key * key) * list nat => Two (mk_draw (fst (fst p)) (snd p) C64) (mk_draw (snd (fst p)) (snd p) C64))
            (combine (combine (split (child k 0) (length l)) (split (child k 1) (length l))) l))).
Proof.
  rewrite keys_of_map. unfold split. generalize 0 at 2 4 as n.
  assert (G : forall n, good k (flat_map (fun x : (key * key) * list nat => keys_of [Two (mk_draw (fst (fst x)) (snd x) C64) (mk_draw (snd (fst x)) (snd x) C64)])
      (combine (combine (map (child (child k 0)) (seq n (length l))) (map (child (child k 1)) (seq n (length l)))) l)) /\
    forall x, In x (flat_map (fun x : (key * key) * list nat => keys_of [Two (mk_draw (fst (fst x)) (snd x) C64) (mk_draw (snd (fst x)) (snd x) C64)])
      (combine (combine (map (child (child k 0)) (seq n (length l))) (map (child (child k 1)) (seq n (length l)))) l)) ->
      exists j, n <= j /\ (x = child (child k 0) j \/ x = child (child k 1) j)).
  { induction l as [|a l IH]; intros n; cbn [length seq map combine flat_map]; [split; [apply good_nil|intros x []]|].
    destruct (IH (S n)) as [[B I] H]. cbn [fst snd keys_of flat_map drawn map d_key app].
    assert (C : forall b i j x, x = child (child k 0) j \/ x = child (child k 1) j -> i < j -> b < 2 -> unrelated (child (child k b) i) x).
    { intros b i j x [ -> | -> ] Lt Hb.
      - destruct b as [|b]; [apply (child_apart (child k 0) i j); [apply derived_refl|apply derived_refl|lia]|apply (child_apart k (S b) 0); [apply derived_child|apply derived_child|lia]].
      - destruct b as [|[|b]]; [apply (child_apart k 0 1); [apply derived_child|apply derived_child|lia]|apply (child_apart (child k 1) i j); [apply derived_refl|apply derived_refl|lia]|lia]. }
    assert (D : forall b i, derived k (child (child k b) i)) by (intros b i; eapply derived_trans; apply derived_child).
    split; [split|].
    - constructor; [apply D|constructor; [apply D|exact B]].
    - constructor; [constructor|constructor].
      + apply (child_apart k 0 1); [apply derived_child|apply derived_child|lia].
      + apply Forall_forall. intros y Hy. destruct (H y Hy) as (j & Hj & E). apply (C 0 n j y E); lia.
      + apply Forall_forall. intros y Hy. destruct (H y Hy) as (j & Hj & E). apply (C 1 n j y E); lia.
      + exact I.
    - intros x [ <- | [ <- | Hx ] ]; [exists n; split; [lia|now left]|exists n; split; [lia|now right]|]. destruct (H x Hx) as (j & Hj & E). exists j. split; [lia|exact E]. }
  intros n. exact (proj1 (G n)).
Qed.

(* ------------------------------------------------------------------ *)
(** ** Modules *)
Lemma module_nested_ind (P : module -> Prop) :
  (forall m, match m with Seq l | Graph l => Forall P l | _ => True end -> P m) -> forall m, P m.
Proof.
  intros H. fix IH 1. intros m. apply H. destruct m; try exact I.
  - induction ms as [|x l IHl]; constructor; [apply IH|exact IHl].
  - induction ms as [|x l IHl]; constructor; [apply IH|exact IHl].
Qed.

Section Main.
Context (eqb : shapes -> shapes -> bool) (out : module -> shapes -> result shapes) (progression : list module -> shapes -> result (list shapes)).
Notation compile := (compile eqb out progression).
Notation compile_each := (compile_each eqb out progression).

Lemma runtime_ok {A} (r : result A) a : runtime r = Ok a -> r = Ok a.
Proof. destruct r; cbn; congruence. Qed.

Lemma in_turn_good l : Forall (fun m => forall k s ps, compile m k s = Ok ps -> good k (keys_of ps)) l ->
  forall k s pss, in_turn compile out l k s = Ok pss -> good k (keys_of (concat pss)).
Proof.
  intros F. induction F as [|m l Hm F IH]; intros k s pss; cbn [in_turn]; [intros E; injection E as <-; apply good_nil|].
  intros E. apply rbind_ok in E as (a & Ea & E). apply rbind_ok in E as (s' & _ & E). apply rbind_ok in E as (r & Er & E). injection E as <-.
  apply runtime_ok, Hm in Ea. apply IH in Er. cbn [concat]. rewrite keys_of_app. apply (good_join k 1 0); [lia|exact Ea|exact Er].
Qed.
Lemma in_order_good l : Forall (fun m => forall k s ps, compile m k s = Ok ps -> good k (keys_of ps)) l ->
  forall k ss pss, in_order compile l k ss = Ok pss -> good k (keys_of (concat pss)).
Proof.
  intros F. induction F as [|m l Hm F IH]; intros k ss pss; cbn [in_order]; [intros E; injection E as <-; apply good_nil|].
  destruct ss as [|s ss]; [discriminate|].
  intros E. apply rbind_ok in E as (a & Ea & E). apply rbind_ok in E as (r & Er & E). injection E as <-.
  apply runtime_ok, Hm in Ea. apply IH in Er. cbn [concat]. rewrite keys_of_app. apply (good_join k 1 0); [lia|exact Ea|exact Er].
Qed.

Lemma compile_good m : forall k s ps, compile m k s = Ok ps -> good k (keys_of ps).
Proof.
  induction m as [m IH] using module_nested_ind; intros k s ps; destruct m; cbn [Draws.compile].
  - intros E. injection E as <-. apply good_nil.
  - destruct given; [intros E; injection E as <-; apply good_nil|]. destruct scalar; [intros E; injection E as <-; apply good_leaf|].
    destruct s; intros E; injection E as <-; try apply good_leaf; apply good_leaves.
  - destruct given; [intros E; injection E as <-; apply good_nil|]. destruct (negb trainable); [discriminate|]. destruct (_ =? _)%nat; [|discriminate].
    intros E; injection E as <-; apply good_leaves.
  - destruct given as [s0|]; [destruct (eqb s0 s); [|discriminate]; intros E; injection E as <-; apply good_nil|].
    destruct single; intros E; injection E as <-; [apply good_leaf|apply good_leaves].
  - intros E. apply rbind_ok in E as (l & _ & E). destruct given; [injection E as <-; apply good_nil|]. destruct l as [|x l]; [injection E as <-; apply good_nil|].
    destruct (negb trainable); [discriminate|]. destruct real; injection E as <-; [apply (good_real k (x :: l))|apply (good_complex k (x :: l))].
  - intros E. apply rbind_ok in E as (d & _ & E). destruct given as [q|]; [destruct (_ =? _)%nat in E; [injection E as <-; apply good_nil|discriminate]|].
    destruct n; [injection E as <-; apply good_two|discriminate].
  - intros E. apply rbind_ok in E as (d & _ & E). destruct given as [q|]; [destruct (_ =? _)%nat in E; [injection E as <-; apply good_nil|discriminate]|].
    injection E as <-. destruct real; [apply good_child|apply good_two].
  - intros E. apply rbind_ok in E as (d & _ & E). destruct given as [q|]; [destruct (_ =? _)%nat in E; [injection E as <-; apply good_nil|discriminate]|].
    destruct n; [|discriminate]. destruct r; [|discriminate]. injection E as <-.
    match goal with |- good k (keys_of [?a; ?b]) => change (keys_of [a; b]) with (keys_of [a] ++ keys_of [b]) end.
    destruct (good_two k [if bias then S d else d; n; n0] C64 [if bias then S d else d; n; n0] C64) as [B I].
    split; [apply below_app; split; [exact B|constructor; [apply derived_child|constructor]]|].
    apply independent_app; [exact I|constructor; constructor|]. cbn [keys_of flat_map drawn map d_key app].
    intros x y [ <- | [ <- | [] ] ] [ <- | [] ]; [apply (child_apart k 0 2)|apply (child_apart k 1 2)]; try apply derived_refl; lia.
  - destruct observables; [|discriminate]. destruct outputs; [|discriminate]. intros E. apply rbind_ok in E as (d & _ & E).
    destruct given as [[a b]|]; [destruct (_ && _)%bool in E; [injection E as <-; apply good_nil|discriminate]|]. injection E as <-. apply good_two.
  - intros E. apply rbind_ok in E as (l & El & E). injection E as <-. exact (in_turn_good ms IH _ _ _ El).
  - intros E. apply rbind_ok in E as (ss & _ & E). apply rbind_ok in E as (l & El & E). injection E as <-. exact (in_order_good ms IH _ _ _ El).
Qed.

(** No key is used twice and none from which another was obtained, in a model of
    any nesting. *)
Theorem C123_independent m k s ps : compile m k s = Ok ps -> independent (keys_of ps).
Proof. intros H. exact (proj2 (compile_good m k s ps H)). Qed.
(** Only keys obtained from the one that was given are used. *)
Theorem C123_own_key m k s ps : compile m k s = Ok ps -> Forall (derived k) (keys_of ps).
Proof. intros H. exact (proj1 (compile_good m k s ps H)). Qed.
(** If splitting gives different keys, all arrays are drawn with different keys. *)
Theorem C123_different {K} (sub : K -> nat -> K) seed m s ps : keys_differ sub seed -> compile m [] s = Ok ps ->
  NoDup (map (key_at sub seed) (keys_of ps)).
Proof.
  intros D H. apply C123_independent in H. induction H as [|x l Hx H IH]; [constructor|]. cbn. constructor; [|exact IH].
  intros Hi. apply in_map_iff in Hi as (y & E & Hy). apply D in E. subst y. rewrite Forall_forall in Hx. exact (proj1 (Hx x Hy) (derived_refl x)).
Qed.

Lemma in_turn_app a b k s pss : in_turn compile out (a ++ b) k s = Ok pss ->
  exists pa pb k' s', pss = pa ++ pb /\ in_turn compile out a k s = Ok pa /\ in_turn compile out b k' s' = Ok pb /\
    k' = k ++ repeat 0 (length a) /\ (forall c, in_turn compile out (a ++ c) k s = (let* r := in_turn compile out c k' s' in Ok (pa ++ r))).
Proof.
  revert k s pss. induction a as [|m a IH]; intros k s pss; cbn [app in_turn].
  - intros H. exists [], pss, k, s. repeat split; auto; [cbn; now rewrite app_nil_r|]. intros c. cbn. now destruct (in_turn compile out c k s).
  - intros E. apply rbind_ok in E as (x & Ex & E). apply rbind_ok in E as (s' & Es & E). apply rbind_ok in E as (r & Er & E). injection E as <-.
    apply IH in Er as (pa & pb & k' & s'' & -> & Ha & Hb & -> & Hc). rewrite Ex. cbn [rbind]. rewrite Es. cbn [rbind]. rewrite Ha. cbn [rbind].
    exists (x :: pa), pb, (child k 0 ++ repeat 0 (length a)), s''. repeat split; auto; [unfold child; cbn [length repeat]; now rewrite <- app_assoc|].
    intros c. rewrite Hc. destruct (in_turn compile out c _ s''); reflexivity.
Qed.

(** The initial parameters of the first modules of a sequential model do not
    depend on the modules behind them. *)
Theorem C123_later a b k s pss : compile_each (a ++ b) k s = Ok pss ->
  exists pa pb, pss = pa ++ pb /\ length pa = length a /\ compile_each a k s = Ok pa.
Proof.
  unfold Draws.compile_each. intros H. apply in_turn_app in H as (pa & pb & k' & s' & -> & Ha & _ & _ & _). exists pa, pb. repeat split; auto.
  clear - Ha. revert k s pa Ha. induction a as [|m a IH]; intros k s pa; cbn [in_turn]; [intros E; injection E as <-; reflexivity|].
  intros E. apply rbind_ok in E as (x & _ & E). apply rbind_ok in E as (s' & _ & E). apply rbind_ok in E as (r & Er & E). injection E as <-. cbn. f_equal. exact (IH _ _ _ Er).
Qed.

(** If one module is replaced by one with the same output shape — the same module
    with given parameters, say — the initial parameters of all others stay the
    same. *)
Theorem C123_others a m m' b k s pss pss' : (forall s, out m s = out m' s) ->
  compile_each (a ++ m :: b) k s = Ok pss -> compile_each (a ++ m' :: b) k s = Ok pss' ->
  exists pa x x' pb, pss = pa ++ x :: pb /\ pss' = pa ++ x' :: pb /\ compile_each a k s = Ok pa.
Proof.
  unfold Draws.compile_each. intros Ho H H'. apply in_turn_app in H as (pa & pb & k' & s' & -> & Ha & Hb & _ & Hc). rewrite Hc in H'. apply rbind_ok in H' as (r & Hr & E). injection E as <-.
  cbn [in_turn] in Hb, Hr. apply rbind_ok in Hb as (x & _ & Hb). apply rbind_ok in Hb as (t & Et & Hb). apply rbind_ok in Hb as (y & Ey & E). injection E as <-.
  apply rbind_ok in Hr as (x' & _ & Hr). apply rbind_ok in Hr as (t' & Et' & Hr). apply rbind_ok in Hr as (y' & Ey' & E). injection E as <-.
  rewrite <- Ho, Et in Et'. injection Et' as <-. rewrite Ey in Ey'. injection Ey' as <-. exists pa, x, x', y. auto.
Qed.

(* ------------------------------------------------------------------ *)
(** ** Size of the numbers *)
Lemma balanced_leaf real k s : balanced (init_leaf real k s).
Proof. destruct real; split; try reflexivity; [now left|now right]. Qed.
Lemma balanced_two k s k' s' : balanced (Two (mk_draw k s C64) (mk_draw k' s' C64)).
Proof. split; [reflexivity|right; reflexivity]. Qed.
Lemma balanced_one k s : balanced (One (mk_draw k s F32)).
Proof. split; [reflexivity|left; reflexivity]. Qed.
Lemma balanced_leaves k l : Forall balanced (init_leaves k l).
Proof. unfold init_leaves. apply Forall_map, Forall_forall. intros x _. apply balanced_leaf. Qed.

(** Real arrays, and real and imaginary parts of complex ones, have mean square
    [init_magnitude^2], unless there is a complex AffineTensor. *)
Theorem C123_size_partial m : forall k s ps, tame m = true -> compile m k s = Ok ps -> Forall balanced ps.
Proof.
  induction m as [m IH] using module_nested_ind; intros k s ps T; destruct m; cbn [Draws.compile].
  - intros E. injection E as <-. constructor.
  - destruct given; [intros E; injection E as <-; constructor|]. destruct scalar; [intros E; injection E as <-; constructor; [apply balanced_leaf|constructor]|].
    destruct s; intros E; injection E as <-; try apply balanced_leaves. constructor; [apply balanced_leaf|constructor].
  - destruct given; [intros E; injection E as <-; constructor|]. destruct (negb trainable); [discriminate|]. destruct (_ =? _)%nat; [|discriminate].
    intros E; injection E as <-; apply balanced_leaves.
  - destruct given as [s0|]; [destruct (eqb s0 s); [|discriminate]; intros E; injection E as <-; constructor|].
    destruct single; intros E; injection E as <-; [constructor; [apply balanced_leaf|constructor]|apply balanced_leaves].
  - intros E. apply rbind_ok in E as (l & _ & E). destruct given; [injection E as <-; constructor|]. destruct l as [|x l]; [injection E as <-; constructor|].
    destruct (negb trainable); [discriminate|]. destruct real; injection E as <-; (constructor; [|apply Forall_map, Forall_forall; intros y _]);
      first [apply balanced_one|apply balanced_two].
  - intros E. apply rbind_ok in E as (d & _ & E). destruct given as [q|]; [destruct (_ =? _)%nat in E; [injection E as <-; constructor|discriminate]|].
    destruct n; [injection E as <-; constructor; [apply balanced_two|constructor]|discriminate].
  - cbn [tame] in T. subst real. intros E. apply rbind_ok in E as (d & _ & E). destruct given as [q|]; [destruct (_ =? _)%nat in E; [injection E as <-; constructor|discriminate]|].
    injection E as <-. constructor; [apply balanced_one|constructor].
  - intros E. apply rbind_ok in E as (d & _ & E). destruct given as [q|]; [destruct (_ =? _)%nat in E; [injection E as <-; constructor|discriminate]|].
    destruct n; [|discriminate]. destruct r; [|discriminate]. injection E as <-. constructor; [apply balanced_two|constructor; [apply balanced_one|constructor]].
  - destruct observables; [|discriminate]. destruct outputs; [|discriminate]. intros E. apply rbind_ok in E as (d & _ & E).
    destruct given as [[a b]|]; [destruct (_ && _)%bool in E; [injection E as <-; constructor|discriminate]|]. injection E as <-. constructor; [apply balanced_two|constructor].
  - intros E. apply rbind_ok in E as (l & El & E). injection E as <-. cbn [tame] in T. clear - IH T El. revert k s l El.
    induction IH as [|m ms Hm F IHl]; intros k s l; cbn [in_turn]; [intros E; injection E as <-; constructor|].
    cbn [forallb] in T. apply andb_true_iff in T as [T1 T2]. intros E. apply rbind_ok in E as (a & Ea & E). apply rbind_ok in E as (s' & _ & E). apply rbind_ok in E as (r & Er & E). injection E as <-.
    cbn [concat]. apply Forall_app. split; [exact (Hm _ _ _ T1 (runtime_ok _ _ Ea))|exact (IHl T2 _ _ _ Er)].
  - intros E. apply rbind_ok in E as (ss & _ & E). apply rbind_ok in E as (l & El & E). injection E as <-. cbn [tame] in T. clear - IH T El. revert k ss l El.
    induction IH as [|m ms Hm F IHl]; intros k ss l; cbn [in_order]; [intros E; injection E as <-; constructor|]. destruct ss as [|s ss]; [discriminate|].
    cbn [forallb] in T. apply andb_true_iff in T as [T1 T2]. intros E. apply rbind_ok in E as (a & Ea & E). apply rbind_ok in E as (r & Er & E). injection E as <-.
    cbn [concat]. apply Forall_app. split; [exact (Hm _ _ _ T1 (runtime_ok _ _ Ea))|exact (IHl T2 _ _ _ Er)].
Qed.
End Main.

(* ------------------------------------------------------------------ *)
(** ** Examples *)
Definition x_eqb (s t : shapes) : bool := tree_eqb shape_eqb s t.
Definition x_out (m : module) (s : shapes) : result shapes :=
  match m with
  | Hermitian _ (Some n) _ => Ok (Leaf [n; n])
  | Sum _ _ (Some q) => Ok (Leaf [q])
  | Tensor _ dims _ _ => Ok (Leaf dims)
  | _ => Ok s
  end.
Definition x_prog (ms : list module) (s : shapes) : result (list shapes) := Ok (map (fun _ => s) ms).
(** observable PMM with a bias, followed by a graph of two modules; the
    eigenvector module in between draws nothing *)
Definition x_model : list module :=
  [Seq [Hermitian None (Some 3) true; Plain; Sum None (Some 2) (Some 4); Bias false true false]; Graph [PReLU None false true; Tensor None [2] false true]].

Example C123_example :
  (let* l := compile_each x_eqb x_out x_prog x_model [] (Leaf [2]) in Ok (map keys_of l)) =
  Ok [[[1; 1; 0]; [1; 1; 1]; [1; 0; 0; 1; 0]; [1; 0; 0; 1; 1]; [1; 0; 0; 0; 1]]; [[0; 1; 1; 0]; [0; 1; 1; 1]; [0; 1; 0; 1; 0]; [0; 1; 0; 1; 1]]].
Proof. vm_compute. reflexivity. Qed.
(** keys that are all different: the paths themselves *)
Example C123_keys_example : keys_differ (fun k i => k ++ [i]) ([] : list nat).
Proof.
  assert (H : forall (p k : list nat), key_at (fun k i => k ++ [i]) k p = k ++ p).
  { unfold key_at. induction p as [|i p IH]; intros k; cbn; [now rewrite app_nil_r|]. rewrite IH, <- app_assoc. reflexivity. }
  intros p q. rewrite !H. auto.
Qed.
(** the first module given, the draws of the others as before *)
Example C123_others_example :
  compile_each x_eqb x_out x_prog [Hermitian (Some 3) (Some 3) true; Plain; Sum None (Some 2) (Some 4)] [] (Leaf [2]) =
  Ok [[]; []; [Two (mk_draw [0; 0; 1; 0] [4; 2; 3; 3] C64) (mk_draw [0; 0; 1; 1] [4; 2; 3; 3] C64)]] /\
  compile_each x_eqb x_out x_prog [Hermitian None (Some 3) true; Plain; Sum None (Some 2) (Some 4)] [] (Leaf [2]) =
  Ok [[Two (mk_draw [1; 0] [3; 3; 3] C64) (mk_draw [1; 1] [3; 3; 3] C64)]; [];
      [Two (mk_draw [0; 0; 1; 0] [4; 2; 3; 3] C64) (mk_draw [0; 0; 1; 1] [4; 2; 3; 3] C64)]].
Proof. split; reflexivity. Qed.

(** Complex initial parameters have real and imaginary parts of the same size. *)
Definition C123_size_always : Prop := forall m k s ps, compile x_eqb x_out x_prog m k s = Ok ps -> Forall balanced ps.
(** False for a complex AffineTensor, whose real parts have mean square 3/2 and
    imaginary parts 1/2 (in units of the squared magnitude). *)
Theorem C123_size_refuted : ~ C123_size_always /\
  exists p, compile x_eqb x_out x_prog (Tensor None [2; 2] false true) [] (Leaf [3]) = Ok [p] /\ spread p = (3 # 2, 1 # 2)%Q.
Proof.
  split.
  - intros H. specialize (H (Tensor None [2; 2] false true) [] (Leaf [3]) _ eq_refl). inversion H as [|p l [B _] _ E]. discriminate B.
  - eexists. split; reflexivity.
Qed.

Print Assumptions C123_independent. Print Assumptions C123_own_key. Print Assumptions C123_different. Print Assumptions C123_later.
Print Assumptions C123_others. Print Assumptions C123_size_partial. Print Assumptions C123_size_refuted.
