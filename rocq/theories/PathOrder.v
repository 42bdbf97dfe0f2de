(** The tree of places built from paths flattens in the order of the data (C52). *)
From Coq Require Import Permutation.
From Verif Require Import Base BaseLemmas TreeUtil TreeSpec TreeProofs ExtendProofs MutableProofs NonSeqSpec NonSeqProofs NonSeqRun NonSeqNet Seq SeqSpec ConnProofs SeqProofs SeqOrder TrainArgs TrainArgsProofs ConcatProofs.
Local Open Scope string_scope.
Local Open Scope list_scope.
Local Open Scope nat_scope.

Section Similar.
Context {X Y : Type}.
Definition kin (c : tree X) (u : tree Y) : Prop :=
  match c, u with
  | Leaf _, Leaf _ | Dict _, Dict _ | Lst _, Lst _ | Lst _, Tup _ => True
  | _, _ => False
  end.
(** [t] is a part of [u], with None in places *)
Definition similar (t : tree X) (u : tree Y) : Prop :=
  forall ks c, walk t ks = Some c -> c <> NoneT -> exists v, walk u ks = Some v /\ kin c v.
Definition named (u : tree Y) : Prop := forall ks e k v, walk u ks = Some (Dict e) -> dget e k = Some v -> isdigit k = false.

Lemma named_child u k v : named u -> child u k = Some v -> named v.
Proof. intros H Hc ks e k' v' Hw. apply (H (k :: ks)). cbn [walk]. rewrite Hc. exact Hw. Qed.
Lemma sim_kin t u : similar t u -> t <> NoneT -> kin t u.
Proof. intros H Hn. destruct (H [] t eq_refl Hn) as (v & Hv & K). injection Hv as <-. exact K. Qed.
Lemma sim_child t u k c : similar t u -> child t k = Some c -> c <> NoneT -> exists v, child u k = Some v /\ similar c v.
Proof.
  intros H Hc Hn. destruct (H [k] c) as (v & Hv & K); [cbn; rewrite Hc; reflexivity|exact Hn|].
  cbn in Hv. destruct (child u k) as [v'|] eqn:E; [|discriminate]. injection Hv as ->. exists v. split; [reflexivity|].
  intros ks c' Hw Hn'. destruct (H (k :: ks) c') as (w & Hw' & K'); [cbn; rewrite Hc; exact Hw|exact Hn'|].
  exists w. cbn in Hw'. rewrite E in Hw'. auto.
Qed.
Lemma sim_intro t u : kin t u -> (forall k c, child t k = Some c -> c <> NoneT -> exists v, child u k = Some v /\ similar c v) -> similar t u.
Proof.
  intros K H [|k ks] c Hw Hn.
  - injection Hw as <-. exists u. auto.
  - cbn in Hw. destruct (child t k) as [c'|] eqn:E; [|discriminate].
    assert (Hn' : c' <> NoneT) by (intros ->; destruct ks as [|? ?]; cbn in Hw; [injection Hw as <-; congruence|discriminate]).
    destruct (H k c' E Hn') as (v & Hv & S). destruct (S ks c Hw Hn) as (w & Hw' & K'). exists w. cbn. rewrite Hv. auto.
Qed.
Lemma sim_leaf x y : similar (Leaf x) (Leaf y).
Proof. apply sim_intro; [exact I|]. intros k c H. discriminate. Qed.
Lemma sim_new nk u v : named u -> child u nk = Some v -> similar (new_node nk) u.
Proof.
  intros Hn Hc. unfold new_node. destruct (isdigit nk) eqn:E.
  - apply sim_intro; [destruct u; cbn in *; try discriminate; try exact I|].
    + pose proof (Hn [] _ nk v eq_refl Hc). congruence.
    + intros k c H. cbn in H. destruct (isdigit k); [|discriminate]. rewrite nth_error_nil in H. discriminate.
  - apply sim_intro; [destruct u; cbn in *; try discriminate; try exact I; rewrite E in Hc; discriminate|]. intros k c H. discriminate.
Qed.

Lemma sim_leaf_pos t p x : leaf_pos t p x -> forall u, similar t u -> exists y, leaf_pos u p y.
Proof.
  induction 1 as [x|d k c p x Hg Hl IH|l i c p x Hg Hl IH|l i c p x Hg Hl IH]; intros u S.
  - pose proof (sim_kin _ _ S ltac:(discriminate)) as K. destruct u; try destruct K. eexists. constructor.
  - pose proof (sim_kin _ _ S ltac:(discriminate)) as K. destruct u as [| |e| |]; try destruct K.
    destruct (sim_child _ _ k c S Hg) as (v & Hv & Sv); [intros ->; inversion Hl|]. destruct (IH v Sv) as (y & Hy). exists y. econstructor; [exact Hv|exact Hy].
  - pose proof (sim_kin _ _ S ltac:(discriminate)) as K.
    destruct (sim_child _ _ (str_of i) c S) as (v & Hv & Sv); [rewrite child_lst; exact Hg|intros ->; inversion Hl|]. destruct (IH v Sv) as (y & Hy).
    destruct u as [| | |m|m]; try destruct K; [rewrite child_lst in Hv|rewrite child_tup in Hv]; exists y; econstructor; eassumption.
  - destruct (sim_kin _ _ S ltac:(discriminate)).
Qed.
Lemma sim_before t p q : before t p q -> forall u, similar t u -> before u p q.
Proof.
  induction 1 as [d k1 k2 p q H|l i j p q H|l i j p q H|t c k p q Hc H IH]; intros u S.
  - pose proof (sim_kin _ _ S ltac:(discriminate)) as K. destruct u; try destruct K. constructor. exact H.
  - pose proof (sim_kin _ _ S ltac:(discriminate)) as K. destruct u; try destruct K; constructor; exact H.
  - destruct (sim_kin _ _ S ltac:(discriminate)).
  - destruct (sim_child _ _ k c S Hc) as (v & Hv & Sv).
    { intros ->. clear -H. inversion H; discriminate. }
    econstructor; [exact Hv|apply IH; exact Sv].
Qed.
Lemma named_same_keys ks : forall ks' (u : tree Y) v, same_keys ks ks' -> named u -> walk u ks' = Some v -> walk u ks = walk u ks'.
Proof.
  induction ks as [|k ks IH]; intros ks' u v H Hn Hw; inversion H as [|a b l m [ E |(D1 & D2 & E)] H']; subst; [reflexivity| |].
  - cbn in *. destruct (child u b) as [c|] eqn:Ec; [|discriminate]. eapply IH; [exact H'|eapply named_child; eassumption|exact Hw].
  - cbn in *. assert (Ek : child u k = child u b).
    { destruct u as [| |e|l|l]; cbn; try reflexivity; [|rewrite D1, D2, E; reflexivity..].
      exfalso. cbn in Hw. destruct (dget e b) as [c|] eqn:Eb; [|discriminate]. rewrite (Hn [] e b c eq_refl Eb) in D2. discriminate. }
    rewrite Ek. destruct (child u b) as [c|] eqn:Ec; [|discriminate]. eapply IH; [exact H'|eapply named_child; eassumption|exact Hw].
Qed.
End Similar.

Section Extend.
Context {Y : Type} (sep : ascii).
Notation similar := (@similar nat Y).
Lemma extend_similar parts : forall (t : tree nat) done i t' rec (u : tree Y) x,
  t <> NoneT -> similar t u -> named u -> walk u parts = Some (Leaf x) ->
  extend_walk Nat.eqb sep t done parts (Leaf i) = Ok (t', rec) -> t' <> NoneT /\ similar t' u.
Proof.
  induction parts as [|key parts IH]; intros t done i t' rec u x Ht S Hn Hw H.
  - injection H as <- <-. auto.
  - cbn [extend_walk] in H. pose proof (sim_kin _ _ S Ht) as K. cbn [walk] in Hw. destruct (child u key) as [v|] eqn:Ev; [|discriminate].
    destruct t as [a| |d|l|l]; try discriminate; [|clear Ht|destruct K].
    + unfold extend_node in H. destruct u as [| |e| |]; try destruct K.
      assert (Hset : forall c, similar c v -> similar (Dict (dset d key c)) (Dict e)).
      { intros c Sc. apply sim_intro; [exact I|]. intros k c' Hc Hn'. cbn [child] in Hc. destruct (String.eqb_spec key k) as [ -> |Hne].
        - rewrite dget_dset_same in Hc. injection Hc as <-. exists v. auto.
        - rewrite dget_dset_other in Hc by exact Hne. apply (sim_child _ _ k c' S Hc Hn'). }
      destruct parts as [|nk parts'].
      * injection Hw as ->. destruct (dget d key) as [old|] eqn:Ed.
        -- destruct (conflict _ _ _); [discriminate|]. injection H as <- <-. split; [discriminate|exact S].
        -- injection H as <- <-. split; [discriminate|]. apply Hset, sim_leaf.
      * apply rbind_ok in H as ([c' rc] & H1 & H). injection H as <- <-. split; [discriminate|]. apply Hset.
        eapply (IH _ _ _ _ _ v x); [| |eapply named_child; eassumption|exact Hw|exact H1].
        -- destruct (dget d key) as [c|] eqn:Ed; [|unfold new_node; destruct (isdigit nk); discriminate]. intros ->. discriminate H1.
        -- destruct (dget d key) as [c|] eqn:Ed.
           ++ assert (Hcn : c <> NoneT) by (intros ->; discriminate H1). destruct (sim_child _ _ key c S Ed Hcn) as (v' & Ev' & S'). cbn [child] in Ev, Ev'. assert (v' = v) as <- by congruence. exact S'.
           ++ cbn [walk] in Hw. destruct (child v nk) as [w|] eqn:Ew; [|discriminate]. eapply sim_new; [eapply named_child; eassumption|exact Ew].
    + unfold extend_node in H. destruct (isdigit key) eqn:Dk; [|discriminate].
      destruct (pad_length l (int_of key)) as [PL _].
      assert (Hpad : forall k c, child (Lst (pad l (int_of key))) k = Some c -> c <> NoneT -> child (Lst l) k = Some c).
      { intros k c Hc Hn'. cbn in *. destruct (isdigit k); [|discriminate]. eapply nth_error_pad_some; eassumption. }
      assert (Sp : similar (Lst (pad l (int_of key))) u).
      { apply sim_intro; [exact K|]. intros k c Hc Hn'. apply (sim_child _ _ k c S); [apply Hpad; assumption|exact Hn']. }
      assert (Hset : forall c, similar c v -> similar (Lst (upd (pad l (int_of key)) (int_of key) c)) u).
      { intros c Sc. apply sim_intro; [exact K|]. intros k c' Hc Hn'. cbn [child] in Hc. destruct (isdigit k) eqn:D; [|discriminate].
        destruct (Nat.eq_dec (int_of key) (int_of k)) as [E|E].
        - rewrite <- E, nth_upd_same in Hc by exact PL. injection Hc as <-. exists v. split; [|exact Sc].
          rewrite <- Ev. destruct u; try destruct K; cbn; rewrite D, Dk, E; reflexivity.
        - rewrite nth_upd_other in Hc by exact E. apply (sim_child _ _ k c' Sp); [cbn; rewrite D; exact Hc|exact Hn']. }
      assert (Hkey : nth (int_of key) (pad l (int_of key)) NoneT <> NoneT -> similar (nth (int_of key) (pad l (int_of key)) NoneT) v).
      { intros Hn'. destruct (sim_child _ _ key (nth (int_of key) (pad l (int_of key)) NoneT) Sp) as (v' & Ev' & S'); [|exact Hn'|assert (v' = v) as <- by congruence; exact S'].
        cbn. rewrite Dk. apply nth_nth_error. exact PL. }
      destruct parts as [|nk parts'].
      * injection Hw as ->. destruct (nth (int_of key) (pad l (int_of key)) NoneT) as [a| |d0|l0|l0] eqn:En.
        2: { injection H as <- <-. split; [discriminate|]. apply Hset, sim_leaf. }
        all: destruct (conflict _ _ _); [discriminate|]; injection H as <- <-; split; [discriminate|exact Sp].
      * apply rbind_ok in H as ([c' rc] & H1 & H). injection H as <- <-. split; [discriminate|]. apply Hset.
        assert (Snew : similar (new_node nk) v).
        { cbn [walk] in Hw. destruct (child v nk) as [w|] eqn:Ew; [|discriminate]. eapply sim_new; [eapply named_child; eassumption|exact Ew]. }
        eapply (IH _ _ _ _ _ v x); [| |eapply named_child; eassumption|exact Hw|exact H1].
        -- destruct (nth (int_of key) (pad l (int_of key)) NoneT); try discriminate. unfold new_node. destruct (isdigit nk); discriminate.
        -- destruct (nth (int_of key) (pad l (int_of key)) NoneT); try (apply Hkey; discriminate). exact Snew.
Qed.

Definition leads (u : tree Y) (p : string) : Prop := p <> "" /\ exists x, walk u (split sep p) = Some (Leaf x).
Lemma extend_fold_similar pfs (u : tree Y) : named u -> forall (t : tree nat) r0 t' r, t <> NoneT -> similar t u ->
  Forall (fun pf => leads u (fst pf) /\ exists i, snd pf = Leaf i) pfs ->
  rfold (fun '(t, recs) '(p, fill) =>
           let* (t', r) := extend_walk Nat.eqb sep t [] (split sep p) fill in Ok (t', recs ++ r))
        pfs (t, r0) = Ok (t', r) -> similar t' u.
Proof.
  intros Hn. induction pfs as [|[p f] pfs IH]; intros t r0 t' r Ht S F H.
  - injection H as <- _. exact S.
  - cbn [rfold] in H. apply rbind_ok in H as ([b1 r2] & H1 & H2). apply rbind_ok in H1 as ([b2 r3] & H1 & H3). injection H3 as <- <-.
    destruct (Forall_inv F) as ((_ & x & Hx) & i & Ei). cbn [fst snd] in *. subst f.
    destruct (extend_similar _ _ _ _ _ _ u x Ht S Hn Hx H1) as [N' S']. eapply IH; [exact N'|exact S'|exact (Forall_inv_tail F)|exact H2].
Qed.
Lemma first_key p : exists ks, split sep p = fst (split1 sep p) :: ks.
Proof. rewrite split1_spec. destruct (split sep p) as [|k [|k' ks]] eqn:E; [|eexists; reflexivity..]. exfalso. destruct p as [|c p]; cbn in E; [discriminate|]. destruct (Ascii.eqb c sep); [discriminate|]. destruct (split sep p); discriminate. Qed.
Lemma extend_none_similar paths idxs (t : tree nat) u : named u -> paths <> [] -> Forall (leads u) paths -> length idxs = length paths ->
  extend_structure Nat.eqb sep None paths (FillList (map (@Leaf nat) idxs)) = Ok t -> wf_tree t /\ similar t u.
Proof.
  intros Hn Hne HF Hlen H. split.
  { eapply extend_none_wf; [|exact H]. intros f Hf. apply in_map_iff in Hf as (i & <- & _). split; constructor. }
  unfold extend_structure in H. destruct (_ =? _); [|discriminate]. cbn [negb] in H.
  set (b := if forallb _ _ then Lst [] else Dict []) in H.
  assert (Hb : b <> NoneT /\ tuple_free b /\ similar b u).
  { split; [subst b; destruct (forallb _ _); discriminate|]. split; [subst b; destruct (forallb _ _); repeat constructor|].
    destruct paths as [|p paths]; [congruence|]. destruct (Forall_inv HF) as (Hp & x & Hx). destruct (first_key p) as (ks & Ek).
    rewrite Ek in Hx. cbn [walk] in Hx. destruct (child u (fst (split1 sep p))) as [v|] eqn:Ev; [|discriminate].
    assert (Eb : b = new_node (fst (split1 sep p))).
    { unfold new_node. subst b. cbn [filter]. destruct (String.eqb_spec p ""); [congruence|]. cbn [negb map forallb].
      destruct (isdigit (fst (split1 sep p))) eqn:D; [|reflexivity]. cbn [andb].
      assert (FB : forallb isdigit (map (fun p0 => fst (split1 sep p0)) (filter (fun p0 => negb (String.eqb p0 "")) paths)) = true).
      { rewrite forallb_forall. intros k Hk. apply in_map_iff in Hk as (q & <- & Hq). apply filter_In in Hq as [Hq _].
        apply Forall_inv_tail in HF. rewrite Forall_forall in HF. destruct (HF q Hq) as (_ & y & Hy). destruct (first_key q) as (ks' & Ek').
        rewrite Ek' in Hy. cbn [walk] in Hy. destruct u as [| |e|l|l]; cbn [child] in *; try discriminate.
        - rewrite (Hn [] e _ v eq_refl Ev) in D. discriminate.
        - destruct (isdigit (fst (split1 sep q))); [reflexivity|discriminate].
        - destruct (isdigit (fst (split1 sep q))); [reflexivity|discriminate]. }
      rewrite FB. reflexivity. }
    rewrite Eb. eapply sim_new; [exact Hn|exact Ev]. }
  assert (Hbt : (match b with Tup l => (Lst l, true) | _ => (b, false) end) = (b, false)).
  { subst b; destruct (forallb _ _); reflexivity. }
  rewrite Hbt in H. clear Hbt. clearbody b. destruct Hb as (Hb1 & Hb2 & Hb3).
  apply rbind_ok in H as ([t1 recs] & H1 & H).
  assert (Hfs : Forall (fun pf => leads u (fst pf) /\ exists i, snd pf = Leaf i) (combine paths (map (@Leaf nat) idxs))).
  { apply Forall_forall. intros [p f] Hpf. cbn [fst snd]. split.
    - apply in_combine_l in Hpf. rewrite Forall_forall in HF. auto.
    - apply in_combine_r in Hpf. apply in_map_iff in Hpf as (i & <- & _). eauto. }
  assert (G1 : recs = []).
  { apply extend_fold_settable in H1 as [_ [G _]]; [exact G|exact Hb2|].
    eapply Forall_impl; [|exact Hfs]. intros [p f] [_ (i & E)]. cbn in *. subst. constructor. }
  subst recs. cbn in H. injection H as <-.
  eapply extend_fold_similar; [exact Hn|exact Hb1|exact Hb3|exact Hfs|exact H1].
Qed.

Lemma ordered_nodup {X} (R : X -> X -> Prop) l : (forall x, ~ R x x) -> ordered R l -> NoDup l.
Proof. intros H. induction 1 as [|x l Hx _ IH]; constructor; [|exact IH]. intros Hin. exact (H x (Hx x Hin)). Qed.
Lemma ordered_impl {X} (R Q : X -> X -> Prop) l : (forall x y, R x y -> Q x y) -> ordered R l -> ordered Q l.
Proof. intros H. induction 1 as [|x l Hx _ IH]; constructor; auto. Qed.
Lemma F2_join {A B C} (P : A -> B -> Prop) (Q : A -> C -> Prop) l : forall m n, Forall2 P l m -> Forall2 Q l n -> Forall2 (fun b c => exists a, P a b /\ Q a c) m n.
Proof. induction l as [|a l IH]; intros m n H1 H2; inversion H1; inversion H2; subst; constructor; eauto. Qed.

(** the positions of a tree, and its leaves there *)
Lemma sequence_of {X} (t : tree X) : wf_tree t -> in_sequence t (poss (treedef t)) /\ Forall2 (fun p x => walk t p = Some (Leaf x)) (poss (treedef t)) (leaves t).
Proof.
  intros W. pose proof (treedef_wf t W) as W'. split; [split|].
  - eapply ordered_impl; [|apply (ordered_poss t W)]. intros p q. apply before_treedef. exact W.
  - intros p. rewrite (In_poss _ W'). split; intros (x & Hx); exists x; apply (leaf_pos_treedef t W); exact Hx.
  - rewrite leaves_treedef. pose proof (def_leaves_poss _ W') as F. induction F as [|p x ps xs H F IH]; constructor; [|exact IH].
    rewrite walk_treedef in H by exact W. destruct (walk t p) as [c|]; [|discriminate]. cbn in H. injection H as H. destruct c; try discriminate. injection H as <-. reflexivity.
Qed.

Theorem placed paths idxs (t : tree nat) (u : tree Y) : named u -> wf_tree u -> NoDup idxs -> paths <> [] -> Forall (leads u) paths ->
  length idxs = length paths -> length (leaves u) = length paths ->
  extend_structure Nat.eqb sep None paths (FillList (map (@Leaf nat) idxs)) = Ok t ->
  Permutation (leaves t) idxs /\
  Forall2 (fun i x => exists k p, nth_error paths k = Some p /\ nth_error idxs k = Some i /\ walk u (split sep p) = Some (Leaf x)) (leaves t) (leaves u).
Proof.
  intros Hn Wu Hnd Hne HF Hlen Hlu H. destruct (extend_none_similar _ _ _ _ Hn Hne HF Hlen H) as [Wt S].
  pose proof (extend_structure_post Nat.eqb (fun a b E => proj1 (Nat.eqb_eq a b) E) sep _ _ _ _ H) as Post.
  cbn zeta in Post. destruct Post as (_ & _ & P1 & P2).
  destruct (sequence_of t Wt) as [[Ot It] Ft]. destruct (sequence_of u Wu) as [[Ou Iu] Fu].
  assert (Lt : length (poss (treedef t)) = length (leaves t)) by (clear -Ft; induction Ft; cbn; congruence).
  assert (Lu : length (poss (treedef u)) = length (leaves u)) by (clear -Fu; induction Fu; cbn; congruence).
  assert (Inc : incl idxs (leaves t)).
  { intros i Hi. apply In_nth_error in Hi as (k & Hk). destruct (nth_error paths k) as [p|] eqn:Ep.
    - assert (Hw := P1 k p i Ep ltac:(rewrite nth_error_map, Hk; reflexivity)).
      apply leaves_has_leaf. eapply leaf_at. exact Hw.
    - apply nth_error_None in Ep. assert (k < length idxs) by (apply nth_error_Some; congruence). lia. }
  pose proof (NoDup_incl_length Hnd Inc) as Le.
  assert (Nt : NoDup (poss (treedef t))) by (eapply ordered_nodup; [|exact Ot]; intros p Hp; exact (before_asym t p p Hp Hp)).
  assert (Sub : incl (poss (treedef t)) (poss (treedef u))).
  { intros p Hp. apply Iu. apply It in Hp as (x & Hx). exact (sim_leaf_pos _ _ _ Hx u S). }
  assert (Sup : incl (poss (treedef u)) (poss (treedef t))) by (apply NoDup_length_incl; [exact Nt|lia|exact Sub]).
  assert (E : poss (treedef t) = poss (treedef u)).
  { eapply (ordered_unique (before u)); [apply (before_asym u)| |exact Ou|intros p; split; [apply Sub|apply Sup]].
    eapply ordered_impl; [|exact Ot]. intros p q Hpq. exact (sim_before _ _ _ Hpq u S). }
  split.
  - apply Permutation_sym. apply NoDup_Permutation_bis; [exact Hnd|rewrite <- Lt, E; lia|exact Inc].
  - rewrite E in Ft. pose proof (F2_join _ _ _ _ _ Ft Fu) as F. clear -F P2 HF Hn. induction F as [|i x l m (p & Hi & Hx) F IH]; constructor; [|exact IH].
    destruct (P2 p i Hi) as [(b & Eb & _)|(k & q & fill & k1 & k2 & Hk & Hfill & Ep & Hs & Hw)]; [discriminate|].
    rewrite nth_error_map in Hfill. destruct (nth_error idxs k) as [j|] eqn:Ej; [|discriminate]. injection Hfill as <-.
    destruct k2 as [|a k2]; [|discriminate]. injection Hw as ->. rewrite app_nil_r in Ep. subst k1. exists k, q. split; [exact Hk|]. split; [exact Ej|].
    rewrite Forall_forall in HF. destruct (HF q (nth_error_In _ _ Hk)) as (_ & y & Hy).
    rewrite <- Hx. symmetry. eapply named_same_keys; [exact Hs|exact Hn|exact Hy].
Qed.
End Extend.
