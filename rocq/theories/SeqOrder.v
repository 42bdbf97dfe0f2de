(** The flattening order (C17). *)
From Verif Require Import Base BaseLemmas TreeUtil TreeSpec TreeProofs ExtendProofs MutableProofs NonSeqSpec NonSeqProofs Seq SeqSpec ConnProofs SeqProofs.
From Coq Require Import Permutation Sorted.
Local Open Scope list_scope.

Lemma str_leb_before s : forall t, str_leb s t = true -> s = t \/ str_before s t.
Proof.
  induction s as [|c s IH]; intros [|d t] H; auto; [right; constructor|discriminate|].
  cbn [str_leb] in H. cbv zeta in H. apply orb_true_iff in H as [H|H].
  - right. apply sb_chr. apply Nat.ltb_lt. exact H.
  - apply andb_true_iff in H as [E H]. apply Nat.eqb_eq in E.
    assert (c = d) as -> by (rewrite <- (ascii_nat_embedding c), E; apply ascii_nat_embedding).
    destruct (IH t H) as [->|Hb]; [left; reflexivity|right; apply sb_rest; exact Hb].
Qed.
Lemma str_before_irrefl s : ~ str_before s s.
Proof. induction s as [|c s IH]; intros H; inversion H; subst; [lia|auto]. Qed.
Lemma str_before_asym s t : str_before s t -> ~ str_before t s.
Proof. induction 1; intros H'; inversion H'; subst; try lia; auto. Qed.

Lemma before_asym {A} (t : tree A) p q : before t p q -> ~ before t q p.
Proof.
  induction 1 as [d k1 k2 p q H|l i j p q H|l i j p q H|t u k p q Hc H IH]; intros H'; inversion H'; subst.
  - eapply str_before_asym; eauto.
  - eapply str_before_irrefl; eauto.
  - repeat match goal with E : str_of _ = str_of _ |- _ => apply str_of_inj in E; subst end. lia.
  - repeat match goal with E : str_of _ = str_of _ |- _ => apply str_of_inj in E; subst end. lia.
  - repeat match goal with E : str_of _ = str_of _ |- _ => apply str_of_inj in E; subst end. lia.
  - repeat match goal with E : str_of _ = str_of _ |- _ => apply str_of_inj in E; subst end. lia.
  - eapply str_before_irrefl; eauto.
  - repeat match goal with E : str_of _ = str_of _ |- _ => apply str_of_inj in E; subst end. lia.
  - repeat match goal with E : str_of _ = str_of _ |- _ => apply str_of_inj in E; subst end. lia.
  - match goal with G : child _ _ = Some ?v |- _ => assert (v = u) by congruence; subst end. auto.
Qed.

Lemma ordered_unique {X} (R : X -> X -> Prop) (Has : forall x y, R x y -> ~ R y x) l : forall m,
  ordered R l -> ordered R m -> (forall x, In x l <-> In x m) -> l = m.
Proof.
  induction l as [|x l IH]; intros m Hl Hm E.
  - destruct m as [|y m]; [reflexivity|]. exfalso. apply (E y). left; reflexivity.
  - destruct m as [|y m]; [exfalso; apply (E x); left; reflexivity|].
    inversion Hl as [|? ? Hx Hl']; subst. inversion Hm as [|? ? Hy Hm']; subst.
    assert (x = y) as <-.
    { destruct (proj1 (E x) (or_introl eq_refl)) as [->|Hxm]; [reflexivity|].
      destruct (proj2 (E y) (or_introl eq_refl)) as [->|Hyl]; [reflexivity|].
      exfalso. eapply Has; [apply Hx; exact Hyl|apply Hy; exact Hxm]. }
    f_equal. apply IH; [exact Hl'|exact Hm'|]. intros z. split; intros Hz.
    + destruct (proj1 (E z) (or_intror Hz)) as [<-|H]; [|exact H]. exfalso. eapply Has; [apply Hx, Hz|apply Hx, Hz].
    + destruct (proj2 (E z) (or_intror Hz)) as [<-|H]; [|exact H]. exfalso. eapply Has; [apply Hy, Hz|apply Hy, Hz].
Qed.

Theorem in_sequence_unique {A} (t : tree A) s1 s2 : in_sequence t s1 -> in_sequence t s2 -> s1 = s2.
Proof.
  intros [O1 E1] [O2 E2]. eapply (ordered_unique (before t)); [apply (before_asym t)|exact O1|exact O2|].
  intros p. rewrite E1, E2. reflexivity.
Qed.

(* ---- treedef ---- *)
Definition tdkv {X} (kv : string * tree X) := (fst kv, treedef (snd kv)).
Lemma treedef_dict {X} (d : list (string * tree X)) : treedef (Dict d) = Dict (map tdkv (sort_kvs d)).
Proof. simpl. f_equal. apply (sort_kvs_map (fun kv : string * tree X => (fst kv, treedef (snd kv)))). reflexivity. Qed.

Lemma treedef_wf {X} (t : tree X) : wf_tree t -> wf_tree (treedef t).
Proof.
  induction t as [x| |d IH|l IH|l IH] using tree_ind2; intros H; inversion H as [| |d' Hnd Hf|l' Hf|l' Hf]; subst.
  - constructor.
  - constructor.
  - rewrite treedef_dict. constructor.
    + unfold dkeys, tdkv. rewrite map_map. simpl. eapply Permutation_NoDup; [|exact Hnd].
      unfold dkeys. apply Permutation_map. symmetry. apply sort_kvs_perm.
    + apply Forall_map. unfold tdkv. simpl. apply (Permutation_Forall (Permutation_sym (sort_kvs_perm _))).
      rewrite Forall_forall in *. intros kv Hi. apply IH; auto.
  - simpl. constructor. apply Forall_map. rewrite Forall_forall in *. auto.
  - simpl. constructor. apply Forall_map. rewrite Forall_forall in *. auto.
Qed.

Lemma child_treedef {X} (t : tree X) k : wf_tree t -> child (treedef t) k = option_map treedef (child t k).
Proof.
  intros H. destruct t as [x| |d|l|l]; try reflexivity.
  - inversion H as [| |d' Hnd Hf| |]; subst. rewrite treedef_dict. cbn [child].
    rewrite <- (dget_sort d k Hnd). unfold tdkv. generalize (sort_kvs d). intros e.
    induction e as [|[k' v] e IH]; [reflexivity|]. simpl. destruct (String.eqb k k'); [reflexivity|exact IH].
  - simpl. destruct (isdigit k); [apply nth_error_map|reflexivity].
  - simpl. destruct (isdigit k); [apply nth_error_map|reflexivity].
Qed.

Lemma wf_child {X} (t u : tree X) k : wf_tree t -> child t k = Some u -> wf_tree u.
Proof.
  intros H Hc. destruct t as [x| |d|l|l]; try discriminate; inversion H as [| |d' Hnd Hf|l' Hf|l' Hf]; subst; simpl in Hc.
  - apply dget_In in Hc. rewrite Forall_forall in Hf. apply (Hf _ Hc).
  - destruct (isdigit k); [|discriminate]. apply nth_error_In in Hc. rewrite Forall_forall in Hf. auto.
  - destruct (isdigit k); [|discriminate]. apply nth_error_In in Hc. rewrite Forall_forall in Hf. auto.
Qed.

Lemma walk_treedef {X} p : forall t : tree X, wf_tree t -> walk (treedef t) p = option_map treedef (walk t p).
Proof.
  induction p as [|k p IH]; intros t H; [reflexivity|]. cbn [walk]. rewrite child_treedef by exact H.
  destruct (child t k) as [u|] eqn:E; [|reflexivity]. simpl. apply IH. eapply wf_child; eauto.
Qed.

Lemma leaves_treedef {X} (t : tree X) : leaves t = def_leaves (treedef t).
Proof.
  induction t as [x| |d IH|l IH|l IH] using tree_ind2; try reflexivity.
  - simpl leaves. rewrite treedef_dict. rewrite (sort_kvs_map (fun kv : string * tree X => (fst kv, leaves (snd kv)))) by reflexivity.
    simpl. rewrite !map_map. unfold tdkv. simpl. f_equal. apply map_ext_in. intros [k v] Hi. simpl.
    rewrite Forall_forall in IH. apply (IH (k, v)). eapply Permutation_in; [apply sort_kvs_perm|exact Hi].
  - simpl. f_equal. rewrite map_map. apply map_ext_in. intros a Ha. rewrite Forall_forall in IH. auto.
  - simpl. f_equal. rewrite map_map. apply map_ext_in. intros a Ha. rewrite Forall_forall in IH. auto.
Qed.

Lemma In_ipos ls : forall i p, In p (ipos i ls) <-> exists j ps q, nth_error ls j = Some ps /\ In q ps /\ p = str_of (i + j) :: q.
Proof.
  induction ls as [|ps ls IH]; intros i p; simpl.
  - split; [intros []|intros [j [ps [q [H _]]]]; rewrite nth_error_nil in H; discriminate].
  - rewrite in_app_iff, in_map_iff, IH. split.
    + intros [[q [<- Hq]]|[j [ps' [q [H1 [H2 ->]]]]]].
      * exists 0, ps, q. rewrite Nat.add_0_r. auto.
      * exists (S j), ps', q. rewrite Nat.add_succ_r. auto.
    + intros [[|j] [ps' [q [H1 [H2 ->]]]]].
      * simpl in H1. injection H1 as ->. left. exists q. rewrite Nat.add_0_r. auto.
      * right. exists j, ps', q. rewrite Nat.add_succ_r. auto.
Qed.

Lemma In_poss {X} (t : tree X) : wf_tree t -> forall p, In p (poss t) <-> exists x, leaf_pos t p x.
Proof.
  induction t as [x| |d IH|l IH|l IH] using tree_ind2; intros H p; inversion H as [| |d' Hnd Hf|l' Hf|l' Hf]; subst.
  - simpl. split; [intros [<-|[]]; exists x; constructor|intros [y Hy]; inversion Hy; subst; auto].
  - simpl. split; [intros []|intros [y Hy]; inversion Hy].
  - simpl poss. rewrite in_concat. split.
    + intros [ps [Hps Hp]]. apply in_map_iff in Hps as [[k u] [<- Hi]]. apply in_map_iff in Hp as [q [<- Hq]].
      rewrite Forall_forall in IH, Hf. simpl in Hq. apply (IH (k, u) Hi (Hf _ Hi)) in Hq as [x Hx].
      exists x. simpl. econstructor; [apply In_dget; eassumption|exact Hx].
    + intros [x Hx]. inversion Hx as [|? k u q ? Hg Hl| |]; subst. apply dget_In in Hg.
      exists (map (cons k) (poss u)). split; [apply in_map_iff; exists (k, u); auto|].
      apply in_map. rewrite Forall_forall in IH, Hf. apply (IH (k, u) Hg (Hf _ Hg)). eauto.
  - simpl poss. rewrite In_ipos. split.
    + intros [j [ps [q [H1 [H2 ->]]]]]. rewrite nth_error_map in H1.
      destruct (nth_error l j) as [u|] eqn:E; [|discriminate]. injection H1 as <-.
      rewrite Forall_forall in IH, Hf. assert (Hi := nth_error_In _ _ E). apply (IH u Hi (Hf _ Hi)) in H2 as [x Hx].
      exists x. simpl (0 + j). econstructor; eauto.
    + intros [x Hx]. inversion Hx as [| |? i u q ? Hg Hl|]; subst. exists i, (poss u), q. split; [|split; [|reflexivity]].
      * rewrite nth_error_map, Hg. reflexivity.
      * rewrite Forall_forall in IH, Hf. assert (Hi := nth_error_In _ _ Hg). apply (IH u Hi (Hf _ Hi)). eauto.
  - simpl poss. rewrite In_ipos. split.
    + intros [j [ps [q [H1 [H2 ->]]]]]. rewrite nth_error_map in H1.
      destruct (nth_error l j) as [u|] eqn:E; [|discriminate]. injection H1 as <-.
      rewrite Forall_forall in IH, Hf. assert (Hi := nth_error_In _ _ E). apply (IH u Hi (Hf _ Hi)) in H2 as [x Hx].
      exists x. simpl (0 + j). econstructor; eauto.
    + intros [x Hx]. inversion Hx as [| | |? i u q ? Hg Hl]; subst. exists i, (poss u), q. split; [|split; [|reflexivity]].
      * rewrite nth_error_map, Hg. reflexivity.
      * rewrite Forall_forall in IH, Hf. assert (Hi := nth_error_In _ _ Hg). apply (IH u Hi (Hf _ Hi)). eauto.
Qed.

Lemma leaf_pos_treedef {X} (t : tree X) : wf_tree t -> forall p x, leaf_pos (treedef t) p x <-> leaf_pos t p x.
Proof.
  induction t as [y| |d IH|l IH|l IH] using tree_ind2; intros H p x; inversion H as [| |d' Hnd Hf|l' Hf|l' Hf]; subst; try reflexivity.
  - assert (Hc := fun k => child_treedef (Dict d) k H). rewrite treedef_dict in *. cbn [child] in Hc.
    rewrite Forall_forall in IH, Hf. split; intros Hl; inversion Hl as [|? k u q ? Hg Hl'| |]; subst.
    + rewrite Hc in Hg. destruct (dget d k) as [v|] eqn:E; [|discriminate]. injection Hg as <-.
      econstructor; [exact E|]. apply dget_In in E. apply (IH (k, v) E (Hf _ E)). exact Hl'.
    + econstructor; [rewrite Hc, Hg; reflexivity|]. apply dget_In in Hg. apply (IH (k, u) Hg (Hf _ Hg)). exact Hl'.
  - rewrite Forall_forall in IH, Hf. simpl. split; intros Hl; inversion Hl as [| |? i u q ? Hg Hl'|]; subst.
    + rewrite nth_error_map in Hg. destruct (nth_error l i) as [v|] eqn:E; [|discriminate]. injection Hg as <-.
      econstructor; [exact E|]. apply nth_error_In in E. apply (IH v E (Hf _ E)). exact Hl'.
    + econstructor; [rewrite nth_error_map, Hg; reflexivity|]. apply nth_error_In in Hg. apply (IH u Hg (Hf _ Hg)). exact Hl'.
  - rewrite Forall_forall in IH, Hf. simpl. split; intros Hl; inversion Hl as [| | |? i u q ? Hg Hl']; subst.
    + rewrite nth_error_map in Hg. destruct (nth_error l i) as [v|] eqn:E; [|discriminate]. injection Hg as <-.
      econstructor; [exact E|]. apply nth_error_In in E. apply (IH v E (Hf _ E)). exact Hl'.
    + econstructor; [rewrite nth_error_map, Hg; reflexivity|]. apply nth_error_In in Hg. apply (IH u Hg (Hf _ Hg)). exact Hl'.
Qed.

Lemma before_treedef {X} p : forall (t : tree X) q, wf_tree t -> before (treedef t) p q -> before t p q.
Proof.
  induction p as [|k p IH]; intros t q H Hb; [inversion Hb|].
  inversion Hb as [d k1 k2 p' q' Hs E|l i j p' q' Hs E|l i j p' q' Hs E|t' u k' p' q' Hc Hb' E]; subst.
  - destruct t; try discriminate. constructor. exact Hs.
  - destruct t; try discriminate. constructor. exact Hs.
  - destruct t; try discriminate. constructor. exact Hs.
  - rewrite child_treedef in Hc by exact H. destruct (child t k) as [v|] eqn:E; [|discriminate].
    injection Hc as <-. eapply bf_below; [exact E|]. apply IH; [eapply wf_child; eauto|exact Hb'].
Qed.

Lemma ordered_app {X} (R : X -> X -> Prop) l m :
  ordered R l -> ordered R m -> (forall x y, In x l -> In y m -> R x y) -> ordered R (l ++ m).
Proof.
  induction 1 as [|x l Hx _ IH]; intros Hm Hlm; [exact Hm|]. simpl. constructor.
  - intros y Hy. apply in_app_or in Hy as [Hy|Hy]; [auto|]. apply Hlm; [left; reflexivity|exact Hy].
  - apply IH; [exact Hm|]. intros a b Ha Hb. apply Hlm; [right; exact Ha|exact Hb].
Qed.
Lemma ordered_map {X Y} (R : X -> X -> Prop) (S : Y -> Y -> Prop) (f : X -> Y) l :
  (forall x y, R x y -> S (f x) (f y)) -> ordered R l -> ordered S (map f l).
Proof.
  intros H. induction 1 as [|x l Hx _ IH]; simpl; constructor; [|exact IH].
  intros y Hy. apply in_map_iff in Hy as [z [<- Hz]]. auto.
Qed.

Lemma ordered_ipos {X} (w : tree X) (l : list (tree X)) : forall i,
  Forall (fun t => ordered (before t) (poss t)) l ->
  (forall j x, nth_error l j = Some x -> child w (str_of (i + j)) = Some x) ->
  (forall a b p q, a < b -> before w (str_of a :: p) (str_of b :: q)) ->
  ordered (before w) (ipos i (map poss l)).
Proof.
  induction l as [|x l IH]; intros i Ho Hc Hb; simpl; [constructor|]. apply Forall_cons_iff in Ho as [Hx Ho].
  apply ordered_app.
  - eapply ordered_map; [|exact Hx]. intros p q Hpq. eapply bf_below; [|exact Hpq].
    rewrite <- (Nat.add_0_r i). apply Hc. reflexivity.
  - apply IH; [exact Ho| |exact Hb]. intros j y Hj. rewrite Nat.add_succ_comm. apply Hc. exact Hj.
  - intros p q Hp Hq. apply in_map_iff in Hp as [p' [<- _]]. apply In_ipos in Hq as [j [ps [q' [_ [_ ->]]]]].
    apply Hb. lia.
Qed.

Lemma ordered_poss {X} (t : tree X) : wf_tree t -> ordered (before (treedef t)) (poss (treedef t)).
Proof.
  induction t as [x| |d IH|l IH|l IH] using tree_ind2; intros H; inversion H as [| |d' Hnd Hf|l' Hf|l' Hf]; subst.
  - simpl. constructor; [intros y []|constructor].
  - constructor.
  - assert (Hwf := treedef_wf _ H). rewrite treedef_dict in *. simpl poss.
    assert (Hs : StronglySorted kv_le (sort_kvs d)) by apply sort_kvs_sorted.
    assert (IH' : Forall (fun kv => ordered (before (snd kv)) (poss (snd kv))) (map tdkv (sort_kvs d))).
    { apply Forall_map. unfold tdkv. simpl. apply (Permutation_Forall (Permutation_sym (sort_kvs_perm _))).
      rewrite Forall_forall in *. intros kv Hi. apply IH; auto. }
    assert (Hs' : StronglySorted kv_le (map tdkv (sort_kvs d))).
    { clear -Hs. induction Hs as [|kv l Hl IHl Hk]; simpl; constructor; [exact IHl|].
      apply Forall_map. exact Hk. }
    inversion Hwf as [| |d' Hnd' _| |]; subst. clear IH Hs Hf H Hnd. revert IH' Hs' Hnd' Hwf. generalize (map tdkv (sort_kvs d)). intros e IH Hs Hnd _.
    assert (G : forall e', incl e' e -> StronglySorted kv_le e' -> NoDup (dkeys e') ->
      ordered (before (Dict e)) (concat (map (fun kv => map (cons (fst kv)) (poss (snd kv))) e'))).
    { induction e' as [|[k x] e' IHe]; intros Hi Hse Hne; simpl; [constructor|].
      inversion Hse as [|? ? Hse' Hk]; subst. simpl in Hne. apply NoDup_cons_iff in Hne as [Hnk Hne].
      assert (Hin : In (k, x) e) by (apply Hi; left; reflexivity). apply ordered_app.
      - rewrite Forall_forall in IH. eapply ordered_map; [|apply (IH _ Hin)]. intros p q Hpq.
        eapply bf_below; [|exact Hpq]. simpl. apply In_dget; assumption.
      - apply IHe; [|exact Hse'|exact Hne]. intros z Hz. apply Hi. right; exact Hz.
      - intros p q Hp Hq. apply in_map_iff in Hp as [p' [<- _]]. apply in_concat in Hq as [ps [Hps Hq]].
        apply in_map_iff in Hps as [[k2 x2] [<- Hi2]]. apply in_map_iff in Hq as [q' [<- _]]. simpl. constructor.
        rewrite Forall_forall in Hk. specialize (Hk _ Hi2). unfold kv_le in Hk. simpl in Hk.
        destruct (str_leb_before _ _ Hk) as [->|Hb]; [|exact Hb]. exfalso. apply Hnk. unfold dkeys. apply in_map_iff. exists (k2, x2). auto. }
    apply G; [apply incl_refl|exact Hs|exact Hnd].
  - simpl. apply ordered_ipos.
    + apply Forall_map. rewrite Forall_forall in *. auto.
    + intros j x Hj. rewrite child_lst. exact Hj.
    + intros. constructor. assumption.
  - simpl. apply ordered_ipos.
    + apply Forall_map. rewrite Forall_forall in *. auto.
    + intros j x Hj. rewrite child_tup. exact Hj.
    + intros. constructor. assumption.
Qed.

Theorem treedef_sequence {X} (t : tree X) : wf_tree t -> in_sequence t (poss (treedef t)).
Proof.
  intros H. split.
  - assert (Ho := ordered_poss t H). clear -Ho H. induction Ho as [|x l Hx _ IH]; constructor; [|exact IH].
    intros y Hy. apply before_treedef; auto.
  - intros p. rewrite (In_poss (treedef t) (treedef_wf t H)).
    split; intros [x Hx]; exists x; apply (leaf_pos_treedef t H); exact Hx.
Qed.
