(** Proofs about extend_structure_from_strpaths (C04). *)
From Verif Require Import Base BaseLemmas TreeUtil TreeSpec TreeProofs.

Section ExtendProofs.
Context {A : Type}.
Variable eqA : A -> A -> bool.
Hypothesis eqA_sound : forall a b, eqA a b = true -> a = b.
Variable sep : ascii.

Lemma conflict_leaf old a :
  conflict eqA old (Leaf a) = false -> old = Leaf a.
Proof.
  unfold conflict. rewrite andb_true_r, negb_false_iff.
  destruct old as [b| |d|l|l]; simpl; try discriminate.
  intros H. apply eqA_sound in H as ->. reflexivity.
Qed.

Lemma nth_nth_error {B} (l : list B) i d : i < length l -> nth_error l i = Some (nth i l d).
Proof. revert i; induction l as [|x l IH]; intros [|i] H; simpl in *; try lia; auto. apply IH; lia. Qed.

Lemma pad_length (l : list (tree A)) i : i < length (pad l i) /\ length l <= length (pad l i).
Proof. unfold pad. rewrite app_length, repeat_length. lia. Qed.

Lemma nth_error_pad (l : list (tree A)) i j :
  nth_error (pad l i) j =
  match nth_error l j with
  | Some x => Some x
  | None => if j <? length (pad l i) then Some NoneT else None
  end.
Proof.
  destruct (nth_error l j) as [x|] eqn:E.
  - unfold pad. rewrite nth_error_app1 by (eapply nth_error_lt; eauto). exact E.
  - apply nth_error_None in E. destruct (Nat.ltb_spec j (length (pad l i))) as [H|H].
    + unfold pad in *. rewrite nth_error_app2 by exact E.
      rewrite app_length, repeat_length in H.
      rewrite (nth_nth_error _ _ NoneT) by (rewrite repeat_length; lia).
      rewrite nth_repeat. reflexivity.
    + apply nth_error_None. exact H.
Qed.

Lemma nth_error_pad_some (l : list (tree A)) i j x :
  nth_error (pad l i) j = Some x -> x <> NoneT -> nth_error l j = Some x.
Proof.
  rewrite nth_error_pad. destruct (nth_error l j) as [y|]; [auto|].
  destruct (_ <? _); [|discriminate]. intros H; injection H as <-; congruence.
Qed.

Lemma nth_error_pad_mono (l : list (tree A)) i j x :
  nth_error l j = Some x -> nth_error (pad l i) j = Some x.
Proof. intros H. rewrite nth_error_pad, H. reflexivity. Qed.

Lemma walk_nil_none (ks : list string) (a : A) : walk (NoneT : tree A) ks <> Some (Leaf a).
Proof. destruct ks; simpl; discriminate. Qed.

(** What one walk of [extend_walk] does, seen through [walk]. *)
Definition walk_post (t t' : tree A) (parts : list string) (fill : tree A) : Prop :=
  (forall ks a, walk t ks = Some (Leaf a) -> walk t' ks = Some (Leaf a)) /\
  (parts <> [] -> forall a, fill = Leaf a -> walk t' parts = Some (Leaf a)) /\
  (forall ks a, walk t' ks = Some (Leaf a) ->
     walk t ks = Some (Leaf a) \/
     exists k1 k2, ks = k1 ++ k2 /\ same_keys k1 parts /\ walk fill k2 = Some (Leaf a)).

Lemma new_node_no_leaf nk ks a : walk (@new_node A nk) ks <> Some (Leaf a).
Proof.
  unfold new_node. destruct (isdigit nk); destruct ks as [|k ks]; simpl; try discriminate.
  destruct (isdigit k); [|discriminate]. rewrite nth_error_nil. discriminate.
Qed.

Lemma post_dict_last d key fill :
  dget d key = None -> walk_post (Dict d) (Dict (dset d key fill)) [key] fill.
Proof.
  intros Hd. split; [|split].
  - intros [|k ks] a H; simpl in *; [discriminate|].
    destruct (String.eqb_spec key k) as [<-|Hne]; [rewrite Hd in H; discriminate|].
    rewrite dget_dset_other by exact Hne. exact H.
  - intros _ a ->. simpl. rewrite dget_dset_same. reflexivity.
  - intros [|k ks] a H; simpl in *; [discriminate|].
    destruct (String.eqb_spec key k) as [<-|Hne].
    + rewrite dget_dset_same in H. right. exists [key], ks. split; [reflexivity|].
      split; [repeat constructor|exact H].
    + rewrite dget_dset_other in H by exact Hne. auto.
Qed.

Lemma post_refl_last t key fill (old : tree A) :
  child t key = Some old -> conflict eqA old fill = false ->
  walk_post t t [key] fill.
Proof.
  intros Hc Hcf. split; [|split]; auto.
  intros _ a ->. apply conflict_leaf in Hcf as ->. simpl. rewrite Hc. reflexivity.
Qed.

Lemma post_dict_step d key c0 c' parts fill :
  (dget d key = Some c0 \/ (dget d key = None /\ forall ks a, walk c0 ks <> Some (Leaf a))) ->
  parts <> [] -> walk_post c0 c' parts fill ->
  walk_post (Dict d) (Dict (dset d key c')) (key :: parts) fill.
Proof.
  intros Hc Hp [P1 [P2 P3]]. split; [|split].
  - intros [|k ks] a H; simpl in *; [discriminate|].
    destruct (String.eqb_spec key k) as [<-|Hne].
    + rewrite dget_dset_same. destruct Hc as [Hc|[Hc _]]; rewrite Hc in H; [auto|discriminate].
    + rewrite dget_dset_other by exact Hne. exact H.
  - intros _ a Ha. simpl. rewrite dget_dset_same. auto.
  - intros [|k ks] a H; simpl in *; [discriminate|].
    destruct (String.eqb_spec key k) as [<-|Hne].
    + rewrite dget_dset_same in H. apply P3 in H as [H|[k1 [k2 [-> [H1 H2]]]]].
      * left. destruct Hc as [->|[_ Hc]]; [exact H|exfalso; eapply Hc; eauto].
      * right. exists (key :: k1), k2. split; [reflexivity|]. split; [|exact H2].
        constructor; [left; reflexivity|exact H1].
    + rewrite dget_dset_other in H by exact Hne. auto.
Qed.

Lemma post_list_last l key fill :
  isdigit key = true -> nth (int_of key) (pad l (int_of key)) NoneT = NoneT ->
  walk_post (Lst l) (Lst (upd (pad l (int_of key)) (int_of key) fill)) [key] fill.
Proof.
  intros Hk Hn. destruct (pad_length l (int_of key)) as [HL _].
  split; [|split].
  - intros [|k ks] a H; simpl in *; [discriminate|].
    destruct (isdigit k) eqn:Ek; [|discriminate].
    destruct (Nat.eq_dec (int_of key) (int_of k)) as [He|Hne].
    + rewrite <- He in *. destruct (nth_error l (int_of key)) as [x|] eqn:Ex; [|discriminate].
      apply (nth_error_pad_mono _ (int_of key)) in Ex.
      rewrite (nth_nth_error _ _ NoneT HL), Hn in Ex. injection Ex as <-.
      exfalso; eapply walk_nil_none; eauto.
    + rewrite nth_upd_other by exact Hne. destruct (nth_error l (int_of k)) as [x|] eqn:Ex; [|discriminate].
      rewrite (nth_error_pad_mono _ _ _ _ Ex). exact H.
  - intros _ a ->. simpl. rewrite Hk, nth_upd_same by exact HL. reflexivity.
  - intros [|k ks] a H; simpl in *; [discriminate|].
    destruct (isdigit k) eqn:Ek; [|discriminate].
    destruct (Nat.eq_dec (int_of key) (int_of k)) as [He|Hne].
    + rewrite <- He, nth_upd_same in H by exact HL. right. exists [k], ks. split; [reflexivity|].
      split; [|exact H]. constructor; [|constructor]. right; auto.
    + rewrite nth_upd_other in H by exact Hne.
      destruct (nth_error (pad l (int_of key)) (int_of k)) as [x|] eqn:Ex; [|discriminate].
      left. apply nth_error_pad_some in Ex; [rewrite Ex; exact H|].
      intros ->. eapply walk_nil_none; eauto.
Qed.

Lemma post_list_refl l key fill old :
  isdigit key = true -> nth (int_of key) (pad l (int_of key)) NoneT = old -> old <> NoneT ->
  conflict eqA old fill = false ->
  walk_post (Lst l) (Lst (pad l (int_of key))) [key] fill.
Proof.
  intros Hk Hn Hold Hcf. destruct (pad_length l (int_of key)) as [HL _].
  split; [|split].
  - intros [|k ks] a H; simpl in *; [discriminate|].
    destruct (isdigit k); [|discriminate]. destruct (nth_error l (int_of k)) eqn:Ex; [|discriminate].
    rewrite (nth_error_pad_mono _ _ _ _ Ex). exact H.
  - intros _ a ->. apply conflict_leaf in Hcf as ->. simpl.
    rewrite Hk, (nth_nth_error _ _ NoneT HL), Hn. reflexivity.
  - intros [|k ks] a H; simpl in *; [discriminate|].
    destruct (isdigit k); [|discriminate].
    destruct (nth_error (pad l (int_of key)) (int_of k)) as [x|] eqn:Ex; [|discriminate].
    left. apply nth_error_pad_some in Ex; [rewrite Ex; exact H|].
    intros ->. eapply walk_nil_none; eauto.
Qed.

Lemma post_list_step l key c0 c' parts fill :
  isdigit key = true ->
  (nth (int_of key) (pad l (int_of key)) NoneT = c0 \/
   (nth (int_of key) (pad l (int_of key)) NoneT = NoneT /\ forall ks a, walk c0 ks <> Some (Leaf a))) ->
  parts <> [] -> walk_post c0 c' parts fill ->
  walk_post (Lst l) (Lst (upd (pad l (int_of key)) (int_of key) c')) (key :: parts) fill.
Proof.
  intros Hk Hn Hp [P1 [P2 P3]]. destruct (pad_length l (int_of key)) as [HL _].
  split; [|split].
  - intros [|k ks] a H; simpl in *; [discriminate|].
    destruct (isdigit k) eqn:Ek; [|discriminate].
    destruct (nth_error l (int_of k)) as [x|] eqn:Ex; [|discriminate].
    apply (nth_error_pad_mono _ (int_of key)) in Ex.
    destruct (Nat.eq_dec (int_of key) (int_of k)) as [He|Hne].
    + rewrite <- He in *. rewrite nth_upd_same by exact HL.
      rewrite (nth_nth_error _ _ NoneT HL) in Ex. injection Ex as <-.
      destruct Hn as [<-|[Hn _]]; [auto|]. rewrite Hn in H. exfalso; eapply walk_nil_none; eauto.
    + rewrite nth_upd_other, Ex by exact Hne. exact H.
  - intros _ a Ha. simpl. rewrite Hk, nth_upd_same by exact HL. auto.
  - intros [|k ks] a H; simpl in *; [discriminate|].
    destruct (isdigit k) eqn:Ek; [|discriminate].
    destruct (Nat.eq_dec (int_of key) (int_of k)) as [He|Hne].
    + rewrite <- He, nth_upd_same in H by exact HL.
      apply P3 in H as [H|[k1 [k2 [-> [H1 H2]]]]].
      * left. rewrite <- He. destruct Hn as [Hn|[_ Hc]]; [|exfalso; eapply Hc; eauto].
        rewrite <- Hn in H.
        assert (Hs := nth_nth_error _ _ NoneT HL). apply nth_error_pad_some in Hs; [rewrite Hs; exact H|].
        intros Hx; rewrite Hx in H. eapply walk_nil_none; eauto.
      * right. exists (k :: k1), k2. split; [reflexivity|]. split; [|exact H2].
        constructor; [right; auto|exact H1].
    + rewrite nth_upd_other in H by exact Hne.
      destruct (nth_error (pad l (int_of key)) (int_of k)) as [x|] eqn:Ex; [|discriminate].
      left. apply nth_error_pad_some in Ex; [rewrite Ex; exact H|].
      intros ->. eapply walk_nil_none; eauto.
Qed.

Lemma post_tup l t' parts fill :
  walk_post (Lst l) t' parts fill -> walk_post (Tup l) t' parts fill.
Proof.
  intros [P1 [P2 P3]]. split; [|split; [exact P2|]].
  - intros [|k ks] a H; [discriminate|]. apply P1. exact H.
  - intros ks a H. apply P3 in H as [H|H]; [|auto].
    left. destruct ks; [discriminate|exact H].
Qed.

Lemma extend_walk_post parts : forall t done fill t' rec,
  extend_walk eqA sep t done parts fill = Ok (t', rec) -> walk_post t t' parts fill.
Proof.
  induction parts as [|key parts IH]; intros t done fill t' rec H.
  - injection H as <- <-. split; [auto|]. split; [congruence|]. auto.
  - cbn [extend_walk] in H.
    set (desc := fun c => extend_walk eqA sep c (done ++ [key]) parts fill) in H.
    assert (Hdict : forall d rc, extend_node eqA desc key parts fill (Dict d) rc = Ok (t', rec) ->
              walk_post (Dict d) t' (key :: parts) fill).
    { intros d rc Hs. cbn [extend_node] in Hs. destruct parts as [|nk parts'].
      - destruct (dget d key) as [old|] eqn:Ed.
        + destruct (conflict eqA old fill) eqn:Ec; [discriminate|]. injection Hs as <- <-.
          eapply post_refl_last; eauto.
        + injection Hs as <- <-. apply post_dict_last; exact Ed.
      - apply rbind_ok in Hs as [[c' rec'] [Hw Hs]]. injection Hs as <- <-.
        apply IH in Hw. eapply post_dict_step; [|discriminate|exact Hw].
        destruct (dget d key) as [c|]; [left; reflexivity|right].
        split; [reflexivity|apply new_node_no_leaf]. }
    assert (Hlist : forall l rc, extend_node eqA desc key parts fill (Lst l) rc = Ok (t', rec) ->
              walk_post (Lst l) t' (key :: parts) fill).
    { intros l rc Hs. cbn [extend_node] in Hs. destruct (isdigit key) eqn:Ek; [|discriminate].
      destruct parts as [|nk parts'].
      - destruct (nth (int_of key) (pad l (int_of key)) NoneT) as [a| |d0|l0|l0] eqn:En.
        2: { injection Hs as <- <-. apply post_list_last; assumption. }
        all: match type of Hs with context [conflict _ ?o ?f] =>
               destruct (conflict _ o f) eqn:Ec; [discriminate|]; injection Hs as <- <-;
               eapply post_list_refl; [exact Ek|exact En|discriminate|exact Ec] end.
      - apply rbind_ok in Hs as [[c' rec'] [Hw Hs]]. injection Hs as <- <-.
        apply IH in Hw. eapply post_list_step; [exact Ek| |discriminate|exact Hw].
        destruct (nth (int_of key) (pad l (int_of key)) NoneT); try (left; reflexivity).
        right; split; [reflexivity|apply new_node_no_leaf]. }
    destruct t as [a| |d|l|l]; try discriminate.
    + eapply Hdict; eauto.
    + eapply Hlist; eauto.
    + destruct (String.eqb (last done EmptyString) EmptyString); [discriminate|].
      apply post_tup. eapply Hlist; eauto.
Qed.

(** One path of the outer loop L469-552 *)
Lemma extend_paths_post pfs : forall t recs t' recs',
  rfold (fun '(t, recs) '(p, fill) =>
           let* (t', r) := extend_walk eqA sep t [] (split sep p) fill in
           Ok (t', recs ++ r)) pfs (t, recs) = Ok (t', recs') ->
  (forall ks a, walk t ks = Some (Leaf a) -> walk t' ks = Some (Leaf a)) /\
  (forall p a, In (p, Leaf a) pfs -> walk t' (split sep p) = Some (Leaf a)) /\
  (forall ks a, walk t' ks = Some (Leaf a) ->
     walk t ks = Some (Leaf a) \/
     exists p fill k1 k2, In (p, fill) pfs /\ ks = k1 ++ k2 /\
        same_keys k1 (split sep p) /\ walk fill k2 = Some (Leaf a)).
Proof.
  induction pfs as [|[p fill] pfs IH]; intros t recs t' recs' H.
  - injection H as <- <-. split; [auto|]. split; [intros p a []|auto].
  - cbn [rfold] in H. apply rbind_ok in H as [[t1 recs1] [H1 H]].
    apply rbind_ok in H1 as [[t2 r] [Hw H1]]. injection H1 as -> <-.
    apply extend_walk_post in Hw as [P1 [P2 P3]].
    specialize (IH _ _ _ _ H) as [Q1 [Q2 Q3]]. split; [|split].
    + intros ks a Hk. apply Q1, P1, Hk.
    + intros p' a [He|Hin]; [|auto]. injection He as -> ->. apply Q1, P2; [apply split_nonempty|reflexivity].
    + intros ks a Hk. apply Q3 in Hk as [Hk|[p' [f' [k1 [k2 [Hin Hr]]]]]].
      * apply P3 in Hk as [Hk|[k1 [k2 Hr]]]; [auto|].
        right. exists p, fill, k1, k2. split; [left; reflexivity|exact Hr].
      * right. exists p', f', k1, k2. split; [right; exact Hin|exact Hr].
Qed.

(** Replacing a list by the tuple of the same items leaves every leaf where
    it was. *)
Lemma setp_tuple_walk parts : forall (t t' : tree A) l,
  walk t parts = Some (Lst l) -> setp t parts (Tup l) = Ok t' ->
  forall ks a, walk t' ks = Some (Leaf a) <-> walk t ks = Some (Leaf a).
Proof.
  induction parts as [|k ps IH]; intros t t' l Hw Hs ks a; [discriminate|].
  cbn [setp] in Hs. cbn [walk] in Hw.
  destruct (String.eqb k EmptyString && match ps with [] => true | _ => false end); [discriminate|].
  assert (Hsw : forall ks0 a0, walk (Tup l) ks0 = Some (Leaf a0) <-> walk (Lst l : tree A) ks0 = Some (Leaf a0))
    by (intros [|k0 ks0] a0; simpl; [split; discriminate|tauto]).
  assert (Hcase : forall c c', child t k = Some c ->
    (forall ks0 a0, walk c' ks0 = Some (Leaf a0) <-> walk c ks0 = Some (Leaf a0)) ->
    match t with
    | Dict d => t' = Dict (dset d k c')
    | Lst m => t' = Lst (upd m (int_of k) c')
    | Tup m => t' = Tup (upd m (int_of k) c')
    | _ => False
    end -> walk t' ks = Some (Leaf a) <-> walk t ks = Some (Leaf a)).
  { intros c c' Hc Hcc Ht. destruct t as [b| |d|m|m]; try tauto; subst t'.
    - destruct ks as [|k0 ks]; [simpl; split; discriminate|]. simpl in *.
      destruct (String.eqb_spec k k0) as [<-|Hne].
      + rewrite dget_dset_same, Hc. apply Hcc.
      + rewrite dget_dset_other by exact Hne. tauto.
    - destruct ks as [|k0 ks]; [simpl; split; discriminate|]. simpl in *.
      destruct (isdigit k); [|discriminate]. destruct (isdigit k0); [|tauto].
      destruct (Nat.eq_dec (int_of k) (int_of k0)) as [He|Hne].
      + rewrite <- He, nth_upd_same, Hc by (eapply nth_error_lt; eauto). apply Hcc.
      + rewrite nth_upd_other by exact Hne. tauto.
    - destruct ks as [|k0 ks]; [simpl; split; discriminate|]. simpl in *.
      destruct (isdigit k); [|discriminate]. destruct (isdigit k0); [|tauto].
      destruct (Nat.eq_dec (int_of k) (int_of k0)) as [He|Hne].
      + rewrite <- He, nth_upd_same, Hc by (eapply nth_error_lt; eauto). apply Hcc.
      + rewrite nth_upd_other by exact Hne. tauto. }
  destruct t as [b| |d|m|m]; try discriminate; simpl in Hw.
  - destruct (dget d k) as [c|] eqn:Ed; [|discriminate]. destruct ps as [|k2 ps2].
    + injection Hw as ->. injection Hs as <-. eapply Hcase; [exact Ed|exact Hsw|reflexivity].
    + apply rbind_ok in Hs as [c' [Hs Ht]]. injection Ht as <-.
      eapply Hcase; [exact Ed|exact (IH _ _ _ Hw Hs)|reflexivity].
  - destruct (isdigit k) eqn:Ek; [|discriminate]. destruct (nth_error m (int_of k)) as [c|] eqn:Ed; [|discriminate].
    destruct ps as [|k2 ps2].
    + injection Hw as ->. destruct (int_of k <? length m); [|discriminate].
      injection Hs as <-. eapply Hcase; [simpl; rewrite Ek; exact Ed|exact Hsw|reflexivity].
    + apply rbind_ok in Hs as [c' [Hs Ht]]. injection Ht as <-.
      eapply Hcase; [simpl; rewrite Ek; exact Ed|exact (IH _ _ _ Hw Hs)|reflexivity].
  - destruct (isdigit k) eqn:Ek; [|discriminate]. destruct (nth_error m (int_of k)) as [c|] eqn:Ed; [|discriminate].
    destruct ps as [|k2 ps2]; [discriminate|].
    apply rbind_ok in Hs as [c' [Hs Ht]]. injection Ht as <-.
    eapply Hcase; [simpl; rewrite Ek; exact Ed|exact (IH _ _ _ Hw Hs)|reflexivity].
Qed.

Lemma restore_tuples_walk paths : forall (t t' : tree A),
  restore_tuples sep t paths = Ok t' ->
  forall ks a, walk t' ks = Some (Leaf a) <-> walk t ks = Some (Leaf a).
Proof.
  induction paths as [|p paths IH]; intros t t' H ks a.
  - injection H as <-. tauto.
  - unfold restore_tuples in H. cbn [rfold] in H. apply rbind_ok in H as [t1 [H1 H]].
    apply rbind_ok in H1 as [[node r] [Hg H1]]. destruct node as [b| |d|l|l]; try discriminate.
    assert (Hr : r = EmptyString).
    { rewrite getitem_split in Hg. destruct (getp false t (split sep p)) as [[u r']|] eqn:E; [|discriminate].
      simpl in Hg. injection Hg as -> <-. rewrite (getp_false_rem _ _ _ _ E). reflexivity. }
    subst r. apply getitem_full_walk in Hg.
    rewrite setitem_split in H1.
    assert (Htr := setp_ok_trim _ _ _ _ H1). unfold path_keys in Hg. rewrite Htr in Hg.
    rewrite (IH t1 t' H ks a). eapply setp_tuple_walk; eauto.
Qed.

Lemma extend_structure_post base paths fv t :
  extend_structure eqA sep base paths fv = Ok t ->
  let fills := match fv with FillList l => l | FillOne v => repeat v (length paths) end in
  length fills = length paths /\
  (forall b ks a, base = Some b -> walk b ks = Some (Leaf a) -> walk t ks = Some (Leaf a)) /\
  (forall i p a, nth_error paths i = Some p -> nth_error fills i = Some (Leaf a) ->
     walk t (split sep p) = Some (Leaf a)) /\
  (forall ks a, walk t ks = Some (Leaf a) ->
     (exists b, base = Some b /\ walk b ks = Some (Leaf a)) \/
     exists i p fill k1 k2, nth_error paths i = Some p /\ nth_error fills i = Some fill /\
        ks = k1 ++ k2 /\ same_keys k1 (split sep p) /\ walk fill k2 = Some (Leaf a)).
Proof.
  intros H fills. unfold extend_structure in H. fold fills in H.
  destruct (Nat.eqb_spec (length fills) (length paths)) as [Hl|]; [|discriminate].
  cbn [negb] in H. split; [exact Hl|].
  set (base0 := match base with Some b => b | None => _ end) in H.
  set (b1t := match base0 with Tup l => (Lst l, true) | b => (b, false) end) in H.
  destruct b1t as [base1 bt] eqn:Eb. subst b1t.
  assert (Hb01 : forall ks a, walk base1 ks = Some (Leaf a) <-> walk base0 ks = Some (Leaf a)).
  { destruct base0; injection Eb as <- <-; try tauto.
    intros [|k ks] a; simpl; [split; discriminate|tauto]. }
  assert (Hb0 : forall ks a, walk base0 ks = Some (Leaf a) <-> exists b, base = Some b /\ walk b ks = Some (Leaf a)).
  { subst base0. destruct base as [b|].
    - intros ks a. split; [intros Hw; exists b; auto|intros [b' [E Hw]]; injection E as <-; exact Hw].
    - intros ks a. split; [|intros [b [E _]]; discriminate].
      match goal with |- context [if ?c then _ else _] => destruct c end;
      destruct ks as [|k ks]; simpl; try discriminate.
      destruct (isdigit k); [rewrite nth_error_nil|]; discriminate. }
  apply rbind_ok in H as [[t1 recs] [Hf H]]. apply rbind_ok in H as [t2 [Hr H]].
  assert (Ht2 : forall ks a, walk t ks = Some (Leaf a) <-> walk t1 ks = Some (Leaf a)).
  { intros ks a. rewrite <- (restore_tuples_walk _ _ _ Hr ks a). injection H as <-.
    destruct bt; [|tauto]. destruct t2; try tauto.
    destruct ks; simpl; [split; discriminate|tauto]. }
  apply extend_paths_post in Hf as [P1 [P2 P3]].
  assert (Hcomb : forall p f, In (p, f) (combine paths fills) <->
            exists i, nth_error paths i = Some p /\ nth_error fills i = Some f).
  { clear -Hl. clearbody fills. revert fills Hl. induction paths as [|p0 paths IH]; intros fills Hl p f.
    - simpl. split; [tauto|]. intros [[|i] [E _]]; discriminate.
    - destruct fills as [|f0 fills]; [discriminate|]. simpl. rewrite (IH fills) by (simpl in Hl; congruence).
      split.
      + intros [E|[i E]]; [injection E as -> ->; exists 0; auto|exists (S i); auto].
      + intros [[|i] [E1 E2]]; [injection E1 as ->; injection E2 as ->; auto|right; exists i; auto]. }
  split; [|split].
  - intros b ks a Hb Hw. apply Ht2, P1, Hb01, Hb0. exists b; auto.
  - intros i p a Hp Hfl. apply Ht2, P2, Hcomb. exists i; auto.
  - intros ks a Hw. apply Ht2, P3 in Hw as [Hw|[p [f [k1 [k2 [Hin Hx]]]]]].
    + left. apply Hb0, Hb01, Hw.
    + right. apply Hcomb in Hin as [i [E1 E2]]. exists i, p, f, k1, k2. auto.
Qed.

Lemma extend_conflict base paths fills i j p a b :
  nth_error paths i = Some p -> nth_error paths j = Some p ->
  nth_error fills i = Some (Leaf a) -> nth_error fills j = Some (Leaf b) -> a <> b ->
  is_ok (extend_structure eqA sep base paths (FillList fills)) = false.
Proof.
  intros H1 H2 H3 H4 Hne. destruct (extend_structure eqA sep base paths (FillList fills)) as [t|e] eqn:E; [|reflexivity].
  apply extend_structure_post in E as [_ [_ [E _]]].
  assert (Ha := E i p a H1 H3). assert (Hb := E j p b H2 H4). congruence.
Qed.

Lemma extend_no_overwrite b paths fills i p a c :
  walk b (split sep p) = Some (Leaf c) ->
  nth_error paths i = Some p -> nth_error fills i = Some (Leaf a) -> a <> c ->
  is_ok (extend_structure eqA sep (Some b) paths (FillList fills)) = false.
Proof.
  intros H1 H2 H3 Hne.
  destruct (extend_structure eqA sep (Some b) paths (FillList fills)) as [t|e] eqn:E; [|reflexivity].
  apply extend_structure_post in E as [_ [Eb [E _]]].
  assert (Ha := E i p a H2 H3). assert (Hb := Eb b _ c eq_refl H1). congruence.
Qed.
End ExtendProofs.
