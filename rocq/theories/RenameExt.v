(** Renaming and the construction of trees from paths. *)
From Verif Require Import Base BaseLemmas TreeUtil TreeSpec TreeProofs NonSeqSpec NonSeqProofs NonSeqRun Connections RenameProofs RenameSpec RenameStr RenameTree BatchProofs.
Local Open Scope string_scope.
Local Open Scope list_scope.

Section Ext.
Context {A B : Type} (eqA : A -> A -> bool) (eqB : B -> B -> bool) (g : A -> B) (P : A -> Prop) (sep : ascii).
Hypothesis Heq : forall a b, eqB (g a) (g b) = eqA a b.
Variable f : string -> string.
Hypothesis HR : renaming sep f.
Notation R := (rename_path sep f).
Notation top := (rename_top f).
Notation okt := (okt P).

Lemma walk_top h ks (t fill : tree A) : okt t -> okt fill ->
  match extend_walk eqA sep t [] (h :: ks) fill with
  | Ok (t', rec) => rec = [] /\ okt t' /\ extend_walk eqB sep (top (tmap g t)) [] (f h :: ks) (tmap g fill) = Ok (top (tmap g t'), [])
  | Err e => extend_walk eqB sep (top (tmap g t)) [] (f h :: ks) (tmap g fill) = Err e
  end.
Proof.
  intros Ht Hf. destruct t as [a| |d|l|l]; [reflexivity|reflexivity| | |inversion Ht].
  - cbn [extend_walk tmap rename_top]. unfold extend_node. rewrite (dget_top sep f HR), dget_tmap. destruct ks as [|k2 ks].
    + destruct (dget d h) as [old|] eqn:E; cbn [option_map].
      * rewrite (conflict_tmap eqA eqB g Heq). destruct (conflict eqA old fill); [reflexivity|]. auto.
      * rewrite (dset_top sep f HR), dset_tmap. split; [reflexivity|]. split; [apply okt_dset; auto|reflexivity].
    + set (c := match dget d h with Some c => c | None => new_node k2 end).
      assert (Hc : okt c) by (subst c; destruct (dget d h) eqn:E; [eapply okt_dget; eauto|apply okt_new]).
      assert (Ec : match option_map (tmap g) (dget d h) with Some c => c | None => new_node k2 end = tmap g c).
      { subst c. destruct (dget d h); [reflexivity|]. cbn [option_map]. unfold new_node. destruct (isdigit k2); reflexivity. }
      rewrite Ec. pose proof (walk_nat eqA eqB g P sep Heq (k2 :: ks) c ([] ++ [h]) ([] ++ [f h]) fill Hc Hf) as W.
      destruct (extend_walk eqA sep c ([] ++ [h]) (k2 :: ks) fill) as [[c' r]|e]; cbn [rbind].
      * destruct W as (-> & Hc' & ->). cbn [rbind]. rewrite (dset_top sep f HR), dset_tmap. split; [reflexivity|]. split; [apply okt_dset; auto|reflexivity].
      * rewrite W. reflexivity.
  - destruct (isdigit h) eqn:E.
    + rewrite (f_digit_id sep f HR) by exact E. pose proof (walk_nat eqA eqB g P sep Heq (h :: ks) (Lst l) [] [] fill Ht Hf) as W.
      assert (TL : forall x : tree B, (exists m, x = Lst m) -> top x = x) by (intros x [m ->]; reflexivity).
      rewrite (TL (tmap g (Lst l))) by (eexists; reflexivity). destruct (extend_walk eqA sep (Lst l) [] (h :: ks) fill) as [[t' r]|e] eqn:Ew; [|exact W].
      assert (exists m, t' = Lst m) as [m ->].
      { cbn [extend_walk] in Ew. unfold extend_node in Ew. rewrite E in Ew. destruct ks.
        - destruct (nth (int_of h) (pad l (int_of h)) NoneT); try (destruct (conflict _ _ _); [discriminate|]); injection Ew as <- _; eexists; reflexivity.
        - apply rbind_ok in Ew as [[c' r'] [_ Ew]]. injection Ew as <- _. eexists; reflexivity. }
      exact W.
    + cbn [extend_walk tmap rename_top]. unfold extend_node. rewrite (f_digit sep f HR), E. reflexivity.
Qed.

Lemma fold_top pfs : forall (t : tree A), okt t -> Forall (fun pf => okt (snd pf)) pfs ->
  match rfold (fun '(t, recs) '(p, fill) => let* (t', r) := extend_walk eqA sep t [] (split sep p) fill in Ok (t', recs ++ r)) pfs (t, []) with
  | Ok (t', recs) => recs = [] /\ okt t' /\
      rfold (fun '(t, recs) '(p, fill) => let* (t', r) := extend_walk eqB sep t [] (split sep p) fill in Ok (t', recs ++ r))
        (map (fun pf => (R (fst pf), tmap g (snd pf))) pfs) (top (tmap g t), []) = Ok (top (tmap g t'), [])
  | Err e =>
      rfold (fun '(t, recs) '(p, fill) => let* (t', r) := extend_walk eqB sep t [] (split sep p) fill in Ok (t', recs ++ r))
        (map (fun pf => (R (fst pf), tmap g (snd pf))) pfs) (top (tmap g t), []) = Err e
  end.
Proof.
  induction pfs as [|[p fill] pfs IH]; intros t Ht HF; [cbn; auto|]. apply Forall_cons_iff in HF as [H1 H2]. cbn [snd] in H1. cbn [rfold map fst snd].
  rewrite (R_split sep f HR). destruct (split sep p) as [|h ks] eqn:Es; [exfalso; eapply split_nonempty; eauto|]. cbn [hd tl].
  pose proof (walk_top h ks t fill Ht H1) as W. destruct (extend_walk eqA sep t [] (h :: ks) fill) as [[t1 r1]|e]; cbn [rbind].
  - destruct W as (-> & Ht1 & ->). cbn [rbind]. cbn [app]. exact (IH t1 Ht1 H2).
  - rewrite W. reflexivity.
Qed.

Lemma combine_maps (ps : list string) (fs : list (tree A)) :
  combine (map R ps) (map (tmap g) fs) = map (fun pf => (R (fst pf), tmap g (snd pf))) (combine ps fs).
Proof. revert fs. induction ps as [|p ps IH]; intros [|x fs]; cbn [map combine]; try reflexivity. rewrite IH. reflexivity. Qed.
Lemma first_keys ps : forallb isdigit (map (fun p => fst (split1 sep p)) (filter (fun p => negb (String.eqb p EmptyString)) (map R ps))) =
  forallb isdigit (map (fun p => fst (split1 sep p)) (filter (fun p => negb (String.eqb p EmptyString)) ps)).
Proof.
  induction ps as [|p ps IH]; [reflexivity|]. cbn [map filter]. assert (E : String.eqb (R p) EmptyString = String.eqb p EmptyString).
  { destruct (String.eqb_spec p EmptyString) as [->|H].
    - rewrite (R_name sep f) by reflexivity. rewrite (proj2 (f_empty sep f HR "") eq_refl). reflexivity.
    - apply String.eqb_neq. apply (R_ne sep f HR). exact H. }
  rewrite E. destruct (negb (String.eqb p EmptyString)); [|exact IH]. cbn [map forallb]. rewrite (R_split1 sep f HR). cbn [fst]. rewrite (f_digit sep f HR), IH. reflexivity.
Qed.
Theorem extend_top ps fs : Forall okt fs ->
  match extend_structure eqA sep None ps (FillList fs) with
  | Ok t => okt t /\ extend_structure eqB sep None (map R ps) (FillList (map (tmap g) fs)) = Ok (top (tmap g t))
  | Err e => extend_structure eqB sep None (map R ps) (FillList (map (tmap g) fs)) = Err e
  end.
Proof.
  intros HF. unfold extend_structure. rewrite !map_length, first_keys, combine_maps. destruct (negb (Nat.eqb (length fs) (length ps))); [reflexivity|].
  assert (HF2 : Forall (fun pf => okt (snd pf)) (combine ps fs)).
  { apply Forall_forall. intros [p x] Hi. apply in_combine_r in Hi. rewrite Forall_forall in HF. exact (HF x Hi). }
  destruct (forallb isdigit _).
  - pose proof (fold_top (combine ps fs) (Lst []) ltac:(repeat constructor) HF2) as W. cbn [tmap map rename_top] in W.
    destruct (rfold _ (combine ps fs) (Lst [], [])) as [[t recs]|e]; cbn [rbind]; [|rewrite W; reflexivity]. destruct W as (-> & Ht & ->). cbn [rbind restore_tuples rfold]. auto.
  - pose proof (fold_top (combine ps fs) (Dict []) ltac:(repeat constructor) HF2) as W. cbn [tmap map rename_top] in W.
    destruct (rfold _ (combine ps fs) (Dict [], [])) as [[t recs]|e]; cbn [rbind]; [|rewrite W; reflexivity]. destruct W as (-> & Ht & ->). cbn [rbind restore_tuples rfold]. auto.
Qed.
End Ext.

(** nothing renamed *)
Lemma renaming_id sep : renaming sep (fun k => k).
Proof. split; auto. Qed.
Lemma path_id sep p : rename_path sep (fun k => k) p = p.
Proof. unfold rename_path. destruct (split sep p) eqn:E; [exfalso; eapply split_nonempty; eauto|]. rewrite <- E. apply join_split. Qed.
Lemma top_id {X} (t : tree X) : rename_top (fun k => k) t = t.
Proof. destruct t as [a| |d|l|l]; try reflexivity. cbn. f_equal. induction d as [|[k v] d IH]; cbn; congruence. Qed.
Theorem extend_leaves {A B} (eqA : A -> A -> bool) (eqB : B -> B -> bool) (g : A -> B) (P : A -> Prop) sep ps fs : (forall a b, eqB (g a) (g b) = eqA a b) -> Forall (okt P) fs ->
  match extend_structure eqA sep None ps (FillList fs) with
  | Ok t => okt P t /\ extend_structure eqB sep None ps (FillList (map (tmap g) fs)) = Ok (tmap g t)
  | Err e => extend_structure eqB sep None ps (FillList (map (tmap g) fs)) = Err e
  end.
Proof.
  intros H HF. pose proof (extend_top eqA eqB g P sep H (fun k => k) (renaming_id sep) ps fs HF) as W.
  rewrite (map_ext _ (fun p => p) (path_id sep)), map_id in W. destruct (extend_structure eqA sep None ps (FillList fs)); [rewrite top_id in W|]; exact W.
Qed.
(** only the names *)
Theorem extend_names {A} (eqA : A -> A -> bool) sep f ps (v : tree A) : renaming sep f -> tuple_free v ->
  extend_structure eqA sep None (map (rename_path sep f) ps) (FillOne v) = rmap (rename_top f) (extend_structure eqA sep None ps (FillOne v)).
Proof.
  intros HR Hv. pose proof (extend_top eqA eqA (fun x => x) (fun _ => True) sep (fun _ _ => eq_refl) f HR ps (repeat v (length ps))) as W.
  assert (Hok : forall t : tree A, tuple_free t -> okt (fun _ => True) t).
  { clear. fix IH 2. intros t [a| |d H|l H]; [constructor; exact I|constructor| |].
    - constructor. induction H as [|kv d Hk H IHd]; constructor; [apply IH; exact Hk|exact IHd].
    - constructor. induction H as [|kv d Hk H IHd]; constructor; [apply IH; exact Hk|exact IHd]. }
  assert (HF : Forall (okt (fun _ : A => True)) (repeat v (length ps))) by (apply Forall_forall; intros x Hx; apply repeat_spec in Hx as ->; apply Hok; exact Hv).
  specialize (W HF). assert (ID : forall t : tree A, tmap (fun x => x) t = t) by (intros t; apply tmap_id; auto).
  rewrite (map_ext _ (fun t => t) ID), map_id in W.
  change (extend_structure eqA sep None ps (FillOne v)) with (extend_structure eqA sep None ps (FillList (repeat v (length ps)))).
  assert (E : extend_structure eqA sep None (map (rename_path sep f) ps) (FillOne v) = extend_structure eqA sep None (map (rename_path sep f) ps) (FillList (repeat v (length ps)))).
  { unfold extend_structure. rewrite map_length. reflexivity. }
  rewrite E. destruct (extend_structure eqA sep None ps (FillList (repeat v (length ps)))) as [t|e]; cbn [rmap]; [destruct W as [_ ->]; rewrite ID; reflexivity|exact W].
Qed.
