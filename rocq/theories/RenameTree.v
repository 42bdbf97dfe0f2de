(** Renaming the entries at the top level of trees. *)
From Verif Require Import Base BaseLemmas TreeUtil TreeSpec TreeProofs NonSeqSpec NonSeqProofs NonSeqRun Connections RenameProofs RenameSpec RenameStr.
Local Open Scope string_scope.
Local Open Scope list_scope.

Section Top.
Variable sep : ascii.
Variable f : string -> string.
Hypothesis HR : renaming sep f.
Notation R := (rename_path sep f).
Notation top := (rename_top f).

Lemma dget_top {V} (d : dict V) k : dget (map (fun kv => (f (fst kv), snd kv)) d) (f k) = dget d k.
Proof. apply (dget_f f (ren_inj _ _ HR)). Qed.
Lemma dset_top {V} (d : dict V) k v : dset (map (fun kv => (f (fst kv), snd kv)) d) (f k) v = map (fun kv => (f (fst kv), snd kv)) (dset d k v).
Proof. apply (dset_f f (ren_inj _ _ HR)). Qed.

Lemma ne_match {X} s (a b : X) : s <> EmptyString -> match s with EmptyString => a | String _ _ => b end = b.
Proof. destruct s; [congruence|reflexivity]. Qed.
Lemma R_split1 s : split1 sep (R s) = (f (fst (split1 sep s)), snd (split1 sep s)).
Proof.
  destruct (view sep s) as (h & t & -> & H1 & H2). rewrite (R_view sep f) by assumption. rewrite !(split1_view sep) by (assumption || apply (ren_sep _ _ HR); assumption). reflexivity.
Qed.
Lemma R_split s : split sep (R s) = f (hd EmptyString (split sep s)) :: tl (split sep s).
Proof.
  destruct (view sep s) as (h & t & -> & H1 & H2). rewrite (R_view sep f) by assumption. rewrite !(split_view sep) by (assumption || apply (ren_sep _ _ HR); assumption). reflexivity.
Qed.

(** reading and writing *)
Lemma get_top {X} is_leaf (t : tree X) s : is_leaf (top t) = is_leaf t -> s <> EmptyString ->
  getitem sep is_leaf false (top t) (R s) = getitem sep is_leaf false t s.
Proof.
  intros HL Hs. rewrite !getitem_unfold. rewrite !ne_match by (assumption || apply (R_ne sep f HR); assumption). rewrite HL. destruct (is_leaf t); [reflexivity|].
  rewrite R_split1. destruct (split1 sep s) as [k r]. cbn [fst snd]. destruct t as [a| |d|l|l]; cbn [rename_top]; try reflexivity.
  - rewrite dget_top. reflexivity.
  - rewrite (f_digit sep f HR). destruct (isdigit k) eqn:E; [|reflexivity]. rewrite (f_digit_id sep f HR) by exact E. reflexivity.
  - rewrite (f_digit sep f HR). destruct (isdigit k) eqn:E; [|reflexivity]. rewrite (f_digit_id sep f HR) by exact E. reflexivity.
Qed.
Lemma get_dict {X} early (d : dict (tree X)) s : s <> EmptyString ->
  getitem sep no_leaf early (top (Dict d)) (R s) = getitem sep no_leaf early (Dict d) s.
Proof.
  intros Hs. rewrite !getitem_unfold. rewrite !ne_match by (assumption || apply (R_ne sep f HR); assumption). cbn [no_leaf].
  rewrite R_split1. destruct (split1 sep s) as [k r]. cbn [fst snd rename_top]. rewrite dget_top. reflexivity.
Qed.
Lemma set_top {X} is_leaf (t : tree X) s v : is_leaf (top t) = is_leaf t ->
  setitem sep is_leaf (top t) (R s) v = rmap top (setitem sep is_leaf t s v).
Proof.
  intros HL. rewrite !setitem_unfold. destruct (String.eqb_spec s EmptyString) as [->|Hs].
  { rewrite (R_name sep f) by reflexivity. rewrite (proj2 (f_empty sep f HR "") eq_refl). reflexivity. }
  rewrite !ne_match by (assumption || apply (R_ne sep f HR); assumption). rewrite HL. destruct (is_leaf t); [reflexivity|].
  rewrite R_split1. destruct (split1 sep s) as [k r]. cbn [fst snd]. destruct t as [a| |d|l|l]; cbn [rename_top]; try reflexivity.
  - destruct r as [r|]; [|cbn [rmap rename_top]; rewrite dset_top; reflexivity]. rewrite dget_top. destruct (dget d k) as [t'|]; [|reflexivity].
    destruct (setitem sep is_leaf t' r v); [|reflexivity]. cbn [rbind rmap rename_top]. rewrite dset_top. reflexivity.
  - rewrite (f_digit sep f HR). destruct (isdigit k) eqn:E; [|reflexivity]. rewrite (f_digit_id sep f HR) by exact E.
    destruct r as [r|]; [destruct (nth_error l (int_of k)); [|reflexivity]; destruct (setitem sep is_leaf _ r v); reflexivity|]. destruct (Nat.ltb _ _); reflexivity.
  - rewrite (f_digit sep f HR). destruct (isdigit k) eqn:E; [|reflexivity]. rewrite (f_digit_id sep f HR) by exact E.
    destruct r as [r|]; [destruct (nth_error l (int_of k)); [|reflexivity]; destruct (setitem sep is_leaf _ r v); reflexivity|]. reflexivity.
Qed.
End Top.

(** Extending trees without tuples, under a map of the leaves. *)
Section Nat.
Context {A B : Type} (eqA : A -> A -> bool) (eqB : B -> B -> bool) (g : A -> B) (P : A -> Prop) (sep : ascii).
Hypothesis Heq : forall a b, eqB (g a) (g b) = eqA a b.

Inductive okt : tree A -> Prop :=
| o_leaf a : P a -> okt (Leaf a)
| o_none : okt NoneT
| o_dict d : Forall (fun kv => okt (snd kv)) d -> okt (Dict d)
| o_lst l : Forall okt l -> okt (Lst l).
Lemma okt_tuple_free t : okt t -> tuple_free t.
Proof.
  revert t. fix IH 2. intros t [a H| |d H|l H]; [constructor|constructor| |].
  - constructor. induction H as [|kv d Hk H IHd]; constructor; [apply IH; exact Hk|exact IHd].
  - constructor. induction H as [|kv d Hk H IHd]; constructor; [apply IH; exact Hk|exact IHd].
Qed.
Lemma dget_tmap (d : dict (tree A)) k : dget (map (fun kv => (fst kv, tmap g (snd kv))) d) k = option_map (tmap g) (dget d k).
Proof. induction d as [|[k' v] d IH]; [reflexivity|]. cbn [map dget fst snd]. destruct (String.eqb k k'); [reflexivity|exact IH]. Qed.
Lemma dset_tmap (d : dict (tree A)) k v : dset (map (fun kv => (fst kv, tmap g (snd kv))) d) k (tmap g v) = map (fun kv => (fst kv, tmap g (snd kv))) (dset d k v).
Proof. induction d as [|[k' v'] d IH]; [reflexivity|]. cbn [map dset fst snd]. destruct (String.eqb k k'); cbn [map fst snd]; [reflexivity|]. rewrite IH. reflexivity. Qed.
Lemma eqb_tmap : forall t u : tree A, tree_eqb eqB (tmap g t) (tmap g u) = tree_eqb eqA t u.
Proof.
  induction t as [a| |d IH|l IH|l IH] using tree_ind2; intros [b| |e|m|m]; cbn [tmap tree_eqb]; try reflexivity.
  - apply Heq.
  - rewrite !map_length. f_equal. induction IH as [|[k x] d Hx H IHd]; [reflexivity|]. cbn [map fst snd]. rewrite dget_tmap. destruct (dget e k) as [y|]; [|reflexivity].
    cbn [option_map]. cbn [snd] in Hx. rewrite Hx, IHd. reflexivity.
  - revert m. induction IH as [|x l Hx H IHl]; intros [|y m]; cbn [map]; try reflexivity. rewrite Hx, IHl. reflexivity.
  - revert m. induction IH as [|x l Hx H IHl]; intros [|y m]; cbn [map]; try reflexivity. rewrite Hx, IHl. reflexivity.
Qed.
Lemma conflict_tmap old fill : conflict eqB (tmap g old) (tmap g fill) = conflict eqA old fill.
Proof. unfold conflict. rewrite eqb_tmap. f_equal. f_equal. destruct fill; reflexivity. Qed.
Lemma pad_tmap l n : pad (map (tmap g) l) n = map (tmap g) (pad l n).
Proof. unfold pad. rewrite map_app, map_length. f_equal. induction (S n - length l) as [|k IH]; cbn; congruence. Qed.
Lemma upd_tmap l i v : upd (map (tmap g) l) i (tmap g v) = map (tmap g) (upd l i v).
Proof. revert i. induction l as [|x l IH]; intros [|i]; cbn [map upd]; try reflexivity. rewrite IH. reflexivity. Qed.
Lemma okt_new k : okt (new_node k).
Proof. unfold new_node. destruct (isdigit k); repeat constructor. Qed.
Lemma okt_dset d k v : okt (Dict d) -> okt v -> okt (Dict (dset d k v)).
Proof.
  intros H Hv. inversion H as [| |? HF|]; subst. constructor. clear H. induction d as [|[k' v'] d IH]; cbn [dset]; [constructor; auto|]. inversion HF; subst.
  destruct (String.eqb k k'); constructor; auto.
Qed.
Lemma okt_dget d k v : okt (Dict d) -> dget d k = Some v -> okt v.
Proof. intros H E. inversion H as [| |? HF|]; subst. rewrite Forall_forall in HF. apply dget_In in E. apply (HF _ E). Qed.

Lemma walk_nat ps : forall (t : tree A) done done' fill, okt t -> okt fill ->
  match extend_walk eqA sep t done ps fill with
  | Ok (t', rec) => rec = [] /\ okt t' /\ extend_walk eqB sep (tmap g t) done' ps (tmap g fill) = Ok (tmap g t', [])
  | Err e => extend_walk eqB sep (tmap g t) done' ps (tmap g fill) = Err e
  end.
Proof.
  induction ps as [|key ps IH]; intros t done done' fill Ht Hf; [cbn; auto|]. cbn [extend_walk].
  destruct t as [a| |d|l|l]; [reflexivity|reflexivity| | |inversion Ht]; cbn [tmap]; unfold extend_node.
  - rewrite dget_tmap. destruct ps as [|k2 ps].
    + destruct (dget d key) as [old|] eqn:E; cbn [option_map].
      * rewrite conflict_tmap. destruct (conflict eqA old fill); [reflexivity|]. auto.
      * rewrite dset_tmap. split; [reflexivity|]. split; [apply okt_dset; auto|reflexivity].
    + set (c := match dget d key with Some c => c | None => new_node k2 end).
      assert (Hc : okt c) by (subst c; destruct (dget d key) eqn:E; [eapply okt_dget; eauto|apply okt_new]).
      assert (Ec : match option_map (tmap g) (dget d key) with Some c => c | None => new_node k2 end = tmap g c).
      { subst c. destruct (dget d key); [reflexivity|]. cbn [option_map]. unfold new_node. destruct (isdigit k2); reflexivity. }
      rewrite Ec. specialize (IH c (done ++ [key]) (done' ++ [key]) fill Hc Hf). destruct (extend_walk eqA sep c (done ++ [key]) (k2 :: ps) fill) as [[c' r]|e]; cbn [rbind].
      * destruct IH as (-> & Hc' & ->). cbn [rbind]. rewrite dset_tmap. split; [reflexivity|]. split; [apply okt_dset; auto|reflexivity].
      * rewrite IH. reflexivity.
  - destruct (isdigit key); [|reflexivity]. rewrite pad_tmap.
    assert (HF : Forall okt (pad l (int_of key))) by (apply Forall_pad; [inversion Ht; assumption|constructor]).
    assert (EN : nth (int_of key) (map (tmap g) (pad l (int_of key))) NoneT = tmap g (nth (int_of key) (pad l (int_of key)) NoneT)) by (change (@NoneT B) with (tmap g (@NoneT A)) at 1; apply map_nth).
    rewrite EN. assert (Hn : okt (nth (int_of key) (pad l (int_of key)) NoneT)) by (apply Forall_nth_default; [exact HF|constructor]).
    destruct ps as [|k2 ps].
    + pose proof (conflict_tmap (nth (int_of key) (pad l (int_of key)) NoneT) fill) as CF.
      destruct (nth (int_of key) (pad l (int_of key)) NoneT) as [a| |d|m|m]; cbn [tmap] in *;
        [ | rewrite upd_tmap; split; [reflexivity|]; split; [constructor; apply Forall_upd; auto|reflexivity] | | | ];
        (rewrite CF; destruct (conflict eqA _ fill); [reflexivity|]; split; [reflexivity|]; split; [constructor; exact HF|reflexivity]).
    + set (x := nth (int_of key) (pad l (int_of key)) NoneT) in *. set (c := match x with Leaf a => Leaf a | NoneT => new_node k2 | Dict d => Dict d | Lst m => Lst m | Tup m => Tup m end).
      assert (Hc : okt c) by (subst c; destruct x; auto; apply okt_new).
      assert (Ec : match tmap g x with NoneT => new_node k2 | c => c end = tmap g c).
      { subst c. destruct x; try reflexivity. cbn [tmap]. unfold new_node. destruct (isdigit k2); reflexivity. }
      rewrite Ec. specialize (IH c (done ++ [key]) (done' ++ [key]) fill Hc Hf). destruct (extend_walk eqA sep c (done ++ [key]) (k2 :: ps) fill) as [[c' r]|e]; cbn [rbind].
      * destruct IH as (-> & Hc' & ->). cbn [rbind]. rewrite upd_tmap. split; [reflexivity|]. split; [constructor; apply Forall_upd; auto|reflexivity].
      * rewrite IH. reflexivity.
Qed.
End Nat.
