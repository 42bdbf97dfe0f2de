(** Proofs about make_mutable and flattening order (C05). *)
From Verif Require Import Base BaseLemmas TreeUtil TreeSpec TreeProofs.
From Coq Require Import Permutation Sorted RelationClasses ZifyBool.

(* ---------------- key order and sorting ---------------- *)
Lemma str_leb_refl s : str_leb s s = true.
Proof. induction s as [|c s IH]; simpl; [reflexivity|]. rewrite IH. lia. Qed.

Lemma str_leb_total s t : str_leb s t = true \/ str_leb t s = true.
Proof.
  revert t; induction s as [|c s IH]; intros [|d t]; simpl; auto.
  destruct (IH t) as [H|H]; rewrite H; lia.
Qed.

Lemma str_leb_trans s t u : str_leb s t = true -> str_leb t u = true -> str_leb s u = true.
Proof.
  revert t u; induction s as [|c s IH]; intros [|d t] [|e u]; simpl; intros H1 H2; auto; try discriminate.
  apply orb_true_iff in H1 as [H1|H1]; apply orb_true_iff in H2 as [H2|H2]; try lia.
  apply andb_true_iff in H1 as [H1 H1']. apply andb_true_iff in H2 as [H2 H2'].
  rewrite (IH _ _ H1' H2'). lia.
Qed.

Lemma str_leb_antisym s t : str_leb s t = true -> str_leb t s = true -> s = t.
Proof.
  revert t; induction s as [|c s IH]; intros [|d t]; simpl; intros H1 H2; auto; try discriminate.
  apply orb_true_iff in H1 as [H1|H1]; apply orb_true_iff in H2 as [H2|H2]; try lia.
  apply andb_true_iff in H1 as [H1 H1']. apply andb_true_iff in H2 as [H2 H2'].
  apply Nat.eqb_eq in H1. rewrite (IH _ H1' H2').
  rewrite <- (ascii_nat_embedding c), <- (ascii_nat_embedding d), H1. reflexivity.
Qed.

Section Sort.
Context {V : Type}.
Definition kv_le (a b : string * V) : Prop := str_leb (fst a) (fst b) = true.

Lemma insert_kv_perm (kv : string * V) d : Permutation (insert_kv kv d) (kv :: d).
Proof.
  induction d as [|kv' d IH]; simpl; [reflexivity|].
  destruct (str_leb _ _); [reflexivity|].
  rewrite IH. apply perm_swap.
Qed.

Lemma sort_kvs_perm (d : list (string * V)) : Permutation (sort_kvs d) d.
Proof.
  induction d as [|kv d IH]; simpl; [reflexivity|].
  rewrite insert_kv_perm. constructor. exact IH.
Qed.

Lemma insert_kv_sorted (kv : string * V) d :
  StronglySorted kv_le d -> StronglySorted kv_le (insert_kv kv d).
Proof.
  induction 1 as [|kv' d Hs IH Hf]; simpl; [repeat constructor|].
  destruct (str_leb (fst kv) (fst kv')) eqn:E.
  - constructor; [constructor; assumption|]. constructor; [exact E|].
    eapply Forall_impl; [|exact Hf]. intros x Hx. eapply str_leb_trans; eauto.
  - constructor; [exact IH|].
    apply (Permutation_Forall (Permutation_sym (insert_kv_perm kv d))).
    constructor; [|exact Hf]. destruct (str_leb_total (fst kv) (fst kv')); [congruence|assumption].
Qed.

Lemma sort_kvs_sorted (d : list (string * V)) : StronglySorted kv_le (sort_kvs d).
Proof. induction d as [|kv d IH]; simpl; [constructor|]. apply insert_kv_sorted, IH. Qed.

Lemma sort_kvs_id (d : list (string * V)) : StronglySorted kv_le d -> sort_kvs d = d.
Proof.
  induction 1 as [|kv d Hs IH Hf]; simpl; [reflexivity|]. rewrite IH.
  destruct d as [|kv' d]; [reflexivity|]. simpl. inversion Hf as [|? ? H1 H2]; subst.
  unfold kv_le in H1. rewrite H1. reflexivity.
Qed.

Lemma sort_kvs_idem (d : list (string * V)) : sort_kvs (sort_kvs d) = sort_kvs d.
Proof. apply sort_kvs_id, sort_kvs_sorted. Qed.

Lemma dget_perm (d d' : list (string * V)) k :
  Permutation d d' -> NoDup (dkeys d) -> dget d k = dget d' k.
Proof.
  intros Hp Hn. assert (Hn' : NoDup (dkeys d')).
  { eapply Permutation_NoDup; [|exact Hn]. apply Permutation_map. exact Hp. }
  destruct (dget d k) as [v|] eqn:E.
  - symmetry. apply In_dget; [exact Hn'|]. eapply Permutation_in; [exact Hp|]. apply dget_In; exact E.
  - symmetry. apply dget_None_iff. apply dget_None_iff in E. intros H. apply E.
    eapply Permutation_in; [|exact H]. apply Permutation_map. symmetry; exact Hp.
Qed.

Lemma dget_sort (d : list (string * V)) k : NoDup (dkeys d) -> dget (sort_kvs d) k = dget d k.
Proof. intros H. symmetry. apply dget_perm; [symmetry; apply sort_kvs_perm|exact H]. Qed.
End Sort.

Lemma insert_kv_map {V W} (f : string * V -> string * W) (Hf : forall kv, fst (f kv) = fst kv) kv d :
  insert_kv (f kv) (map f d) = map f (insert_kv kv d).
Proof.
  induction d as [|kv' d IH]; simpl; [reflexivity|].
  rewrite !Hf. destruct (str_leb _ _); simpl; [reflexivity|]. rewrite IH. reflexivity.
Qed.

Lemma sort_kvs_map {V W} (f : string * V -> string * W) (Hf : forall kv, fst (f kv) = fst kv) d :
  sort_kvs (map f d) = map f (sort_kvs d).
Proof. induction d as [|kv d IH]; simpl; [reflexivity|]. rewrite IH. apply insert_kv_map, Hf. Qed.

Lemma dget_map_snd {V W} (f : V -> W) (d : list (string * V)) k :
  dget (map (fun kv => (fst kv, f (snd kv))) d) k = option_map f (dget d k).
Proof.
  induction d as [|[k' v] d IH]; simpl; [reflexivity|].
  destruct (String.eqb k k'); [reflexivity|exact IH].
Qed.

Lemma dkeys_map_snd {V W} (f : V -> W) (d : list (string * V)) :
  dkeys (map (fun kv => (fst kv, f (snd kv))) d) = dkeys d.
Proof. unfold dkeys. rewrite map_map. reflexivity. Qed.

Lemma list_sum_perm l l' : Permutation l l' -> list_sum l = list_sum l'.
Proof. induction 1; simpl; lia. Qed.

(* ---------------- counting tuples ---------------- *)
Fixpoint ntup {A} (t : tree A) : nat :=
  match t with
  | Leaf _ | NoneT => 0
  | Dict d => list_sum (map (fun kv => ntup (snd kv)) d)
  | Lst l => list_sum (map ntup l)
  | Tup l => S (list_sum (map ntup l))
  end.

Lemma list_sum_le {B} (f g : B -> nat) l :
  Forall (fun x => f x <= g x) l -> list_sum (map f l) <= list_sum (map g l).
Proof. induction 1; simpl; lia. Qed.

Lemma list_sum_lt {B} (f g : B -> nat) l :
  Forall (fun x => f x <= g x) l -> Exists (fun x => f x < g x) l ->
  list_sum (map f l) < list_sum (map g l).
Proof.
  intros Hf He. induction He as [x l Hx|x l He IH]; inversion Hf; subst; simpl.
  - assert (H := list_sum_le f g l H2). lia.
  - specialize (IH H2). lia.
Qed.

Lemma ntup_le_tsize {A} (t : tree A) : ntup t <= tsize t.
Proof.
  induction t as [a| |d IH|l IH|l IH] using tree_ind'; simpl; try lia.
  - assert (H := list_sum_le (fun kv : string * tree A => ntup (snd kv)) (fun kv => tsize (snd kv)) d IH). lia.
  - assert (H := list_sum_le ntup tsize l IH). lia.
  - assert (H := list_sum_le ntup tsize l IH). lia.
Qed.

Lemma ntup_dict_sort {A} (d : list (string * tree A)) :
  ntup (Dict (sort_kvs d)) = ntup (Dict d).
Proof. simpl. apply list_sum_perm. apply Permutation_map, sort_kvs_perm. Qed.

Lemma ntup_step_le {A} (t : tree A) : ntup (mutable_step t) <= ntup t.
Proof.
  induction t as [a| |d IH|l IH|l IH] using tree_ind'; cbn [mutable_step]; try (simpl; lia).
  - rewrite ntup_dict_sort. simpl. rewrite map_map. simpl. apply list_sum_le. exact IH.
  - simpl. rewrite map_map. apply list_sum_le. exact IH.
Qed.

Lemma existsb_Exists {B} (f : B -> bool) l : existsb f l = true -> Exists (fun x => f x = true) l.
Proof. intros H. apply existsb_exists in H as [x [H1 H2]]. apply Exists_exists; eauto. Qed.

Lemma Forall_Exists_impl {B} (P Q R : B -> Prop) l :
  (forall x, P x -> Q x -> R x) -> Forall P l -> Exists Q l -> Exists R l.
Proof.
  intros H Hf He. rewrite Forall_forall in Hf. apply Exists_exists in He as [x [H1 H2]].
  apply Exists_exists; exists x; auto.
Qed.

Lemma ntup_step_lt {A} (t : tree A) : has_outer_tuple t = true -> ntup (mutable_step t) < ntup t.
Proof.
  induction t as [a| |d IH|l IH|l IH] using tree_ind'; cbn [mutable_step has_outer_tuple]; intros H;
    try discriminate.
  - rewrite ntup_dict_sort. simpl. rewrite map_map. simpl. apply list_sum_lt.
    + apply Forall_forall. intros x _. apply ntup_step_le.
    + eapply Forall_Exists_impl; [|exact IH|apply existsb_Exists; exact H]. simpl; auto.
  - simpl. rewrite map_map. apply list_sum_lt.
    + apply Forall_forall. intros x _. apply ntup_step_le.
    + eapply Forall_Exists_impl; [|exact IH|apply existsb_Exists; exact H]. simpl; auto.
  - simpl. lia.
Qed.

Lemma existsb_false_Forall {B} (f : B -> bool) l :
  existsb f l = false <-> Forall (fun x => f x = false) l.
Proof.
  induction l as [|x l IH]; simpl; [split; [constructor|reflexivity]|].
  rewrite orb_false_iff, IH. split.
  - intros [H1 H2]; constructor; assumption.
  - intros H; inversion H; auto.
Qed.

Lemma has_outer_tuple_false {A} (t : tree A) : has_outer_tuple t = false <-> tuple_free t.
Proof.
  induction t as [a| |d IH|l IH|l IH] using tree_ind'; simpl.
  - split; [constructor|reflexivity].
  - split; [constructor|reflexivity].
  - rewrite existsb_false_Forall. split.
    + intros H. constructor. rewrite Forall_forall in *. intros x Hx. apply IH; auto.
    + intros H. inversion H as [| |d' Hd|]; subst. rewrite Forall_forall in *. intros x Hx. apply IH; auto.
  - rewrite existsb_false_Forall. split.
    + intros H. constructor. rewrite Forall_forall in *. intros x Hx. apply IH; auto.
    + intros H. inversion H as [| | |l' Hd]; subst. rewrite Forall_forall in *. intros x Hx. apply IH; auto.
  - split; [discriminate|]. intros H; inversion H.
Qed.

(* ---------------- what one step preserves ---------------- *)
(** same atoms reached by every key list, in both directions *)
Definition same_atoms {A} (t u : tree A) : Prop :=
  forall ks x, atomic x = true -> (walk t ks = Some x <-> walk u ks = Some x).
Definition same_domain {A} (t u : tree A) : Prop :=
  forall ks, walk t ks = None <-> walk u ks = None.

Lemma wf_step {A} (t : tree A) : wf_tree t -> wf_tree (mutable_step t).
Proof.
  induction t as [a| |d IH|l IH|l IH] using tree_ind'; cbn [mutable_step]; intros H; inversion H; subst.
  - constructor.
  - constructor.
  - constructor.
    + eapply Permutation_NoDup; [|eassumption]. rewrite <- (dkeys_map_snd mutable_step d).
      unfold dkeys. apply Permutation_map. symmetry. apply sort_kvs_perm.
    + apply (Permutation_Forall (Permutation_sym (sort_kvs_perm _))).
      apply Forall_map. simpl. rewrite Forall_forall in *. intros x Hx. apply IH; auto.
  - constructor. apply Forall_map. rewrite Forall_forall in *. intros x Hx. apply IH; auto.
  - constructor. assumption.
Qed.

Lemma child_step_dict {A} (d : list (string * tree A)) k :
  NoDup (dkeys d) -> child (mutable_step (Dict d)) k = option_map mutable_step (dget d k).
Proof.
  intros H. simpl. rewrite dget_sort by (rewrite dkeys_map_snd; exact H). apply dget_map_snd.
Qed.

Lemma walk_step {A} (t : tree A) : wf_tree t ->
  same_atoms t (mutable_step t) /\ same_domain t (mutable_step t).
Proof.
  induction t as [a| |d IH|l IH|l IH] using tree_ind'; intros H.
  - split; intros ks; cbn [mutable_step]; tauto.
  - split; intros ks; cbn [mutable_step]; tauto.
  - inversion H as [| |d' Hnd Hwf| |]; subst. split.
    + intros [|k ks] x Hx.
      * simpl. split; intros E; injection E as <-; discriminate.
      * cbn [walk]. rewrite child_step_dict by exact Hnd. cbn [child].
        destruct (dget d k) as [c|] eqn:E; simpl; [|tauto].
        apply dget_In in E. rewrite Forall_forall in IH, Hwf.
        apply (IH (k, c) E (Hwf _ E)). exact Hx.
    + intros [|k ks].
      * simpl. split; discriminate.
      * cbn [walk]. rewrite child_step_dict by exact Hnd. cbn [child].
        destruct (dget d k) as [c|] eqn:E; simpl; [|tauto].
        apply dget_In in E. rewrite Forall_forall in IH, Hwf.
        apply (IH (k, c) E (Hwf _ E)).
  - inversion H as [| | |l' Hwf|]; subst. rewrite Forall_forall in IH, Hwf. split.
    + intros [|k ks] x Hx.
      * simpl. split; intros E; injection E as <-; discriminate.
      * cbn [walk mutable_step child]. destruct (isdigit k); [|tauto].
        rewrite nth_error_map. destruct (nth_error l (int_of k)) as [c|] eqn:E; simpl; [|tauto].
        apply nth_error_In in E. apply (IH c E (Hwf _ E)). exact Hx.
    + intros [|k ks].
      * simpl. split; discriminate.
      * cbn [walk mutable_step child]. destruct (isdigit k); [|tauto].
        rewrite nth_error_map. destruct (nth_error l (int_of k)) as [c|] eqn:E; simpl; [|tauto].
        apply nth_error_In in E. apply (IH c E (Hwf _ E)).
  - split.
    + intros [|k ks] x Hx; cbn [mutable_step walk child]; [|tauto].
      split; intros E; injection E as <-; discriminate.
    + intros [|k ks]; cbn [mutable_step walk child]; [|tauto]. split; discriminate.
Qed.

Lemma leaves_dict_sort {A} (d : list (string * tree A)) :
  leaves (Dict (sort_kvs d)) = leaves (Dict d).
Proof.
  simpl. rewrite !(sort_kvs_map (fun kv : string * tree A => (fst kv, leaves (snd kv)))) by reflexivity.
  rewrite sort_kvs_idem. reflexivity.
Qed.

Lemma leaves_step {A} (t : tree A) : leaves (mutable_step t) = leaves t.
Proof.
  induction t as [a| |d IH|l IH|l IH] using tree_ind'; cbn [mutable_step]; try reflexivity.
  - rewrite leaves_dict_sort. simpl. rewrite map_map. simpl. f_equal. f_equal. f_equal.
    apply map_ext_Forall. eapply Forall_impl; [|exact IH]. simpl. intros kv ->. reflexivity.
  - simpl. rewrite map_map. f_equal. apply map_ext_Forall. exact IH.
Qed.

(* ---------------- the loop ---------------- *)
Lemma make_mutable_fuel_spec {A} f : forall t : tree A,
  wf_tree t -> ntup t <= f ->
  exists m, make_mutable_fuel f t = Ok m /\ tuple_free m /\ wf_tree m /\
            leaves m = leaves t /\ same_atoms t m /\ same_domain t m.
Proof.
  induction f as [|f IH]; intros t Hwf Hn; cbn [make_mutable_fuel].
  - destruct (has_outer_tuple t) eqn:E.
    + apply ntup_step_lt in E. lia.
    + exists t. apply has_outer_tuple_false in E. repeat split; auto; tauto.
  - destruct (has_outer_tuple t) eqn:E.
    + destruct (IH (mutable_step t)) as [m [H1 [H2 [H3 [H4 [H5 H6]]]]]].
      * apply wf_step, Hwf.
      * apply ntup_step_lt in E. lia.
      * destruct (walk_step t Hwf) as [W1 W2]. exists m. split; [exact H1|]. split; [exact H2|].
        split; [exact H3|]. split; [rewrite H4; apply leaves_step|]. split.
        -- intros ks x Hx. rewrite (W1 ks x Hx). apply H5, Hx.
        -- intros ks. rewrite (W2 ks). apply H6.
    + exists t. apply has_outer_tuple_false in E. repeat split; auto; tauto.
Qed.

Lemma make_mutable_spec {A} (t : tree A) :
  wf_tree t ->
  exists m, make_mutable t = Ok m /\ tuple_free m /\ wf_tree m /\
            leaves m = leaves t /\ same_atoms t m /\ same_domain t m.
Proof. intros H. apply make_mutable_fuel_spec; [exact H|apply ntup_le_tsize]. Qed.

Lemma make_mutable_tuple_free {A} (t : tree A) : tuple_free t -> make_mutable t = Ok t.
Proof.
  intros H. unfold make_mutable. apply has_outer_tuple_false in H.
  destruct (tsize t); simpl; rewrite H; reflexivity.
Qed.
