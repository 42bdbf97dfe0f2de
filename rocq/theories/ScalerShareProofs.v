From Coq Require Import Permutation Lia.
From Verif Require Import Base BaseLemmas TreeUtil TreeSpec NonSeqSpec NonSeqProofs MutableProofs Serial SerialSpec SerialProofs ScalerFile ScalerFileSpec ScalerFileProofs ScalerShare ScalerShareSpec.
Local Open Scope list_scope.
Local Open Scope nat_scope.

(* ------------------------------------------------------------------ *)
(** * Sequences of results *)
Lemma seq_list_ok {Y} (l : list (result Y)) : forall m, seq_list l = Ok m <-> Forall2 (fun r y => r = Ok y) l m.
Proof.
  induction l as [|r l IH]; intros m; cbn.
  - split; [intros [= <-]; constructor|intros H; inversion H; reflexivity].
  - split.
    + intros H. destruct r as [y|e]; [|discriminate]. cbn in H. destruct (seq_list l) as [m'|e] eqn:E; [|discriminate]. injection H as <-. constructor; [reflexivity|]. apply IH. reflexivity.
    + intros H. inversion H as [|? y ? m' H1 H2]; subst. apply IH in H2. rewrite H2. reflexivity.
Qed.
Lemma seq_dict_ok {Y} (d : list (string * result Y)) : forall e, seq_dict d = Ok e <-> Forall2 (fun a b => fst a = fst b /\ snd a = Ok (snd b)) d e.
Proof.
  induction d as [|[k r] d IH]; intros m; cbn.
  - split; [intros [= <-]; constructor|intros H; inversion H; reflexivity].
  - split.
    + intros H. destruct r as [y|e]; [|discriminate]. cbn in H. destruct (seq_dict d) as [m'|e] eqn:E; [|discriminate]. injection H as <-. constructor; [split; reflexivity|]. apply IH. reflexivity.
    + intros H. inversion H as [|? [k' y] ? m' [H0 H1] H2]; subst. apply IH in H2. cbn in *. subst. rewrite H2. reflexivity.
Qed.
Lemma go_map {X Y} (f : X -> nat -> Y) (dflt : X) l : forall i,
  (fix go (l : list X) (i : nat) := match l with [] => [] | x :: l' => f x i :: go l' (S i) end) l i = map (fun j => f (nth j l dflt) (i + j)) (seq 0 (length l)).
Proof.
  induction l as [|x l IH]; intros i; [reflexivity|]. cbn [length seq map nth]. f_equal; [f_equal; lia|]. rewrite IH, <- seq_shift, map_map. apply map_ext. intros j. f_equal. lia.
Qed.

Lemma NoDup_app_intro {X} (l m : list X) : NoDup l -> NoDup m -> (forall x, In x l -> ~ In x m) -> NoDup (l ++ m).
Proof.
  induction 1 as [|x l H N IH]; intros M D; [exact M|]. cbn. constructor.
  - rewrite in_app_iff. intros [Hx|Hx]; [exact (H Hx)|]. apply (D x); [left; reflexivity|exact Hx].
  - apply IH; [exact M|]. intros y Hy. apply D. right; exact Hy.
Qed.

(* ------------------------------------------------------------------ *)
(** * Nodes *)
Section Node.
Context {A : Type}.
Notation item := (key * (tree nat * tree A))%type.
Definition of_dict (d : list (string * tree nat)) (X : tree A) : list item := map (fun kv => (Name (fst kv), (snd kv, child (fst kv) X))) (sort_kvs d).
Definition of_list (l : list (tree nat)) (X : tree A) : list item := map (fun j => (Pos j, (nth j l NoneT, elem j X))) (seq 0 (length l)).

Lemma sort_map {V W} (f : string -> V -> W) (d : list (string * V)) : sort_kvs (map (fun kv => (fst kv, f (fst kv) (snd kv))) d) = map (fun kv => (fst kv, f (fst kv) (snd kv))) (sort_kvs d).
Proof.
  assert (I : forall kv d, insert_kv (fst kv, f (fst kv) (snd kv)) (map (fun kv => (fst kv, f (fst kv) (snd kv))) d) = map (fun kv => (fst kv, f (fst kv) (snd kv))) (insert_kv kv d)).
  { intros kv e. induction e as [|a e IH]; cbn; [reflexivity|]. destruct (str_leb (fst kv) (fst a)) eqn:E; cbn; [reflexivity|]. f_equal. exact IH. }
  unfold sort_kvs. induction d as [|a d IH]; cbn; [reflexivity|]. rewrite IH. apply I.
Qed.
Lemma pairs_dict d (X : tree A) : pairs (Dict d) X = if has_keys d X then
    let* m := seq_dict (map (fun kv => (fst kv, pairs (snd kv) (child (fst kv) X))) (sort_kvs d)) in Ok (concat (map snd m)) else Err ValueError.
Proof. cbn [pairs]. rewrite (sort_map (fun k v => pairs v (child k X)) d). reflexivity. Qed.
Lemma pairs_lst l (X : tree A) : pairs (Lst l) X = if is_lst (length l) X then
    let* m := seq_list (map (fun j => pairs (nth j l NoneT) (elem j X)) (seq 0 (length l))) in Ok (concat m) else Err ValueError.
Proof. cbn [pairs]. rewrite (go_map (fun x i => pairs x (elem i X)) NoneT l 0). reflexivity. Qed.
Lemma pairs_tup l (X : tree A) : pairs (Tup l) X = if is_tup (length l) X then
    let* m := seq_list (map (fun j => pairs (nth j l NoneT) (elem j X)) (seq 0 (length l))) in Ok (concat m) else Err ValueError.
Proof. cbn [pairs]. rewrite (go_map (fun x i => pairs x (elem i X)) NoneT l 0). reflexivity. Qed.

(** The keys of the data are those of the scalers. *)
Lemma has_keys_in {B} (d : list (string * B)) (X : tree A) k v : has_keys d X = true -> In (k, v) d -> down X (Name k) = Some (child k X).
Proof.
  destruct X as [x| |e|l|l]; try discriminate. cbn. intros H Hin. apply andb_true_iff in H as [_ H]. rewrite forallb_forall in H. specialize (H _ Hin). cbn in H.
  destruct (dget e k); [reflexivity|discriminate].
Qed.
Lemma elem_lst n (X : tree A) i : is_lst n X = true -> i < n -> down X (Pos i) = Some (elem i X).
Proof. destruct X; try discriminate. cbn. intros H L. apply Nat.eqb_eq in H. apply nth_error_nth'. lia. Qed.
Lemma elem_tup n (X : tree A) i : is_tup n X = true -> i < n -> down X (Pos i) = Some (elem i X).
Proof. destruct X; try discriminate. cbn. intros H L. apply Nat.eqb_eq in H. apply nth_error_nth'. lia. Qed.

(** The parts with their places. *)
Definition placed (t : tree nat) (X : tree A) (L : list (list key * (nat * tree A))) : Prop :=
  NoDup (map fst L) /\ forall p r Y, In (p, (r, Y)) L <-> at_path t p = Some (Leaf r) /\ at_path X p = Some Y.
Lemma node (its : list item) ls : NoDup (map fst its) ->
  Forall2 (fun it l => exists L, map snd L = l /\ placed (fst (snd it)) (snd (snd it)) L) its ls ->
  exists L, map snd L = concat ls /\ NoDup (map fst L) /\ forall p r Y, In (p, (r, Y)) L <->
    exists k u V p', In (k, (u, V)) its /\ p = k :: p' /\ at_path u p' = Some (Leaf r) /\ at_path V p' = Some Y.
Proof.
  intros N F. induction F as [|[k [u V]] l its ls (L & E & N1 & H1) F IH].
  - exists []. split; [reflexivity|]. split; [constructor|]. intros p r Y. split; [intros []|]. intros (k & u & V & p' & [] & _).
  - inversion N as [|? ? N2 N3]; subst. destruct (IH N3) as (L' & E' & N' & H'). cbn [fst snd] in *.
    exists (map (fun a => (k :: fst a, snd a)) L ++ L'). split.
    { rewrite map_app, map_map. cbn [snd]. rewrite E'. reflexivity. } split.
    { rewrite map_app. replace (map fst (map (fun a => (k :: fst a, snd a)) L)) with (map (cons k) (map fst L)) by (rewrite !map_map; reflexivity). apply NoDup_app_intro.
      - apply FinFun.Injective_map_NoDup; [intros a b [= ->]; reflexivity|exact N1].
      - exact N'.
      - intros p Hp Hq. apply in_map_iff in Hp as (a & <- & _). apply in_map_iff in Hq as ([q [r Y]] & E2 & Hq). cbn in E2. subst q.
        apply H' in Hq as (k' & u' & V' & p' & Hi & [= -> ->] & _). apply N2. apply in_map_iff. exists (k', (u', V')). auto. }
    intros p r Y. rewrite in_app_iff, in_map_iff, H'. split.
    + intros [([q [r' Y']] & [= <- <- <-] & Hin)|(k' & u' & V' & p' & Hi & R)].
      * apply H1 in Hin as [Ha Hb]. exists k, u, V, q. split; [left; reflexivity|]. auto.
      * exists k', u', V', p'. split; [right; exact Hi|exact R].
    + intros (k' & u' & V' & p' & [[= -> -> ->]|Hi] & -> & Ha & Hb).
      * left. exists (p', (r, Y)). split; [reflexivity|]. apply H1. auto.
      * right. exists k', u', V', p'. auto.
Qed.
End Node.

Section Pairs.
Context {A : Type}.
Lemma at_dict (d : list (string * tree nat)) (X : tree A) p r Y : NoDup (dkeys d) -> has_keys d X = true ->
  (exists k u V p', In (k, (u, V)) (of_dict d X) /\ p = k :: p' /\ at_path u p' = Some (Leaf r) /\ at_path V p' = Some Y) <->
  at_path (Dict d) p = Some (Leaf r) /\ at_path X p = Some Y.
Proof.
  intros N H. split.
  - intros (k & u & V & p' & Hi & -> & Ha & Hb). unfold of_dict in Hi. apply in_map_iff in Hi as ([n v] & [= <- <- <-] & Hi). cbn [fst snd] in *.
    apply (Permutation_in _ (sort_kvs_perm _)) in Hi. cbn [at_path]. rewrite (has_keys_in d X n v H Hi). cbn [down]. rewrite (In_dget _ _ _ N Hi). auto.
  - intros [Ha Hb]. destruct p as [|[n|i] p']; try discriminate. cbn [at_path down] in Ha. destruct (dget d n) as [v|] eqn:E; [|discriminate]. apply dget_In in E.
    cbn [at_path] in Hb. rewrite (has_keys_in d X n v H E) in Hb. exists (Name n), v, (child n X), p'. split; [|auto].
    unfold of_dict. apply in_map_iff. exists (n, v). split; [reflexivity|]. apply (Permutation_in _ (Permutation_sym (sort_kvs_perm _))). exact E.
Qed.
Lemma at_list (l : list (tree nat)) (X : tree A) p r Y (t : tree nat) : (t = Lst l /\ is_lst (length l) X = true \/ t = Tup l /\ is_tup (length l) X = true) ->
  (exists k u V p', In (k, (u, V)) (of_list l X) /\ p = k :: p' /\ at_path u p' = Some (Leaf r) /\ at_path V p' = Some Y) <->
  at_path t p = Some (Leaf r) /\ at_path X p = Some Y.
Proof.
  intros T. assert (HX : forall i, i < length l -> down X (Pos i) = Some (elem i X)).
  { intros i L. destruct T as [[_ T]|[_ T]]; [exact (elem_lst _ _ _ T L)|exact (elem_tup _ _ _ T L)]. }
  assert (HT : forall k, down t k = match k with Pos i => nth_error l i | Name _ => None end) by (destruct T as [[-> _]|[-> _]]; intros [n|i]; reflexivity).
  assert (HN : at_path t [] = Some t /\ t <> Leaf r) by (destruct T as [[-> _]|[-> _]]; split; try reflexivity; discriminate).
  split.
  - intros (k & u & V & p' & Hi & -> & Ha & Hb). unfold of_list in Hi. apply in_map_iff in Hi as (j & [= <- <- <-] & Hi). apply in_seq in Hi.
    cbn [at_path]. rewrite HT, (nth_error_nth' l NoneT) by lia. rewrite HX by lia. auto.
  - intros [Ha Hb]. destruct p as [|k p']; [destruct HN as [_ HN]; cbn in Ha; congruence|]. cbn [at_path] in Ha, Hb. rewrite HT in Ha. destruct k as [n|i]; [discriminate|].
    destruct (nth_error l i) as [u|] eqn:E; [|discriminate]. assert (L : i < length l) by (apply nth_error_Some; congruence). rewrite (HX i L) in Hb.
    exists (Pos i), u, (elem i X), p'. split; [|auto]. unfold of_list. apply in_map_iff. exists i. split; [|apply in_seq; lia]. rewrite (nth_error_nth l i NoneT E). reflexivity.
Qed.
Lemma F2_in_l {U V} (R S : U -> V -> Prop) l m : Forall2 R l m -> (forall x y, In x l -> R x y -> S x y) -> Forall2 S l m.
Proof. induction 1; intros H'; constructor; [apply H'; [left; reflexivity|assumption]|]. apply IHForall2. intros a b Ha. apply H'. right; exact Ha. Qed.
Lemma F2_map_l {U V W} (f : U -> V) (R : V -> W -> Prop) l : forall m, Forall2 R (map f l) m -> Forall2 (fun x => R (f x)) l m.
Proof. induction l as [|x l IH]; intros m H; inversion H; subst; constructor; auto. Qed.
Lemma F2_map_r {U V W} (f : V -> W) (R : U -> V -> Prop) (S : U -> W -> Prop) l m : Forall2 R l m -> (forall x y, R x y -> S x (f y)) -> Forall2 S l (map f m).
Proof. induction 1; intros H'; constructor; auto. Qed.
Lemma F2_map_l' {U V W} (f : U -> V) (R : V -> W -> Prop) l : forall m, Forall2 (fun x => R (f x)) l m -> Forall2 R (map f l) m.
Proof. induction l as [|x l IH]; intros m H; inversion H; subst; constructor; auto. Qed.

Lemma pairs_placed t : wf_tree t -> forall (X : tree A) l, pairs t X = Ok l -> exists L, map snd L = l /\ placed t X L.
Proof.
  induction t as [r| |d IH|l IH|l IH] using tree_ind2; intros W X ls H.
  - injection H as <-. exists [([], (r, X))]. split; [reflexivity|]. split; [constructor; [intros []|constructor]|].
    intros p r' Y. split.
    + intros [[= <- <- <-]|[]]. split; reflexivity.
    + intros [Ha Hb]. destruct p as [|k p]; [|discriminate]. cbn in Ha, Hb. injection Ha as <-. injection Hb as <-. left; reflexivity.
  - injection H as <-. exists []. split; [reflexivity|]. split; [constructor|]. intros p r' Y. split; [intros []|]. intros [Ha _]. destruct p as [|k p]; discriminate.
  - inversion W as [| |? N WF| |]; subst. rewrite pairs_dict in H. destruct (has_keys d X) eqn:HK; [|discriminate]. destruct (seq_dict _) as [m|e] eqn:E; [|discriminate]. injection H as <-.
    apply seq_dict_ok in E. destruct (node (of_dict d X) (map snd m)) as (L & E1 & E2 & E3).
    + unfold of_dict. rewrite map_map. cbn [fst]. rewrite <- (map_map fst Name). apply FinFun.Injective_map_NoDup; [intros a b [= ->]; reflexivity|].
      apply (Permutation_NoDup (Permutation_map fst (Permutation_sym (sort_kvs_perm d)))). exact N.
    + unfold of_dict. apply F2_map_l'. apply F2_map_l in E. eapply F2_map_r; [|intros x y Hxy; exact Hxy].
      eapply F2_in_l; [exact E|]. intros [k v] [k' l] Hin [Hk Hl]. cbn [fst snd] in *. subst k'. apply (Permutation_in _ (sort_kvs_perm _)) in Hin.
      rewrite Forall_forall in IH, WF. exact (IH _ Hin (WF _ Hin) _ _ Hl).
    + exists L. split; [exact E1|]. split; [exact E2|]. intros p r Y. rewrite E3. apply at_dict; assumption.
  - inversion W as [| | |? WF|]; subst. rewrite pairs_lst in H. destruct (is_lst (length l) X) eqn:HK; [|discriminate]. destruct (seq_list _) as [m|e] eqn:E; [|discriminate]. injection H as <-.
    apply seq_list_ok in E. destruct (node (of_list l X) m) as (L & E1 & E2 & E3).
    + unfold of_list. rewrite map_map. cbn [fst]. apply FinFun.Injective_map_NoDup; [intros a b [= ->]; reflexivity|apply seq_NoDup].
    + unfold of_list. apply F2_map_l'. apply F2_map_l in E. eapply F2_in_l; [exact E|]. intros j y Hj Hy. cbn [fst snd]. apply in_seq in Hj.
      assert (Hin : In (nth j l NoneT) l) by (apply nth_In; lia). rewrite Forall_forall in IH, WF. exact (IH _ Hin (WF _ Hin) _ _ Hy).
    + exists L. split; [exact E1|]. split; [exact E2|]. intros p r Y. rewrite E3. apply at_list. auto.
  - inversion W as [| | | |? WF]; subst. rewrite pairs_tup in H. destruct (is_tup (length l) X) eqn:HK; [|discriminate]. destruct (seq_list _) as [m|e] eqn:E; [|discriminate]. injection H as <-.
    apply seq_list_ok in E. destruct (node (of_list l X) m) as (L & E1 & E2 & E3).
    + unfold of_list. rewrite map_map. cbn [fst]. apply FinFun.Injective_map_NoDup; [intros a b [= ->]; reflexivity|apply seq_NoDup].
    + unfold of_list. apply F2_map_l'. apply F2_map_l in E. eapply F2_in_l; [exact E|]. intros j y Hj Hy. cbn [fst snd]. apply in_seq in Hj.
      assert (Hin : In (nth j l NoneT) l) by (apply nth_In; lia). rewrite Forall_forall in IH, WF. exact (IH _ Hin (WF _ Hin) _ _ Hy).
    + exists L. split; [exact E1|]. split; [exact E2|]. intros p r Y. rewrite E3. apply at_list. auto.
Qed.
End Pairs.

(* ------------------------------------------------------------------ *)
(** * Applying *)
Section Pre.
Context {A : Type} (f : nat -> tree A -> result (tree A)).
Lemma pre_dict d (X : tree A) : pre f (Dict d) X = if has_keys d X then
    let* m := seq_dict (map (fun kv => (fst kv, pre f (snd kv) (child (fst kv) X))) (sort_kvs d)) in Ok (Dict m) else Err ValueError.
Proof. cbn [pre]. rewrite (sort_map (fun k v => pre f v (child k X)) d). reflexivity. Qed.
Lemma pre_lst l (X : tree A) : pre f (Lst l) X = if is_lst (length l) X then
    let* m := seq_list (map (fun j => pre f (nth j l NoneT) (elem j X)) (seq 0 (length l))) in Ok (Lst m) else Err ValueError.
Proof. cbn [pre]. rewrite (go_map (fun x i => pre f x (elem i X)) NoneT l 0). reflexivity. Qed.
Lemma pre_tup l (X : tree A) : pre f (Tup l) X = if is_tup (length l) X then
    let* m := seq_list (map (fun j => pre f (nth j l NoneT) (elem j X)) (seq 0 (length l))) in Ok (Tup m) else Err ValueError.
Proof. cbn [pre]. rewrite (go_map (fun x i => pre f x (elem i X)) NoneT l 0). reflexivity. Qed.

Lemma F2_nth {U V} (R : U -> V -> Prop) l m : Forall2 R l m -> forall i x, nth_error l i = Some x -> exists y, nth_error m i = Some y /\ R x y.
Proof. induction 1; intros [|i] z E; try discriminate; cbn in *; [injection E as <-; eauto|auto]. Qed.
Lemma nth_seq n i : i < n -> nth_error (seq 0 n) i = Some i.
Proof. intros H. rewrite (nth_error_nth' _ 0) by (rewrite seq_length; exact H). rewrite seq_nth by exact H. reflexivity. Qed.

Definition carried (t : tree nat) (Y Z : tree A) : Prop :=
  (forall p r, at_path t p = Some (Leaf r) -> exists Y' Z', at_path Y p = Some Y' /\ at_path Z p = Some Z' /\ f r Y' = Ok Z') /\
  (forall p, at_path t p = Some NoneT -> exists V, at_path Y p = Some V /\ at_path Z p = Some V).
Lemma pre_carried t : wf_tree t -> forall Y Z, pre f t Y = Ok Z -> carried t Y Z.
Proof.
  induction t as [r| |d IH|l IH|l IH] using tree_ind2; intros W Y Z H.
  - cbn [pre] in H. split.
    + intros p r' E. destruct p as [|k p]; [|discriminate]. cbn in E. injection E as <-. exists Y, Z. auto.
    + intros p E. destruct p; discriminate.
  - cbn in H. injection H as <-. split.
    + intros p r' E. destruct p; discriminate.
    + intros p E. destruct p as [|k p]; [|discriminate]. exists Y. auto.
  - inversion W as [| |? N WF| |]; subst. rewrite pre_dict in H. destruct (has_keys d Y) eqn:HK; [|discriminate]. destruct (seq_dict _) as [m|e] eqn:E; [|discriminate]. injection H as <-.
    apply seq_dict_ok in E. apply F2_map_l in E. cbn [fst snd] in E.
    assert (C : forall k v, dget d k = Some v -> exists z, dget m k = Some z /\ carried v (child k Y) z).
    { intros k v Hg. assert (S : dget (sort_kvs d) k = Some v) by (rewrite dget_sort; assumption). clear N HK. revert S. induction E as [|[k1 v1] [k2 z] ds m [Hk Hz] F IHF]; intros S; [discriminate|].
      cbn [fst snd] in *. subst k2. cbn [dget] in S |- *. destruct (String.eqb k k1) eqn:Q; [|auto]. apply String.eqb_eq in Q. subst k1. injection S as <-.
      exists z. split; [reflexivity|]. apply dget_In in Hg. rewrite Forall_forall in IH, WF. exact (IH _ Hg (WF _ Hg) _ _ Hz). }
    split.
    + intros p r E'. destruct p as [|[n|i] p]; try discriminate. cbn [at_path down] in *. destruct (dget d n) as [v|] eqn:G; [|discriminate].
      destruct (C _ _ G) as (z & Gz & [C1 _]). apply dget_In in G. rewrite (has_keys_in d Y n v HK G). rewrite Gz. auto.
    + intros p E'. destruct p as [|[n|i] p]; try discriminate. cbn [at_path down] in *. destruct (dget d n) as [v|] eqn:G; [|discriminate].
      destruct (C _ _ G) as (z & Gz & [_ C2]). apply dget_In in G. rewrite (has_keys_in d Y n v HK G). rewrite Gz. auto.
  - inversion W as [| | |? WF|]; subst. rewrite pre_lst in H. destruct (is_lst (length l) Y) eqn:HK; [|discriminate]. destruct (seq_list _) as [m|e] eqn:E; [|discriminate]. injection H as <-.
    apply seq_list_ok in E. apply F2_map_l in E.
    assert (C : forall i v, nth_error l i = Some v -> i < length l /\ exists z, nth_error m i = Some z /\ carried v (elem i Y) z).
    { intros i v G. assert (L : i < length l) by (apply nth_error_Some; congruence). split; [exact L|]. destruct (F2_nth _ _ _ E i i (nth_seq _ _ L)) as (z & Gz & Hz).
      exists z. split; [exact Gz|]. rewrite (nth_error_nth l i NoneT G) in Hz. apply nth_error_In in G. rewrite Forall_forall in IH, WF. exact (IH _ G (WF _ G) _ _ Hz). }
    split; intros p.
    + intros r E'. destruct p as [|[n|i] p]; try discriminate. cbn [at_path] in *. cbn [down] in E'. destruct (nth_error l i) as [v|] eqn:G; [|discriminate].
      destruct (C _ _ G) as (L & z & Gz & [C1 _]). rewrite (elem_lst _ _ _ HK L). cbn [down]. rewrite Gz. auto.
    + intros E'. destruct p as [|[n|i] p]; try discriminate. cbn [at_path] in *. cbn [down] in E'. destruct (nth_error l i) as [v|] eqn:G; [|discriminate].
      destruct (C _ _ G) as (L & z & Gz & [_ C2]). rewrite (elem_lst _ _ _ HK L). cbn [down]. rewrite Gz. auto.
  - inversion W as [| | | |? WF]; subst. rewrite pre_tup in H. destruct (is_tup (length l) Y) eqn:HK; [|discriminate]. destruct (seq_list _) as [m|e] eqn:E; [|discriminate]. injection H as <-.
    apply seq_list_ok in E. apply F2_map_l in E.
    assert (C : forall i v, nth_error l i = Some v -> i < length l /\ exists z, nth_error m i = Some z /\ carried v (elem i Y) z).
    { intros i v G. assert (L : i < length l) by (apply nth_error_Some; congruence). split; [exact L|]. destruct (F2_nth _ _ _ E i i (nth_seq _ _ L)) as (z & Gz & Hz).
      exists z. split; [exact Gz|]. rewrite (nth_error_nth l i NoneT G) in Hz. apply nth_error_In in G. rewrite Forall_forall in IH, WF. exact (IH _ G (WF _ G) _ _ Hz). }
    split; intros p.
    + intros r E'. destruct p as [|[n|i] p]; try discriminate. cbn [at_path] in *. cbn [down] in E'. destruct (nth_error l i) as [v|] eqn:G; [|discriminate].
      destruct (C _ _ G) as (L & z & Gz & [C1 _]). rewrite (elem_tup _ _ _ HK L). cbn [down]. rewrite Gz. auto.
    + intros E'. destruct p as [|[n|i] p]; try discriminate. cbn [at_path] in *. cbn [down] in E'. destruct (nth_error l i) as [v|] eqn:G; [|discriminate].
      destruct (C _ _ G) as (L & z & Gz & [_ C2]). rewrite (elem_tup _ _ _ HK L). cbn [down]. rewrite Gz. auto.
Qed.

Lemma seq_list_all {U V} (g : U -> result V) l : (forall x, In x l -> exists y, g x = Ok y) -> exists m, seq_list (map g l) = Ok m.
Proof.
  induction l as [|x l IH]; intros H; [exists []; reflexivity|]. destruct (H x) as (y & E); [left; reflexivity|]. destruct IH as (m & E'); [intros z Hz; apply H; right; exact Hz|].
  exists (y :: m). cbn. rewrite E. cbn. rewrite E'. reflexivity.
Qed.
Lemma seq_dict_all {U V} (g : string * U -> result V) l : (forall x, In x l -> exists y, g x = Ok y) -> exists m, seq_dict (map (fun kv => (fst kv, g kv)) l) = Ok m.
Proof.
  induction l as [|x l IH]; intros H; [exists []; reflexivity|]. destruct (H x) as (y & E); [left; reflexivity|]. destruct IH as (m & E'); [intros z Hz; apply H; right; exact Hz|].
  exists ((fst x, y) :: m). cbn. rewrite E. cbn. rewrite E'. reflexivity.
Qed.
(** Data of the structure of the fitting data, whose parts the scalers accept. *)
Lemma pre_ok t : wf_tree t -> forall (X Y : tree A) l, wf_tree X -> trel (fun _ _ => True) X Y -> pairs t X = Ok l ->
  (forall p r Y', at_path t p = Some (Leaf r) -> at_path Y p = Some Y' -> exists Z', f r Y' = Ok Z') -> exists Z, pre f t Y = Ok Z.
Proof.
  induction t as [r| |d IH|l IH|l IH] using tree_ind2; intros W X Y ls WX T H G.
  - cbn [pre]. apply (G [] r Y); reflexivity.
  - exists Y. reflexivity.
  - inversion W as [| |? N WF| |]; subst. rewrite pairs_dict in H. rewrite pre_dict, (has_keys_rel _ d X Y WX T). destruct (has_keys d X) eqn:HK; [|discriminate]. destruct (seq_dict _) as [m|e] eqn:E; [|discriminate].
    assert (HY : has_keys d Y = true) by (rewrite (has_keys_rel _ d X Y WX T); exact HK).
    destruct (seq_dict_all (fun kv => pre f (snd kv) (child (fst kv) Y)) (sort_kvs d)) as (m' & E').
    + intros [k v] Hin. cbn [fst snd]. apply seq_dict_ok in E. apply F2_map_l in E.
      destruct (In_nth_error _ _ Hin) as (i & Hi). destruct (F2_nth _ _ _ E i _ Hi) as (z & _ & [_ Hz]). cbn [fst snd] in Hz.
      apply (Permutation_in _ (sort_kvs_perm _)) in Hin. rewrite Forall_forall in IH, WF.
      apply (IH _ Hin (WF _ Hin) (child k X) (child k Y) (snd z) (child_wf _ _ WX) (child_rel _ _ _ _ WX T) Hz).
      intros p r Y' Ha Hb. apply (G (Name k :: p) r Y'); cbn [at_path]; [cbn [down]; rewrite (In_dget _ _ _ N Hin); exact Ha|rewrite (has_keys_in d Y k v HY Hin); exact Hb].
    + rewrite E'. eexists. reflexivity.
  - inversion W as [| | |? WF|]; subst. rewrite pairs_lst in H. rewrite pre_lst, (is_lst_rel _ _ X Y T). destruct (is_lst (length l) X) eqn:HK; [|discriminate]. destruct (seq_list _) as [m|e] eqn:E; [|discriminate].
    assert (HY : is_lst (length l) Y = true) by (rewrite (is_lst_rel _ _ X Y T); exact HK).
    destruct (seq_list_all (fun j => pre f (nth j l NoneT) (elem j Y)) (seq 0 (length l))) as (m' & E').
    + intros j Hj. apply in_seq in Hj. apply seq_list_ok in E. apply F2_map_l in E. destruct (F2_nth _ _ _ E j j (nth_seq (length l) j ltac:(lia))) as (z & _ & Hz).
      assert (Hin : In (nth j l NoneT) l) by (apply nth_In; lia). rewrite Forall_forall in IH, WF.
      apply (IH _ Hin (WF _ Hin) (elem j X) (elem j Y) z (elem_wf _ _ WX) (elem_rel _ _ _ _ T) Hz).
      intros p r Y' Ha Hb. apply (G (Pos j :: p) r Y'); cbn [at_path]; [cbn [down]; rewrite (nth_error_nth' l NoneT) by lia; exact Ha|rewrite (elem_lst _ _ j HY) by lia; exact Hb].
    + rewrite E'. eexists. reflexivity.
  - inversion W as [| | | |? WF]; subst. rewrite pairs_tup in H. rewrite pre_tup, (is_tup_rel _ _ X Y T). destruct (is_tup (length l) X) eqn:HK; [|discriminate]. destruct (seq_list _) as [m|e] eqn:E; [|discriminate].
    assert (HY : is_tup (length l) Y = true) by (rewrite (is_tup_rel _ _ X Y T); exact HK).
    destruct (seq_list_all (fun j => pre f (nth j l NoneT) (elem j Y)) (seq 0 (length l))) as (m' & E').
    + intros j Hj. apply in_seq in Hj. apply seq_list_ok in E. apply F2_map_l in E. destruct (F2_nth _ _ _ E j j (nth_seq (length l) j ltac:(lia))) as (z & _ & Hz).
      assert (Hin : In (nth j l NoneT) l) by (apply nth_In; lia). rewrite Forall_forall in IH, WF.
      apply (IH _ Hin (WF _ Hin) (elem j X) (elem j Y) z (elem_wf _ _ WX) (elem_rel _ _ _ _ T) Hz).
      intros p r Y' Ha Hb. apply (G (Pos j :: p) r Y'); cbn [at_path]; [cbn [down]; rewrite (nth_error_nth' l NoneT) by lia; exact Ha|rewrite (elem_tup _ _ j HY) by lia; exact Hb].
    + rewrite E'. eexists. reflexivity.
Qed.
End Pre.

Lemma pairs_at {A} p : forall t (X : tree A) l r, wf_tree t -> pairs t X = Ok l -> at_path t p = Some (Leaf r) -> exists Y, at_path X p = Some Y.
Proof.
  induction p as [|k p IH]; intros t X l r W H E; [exists X; reflexivity|]. cbn [at_path] in *. destruct t as [x| |d|ts|ts], k as [n|i]; try discriminate; cbn [down] in E.
  - destruct (dget d n) as [v|] eqn:G; [|discriminate]. inversion W as [| |? N WF| |]; subst. rewrite pairs_dict in H. destruct (has_keys d X) eqn:HK; [|discriminate].
    destruct (seq_dict _) as [m|e] eqn:S; [|discriminate]. apply seq_dict_ok in S. apply F2_map_l in S. apply dget_In in G. rewrite (has_keys_in d X n v HK G).
    pose proof (Permutation_in _ (Permutation_sym (sort_kvs_perm _)) G) as Hin. destruct (In_nth_error _ _ Hin) as (j & Hj). destruct (F2_nth _ _ _ S j _ Hj) as (z & _ & [_ Hz]). cbn [fst snd] in Hz.
    rewrite Forall_forall in WF. exact (IH v _ _ r (WF _ G) Hz E).
  - destruct (nth_error ts i) as [v|] eqn:G; [|discriminate]. inversion W as [| | |? WF|]; subst. rewrite pairs_lst in H. destruct (is_lst (length ts) X) eqn:HK; [|discriminate].
    destruct (seq_list _) as [m|e] eqn:S; [|discriminate]. apply seq_list_ok in S. apply F2_map_l in S. assert (L : i < length ts) by (apply nth_error_Some; congruence). rewrite (elem_lst _ _ _ HK L).
    destruct (F2_nth _ _ _ S i i (nth_seq _ _ L)) as (z & _ & Hz). rewrite (nth_error_nth ts i NoneT G) in Hz. apply nth_error_In in G. rewrite Forall_forall in WF. exact (IH v _ _ r (WF _ G) Hz E).
  - destruct (nth_error ts i) as [v|] eqn:G; [|discriminate]. inversion W as [| | | |? WF]; subst. rewrite pairs_tup in H. destruct (is_tup (length ts) X) eqn:HK; [|discriminate].
    destruct (seq_list _) as [m|e] eqn:S; [|discriminate]. apply seq_list_ok in S. apply F2_map_l in S. assert (L : i < length ts) by (apply nth_error_Some; congruence). rewrite (elem_tup _ _ _ HK L).
    destruct (F2_nth _ _ _ S i i (nth_seq _ _ L)) as (z & _ & Hz). rewrite (nth_error_nth ts i NoneT G) in Hz. apply nth_error_In in G. rewrite Forall_forall in WF. exact (IH v _ _ r (WF _ G) Hz E).
Qed.

Lemma pre_ext {A} (f g : nat -> tree A -> result (tree A)) t : wf_tree t -> (forall p r Y, at_path t p = Some (Leaf r) -> f r Y = g r Y) -> forall Y, pre f t Y = pre g t Y.
Proof.
  induction t as [r| |d IH|l IH|l IH] using tree_ind2; intros W H Y.
  - exact (H [] r Y eq_refl).
  - reflexivity.
  - inversion W as [| |? N WF| |]; subst. rewrite !pre_dict. destruct (has_keys d Y); [|reflexivity]. f_equal. f_equal. apply map_ext_in. intros [k v] Hin. cbn [fst snd]. f_equal.
    apply (Permutation_in _ (sort_kvs_perm _)) in Hin. rewrite Forall_forall in IH, WF. apply (IH _ Hin (WF _ Hin)). intros p r V Ha. apply (H (Name k :: p) r V). cbn [at_path down]. rewrite (In_dget _ _ _ N Hin). exact Ha.
  - inversion W as [| | |? WF|]; subst. rewrite !pre_lst. destruct (is_lst (length l) Y); [|reflexivity]. f_equal. f_equal. apply map_ext_in. intros j Hj. apply in_seq in Hj. assert (Hin : In (nth j l NoneT) l) by (apply nth_In; lia).
    rewrite Forall_forall in IH, WF. apply (IH _ Hin (WF _ Hin)). intros p r V Ha. apply (H (Pos j :: p) r V). cbn [at_path down]. rewrite (nth_error_nth' l NoneT) by lia. exact Ha.
  - inversion W as [| | | |? WF]; subst. rewrite !pre_tup. destruct (is_tup (length l) Y); [|reflexivity]. f_equal. f_equal. apply map_ext_in. intros j Hj. apply in_seq in Hj. assert (Hin : In (nth j l NoneT) l) by (apply nth_In; lia).
    rewrite Forall_forall in IH, WF. apply (IH _ Hin (WF _ Hin)). intros p r V Ha. apply (H (Pos j :: p) r V). cbn [at_path down]. rewrite (nth_error_nth' l NoneT) by lia. exact Ha.
Qed.
