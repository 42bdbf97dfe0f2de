From Coq Require Import Permutation Sorted.
From Verif Require Import Base BaseLemmas TreeUtil TreeSpec NonSeqSpec Serial SerialSpec Scaler ScalerProofs OneHot OneHotSpec.
Local Open Scope list_scope.
Local Open Scope nat_scope.

(** Insertion sort. *)
Section Sort.
Context {A : Type} (le : A -> A -> bool).
Notation lt := (fun a b => le a b = true).
Lemma insert_perm x l : Permutation (x :: l) (insert le x l).
Proof. induction l as [|y l IH]; cbn; [reflexivity|]. destruct (le x y); [reflexivity|]. rewrite perm_swap. apply perm_skip. exact IH. Qed.
Lemma isort_perm l : Permutation l (isort le l).
Proof. induction l as [|x l IH]; cbn; [reflexivity|]. rewrite <- insert_perm. apply perm_skip. exact IH. Qed.
Context (tot : forall a b, le a b = true \/ le b a = true) (trans : forall a b c, le a b = true -> le b c = true -> le a c = true).
Lemma insert_sorted x l : StronglySorted lt l -> StronglySorted lt (insert le x l).
Proof.
  induction 1 as [|y l S IH F]; cbn; [repeat constructor|]. destruct (le x y) eqn:E.
  - constructor; [constructor; auto|]. constructor; [exact E|]. rewrite Forall_forall in *. eauto.
  - constructor; [exact IH|]. rewrite Forall_forall in *. intros z Hz. apply (Permutation_in _ (Permutation_sym (insert_perm x l))) in Hz as [ <- |Hz].
    + destruct (tot x y); congruence.
    + auto.
Qed.
Lemma isort_sorted l : StronglySorted lt (isort le l).
Proof. induction l as [|x l IH]; cbn; [constructor|]. apply insert_sorted. exact IH. Qed.
End Sort.
Lemma isort_id {A} (le : A -> A -> bool) l : StronglySorted (fun a b => le a b = true) l -> isort le l = l.
Proof.
  induction 1 as [|x l S IH F]; cbn; [reflexivity|]. fold (isort le l). rewrite IH. destruct l as [|y l]; cbn; [reflexivity|].
  inversion F; subst. rewrite H1. reflexivity.
Qed.
Lemma sorted_nth {A} (R : A -> A -> Prop) d l : (forall a, R a a) -> StronglySorted R l -> forall i j, i <= j -> j < length l -> R (nth i l d) (nth j l d).
Proof.
  intros Hr. induction 1 as [|x l S IH F]; intros i j Hij Hj; cbn in Hj; [lia|]. destruct j as [|j].
  - assert (i = 0) by lia. subst. apply Hr.
  - destruct i as [|i]; [|apply IH; lia]. cbn. rewrite Forall_forall in F. apply F. apply nth_In. lia.
Qed.

Section Lawful.
Context {V : Type} (o : ops V) (L : lawful o).

Lemma le_refl a : leb o a a = true.
Proof. destruct (le_total o L a a); auto. Qed.
Lemma veqb_spec a b : veqb o a b = true <-> a = b.
Proof.
  unfold veqb. rewrite andb_true_iff. split; [intros []; apply (le_anti o L); auto|]. intros ->. split; apply le_refl.
Qed.
Lemma row_eqb_spec r s : row_eqb o r s = true <-> r = s.
Proof.
  revert s. induction r as [|a r IH]; intros [|b s]; cbn; try (split; congruence). rewrite andb_true_iff, veqb_spec, IH. split; [intros []; congruence|intros [=]; auto].
Qed.

Lemma lexb_refl r : lexb o r r = true.
Proof. induction r as [|a r IH]; cbn; [reflexivity|]. rewrite (proj2 (veqb_spec a a) eq_refl). exact IH. Qed.
Lemma lexb_total r s : lexb o r s = true \/ lexb o s r = true.
Proof.
  revert s. induction r as [|a r IH]; intros [|b s]; cbn; auto. destruct (veqb o a b) eqn:E.
  - apply veqb_spec in E. subst. rewrite (proj2 (veqb_spec b b) eq_refl). apply IH.
  - destruct (veqb o b a) eqn:E'; [apply veqb_spec in E'; subst; rewrite (proj2 (veqb_spec a a) eq_refl) in E; discriminate|]. apply (le_total o L).
Qed.
Lemma lexb_trans r : forall s t, lexb o r s = true -> lexb o s t = true -> lexb o r t = true.
Proof.
  induction r as [|a r IH]; intros [|b s] [|c t]; cbn; try congruence; auto.
  destruct (veqb o a b) eqn:E1.
  - apply veqb_spec in E1. subst. destruct (veqb o b c); eauto.
  - destruct (veqb o b c) eqn:E2.
    + apply veqb_spec in E2. subst. rewrite E1. auto.
    + intros H1 H2. destruct (veqb o a c) eqn:E3.
      * apply veqb_spec in E3. subst. rewrite (le_anti o L _ _ H1 H2) in E1. rewrite (proj2 (veqb_spec b b) eq_refl) in E1. discriminate.
      * eapply (le_trans o L); eauto.
Qed.
Lemma lexb_anti r : forall s, lexb o r s = true -> lexb o s r = true -> r = s.
Proof.
  induction r as [|a r IH]; intros [|b s]; cbn; try congruence. destruct (veqb o a b) eqn:E.
  - apply veqb_spec in E. subst. rewrite (proj2 (veqb_spec b b) eq_refl). intros. f_equal; auto.
  - destruct (veqb o b a) eqn:E'; [apply veqb_spec in E'; subst; rewrite (proj2 (veqb_spec a a) eq_refl) in E; discriminate|].
    intros H1 H2. rewrite (le_anti o L _ _ H1 H2), (proj2 (veqb_spec b b) eq_refl) in E. discriminate.
Qed.
Lemma row_le_lex r s : row_le o r s -> lexb o r s = true.
Proof. induction 1 as [|a b r s H F IH]; cbn; [reflexivity|]. destruct (veqb o a b); auto. Qed.

Lemma dedup_in l r : In r (dedup o l) <-> In r l.
Proof.
  induction l as [|a l IH]; cbn; [tauto|]. destruct (existsb (row_eqb o a) l) eqn:E.
  - rewrite IH. split; [auto|]. intros [ <- |H]; [|exact H]. apply existsb_exists in E as (b & Hb & Eb). apply row_eqb_spec in Eb. subst. exact Hb.
  - cbn. rewrite IH. tauto.
Qed.
Lemma dedup_nodup l : NoDup (dedup o l).
Proof.
  induction l as [|a l IH]; cbn; [constructor|]. destruct (existsb (row_eqb o a) l) eqn:E; [exact IH|]. constructor; [|exact IH].
  rewrite dedup_in. intros H. assert (existsb (row_eqb o a) l = true); [|congruence]. apply existsb_exists. exists a. split; [exact H|]. apply row_eqb_spec. reflexivity.
Qed.
Lemma unique_listing x : listing x (unique_rows o (o_rows x)).
Proof.
  unfold unique_rows. pose proof (isort_perm (lexb o) (dedup o (o_rows x))) as P. split.
  - eapply Permutation_NoDup; [exact P|]. apply dedup_nodup.
  - intros r. rewrite <- (dedup_in (o_rows x)). split; apply Permutation_in; [symmetry|]; exact P.
Qed.

(** Sorting the columns. *)
Lemma column_length m j : length (column o m j) = length m.
Proof. apply map_length. Qed.
Lemma sort_columns_length w m : length (sort_columns o w m) = length m.
Proof. unfold sort_columns. rewrite map_length, seq_length. reflexivity. Qed.
Lemma sort_columns_nth w m i j : i < length m -> j < w ->
  nth j (nth i (sort_columns o w m) []) (zero o) = nth i (isort (leb o) (column o m j)) (zero o).
Proof.
  intros Hi Hj. unfold sort_columns. rewrite (map_nth_lt _ _ 0 []) by (rewrite seq_length; exact Hi). rewrite seq_nth by exact Hi. cbn.
  rewrite map_map. rewrite (map_nth_lt _ _ 0 (zero o)) by (rewrite seq_length; exact Hj). rewrite seq_nth by exact Hj. reflexivity.
Qed.
Lemma sort_columns_width w m i : i < length m -> length (nth i (sort_columns o w m) []) = w.
Proof.
  intros Hi. unfold sort_columns. rewrite (map_nth_lt _ _ 0 []) by (rewrite seq_length; exact Hi). rewrite !map_length, seq_length. reflexivity.
Qed.
Lemma row_le_nth w r s : length r = w -> length s = w -> (forall j, j < w -> leb o (nth j r (zero o)) (nth j s (zero o)) = true) -> row_le o r s.
Proof.
  revert w s. induction r as [|a r IH]; intros [|w] [|b s] E1 E2 H; cbn in *; try lia; [constructor|]. constructor; [apply (H 0); lia|].
  apply (IH w); [lia|lia|]. intros j Hj. apply (H (S j)). lia.
Qed.
Lemma row_le_get r s j : row_le o r s -> leb o (nth j r (zero o)) (nth j s (zero o)) = true.
Proof. intros F. revert j. induction F; intros [|j]; cbn; auto using le_refl. Qed.

Lemma sort_columns_chain w m : chain o (sort_columns o w m).
Proof.
  intros r s Hr Hs. apply (In_nth _ _ []) in Hr as (i & Hi & <-). apply (In_nth _ _ []) in Hs as (k & Hk & <-).
  rewrite sort_columns_length in *.
  assert (G : forall i k, i <= k -> k < length m -> row_le o (nth i (sort_columns o w m) []) (nth k (sort_columns o w m) [])).
  { intros i' k' H1 H2. apply (row_le_nth w); try (apply sort_columns_width; lia). intros j Hj. rewrite !sort_columns_nth by lia.
    apply (sorted_nth (fun a b => leb o a b = true)); auto using le_refl.
    - apply isort_sorted; [apply (le_total o L)|apply (le_trans o L)].
    - rewrite <- (Permutation_length (isort_perm _ _)), column_length. exact H2. }
  destruct (Nat.le_ge_cases i k); [left|right]; apply G; auto.
Qed.

Lemma sort_columns_id w m : Forall (fun r => length r = w) m -> StronglySorted (row_le o) m -> sort_columns o w m = m.
Proof.
  intros W S. apply (list_nth_eq []); [apply sort_columns_length|]. intros i Hi. rewrite sort_columns_length in Hi.
  rewrite Forall_forall in W. assert (Li : length (nth i m []) = w) by (apply W, nth_In; exact Hi).
  apply (list_nth_eq (zero o)); [rewrite sort_columns_width; auto|]. intros j Hj. rewrite sort_columns_width in Hj by exact Hi.
  rewrite sort_columns_nth by auto. rewrite isort_id.
  - unfold column. rewrite (map_nth_lt _ _ [] (zero o)) by exact Hi. reflexivity.
  - unfold column. clear - S L. induction S as [|r m S IH F]; cbn; constructor; auto. rewrite Forall_forall in *.
    intros a Ha. apply in_map_iff in Ha as (s & <- & Hs). apply row_le_get. auto.
Qed.

Lemma chain_sorted m : chain o m -> StronglySorted (fun a b => lexb o a b = true) m -> StronglySorted (row_le o) m.
Proof.
  intros C S. induction S as [|r m S IH F]; constructor.
  - apply IH. intros a b Ha Hb. apply C; right; auto.
  - rewrite Forall_forall in *. intros s Hs. destruct (C r s) as [H|H]; [left; auto|right; auto|exact H|].
    rewrite (lexb_anti r s); [|auto|apply row_le_lex; exact H]. clear - L. induction s; constructor; auto using le_refl.
Qed.

(** When the rows form a chain, fitting gives a listing of them... *)
Lemma fit_chain x : rows_fit x -> chain o (o_rows x) -> fst (oh_fit_leaf o x) = unique_rows o (o_rows x).
Proof.
  intros W C. cbn. destruct (unique_listing x) as [ND IN]. apply sort_columns_id.
  - rewrite Forall_forall. intros r Hr. apply IN in Hr. unfold rows_fit in W. rewrite Forall_forall in W. auto.
  - apply chain_sorted.
    + intros r s Hr Hs. apply C; apply IN; auto.
    + apply isort_sorted; [apply lexb_total|exact lexb_trans].
Qed.
(** ... and only then does it even contain all of them. *)
Lemma fit_only_chain x : (forall r, In r (o_rows x) -> In r (fst (oh_fit_leaf o x))) -> chain o (o_rows x).
Proof.
  intros H. destruct (unique_listing x) as [ND IN]. intros r s Hr Hs. eapply sort_columns_chain; apply H; eauto.
Qed.

(** Codes. *)
Lemma encode_code u r : code o u r (encode o u r).
Proof.
  unfold encode. split; [apply map_length|]. intros i v Hv. rewrite nth_error_map, Hv. cbn. split.
  - intros ->. rewrite (proj2 (row_eqb_spec r r) eq_refl). reflexivity.
  - intros N. destruct (row_eqb o r v) eqn:E; [apply row_eqb_spec in E; congruence|reflexivity].
Qed.
Lemma encode_unseen u r : ~ In r u -> encode o u r = repeat (zero o) (length u).
Proof.
  induction u as [|v u IH]; cbn [encode map length repeat]; intros H; [reflexivity|]. unfold encode in *; cbn [map]. rewrite IH by (intros Hn; apply H; right; exact Hn). destruct (row_eqb o r v) eqn:E; [apply row_eqb_spec in E; exfalso; apply H; left; auto|reflexivity].
Qed.
Lemma code_one_hot u r c : NoDup u -> In r u -> code o u r c -> one_hot o c.
Proof.
  intros ND Hr (Lc & H). apply in_split in Hr as (u1 & u2 & ->). assert (Hi : nth_error (u1 ++ r :: u2) (length u1) = Some r).
  { rewrite nth_error_app2, Nat.sub_diag by lia. reflexivity. }
  destruct (H _ _ Hi) as [H1 _]. specialize (H1 eq_refl). apply nth_error_split in H1 as (l1 & l2 & -> & Ll). exists l1, l2. split; [reflexivity|].
  assert (NI : ~ In r (u1 ++ u2)) by (apply NoDup_remove_2; exact ND).
  intros a Ha. rewrite !app_length in Lc. cbn in Lc. rewrite in_app_iff in NI, Ha. destruct Ha as [Ha|Ha]; apply In_nth_error in Ha as (i & Hn).
  - assert (i < length l1) by (apply nth_error_Some; congruence). destruct (nth_error u1 i) as [v|] eqn:Ev; [|apply nth_error_None in Ev; lia].
    destruct (H i v) as [_ Hz]; [rewrite nth_error_app1 by lia; exact Ev|]. rewrite nth_error_app1, Hn in Hz by lia.
    assert (Some a = Some (zero o)) by (apply Hz; intros ->; apply NI; left; eapply nth_error_In; eauto). congruence.
  - assert (i < length l2) by (apply nth_error_Some; congruence). destruct (nth_error u2 i) as [v|] eqn:Ev; [|apply nth_error_None in Ev; lia].
    destruct (H (length u1 + S i) v) as [_ Hz]; [rewrite nth_error_app2 by lia; replace (length u1 + S i - length u1) with (S i) by lia; exact Ev|].
    rewrite nth_error_app2 in Hz by lia. replace (length u1 + S i - length l1) with (S i) in Hz by lia. cbn in Hz. rewrite Hn in Hz.
    assert (Some a = Some (zero o)) by (apply Hz; intros ->; apply NI; right; eapply nth_error_In; eauto). congruence.
Qed.
Lemma code_inj u r s c : In r u -> code o u r c -> code o u s c -> r = s.
Proof.
  intros Hr (_ & H1) (_ & H2). apply In_nth_error in Hr as (i & Hi). destruct (H1 _ _ Hi) as [A _]. destruct (H2 _ _ Hi) as [_ B].
  specialize (A eq_refl). destruct (row_eqb o r s) eqn:E; [apply row_eqb_spec in E; exact E|].
  assert (r <> s) as N by (intros ->; rewrite (proj2 (row_eqb_spec s s) eq_refl) in E; discriminate).
  specialize (B N). rewrite A in B. inversion B as [C]. exfalso. apply (one_zero o L). exact C.
Qed.

(** Decoding. *)
Lemma dot_zeros u j n : n = length u -> dot o (repeat (zero o) n) (column o u j) = zero o.
Proof. intros ->. induction u as [|v u IH]; cbn; [reflexivity|]. rewrite (mul_0_l o L), (add_0_l o L). exact IH. Qed.
Lemma dot_encode u r j : NoDup u -> In r u -> dot o (encode o u r) (column o u j) = nth j r (zero o).
Proof.
  induction 1 as [|v u N ND IH]; intros Hr; [destruct Hr|]. cbn. fold (encode o u r). fold (column o u j). destruct (row_eqb o r v) eqn:E.
  - apply row_eqb_spec in E. subst v. rewrite encode_unseen by exact N. rewrite dot_zeros by reflexivity. rewrite (mul_1_l o L), (add_0_r o L). reflexivity.
  - rewrite (mul_0_l o L), (add_0_l o L). apply IH. destruct Hr as [ -> |Hr]; [rewrite (proj2 (row_eqb_spec r r) eq_refl) in E; discriminate|exact Hr].
Qed.
Lemma decode_encode w u r : NoDup u -> In r u -> length r = w -> decode o w u (encode o u r) = r.
Proof.
  intros ND Hr W. apply (list_nth_eq (zero o)); unfold decode; rewrite map_length, seq_length; [auto|]. intros j Hj.
  rewrite (map_nth_lt _ _ 0 (zero o)) by (rewrite seq_length; exact Hj). rewrite seq_nth by exact Hj. apply dot_encode; auto.
Qed.
Lemma decode_unseen w u r : ~ In r u -> decode o w u (encode o u r) = repeat (zero o) w.
Proof.
  intros N. apply (list_nth_eq (zero o)); unfold decode; rewrite map_length, seq_length; [rewrite repeat_length; reflexivity|]. intros j Hj.
  rewrite (map_nth_lt _ _ 0 (zero o)) by (rewrite seq_length; exact Hj). rewrite encode_unseen by exact N. rewrite dot_zeros by reflexivity.
  symmetry. apply (repeat_spec w). apply nth_In. rewrite repeat_length. exact Hj.
Qed.

(** Trees: fit on the first components, encode and decode the second ones. *)
Lemma onehot_tree (r : tree (odata V * odata V)) X X' :
  wf_tree r -> trel (fun p x => fst p = x) r X -> trel (fun p x => snd p = x) r X' ->
  (forall x x', has_leaf r (x, x') -> rows_fit x /\ chain o (o_rows x) /\ rows_fit x' /\ o_shape x = o_shape x') ->
  exists s E Z, oh_fit o X = Ok s /\ oh_transform o (Some s) X' = Ok E /\ oh_inverse o (Some s) E = Ok Z /\
    trel (fun p e => exists u, listing (fst p) u /\ Forall2 (code o u) (o_rows (snd p)) e) r E /\
    trel (fun p z => o_shape z = o_shape (snd p) /\
            Forall2 (fun a b => (In a (o_rows (fst p)) -> b = a) /\ (~ In a (o_rows (fst p)) -> b = repeat (zero o) (features (fst p)))) (o_rows (snd p)) (o_rows z)) r Z.
Proof.
  intros W TX TX' H.
  destruct (jm_trel (fun x => Ok (oh_fit_leaf o x)) (fun p x => fst p = x) (fun p s => s = (unique_rows o (o_rows (fst p)), o_shape (fst p))) r) with (u := X)
    as (s & Es & Ts); [|exact TX|].
  { intros [x x'] y Hl <-. destruct (H x x' Hl) as (A & B & _). cbn [fst]. eexists; split; [reflexivity|].
    rewrite <- (fit_chain x A B). reflexivity. }
  destruct (jzip3 (fun x st => if features x =? fold_right Nat.mul 1 (snd st) then Ok (map (encode o (fst st)) (o_rows x)) else Err ValueError)
    (fun p x => snd p = x) (fun p s => s = (unique_rows o (o_rows (fst p)), o_shape (fst p)))
    (fun p e => e = map (encode o (unique_rows o (o_rows (fst p)))) (o_rows (snd p))) r W) with (u := X') (p := s) as (E & EE & TE); auto.
  { intros [x x'] y q Hl <- ->. destruct (H x x' Hl) as (A & B & C & D). cbn [fst snd]. unfold features. rewrite D, Nat.eqb_refl. eauto. }
  destruct (jzip3 (fun e st => if forallb (fun c => length c =? length (fst st)) e
      then Ok (mk_odata (snd st) (map (decode o (fold_right Nat.mul 1 (snd st)) (fst st)) e)) else Err ValueError)
    (fun p e => e = map (encode o (unique_rows o (o_rows (fst p)))) (o_rows (snd p))) (fun p s => s = (unique_rows o (o_rows (fst p)), o_shape (fst p)))
    (fun p z => o_shape z = o_shape (snd p) /\
            Forall2 (fun a b => (In a (o_rows (fst p)) -> b = a) /\ (~ In a (o_rows (fst p)) -> b = repeat (zero o) (features (fst p)))) (o_rows (snd p)) (o_rows z)) r W) with (u := E) (p := s) as (Z & EZ & TZ); auto.
  { intros [x x'] y q Hl -> ->. destruct (H x x' Hl) as (A & B & C & D). cbn [fst snd]. set (u := unique_rows o (o_rows x)).
    replace (forallb (fun c => length c =? length u) (map (encode o u) (o_rows x'))) with true.
    2:{ symmetry. apply forallb_forall. intros c Hc. apply in_map_iff in Hc as (a & <- & _). apply Nat.eqb_eq. apply map_length. }
    eexists; split; [reflexivity|]. cbn [o_shape o_rows]. split; [exact D|]. rewrite map_map.
    destruct (unique_listing x) as [ND IN]. fold u in ND, IN. unfold rows_fit in A, C.
    assert (Wf : features x' = features x) by (unfold features; congruence). rewrite Wf in C.
    change (fold_right Nat.mul 1 (o_shape x)) with (features x).
    clear - ND IN C L. induction C as [|a l Ha C IH]; cbn; constructor; auto. split.
    - intros Hin. apply decode_encode; auto. apply IN. exact Hin.
    - intros Hin. apply decode_unseen. rewrite IN. exact Hin. }
  exists s, E, Z. split; [exact Es|]. split; [exact EE|]. split; [exact EZ|]. split; [|exact TZ].
  eapply trel_impl; [|exact TE]. intros [x x'] e ->. cbn. exists (unique_rows o (o_rows x)). split; [apply unique_listing|].
  induction (o_rows x'); cbn; constructor; auto using encode_code.
Qed.

(** One feature: always a chain. *)
Lemma chain_one (l : list (list V)) : Forall (fun r => length r = 1) l -> chain o l.
Proof.
  intros W r s Hr Hs. rewrite Forall_forall in W. pose proof (W r Hr). pose proof (W s Hs).
  destruct r as [|a [|]]; try discriminate. destruct s as [|b [|]]; try discriminate. destruct (le_total o L a b); [left|right]; repeat constructor; auto.
Qed.
End Lawful.
