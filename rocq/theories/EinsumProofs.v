From Coq Require Import Permutation Sorted.
From Verif Require Import Base BaseLemmas TreeUtil TreeSpec NonSeqSpec NonSeqProofs Seq SerialSpec SeqProofs TrainArgs NdArray OneHot OneHotProofs Einsum EinsumSpec.
Local Open Scope string_scope.
Local Open Scope list_scope.
Local Open Scope nat_scope.

Lemma commas_join l : commas l = join comma l.
Proof.
  induction l as [|s l IH]; [reflexivity|]. destruct l as [|r l]; [reflexivity|].
  change (append s (append "," (commas (r :: l))) = append s (String comma (join comma (r :: l)))). rewrite IH. reflexivity.
Qed.

(* ---- characters ---- *)
Lemma chars_app s t : chars (append s t) = chars s ++ chars t.
Proof. unfold chars. induction s as [|c s IH]; cbn; [reflexivity|]. rewrite IH. reflexivity. Qed.
Lemma mem_char_In c l : mem_char c l = true <-> In c l.
Proof.
  unfold mem_char. rewrite existsb_exists. split.
  - intros (d & H & E). apply Ascii.eqb_eq in E. subst. exact H.
  - intros H. exists c. split; [exact H|apply Ascii.eqb_refl].
Qed.
Lemma letter_iff c : is_letter c = true <-> letter c.
Proof.
  unfold letter. destruct c as [b0 b1 b2 b3 b4 b5 b6 b7].
  destruct b0, b1, b2, b3, b4, b5, b6, b7; vm_compute; split; intros H; try reflexivity; try discriminate; try lia.
Qed.
Lemma comma_no_letter : ~ letter comma.
Proof. unfold letter, comma. vm_compute. lia. Qed.
Lemma no_sep_notin sep s : no_sep sep s = true <-> ~ occurs sep s.
Proof.
  unfold occurs. induction s as [|c s IH]; cbn; [tauto|]. rewrite andb_true_iff, IH, negb_true_iff. split.
  - intros [H1 H2] [ -> |H]; [rewrite Ascii.eqb_refl in H1; discriminate|tauto].
  - intros H. split; [|tauto]. destruct (Ascii.eqb_spec c sep); [subst; tauto|reflexivity].
Qed.
Lemma word_no_comma s : word s -> no_sep comma s = true.
Proof. intros H. apply no_sep_notin. intros Hc. exact (comma_no_letter (H _ Hc)). Qed.
Lemma words_no_comma l : Forall word l -> Forall (fun s => no_sep comma s = true) l.
Proof. apply Forall_impl. exact word_no_comma. Qed.

Lemma chars_join_in c l : In c (chars (join comma l)) -> c = comma \/ exists s, In s l /\ occurs c s.
Proof.
  induction l as [|s l IH]; [intros []|]. destruct l as [|r l].
  - intros H. right. exists s. split; [left; reflexivity|exact H].
  - change (join comma (s :: r :: l)) with (append s (String comma (join comma (r :: l)))). rewrite chars_app. intros H.
    apply in_app_or in H as [H|[H|H]].
    + right. exists s. split; [left; reflexivity|exact H].
    + left. symmetry. exact H.
    + destruct (IH H) as [E|(x & Hx & E)]; [left; exact E|]. right. exists x. split; [right; exact Hx|exact E].
Qed.
Lemma in_chars_join c s l : In s l -> occurs c s -> In c (chars (join comma l)).
Proof.
  induction l as [|r l IH]; [intros []|]. intros H Hc. destruct l as [|q l].
  - destruct H as [ -> |[]]. exact Hc.
  - change (join comma (r :: q :: l)) with (append r (String comma (join comma (q :: l)))). rewrite chars_app. apply in_or_app.
    destruct H as [ -> |H]; [left; exact Hc|]. right. right. apply IH; assumption.
Qed.

(** the pieces of a valid string are words *)
Lemma valid_split s : valid_chars s = true -> Forall word (split comma s).
Proof.
  intros H. unfold valid_chars in H. rewrite forallb_forall in H. rewrite Forall_forall. intros p Hp c Hc.
  assert (Hin : In c (chars s)) by (rewrite <- (join_split comma s); eapply in_chars_join; eauto).
  specialize (H _ Hin). apply orb_true_iff in H as [H|H]; [apply letter_iff; exact H|].
  apply Ascii.eqb_eq in H. subst c. exfalso. pose proof (split_no_sep comma s) as F. rewrite Forall_forall in F.
  apply F, no_sep_notin in Hp. exact (Hp Hc).
Qed.
Lemma valid_word s : valid_chars s = true -> no_sep comma s = true -> word s.
Proof. intros H N. pose proof (valid_split s H) as F. rewrite split_no_sep_id in F by exact N. inversion F; subst. assumption. Qed.
Lemma isalpha_word s : isalpha s = true -> word s /\ s <> "".
Proof.
  unfold isalpha. rewrite andb_true_iff, negb_true_iff, forallb_forall. intros [H1 H2]. split.
  - intros c Hc. apply letter_iff, H2. exact Hc.
  - intros ->. discriminate.
Qed.

(* ---- splitting at the arrow ---- *)
Lemma split_arrow_nonempty s : split_arrow s <> [].
Proof.
  destruct s as [|c s]; cbn; [discriminate|]. destruct s as [|d s]; [cbn; discriminate|].
  destruct (_ && _); [discriminate|]. destruct (split_arrow (String d s)); discriminate.
Qed.
Fixpoint arrows (l : list string) : string :=
  match l with [] => "" | [s] => s | s :: l' => append s (append "->" (arrows l')) end.
Lemma arrows_cons s r l : arrows (s :: r :: l) = append s (append "->" (arrows (r :: l))).
Proof. reflexivity. Qed.
Lemma arrows_split : forall n s, slen s <= n -> arrows (split_arrow s) = s.
Proof.
  induction n as [|n IH]; intros s Hn.
  { destruct s; [reflexivity|cbn in Hn; lia]. }
  destruct s as [|c s]; [reflexivity|]. cbn in Hn.
  assert (Hrest : arrows match split_arrow s with p :: ps => String c p :: ps | [] => [String c EmptyString] end = String c s).
  { specialize (IH s ltac:(lia)). pose proof (split_arrow_nonempty s). destruct (split_arrow s) as [|p [|q ps]]; [congruence| |].
    - cbn in *. subst. reflexivity.
    - rewrite arrows_cons in *. change (String c (append p (append "->" (arrows (q :: ps)))) = String c s). rewrite IH. reflexivity. }
  cbn [split_arrow]. destruct s as [|d s]; [exact Hrest|].
  destruct (Ascii.eqb_spec c "-"); [|exact Hrest]. destruct (Ascii.eqb_spec d ">"); [|exact Hrest]. subst. cbn [andb].
  pose proof (split_arrow_nonempty s). specialize (IH s ltac:(cbn in Hn; lia)). destruct (split_arrow s) as [|p ps] eqn:E; [congruence|].
  rewrite arrows_cons. change (String "-" (String ">" (arrows (p :: ps))) = String "-" (String ">" s)). rewrite IH. reflexivity.
Qed.
(** a string without the character '>' in it is not cut *)
Lemma split_arrow_id s : ~ occurs ">" s -> split_arrow s = [s].
Proof.
  unfold occurs. induction s as [|c s IH]; intros H; [reflexivity|]. cbn in H. cbn [split_arrow].
  rewrite IH by tauto. destruct s as [|d s]; [reflexivity|].
  destruct (Ascii.eqb_spec d ">"); [subst; cbn in H; tauto|]. rewrite andb_false_r. reflexivity.
Qed.
Lemma split_arrow_app s t : ~ occurs "-" s -> ~ occurs ">" t -> split_arrow (append s (append "->" t)) = [s; t].
Proof.
  unfold occurs. intros Hs Ht. induction s as [|c s IH].
  - change (split_arrow (String "-" (String ">" t)) = [""; t]). cbn [split_arrow]. cbn [Ascii.eqb]. 
    change (Ascii.eqb "-" "-" && Ascii.eqb ">" ">")%bool with true. cbv iota. rewrite (split_arrow_id t Ht). reflexivity.
  - cbn in Hs. change (append (String c s) (append "->" t)) with (String c (append s (append "->" t))). cbn [split_arrow].
    rewrite IH by tauto.
    destruct (append s (append "->" t)) as [|d r] eqn:E; [destruct s; discriminate|].
    destruct (Ascii.eqb_spec c "-"); [subst; tauto|]. reflexivity.
Qed.

(* ---- joining the input strings ---- *)
Lemma append_assoc' a b c : append (append a b) c = append a (append b c).
Proof. induction a as [|x a IH]; cbn; [reflexivity|]. rewrite IH. reflexivity. Qed.
Lemma reduce_from l : forall s, s <> "" ->
  fold_left (fun carry s => if String.eqb carry "" then s else append carry (String comma s)) l s = join comma (s :: l).
Proof.
  induction l as [|r l IH]; intros s Hs; [reflexivity|]. cbn [fold_left].
  destruct (String.eqb_spec s ""); [congruence|]. rewrite IH by (destruct s; [congruence|discriminate]).
  change (join comma (s :: r :: l)) with (append s (String comma (join comma (r :: l)))).
  destruct l as [|q l]; [reflexivity|].
  change (join comma (append s (String comma r) :: q :: l)) with (append (append s (String comma r)) (String comma (join comma (q :: l)))).
  rewrite append_assoc'. reflexivity.
Qed.
Definition solid_first (I : list string) : Prop := length I = 1 \/ hd "" I <> "".
Lemma reduce_join I : solid_first I -> reduce_strs I = join comma I.
Proof.
  unfold reduce_strs, solid_first. destruct I as [|s I]; [intros [H|H]; [discriminate|cbn in H; congruence]|].
  intros H. cbn [fold_left]. change (String.eqb "" "") with true. cbv iota. destruct H as [H|H].
  - destruct I; [reflexivity|discriminate].
  - apply reduce_from. exact H.
Qed.
Lemma join_app_comma a b : a <> [] -> b <> [] -> join comma (a ++ b) = append (join comma a) (String comma (join comma b)).
Proof.
  intros Ha Hb. induction a as [|s a IH]; [congruence|]. destruct a as [|r a].
  - cbn [app]. destruct b as [|x b]; [congruence|]. reflexivity.
  - change (join comma ((s :: r :: a) ++ b)) with (append s (String comma (join comma ((r :: a) ++ b)))). rewrite IH by discriminate.
    change (join comma (s :: r :: a)) with (append s (String comma (join comma (r :: a)))). rewrite append_assoc'. reflexivity.
Qed.

(* ---- letters and their numbers ---- *)
Lemma not_commas_app a b : not_commas (a ++ b) = not_commas a ++ not_commas b.
Proof. apply filter_app. Qed.
Lemma not_commas_word s : word s -> not_commas (chars s) = chars s.
Proof.
  intros H. unfold not_commas. assert (G : forall l, (forall c, In c l -> letter c) -> filter (fun c => negb (Ascii.eqb c comma)) l = l).
  { induction l as [|c l IH]; intros G; [reflexivity|]. cbn [filter]. destruct (Ascii.eqb_spec c comma).
    - subst. exfalso. apply comma_no_letter, G. left. reflexivity.
    - cbn [negb]. rewrite IH; [reflexivity|]. intros d Hd. apply G. right. exact Hd. }
  apply G. exact H.
Qed.
Lemma not_commas_join l : Forall word l -> not_commas (chars (join comma l)) = concat (map chars l).
Proof.
  induction l as [|s l IH]; intros F; [reflexivity|]. inversion F as [|? ? Hs Hl]; subst. destruct l as [|r l].
  - cbn. rewrite app_nil_r. apply not_commas_word. exact Hs.
  - change (join comma (s :: r :: l)) with (append s (String comma (join comma (r :: l)))). rewrite chars_app, not_commas_app.
    change (chars (String comma (join comma (r :: l)))) with (comma :: chars (join comma (r :: l))).
    change (not_commas (comma :: chars (join comma (r :: l)))) with (not_commas (chars (join comma (r :: l)))).
    rewrite IH by exact Hl. rewrite not_commas_word by exact Hs. reflexivity.
Qed.
Lemma count_concat c l : count c (concat (map chars l)) = times c l.
Proof.
  unfold count, times. induction l as [|s l IH]; [reflexivity|]. cbn [map concat]. rewrite count_occ_app, IH. reflexivity.
Qed.
Lemma in_concat_chars c l : In c (concat (map chars l)) <-> exists s, In s l /\ occurs c s.
Proof.
  rewrite in_concat. split.
  - intros (x & Hx & Hc). apply in_map_iff in Hx as (s & <- & Hs). eauto.
  - intros (s & Hs & Hc). exists (chars s). split; [apply in_map; exact Hs|exact Hc].
Qed.
Lemma ascii_leb_tot a b : ascii_leb a b = true \/ ascii_leb b a = true.
Proof. unfold ascii_leb. rewrite !Nat.leb_le. lia. Qed.
Lemma ascii_leb_trans a b c : ascii_leb a b = true -> ascii_leb b c = true -> ascii_leb a c = true.
Proof. unfold ascii_leb. rewrite !Nat.leb_le. lia. Qed.
Lemma sorted_strict l : StronglySorted (fun a b => ascii_leb a b = true) l -> NoDup l -> StronglySorted (fun a b => nat_of_ascii a < nat_of_ascii b) l.
Proof.
  induction 1 as [|a l S IH F]; intros N; [constructor|]. inversion N as [|? ? Ha Hl]; subst. constructor; [apply IH; exact Hl|].
  rewrite Forall_forall in *. intros b Hb. specialize (F b Hb). unfold ascii_leb in F. apply Nat.leb_le in F.
  destruct (Nat.eq_dec (nat_of_ascii a) (nat_of_ascii b)) as [E|E]; [|lia]. exfalso. apply Ha.
  rewrite <- (ascii_nat_embedding a), E, ascii_nat_embedding. exact Hb.
Qed.
Lemma sorted_filter {A} (R : A -> A -> Prop) f l : StronglySorted R l -> StronglySorted R (filter f l).
Proof.
  induction 1 as [|a l S IH F]; cbn; [constructor|]. destruct (f a); [|exact IH]. constructor; [exact IH|].
  rewrite Forall_forall in *. intros b Hb. apply filter_In in Hb as [Hb _]. auto.
Qed.
Lemma alphabetical l : StronglySorted (fun a b => nat_of_ascii a < nat_of_ascii b) (isort ascii_leb (nodup ascii_dec l)).
Proof.
  apply sorted_strict; [apply isort_sorted; [exact ascii_leb_tot|exact ascii_leb_trans]|].
  eapply Permutation_NoDup; [apply isort_perm|]. apply NoDup_nodup.
Qed.
Lemma in_alphabetical c l : In c (isort ascii_leb (nodup ascii_dec l)) <-> In c l.
Proof.
  rewrite <- (nodup_In ascii_dec l c). split; intros H.
  - eapply Permutation_in; [apply Permutation_sym, isort_perm|exact H].
  - eapply Permutation_in; [apply isort_perm|exact H].
Qed.
Lemma once_sorted l : StronglySorted (fun a b => nat_of_ascii a < nat_of_ascii b) (once l).
Proof. apply sorted_filter, alphabetical. Qed.
Lemma once_In c l : In c (once l) <-> count c l = 1.
Proof.
  unfold once. rewrite filter_In, in_alphabetical, Nat.eqb_eq. split; [tauto|]. intros H. split; [|exact H].
  apply (count_occ_In ascii_dec). unfold count in H. lia.
Qed.
Lemma chars_string l : chars (string_of_list_ascii l) = l.
Proof. apply list_ascii_of_string_of_list_ascii. Qed.
Lemma once_omitted l : omitted l (string_of_list_ascii (once (concat (map chars l)))).
Proof.
  split.
  - change (list_ascii_of_string ?x) with (chars x). rewrite chars_string. apply once_sorted.
  - intros c. unfold occurs. change (list_ascii_of_string ?x) with (chars x). rewrite chars_string, once_In, count_concat. reflexivity.
Qed.

(* ---- structures ---- *)
Lemma F2_len {A B} (R : A -> B -> Prop) l m : Forall2 R l m -> length l = length m.
Proof. induction 1; cbn; congruence. Qed.
Lemma alike_struct {X Y} (t : tree X) : forall (u : tree Y), wf_tree u -> alike t u -> same_struct t u = true.
Proof.
  unfold same_struct, alike.
  induction t as [x| |d IH|l IH|l IH] using tree_ind2; intros u Hw H; inversion H as [x0 y0 r0| |l0 m F|l0 m F|d0 e e' P F]; subst.
  - reflexivity.
  - reflexivity.
  - cbn [tmapU tree_eqb]. rewrite !map_length. rewrite <- (Permutation_length P), <- (F2_len _ _ _ F), Nat.eqb_refl. cbn [andb].
    inversion Hw as [| |d0 N Fw| |]; subst.
    assert (G : forall d' e1, Forall2 (fun a b => fst a = fst b /\ trel (fun (_ : X) (_ : Y) => True) (snd a) (snd b)) d' e1 ->
        (forall kv, In kv e1 -> In kv e) -> Forall (fun kv => forall u : tree Y, wf_tree u -> trel (fun _ _ => True) (snd kv) u -> tree_eqb (fun _ _ => true) (tmapU (snd kv)) (tmapU u) = true) d' ->
        (fix alld (l : list (string * tree unit)) : bool :=
           match l with
           | [] => true
           | (k, x) :: l' => match dget (map (fun kv => (fst kv, tmapU (snd kv))) e) k with
                             | Some y => tree_eqb (fun _ _ => true) x y | None => false end && alld l'
           end) (map (fun kv => (fst kv, tmapU (snd kv))) d') = true).
    { induction 1 as [|[k x] [k' y] d' e1 [E T] F' IHF]; intros Hin HI; [reflexivity|]. cbn in E. subst k'. inversion HI as [|? ? HI1 HI2]; subst. cbn [snd] in HI1, T.
      cbn [map fst snd]. assert (Hk : In (k, y) e) by (apply Hin; left; reflexivity).
      rewrite (In_dget (map (fun kv => (fst kv, tmapU (snd kv))) e) k (tmapU y)).
      - rewrite HI1 with (u := y); [cbn [andb]; apply IHF; [intros kv Hkv; apply Hin; right; exact Hkv|exact HI2]| |exact T].
        rewrite Forall_forall in Fw. exact (Fw _ Hk).
      - unfold dkeys. rewrite map_map. cbn [fst]. exact N.
      - apply (in_map (fun kv => (fst kv, tmapU (snd kv))) e (k, y)). exact Hk. }
    apply (G d e' F); [|exact IH]. intros kv Hkv. eapply Permutation_in; [exact P|exact Hkv].
  - cbn [tmapU tree_eqb]. inversion Hw as [| | |l0 Fw|]; subst. clear H Hw. revert m F Fw. induction IH as [|x l Hx _ IHl]; intros m F Fw; inversion F; subst; [reflexivity|].
    inversion Fw; subst. cbn [map]. rewrite Hx by assumption. cbn [andb]. apply IHl; assumption.
  - cbn [tmapU tree_eqb]. inversion Hw as [| | | |l0 Fw]; subst. clear H Hw. revert m F Fw. induction IH as [|x l Hx _ IHl]; intros m F Fw; inversion F; subst; [reflexivity|].
    inversion Fw; subst. cbn [map]. rewrite Hx by assumption. cbn [andb]. apply IHl; assumption.
Qed.
