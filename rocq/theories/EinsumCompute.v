From Coq Require Import Permutation Sorted.
From Verif Require Import Base BaseLemmas TreeUtil TreeSpec NonSeqSpec NonSeqProofs Seq SerialSpec SeqProofs TrainArgs TrainArgsProofs NdArray OneHot OneHotProofs Einsum EinsumSpec EinsumProofs EinsumMain.
Local Open Scope string_scope.
Local Open Scope list_scope.
Local Open Scope nat_scope.

(* ---- accepted strings ---- *)
Lemma no_minus l : Forall word l -> ~ occurs "-" (join comma l).
Proof.
  intros F H. apply chars_join_in in H as [H|(s & Hs & H)]; [discriminate|]. rewrite Forall_forall in F. specialize (F s Hs _ H).
  unfold letter in F. vm_compute in F. lia.
Qed.
Lemma no_gt l : Forall word l -> ~ occurs ">" (join comma l).
Proof.
  intros F H. apply chars_join_in in H as [H|(s & Hs & H)]; [discriminate|]. rewrite Forall_forall in F. specialize (F s Hs _ H).
  unfold letter in F. vm_compute in F. lia.
Qed.
Lemma word_no_gt s : word s -> ~ occurs ">" s.
Proof. intros W H. specialize (W _ H). unfold letter in W. vm_compute in W. lia. Qed.
Lemma valid_join l : Forall word l -> valid_chars (join comma l) = true.
Proof.
  intros F. unfold valid_chars. rewrite forallb_forall. intros c Hc. apply orb_true_iff. apply chars_join_in in Hc as [->|(s & Hs & H)].
  - right. apply Ascii.eqb_refl.
  - left. apply letter_iff. rewrite Forall_forall in F. exact (F s Hs c H).
Qed.
Lemma valid_of_word s : word s -> valid_chars s = true.
Proof. intros W. apply (valid_join [s]). constructor; [exact W|constructor]. Qed.
Lemma classify_text s sh : classify (Leaf s) sh = Ok (None, Leaf s, None).
Proof. unfold classify. destruct (same_struct (Leaf s) sh); reflexivity. Qed.

Definition written (L I : list string) (O : option string) : string :=
  match O with Some o => append (commas (L ++ I)) (append "->" o) | None => commas (L ++ I) end.

Definition default_out (L I : list string) (O : option string) : string :=
  match O with Some o => o | None => string_of_list_ascii (once (concat (map chars (L ++ I)))) end.
Lemma default_output L I O : output_of (L ++ I) O (default_out L I O).
Proof. unfold output_of, default_out. destruct O as [o'|]; [reflexivity|]. apply once_omitted. Qed.
Lemma default_word L I O : Forall word (L ++ I) -> (forall o, O = Some o -> word o) -> word (default_out L I O).
Proof.
  intros FA HO. unfold default_out. destruct O as [o'|]; [apply HO; reflexivity|].
  intros ch Hch. unfold occurs in Hch. change (list_ascii_of_string ?x) with (chars x) in Hch. rewrite chars_string in Hch.
  unfold once in Hch. apply filter_In in Hch as [Hch _]. apply in_alphabetical, in_concat_chars in Hch as (s & Hs & Hc).
  rewrite Forall_forall in FA. exact (FA s Hs ch Hc).
Qed.

(** the subscripts built from a text *)
Theorem concrete_text_eq hp sh L I O :
  length I = length (leaves sh) -> solid_first I -> (hp = true -> L <> []) -> Forall word (L ++ I) ->
  (forall o, O = Some o -> word o) ->
  concrete_einsum_str hp (Leaf (written L I O)) sh =
  match find (fun c => negb (mem_char c (concat (map chars (L ++ I)) ++ chars (default_out L I O)))) alphabet with
  | None => Err ValueError
  | Some b => if forallb (fun p : string * list nat => slen (fst p) =? length (snd p)) (combine I (leaves sh))
              then Ok (batched L I (default_out L I O) b) else Err ValueError
  end.
Proof.
  intros Hlen HS HP FW HO.
  assert (FL : Forall word L) by (apply Forall_app in FW; tauto). assert (FI : Forall word I) by (apply Forall_app in FW; tauto).
  assert (IN : I <> []) by (destruct HS as [HS|HS]; destruct I; [discriminate|discriminate|cbn in HS; congruence|discriminate]).
  assert (CO : cut_output (Leaf (written L I O)) None = Ok (Leaf (commas (L ++ I)), O)).
  { unfold cut_output, written. destruct O as [o|]; rewrite !commas_join.
    - rewrite split_arrow_app; [reflexivity|apply no_minus; exact FW|apply word_no_gt, HO; reflexivity].
    - rewrite split_arrow_id by (apply no_gt; exact FW). reflexivity. }
  assert (SP : split comma (commas (L ++ I)) = L ++ I).
  { rewrite commas_join. apply split_join_comma; [destruct L; [exact IN|discriminate]|apply words_no_comma; exact FW]. }
  assert (CL : cut_leading (length (leaves sh)) None (Leaf (commas (L ++ I))) =
               (match L with [] => None | _ => Some (commas L) end, Leaf (join comma I))).
  { cbn [cut_leading]. rewrite SP, <- Hlen, app_length. destruct L as [|s L].
    - cbn [length app Nat.add]. rewrite Nat.ltb_irrefl, commas_join. reflexivity.
    - destruct (Nat.ltb_spec (length I) (length (s :: L) + length I)) as [_|H]; [|cbn in H; lia].
      replace (length (s :: L) + length I - length I) with (length (s :: L) + 0) by lia.
      rewrite firstn_app_2, skipn_app. cbn [firstn]. rewrite app_nil_r, skipn_all2 by lia. rewrite commas_join.
      replace (length (s :: L) + 0 - length (s :: L)) with 0 by lia. reflexivity. }
  set (Lo := match L with [] => None | _ => Some L end).
  assert (EL : leading Lo = L) by (unfold Lo; destruct L; reflexivity).
  assert (El : match L with [] => None | _ => Some (commas L) end = option_map commas Lo) by (unfold Lo; destruct L; reflexivity).
  assert (CT : check_text hp (option_map commas Lo) (Leaf (join comma I)) O = Ok tt).
  { unfold check_text. cbn [rbind]. 
    assert (E1 : match option_map commas Lo with None => require (negb hp) ValueError | Some _ => Ok tt end = Ok tt).
    { unfold Lo. destruct L; [|reflexivity]. cbn. destruct hp; [exfalso; apply HP; reflexivity|reflexivity]. }
    rewrite E1. cbn [rbind].
    assert (E2 : match O with Some o => require (negb (mem_char comma (chars o)) && (length (split_arrow o) =? 1)) ValueError | None => Ok tt end = Ok tt).
    { destruct O as [o|]; [|reflexivity]. pose proof (HO o eq_refl) as W. rewrite split_arrow_id by (apply word_no_gt; exact W).
      destruct (mem_char comma (chars o)) eqn:M; [|reflexivity]. apply mem_char_In in M. exfalso. apply comma_no_letter, (W _ M). }
    rewrite E2. cbn [rbind].
    assert (E3 : match option_map commas Lo with Some l => require (valid_chars l) ValueError | None => Ok tt end = Ok tt).
    { unfold Lo. destruct L; [reflexivity|]. cbn [option_map]. rewrite commas_join, valid_join by exact FL. reflexivity. }
    rewrite E3. cbn [rbind].
    assert (E4 : match O with Some o => require (valid_chars o) ValueError | None => Ok tt end = Ok tt).
    { destruct O as [o|]; [|reflexivity]. rewrite valid_of_word by (apply HO; reflexivity). reflexivity. }
    rewrite E4. cbn [rbind leaves forallb]. rewrite valid_join by exact FI. reflexivity. }
  unfold concrete_einsum_str. rewrite classify_text. cbn [rbind]. rewrite CO. cbn [rbind]. rewrite CL, El. rewrite CT. cbn [rbind operand_strs].
  rewrite split_join_comma by (try exact IN; apply words_no_comma; exact FI).
  assert (FLo : Forall word (leading Lo)) by (rewrite EL; exact FL).
  rewrite (letters_concat _ Lo I eq_refl HS FLo FI), EL. rewrite reduce_join by exact HS.
  fold (default_out L I O). destruct (find _ alphabet) as [b|]; [|reflexivity].
  rewrite split_join_comma by (try exact IN; apply words_no_comma; exact FI).
  destruct (forallb _ _); [|reflexivity]. cbn [require rbind]. f_equal. unfold batched. rewrite commas_join. unfold Lo. destruct L as [|s L]; cbn [option_map].
  - reflexivity.
  - rewrite commas_join, join_app_comma; [rewrite append_assoc'; reflexivity|discriminate|destruct I; [congruence|discriminate]].
Qed.

Lemma find_fresh L I out b : find (fun c => negb (mem_char c (concat (map chars (L ++ I)) ++ chars out))) alphabet = Some b ->
  letter b /\ fresh b (out :: L ++ I).
Proof.
  intros HB. apply find_some in HB as [HB1 HB2]. apply negb_true_iff in HB2.
  assert (NB : ~ In b (concat (map chars (L ++ I)) ++ chars out)).
  { intros Hin. apply mem_char_In in Hin. rewrite Hin in HB2. discriminate. }
  split; [apply alphabet_letter; exact HB1|].
  intros s [ <- |Hs] Hc; apply NB, in_or_app; [right; exact Hc|left]. apply in_concat_chars. eauto.
Qed.

Theorem concrete_text_inv hp sh L I O c :
  length I = length (leaves sh) -> solid_first I -> (hp = true -> L <> []) -> Forall word (L ++ I) ->
  (forall o, O = Some o -> word o) -> concrete_einsum_str hp (Leaf (written L I O)) sh = Ok c ->
  exists b, letter b /\ fresh b (default_out L I O :: L ++ I) /\ c = batched L I (default_out L I O) b /\
    forall k s n, nth_error I k = Some s -> nth_error (leaves sh) k = Some n -> slen s = length n.
Proof.
  intros Hlen HS HP FW HO H. rewrite concrete_text_eq in H by assumption.
  destruct (find _ alphabet) as [b|] eqn:HB; [|discriminate]. destruct (forallb _ _) eqn:HF in H; [|discriminate]. injection H as <-.
  apply find_fresh in HB as [H1 H2]. exists b. repeat split; [exact H1|exact H2|].
  intros k s n Hk1 Hk2. pose proof (forallb_combine _ _ _ HF k s n Hk1 Hk2) as E. apply Nat.eqb_eq in E. exact E.
Qed.

Theorem concrete_text hp sh L I O :
  length I = length (leaves sh) -> solid_first I -> (hp = true -> L <> []) -> Forall word (L ++ I) ->
  (forall o, O = Some o -> word o) ->
  (forall k s n, nth_error I k = Some s -> nth_error (leaves sh) k = Some n -> slen s = length n) ->
  (exists b, letter b /\ fresh b (match O with Some o => [o] | None => [] end ++ L ++ I)) ->
  exists b out, letter b /\ fresh b (out :: L ++ I) /\ output_of (L ++ I) O out /\
    concrete_einsum_str hp (Leaf (written L I O)) sh = Ok (batched L I out b).
Proof.
  intros Hlen HS HP FW HO HN (b0 & Hb0 & Fb0). rewrite concrete_text_eq by assumption.
  assert (Fo : ~ occurs b0 (default_out L I O)).
  { unfold default_out. destruct O as [o|]; [apply Fb0; left; reflexivity|]. intros Hc. unfold occurs in Hc.
    change (list_ascii_of_string ?x) with (chars x) in Hc. rewrite chars_string in Hc.
    unfold once in Hc. apply filter_In in Hc as [Hc _]. apply in_alphabetical, in_concat_chars in Hc as (s & Hs & Hc). exact (Fb0 s Hs Hc). }
  destruct (find _ alphabet) as [b|] eqn:HB.
  - apply find_fresh in HB as [H1 H2]. exists b, (default_out L I O). split; [exact H1|]. split; [exact H2|]. split; [apply default_output|].
    assert (RQ : forallb (fun p : string * list nat => slen (fst p) =? length (snd p)) (combine I (leaves sh)) = true).
    { rewrite forallb_forall. intros [s n] Hin. apply In_nth_error in Hin as (k & Hk). cbn [fst snd]. apply Nat.eqb_eq.
      clear -Hk HN. revert HN k Hk. generalize (leaves sh). clear sh. induction I as [|x I' IH]; intros [|y l] HN k Hk; cbn in Hk; try (destruct k; discriminate).
      destruct k as [|k]; cbn in Hk; [injection Hk as -> ->; apply (HN 0); reflexivity|].
      eapply IH; [|exact Hk]. intros j; exact (HN (S j)). }
    rewrite RQ. reflexivity.
  - exfalso. pose proof (find_none _ _ HB b0) as HF. cbn beta in HF.
    assert (Hb : In b0 alphabet) by (apply mem_char_In; apply letter_iff in Hb0; exact Hb0). specialize (HF Hb).
    apply negb_false_iff, mem_char_In, in_app_or in HF as [HF|HF]; [|exact (Fo HF)].
    apply in_concat_chars in HF as (s & Hs & Hc). apply (Fb0 s); [apply in_or_app; right; exact Hs|exact Hc].
Qed.

(* ---- reading the built subscripts ---- *)
Lemma parse_batched L I out b : I <> [] -> letter b -> Forall word (out :: L ++ I) ->
  parse (batched L I out b) = Ok (map chars L ++ map (fun s => b :: chars s) I, b :: chars out).
Proof.
  intros IN Hb FW. inversion FW as [|? ? Ho Hl]; subst. apply Forall_app in Hl as [FL FI].
  assert (Wb : forall s, word s -> word (String b s)) by (intros s W c [ <- |Hc]; [exact Hb|exact (W c Hc)]).
  assert (FA : Forall word (L ++ map (String b) I)).
  { apply Forall_app. split; [exact FL|]. rewrite Forall_forall in *. intros s Hs. apply in_map_iff in Hs as (s' & <- & Hs'). apply Wb. auto. }
  unfold parse, batched. rewrite commas_join. rewrite split_arrow_app; [|apply no_minus; exact FA|apply word_no_gt, Wb; exact Ho].
  rewrite split_join_comma; [|destruct L; [destruct I; [congruence|discriminate]|discriminate]|apply words_no_comma; exact FA].
  rewrite map_app, map_map. reflexivity.
Qed.

(* ---- sizes ---- *)
Definition bound_by (d : sizes) (p : list ascii * list nat) : Prop := Forall2 (fun c n => size_of d c = Some n) (fst p) (snd p).
Lemma size_snoc d c n x : size_of (d ++ [(c, n)]) x = match size_of d x with Some m => Some m | None => if Ascii.eqb x c then Some n else None end.
Proof. induction d as [|[b m] d IH]; cbn; [reflexivity|]. destruct (Ascii.eqb x b); [reflexivity|exact IH]. Qed.
Definition keeps (d d' : sizes) : Prop := forall c n, size_of d c = Some n -> size_of d' c = Some n.
Lemma bind_size_ok d c n d' : bind_size d (c, n) = Ok d' -> keeps d d' /\ size_of d' c = Some n /\ (forall x, size_of d' x <> None -> size_of d x <> None \/ x = c).
Proof.
  unfold bind_size. cbn [fst snd]. destruct (size_of d c) as [m|] eqn:E.
  - destruct (Nat.eqb_spec m n); [|discriminate]. intros H. injection H as <-. subst. repeat split; [intros x k H; exact H|exact E|tauto].
  - intros H. injection H as <-. repeat split.
    + intros x k H. rewrite size_snoc, H. reflexivity.
    + rewrite size_snoc, E, Ascii.eqb_refl. reflexivity.
    + intros x H. rewrite size_snoc in H. destruct (size_of d x); [left; discriminate|]. destruct (Ascii.eqb_spec x c); [right; assumption|congruence].
Qed.
Lemma F2_impl' {A B} (P Q : A -> B -> Prop) l m : (forall a b, P a b -> Q a b) -> Forall2 P l m -> Forall2 Q l m.
Proof. intros H F. induction F; constructor; auto. Qed.
Lemma bind_sizes_ok w : forall s d d', length w = length s -> rfold bind_size (combine w s) d = Ok d' ->
  keeps d d' /\ bound_by d' (w, s) /\ (forall x, size_of d' x <> None -> size_of d x <> None \/ In x w).
Proof.
  induction w as [|c w IH]; intros [|n s] d d' HL H; try discriminate.
  - injection H as <-. repeat split; [intros x k E; exact E|constructor|tauto].
  - cbn [combine rfold] in H. apply rbind_ok in H as (d1 & H1 & H2). apply bind_size_ok in H1 as (K1 & B1 & O1).
    destruct (IH s d1 d' ltac:(cbn in HL; lia) H2) as (K2 & B2 & O2). repeat split.
    + intros x k E. apply K2, K1, E.
    + constructor; [apply K2, B1|exact B2].
    + intros x Hx. apply O2 in Hx as [Hx|Hx]; [apply O1 in Hx as [Hx| ->]; [left; exact Hx|right; left; reflexivity]|right; right; exact Hx].
Qed.
Lemma bind_operands_ok ps : forall d d', rfold bind_operand ps d = Ok d' ->
  keeps d d' /\ Forall (bound_by d') ps /\ (forall x, size_of d' x <> None -> size_of d x <> None \/ exists p, In p ps /\ In x (fst p)).
Proof.
  induction ps as [|[w s] ps IH]; intros d d' H; cbn [rfold] in H.
  - injection H as <-. repeat split; [intros x k E; exact E|constructor|tauto].
  - apply rbind_ok in H as (d1 & H1 & H2). unfold bind_operand in H1. cbn [fst snd] in H1. destruct (Nat.eqb_spec (length w) (length s)) as [HL|]; [|discriminate].
    destruct (bind_sizes_ok w s d d1 HL H1) as (K1 & B1 & O1). destruct (IH d1 d' H2) as (K2 & B2 & O2). repeat split.
    + intros x k E. apply K2, K1, E.
    + constructor; [|exact B2]. unfold bound_by in *. cbn [fst snd] in *. revert B1. apply F2_impl'. intros c n E. apply K2, E.
    + intros x Hx. apply O2 in Hx as [Hx|(p & Hp & Hx)]; [apply O1 in Hx as [Hx|Hx]; [left; exact Hx|]|right; exists p; split; [right; exact Hp|exact Hx]].
      right. exists (w, s). split; [left; reflexivity|exact Hx].
Qed.
(** consistent operands are accepted *)
Definition follows (f : ascii -> nat) (d : sizes) : Prop := forall c n, size_of d c = Some n -> n = f c.
Lemma bind_size_acc f d c : follows f d -> exists d', bind_size d (c, f c) = Ok d' /\ follows f d'.
Proof.
  intros H. unfold bind_size. cbn [fst snd]. destruct (size_of d c) as [m|] eqn:E.
  - rewrite (H _ _ E), Nat.eqb_refl. eauto.
  - eexists. split; [reflexivity|]. intros x n. rewrite size_snoc. destruct (size_of d x) eqn:Ex; [intros Q; injection Q as <-; apply H; exact Ex|].
    destruct (Ascii.eqb_spec x c); [intros Q; injection Q as <-; subst; reflexivity|discriminate].
Qed.
Lemma bind_sizes_acc f w : forall d, follows f d -> exists d', rfold bind_size (combine w (map f w)) d = Ok d' /\ follows f d'.
Proof.
  induction w as [|c w IH]; intros d H; [eexists; split; [reflexivity|exact H]|]. cbn [map combine rfold].
  destruct (bind_size_acc f d c H) as (d1 & E1 & H1). rewrite E1. cbn [rbind]. apply IH. exact H1.
Qed.
Lemma bind_operands_acc f ps : forall d, follows f d -> Forall (fun p => snd p = map f (fst p)) ps -> exists d', rfold bind_operand ps d = Ok d' /\ follows f d'.
Proof.
  induction ps as [|[w s] ps IH]; intros d H F; [eexists; split; [reflexivity|exact H]|]. inversion F as [|? ? E F']; subst. cbn in E. subst s.
  cbn [rfold]. unfold bind_operand at 1. cbn [fst snd]. rewrite map_length, Nat.eqb_refl. destruct (bind_sizes_acc f w d H) as (d1 & E1 & H1). rewrite E1. cbn [rbind].
  apply IH; assumption.
Qed.
Lemma bound_map d p : bound_by d p -> snd p = map (index_in d) (fst p).
Proof.
  destruct p as [w s]. unfold bound_by. cbn. induction 1 as [|c n w s H F IH]; [reflexivity|]. cbn. unfold index_in at 1. rewrite H, <- IH. reflexivity.
Qed.
