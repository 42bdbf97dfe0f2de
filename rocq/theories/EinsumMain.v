From Coq Require Import Permutation Sorted.
From Verif Require Import Base BaseLemmas TreeUtil TreeSpec NonSeqSpec NonSeqProofs Seq SerialSpec SeqProofs TrainArgs TrainArgsProofs NdArray OneHot OneHotProofs Einsum EinsumSpec EinsumProofs.
Local Open Scope string_scope.
Local Open Scope list_scope.
Local Open Scope nat_scope.

(** trees found to have the same structure are alike *)
Lemma all2_F2 {X Y} (l : list (tree X)) (m : list (tree Y)) :
  Forall (fun t => wf_tree t -> forall u : tree Y, same_struct t u = true -> alike t u) l -> Forall wf_tree l ->
  (fix all2 (l m : list (tree unit)) {struct l} : bool :=
     match l, m with
     | [], [] => true
     | x :: l', y :: m' => tree_eqb (fun _ _ => true) x y && all2 l' m'
     | _, _ => false
     end) (map tmapU l) (map tmapU m) = true ->
  Forall2 (trel (fun _ _ => True)) l m.
Proof.
  intros F. revert m. induction F as [|t l Ht _ IH]; intros m Hw H.
  - destruct m; [constructor|discriminate].
  - destruct m as [|u m]; [discriminate|]. cbn [map] in H. apply andb_true_iff in H as [H1 H2]. inversion Hw; subst.
    constructor; [apply Ht; assumption|apply IH; assumption].
Qed.
Lemma dget_map {X Y} (f : X -> Y) (d : dict X) k : dget (map (fun kv => (fst kv, f (snd kv))) d) k = option_map f (dget d k).
Proof. induction d as [|[k0 v] d IH]; cbn; [reflexivity|]. destruct (String.eqb k k0); [reflexivity|exact IH]. Qed.
Lemma struct_alike {X Y} (t : tree X) : wf_tree t -> forall u : tree Y, same_struct t u = true -> alike t u.
Proof.
  induction t as [x| |d IH|l IH|l IH] using tree_ind2; intros Hw u H; unfold same_struct in H; destruct u as [y| |e|m|m]; cbn [tmapU tree_eqb] in H; try discriminate.
  - constructor. exact I.
  - constructor.
  - apply andb_true_iff in H as [HL H]. rewrite !map_length, Nat.eqb_eq in HL. inversion Hw as [| |d0 N Fw| |]; subst.
    assert (G : forall d', Forall (fun kv => wf_tree (snd kv) -> forall u : tree Y, same_struct (snd kv) u = true -> alike (snd kv) u) d' ->
        Forall (fun kv => wf_tree (snd kv)) d' ->
        (fix alld (l : list (string * tree unit)) : bool :=
           match l with
           | [] => true
           | (k, x) :: l' => match dget (map (fun kv => (fst kv, tmapU (snd kv))) e) k with
                             | Some y => tree_eqb (fun _ _ => true) x y | None => false end && alld l'
           end) (map (fun kv => (fst kv, tmapU (snd kv))) d') = true ->
        exists e', Forall2 (fun a b => fst a = fst b /\ trel (fun (_ : X) (_ : Y) => True) (snd a) (snd b)) d' e' /\ incl e' e).
    { induction d' as [|[k x] d' IHd]; intros FI FW HA; [exists []; split; [constructor|intros a []]|].
      inversion FI as [|? ? FI1 FI2]; inversion FW as [|? ? FW1 FW2]; subst. cbn [map fst snd] in *.
      apply andb_true_iff in HA as [HA1 HA2]. rewrite dget_map in HA1. destruct (dget e k) as [y|] eqn:E; [|discriminate].
      destruct (IHd FI2 FW2 HA2) as (e' & F & Hi). exists ((k, y) :: e'). split.
      - constructor; [|exact F]. split; [reflexivity|]. apply FI1; [exact FW1|exact HA1].
      - intros z [ <- |Hz]; [apply dget_In; exact E|apply Hi; exact Hz]. }
    destruct (G d IH Fw H) as (e' & F & Hi). apply tr_dict with e'; [|exact F].
    assert (K : map fst e' = map fst d).
    { clear -F. induction F as [|a b d e' [E _] _ IHF]; cbn; congruence. }
    apply NoDup_Permutation_bis.
    + apply NoDup_map_inv with (f := fst). rewrite K. exact N.
    + rewrite <- HL, <- (map_length fst d), <- K, map_length. reflexivity.
    + exact Hi.
  - inversion Hw as [| | |l0 Fw|]; subst. constructor. apply all2_F2; assumption.
  - inversion Hw as [| | | |l0 Fw]; subst. constructor. apply all2_F2; assumption.
Qed.

(* ---- reading the notation ---- *)
Lemma classify_notation e sh l i o : wf_tree e -> wf_tree sh -> classify e sh = Ok (l, i, o) -> notation sh e l i o.
Proof.
  intros We Ws H. unfold classify in H.
  assert (HS : same_struct e sh = true -> notation sh e None e None) by (intros S; apply n_tree, struct_alike; assumption).
  assert (HN : same_struct e sh = false -> ~ alike e sh) by (intros S A; rewrite (alike_struct e sh Ws A) in S; discriminate).
  assert (H' : (if same_struct e sh then Ok (None, e, None)
      else match e with
           | Tup [a; b; c] => let* l := opt_str a in let* o := opt_str c in Ok (l, b, o)
           | Tup [Leaf _; Leaf _] => Err ValueError
           | Tup [Leaf l; t] => Ok (Some l, t, None)
           | Tup [t; Leaf o] => Ok (None, t, Some o)
           | Leaf _ => Ok (None, e, None)
           | _ => Err ValueError
           end) = Ok (l, i, o)) by (destruct e; first [exact H|discriminate]).
  clear H. destruct (same_struct e sh) eqn:S; [injection H' as <- <- <-; apply HS; reflexivity|]. specialize (HN eq_refl).
  destruct e as [s| | | |es]; try discriminate.
  - injection H' as <- <- <-. constructor.
  - assert (NB : forall t : tree string, match t with Leaf _ => False | _ => True end -> ~ bare t) by (intros t Ht [x ->]; exact Ht).
    assert (OS : forall t l, opt_str t = Ok l -> says t l).
    { intros t l0 Ht. destruct t; cbn in Ht; try discriminate; injection Ht as <-; reflexivity. }
    destruct es as [|a [|b [|c [|]]]]; try (destruct a; discriminate).
    + discriminate.
    + destruct a, b; try discriminate; injection H' as <- <- <-; constructor; try exact HN; apply NB; exact I.
    + assert (H'' : (let* l := opt_str a in let* o := opt_str c in Ok (l, b, o)) = Ok (l, i, o)) by (destruct a, b; exact H').
      clear H'. apply rbind_ok in H'' as (l1 & H1 & H2). apply rbind_ok in H2 as (o1 & H2 & H3). injection H3 as <- <- <-.
      constructor; [exact HN|apply OS; exact H1|apply OS; exact H2].
    + destruct a, b; discriminate.
Qed.

Lemma skipn_firstn_len {A} n (l : list A) : n < length l ->
  firstn (length l - n) l <> [] /\ length (skipn (length l - n) l) = n.
Proof.
  intros H. split; [|rewrite skipn_length; lia]. intros E. apply (f_equal (@length _)) in E. rewrite firstn_length in E. cbn in E. lia.
Qed.
Lemma split_nonempty c s : split c s <> [].
Proof. destruct s as [|a s]; cbn; [discriminate|]. destruct (Ascii.eqb a c); [discriminate|]. destruct (split c s); discriminate. Qed.
Lemma commas_split s : commas (split comma s) = s.
Proof. rewrite commas_join. apply join_split. Qed.
Lemma F_firstn {A} (P : A -> Prop) n l : Forall P l -> Forall P (firstn n l).
Proof. rewrite !Forall_forall. intros H x Hx. apply H. rewrite <- (firstn_skipn n l). apply in_or_app. left. exact Hx. Qed.
Lemma F_skipn {A} (P : A -> Prop) n l : Forall P l -> Forall P (skipn n l).
Proof. rewrite !Forall_forall. intros H x Hx. apply H. rewrite <- (firstn_skipn n l). apply in_or_app. right. exact Hx. Qed.
Lemma split_join_comma l : l <> [] -> Forall (fun s => no_sep comma s = true) l -> split comma (join comma l) = l.
Proof. intros H F. apply split_join; assumption. Qed.

Lemma walk_has_leaf {X} : forall p (t u : tree X) x, walk t p = Some u -> has_leaf u x -> has_leaf t x.
Proof.
  induction p as [|k p IH]; intros t u x H Hx; cbn in H; [injection H as ->; exact Hx|].
  destruct (child t k) as [t'|] eqn:E; [|discriminate]. pose proof (IH _ _ _ H Hx) as Hl.
  destruct t as [y| |d|l|l]; cbn in E; try discriminate.
  - apply dget_In in E. econstructor; eassumption.
  - destruct (isdigit k); [|discriminate]. apply nth_error_In in E. econstructor; eassumption.
  - destruct (isdigit k); [|discriminate]. apply nth_error_In in E. econstructor; eassumption.
Qed.
Lemma parts_leaves {X} (t : tree X) ps us x : Forall2 (fun p u => walk t p = Some u) ps us -> In x (concat (map leaves us)) -> In x (leaves t).
Proof.
  induction 1 as [|p u ps us H F IH]; [intros []|]. cbn [map concat]. intros Hx. apply in_app_or in Hx as [Hx|Hx]; [|apply IH; exact Hx].
  apply leaves_has_leaf. eapply walk_has_leaf; [exact H|]. apply leaves_has_leaf. exact Hx.
Qed.
Lemma require_ok b e u : require b e = Ok u -> b = true.
Proof. unfold require. destruct b; [reflexivity|discriminate]. Qed.

Lemma check_text_facts hp l i o u : check_text hp l i o = Ok u ->
  (~ bare i -> forall s, In s (leaves i) -> word s /\ s <> "") /\
  (forall s, l = Some s -> valid_chars s = true) /\
  (hp = true -> l <> None) /\
  (forall s, o = Some s -> word s) /\
  (forall s, In s (leaves i) -> valid_chars s = true).
Proof.
  unfold check_text. intros H. apply rbind_ok in H as (u1 & H1 & H). apply rbind_ok in H as (u2 & H2 & H).
  apply rbind_ok in H as (u3 & H3 & H). apply rbind_ok in H as (u4 & H4 & H). apply rbind_ok in H as (u5 & H5 & H6).
  split; [|split; [|split; [|split]]].
  - intros NB s Hs. assert (G : forallb isalpha (leaves i) = true).
    { destruct i as [s0| | | |]; [exfalso; apply NB; eexists; reflexivity|..]; apply require_ok in H1; exact H1. }
    rewrite forallb_forall in G. apply isalpha_word, G. exact Hs.
  - intros s ->. apply require_ok in H4. exact H4.
  - intros -> ->. discriminate.
  - intros s ->. apply require_ok in H3. apply require_ok in H5. apply andb_true_iff in H3 as [H3 _]. apply valid_word; [exact H5|].
    apply no_sep_notin. intros Hc. apply negb_true_iff in H3. apply mem_char_In in Hc. unfold chars in H3. rewrite Hc in H3. discriminate.
  - intros s Hs. apply require_ok in H6. rewrite forallb_forall in H6. apply H6. exact Hs.
Qed.

(** the operands read *)
Definition read_ok (sh : tree (list nat)) (l : option string) (i : tree string) (o : option string) (l' o' : option string) (I : list string) : Prop :=
  exists L, operands sh l i o L I o' /\ l' = option_map commas L /\ (forall x, L = Some x -> x <> []) /\ Forall word (leading L) /\ Forall word I.

Lemma bare_dec (t : tree string) : {s | t = Leaf s} + {~ bare t}.
Proof. destruct t; [left; eexists; reflexivity|right; intros [s H]; discriminate..]. Qed.

Lemma read_text sh l s o l' i' hp u I : length (leaves sh) <> 0 -> cut_leading (length (leaves sh)) l (Leaf s) = (l', i') ->
  check_text hp l' i' o = Ok u -> operand_strs sh i' = Ok I -> read_ok sh l (Leaf s) o l' o I.
Proof.
  intros Hn HC HT HO. apply check_text_facts in HT as (_ & HL & _ & _ & HI). destruct l as [x|].
  - cbn in HC. injection HC as <- <-. cbn in HO. injection HO as <-. exists (Some (split comma x)). repeat split.
    + rewrite <- (commas_split x) at 1. rewrite <- (commas_split s) at 1. apply o_given; apply split_nonempty.
    + cbn. rewrite commas_split. reflexivity.
    + intros y E. injection E as <-. apply split_nonempty.
    + apply valid_split, HL. reflexivity.
    + apply valid_split, HI. left. reflexivity.
  - cbn [cut_leading] in HC. destruct (Nat.ltb_spec (length (leaves sh)) (length (split comma s))) as [Hlt|Hge].
    + injection HC as <- <-. cbn in HO. injection HO as <-.
      destruct (skipn_firstn_len _ _ Hlt) as [HF HS]. set (n := length (split comma s) - length (leaves sh)) in *.
      assert (NS : Forall (fun p => no_sep comma p = true) (split comma s)) by (rewrite Forall_forall; intros p Hp; pose proof (split_no_sep comma s) as F; rewrite Forall_forall in F; auto).
      rewrite split_join_comma.
      * exists (Some (firstn n (split comma s))). repeat split.
        -- rewrite <- (commas_split s) at 1. rewrite <- (firstn_skipn n (split comma s)) at 1. apply o_split; assumption.
        -- cbn. rewrite commas_join. reflexivity.
        -- intros y E. injection E as <-. exact HF.
        -- cbn [leading]. rewrite <- (split_join_comma (firstn n (split comma s))); [|exact HF|apply F_firstn; exact NS].
           apply valid_split, HL. reflexivity.
        -- rewrite <- (split_join_comma (skipn n (split comma s))); [|intros E; rewrite E in HS; cbn in HS; lia|apply F_skipn; exact NS].
           apply valid_split, HI. left. reflexivity.
      * intros E. rewrite E in HS. cbn in HS. lia.
      * apply F_skipn. exact NS.
    + injection HC as <- <-. cbn in HO. injection HO as <-. exists None. repeat split.
      * rewrite <- (commas_split s) at 1. apply o_whole; [apply split_nonempty|exact Hge].
      * discriminate.
      * constructor.
      * apply valid_split, HI. left. reflexivity.
Qed.

Lemma read_tree sh l t o l' i' hp u I : ~ bare t -> cut_leading (length (leaves sh)) l t = (l', i') ->
  check_text hp l' i' o = Ok u -> operand_strs sh i' = Ok I -> read_ok sh l t o l' o I /\ Forall (fun s => s <> "") I.
Proof.
  intros NB HC HT HO. assert (E : l' = l /\ i' = t).
  { unfold cut_leading in HC. destruct l; [injection HC; auto|]. destruct t as [s| | | |]; [exfalso; apply NB; eexists; reflexivity|..]; injection HC; auto. }
  destruct E as [-> ->]. apply check_text_facts in HT as (HW & HL & _ & _ & _). specialize (HW NB).
  assert (HO' : (let* us := flatten_up_to (treedef sh) t in Ok (concat (map leaves us))) = Ok I).
  { destruct t as [s| | | |]; [exfalso; apply NB; eexists; reflexivity|..]; exact HO. }
  apply rbind_ok in HO' as (us & HU & HI). injection HI as <-. apply flatten_pos in HU.
  assert (FW : Forall (fun s => word s /\ s <> "") (concat (map leaves us))).
  { rewrite Forall_forall. intros s Hs. apply HW. eapply parts_leaves; eassumption. }
  split; [|revert FW; apply Forall_impl; tauto]. destruct l as [x|].
  - exists (Some (split comma x)). repeat split.
    + rewrite <- (commas_split x) at 1. apply o_tree_given; [apply split_nonempty|exact NB|exact HU].
    + cbn. rewrite commas_split. reflexivity.
    + intros y E. injection E as <-. apply split_nonempty.
    + apply valid_split, HL. reflexivity.
    + revert FW. apply Forall_impl. tauto.
  - exists None. repeat split.
    + apply o_tree; assumption.
    + discriminate.
    + constructor.
    + revert FW. apply Forall_impl. tauto.
Qed.

Lemma read_all sh l i o i1 o' l' i' hp u I : length (leaves sh) <> 0 -> cut_output i o = Ok (i1, o') ->
  cut_leading (length (leaves sh)) l i1 = (l', i') -> check_text hp l' i' o' = Ok u -> operand_strs sh i' = Ok I ->
  read_ok sh l i o l' o' I /\ (~ bare i -> Forall (fun s => s <> "") I).
Proof.
  intros Hn HO HC HT HI. destruct (bare_dec i) as [[s ->]|NB].
  - split; [|intros NB; exfalso; apply NB; eexists; reflexivity]. unfold cut_output in HO. destruct o as [o|].
    + injection HO as <- <-. eapply read_text; eassumption.
    + pose proof (arrows_split (slen s) s (le_n _)) as A. destruct (split_arrow s) as [|a [|b [|c r]]] eqn:E; try discriminate.
      * injection HO as <- <-. eapply read_text; eassumption.
      * injection HO as <- <-. destruct (read_text sh l a (Some b) l' i' hp u I Hn HC HT HI) as (L & H1 & H2).
        exists L. split; [|exact H2]. rewrite <- A. apply o_arrow. exact H1.
  - assert (E : i1 = i /\ o' = o).
    { unfold cut_output in HO. destruct o; [injection HO; auto|]. destruct i as [s| | | |]; [exfalso; apply NB; eexists; reflexivity|..]; injection HO; auto. }
    destruct E as [-> ->]. destruct (read_tree sh l i o l' i' hp u I NB HC HT HI) as [H1 H2]. auto.
Qed.

(* ---- the subscripts built ---- *)
Lemma alphabet_letter b : In b alphabet -> letter b.
Proof. intros H. apply letter_iff. unfold is_letter. apply mem_char_In. exact H. Qed.
Lemma letters_concat l' L I : (l' = option_map commas L) -> solid_first I -> Forall word (leading L) -> Forall word I ->
  not_commas (chars (append (opt_or_empty l') (reduce_strs I))) = concat (map chars (leading L ++ I)).
Proof.
  intros -> HS FL FI. rewrite reduce_join by exact HS. rewrite chars_app, not_commas_app, map_app, concat_app. f_equal.
  - destruct L as [L|]; [|reflexivity]. cbn [option_map opt_or_empty leading]. rewrite commas_join. apply not_commas_join. exact FL.
  - apply not_commas_join. exact FI.
Qed.
Lemma forallb_combine {A B} (f : A * B -> bool) l m : forallb f (combine l m) = true -> forall k a b, nth_error l k = Some a -> nth_error m k = Some b -> f (a, b) = true.
Proof.
  revert m. induction l as [|x l IH]; intros m H k a b Ha Hb; [destruct k; discriminate|]. destruct m as [|y m]; [destruct k; discriminate|].
  cbn in H. apply andb_true_iff in H as [H1 H2]. destruct k as [|k]; cbn in Ha, Hb.
  - injection Ha as ->. injection Hb as ->. exact H1.
  - exact (IH m H2 k a b Ha Hb).
Qed.

Lemma check_text_any hp hp' (L : option (list string)) i O u : check_text hp (option_map commas L) i O = Ok u -> (hp' = true -> L <> None) -> check_text hp' (option_map commas L) i O = Ok u.
Proof.
  unfold check_text. destruct L as [L|]; cbn [option_map]; [auto|]. intros H HP. destruct hp'; [exfalso; apply HP; reflexivity|]. cbn [negb require rbind].
  destruct (match i with Leaf _ => Ok tt | _ => _ end); [|discriminate]. cbn [rbind] in *. destruct hp; [discriminate|]. exact H.
Qed.
Theorem concrete_sound_any hp e sh c : wf_tree e -> wf_tree sh -> leaves sh <> [] -> concrete_einsum_str hp e sh = Ok c ->
  exists l i o L I O, (forall hp', (hp' = true -> L <> None) -> concrete_einsum_str hp' e sh = Ok c) /\ notation sh e l i o /\ operands sh l i o L I O /\ (hp = true -> L <> None) /\
    (~ bare i -> Forall (fun s => s <> "") I) /\
    (solid_first I -> exists b out, letter b /\ fresh b (out :: leading L ++ I) /\ output_of (leading L ++ I) O out /\
       c = batched (leading L) I out b /\ Forall word (out :: leading L ++ I) /\
       forall k s n, nth_error I k = Some s -> nth_error (leaves sh) k = Some n -> slen s = length n).
Proof.
  intros We Ws Hn H. unfold concrete_einsum_str in H. apply rbind_ok in H as ([[l i] o] & HQ & H).
  apply rbind_ok in H as ([i1 O] & HO & H). destruct (cut_leading (length (leaves sh)) l i1) as [l' i'] eqn:HC.
  apply rbind_ok in H as (u & HT & H). apply rbind_ok in H as (I & HI & H).
  assert (Hn' : length (leaves sh) <> 0) by (destruct (leaves sh); [congruence|discriminate]).
  destruct (read_all sh l i o i1 O l' i' hp u I Hn' HO HC HT HI) as [(L & HL & El & NL & FL & FI) HNE].
  pose proof HQ as HQ0. apply classify_notation in HQ; [|assumption..]. exists l, i, o, L, I, O.
  split. { intros hp' HP'. unfold concrete_einsum_str. rewrite HQ0. cbn [rbind]. rewrite HO. cbn [rbind]. rewrite HC. rewrite El in HT. rewrite El. rewrite (check_text_any hp hp' L i' O u HT HP').
    cbn [rbind]. rewrite HI. cbn [rbind]. rewrite El in H. exact H. }
  split; [exact HQ|]. split; [exact HL|].
  apply check_text_facts in HT as (_ & _ & HP & HOw & _).
  split. { intros Hh EL. apply (HP Hh). rewrite El, EL. reflexivity. }
  split; [exact HNE|]. intros HS.
  rewrite (letters_concat l' L I El HS FL FI) in H. rewrite reduce_join in H by exact HS.
  set (out := match O with Some o => o | None => _ end) in H.
  destruct (find _ alphabet) as [b|] eqn:HB; [|discriminate]. apply find_some in HB as [HB1 HB2].
  assert (IN : I <> []) by (destruct HS as [HS|HS]; destruct I; [discriminate|discriminate|cbn in HS; congruence|discriminate]).
  rewrite split_join_comma in H by (try exact IN; apply words_no_comma; exact FI).
  apply rbind_ok in H as (u' & HR & H). apply require_ok in HR. injection H as <-.
  apply negb_true_iff in HB2.
  assert (NB : ~ In b (concat (map chars (leading L ++ I)) ++ chars out)).
  { intros Hin. apply mem_char_In in Hin. rewrite Hin in HB2. discriminate. }
  exists b, out. split; [apply alphabet_letter; exact HB1|]. split; [|split; [|split; [|split]]].
  - intros s [ <- |Hs] Hc; apply NB, in_or_app; [right; exact Hc|left]. apply in_concat_chars. eauto.
  - unfold output_of. destruct O as [o'|]; [reflexivity|]. apply once_omitted.
  - unfold batched. rewrite commas_join. destruct L as [L|]; cbn [leading option_map] in *.
    + subst l'. rewrite commas_join. rewrite join_app_comma; [|apply NL; reflexivity|destruct I; [congruence|discriminate]].
      rewrite append_assoc'. reflexivity.
    + subst l'. reflexivity.
  - constructor; [|apply Forall_app; auto]. unfold out. destruct O as [o'|]; [apply HOw; reflexivity|].
    intros ch Hch. unfold occurs in Hch. change (list_ascii_of_string ?x) with (chars x) in Hch. rewrite chars_string in Hch.
    unfold once in Hch. apply filter_In in Hch as [Hch _]. apply in_alphabetical, in_concat_chars in Hch as (s & Hs & Hc).
    assert (FA : Forall word (leading L ++ I)) by (apply Forall_app; auto). rewrite Forall_forall in FA. exact (FA s Hs ch Hc).
  - intros k s n Hk1 Hk2. pose proof (forallb_combine _ _ _ HR k s n Hk1 Hk2) as E. apply Nat.eqb_eq in E. exact E.
Qed.
Theorem concrete_sound hp e sh c : wf_tree e -> wf_tree sh -> leaves sh <> [] -> concrete_einsum_str hp e sh = Ok c ->
  exists l i o L I O, notation sh e l i o /\ operands sh l i o L I O /\ (hp = true -> L <> None) /\
    (~ bare i -> Forall (fun s => s <> "") I) /\
    (solid_first I -> exists b out, letter b /\ fresh b (out :: leading L ++ I) /\ output_of (leading L ++ I) O out /\
       c = batched (leading L) I out b /\ Forall word (out :: leading L ++ I) /\
       forall k s n, nth_error I k = Some s -> nth_error (leaves sh) k = Some n -> slen s = length n).
Proof. intros We Ws Hn H. destruct (concrete_sound_any hp e sh c We Ws Hn H) as (l & i & o & L & I & O & _ & H'). exists l, i, o, L, I, O. exact H'. Qed.
