(** Lemmas on the texts of models. *)
From Coq Require Import ZArith.
From Verif Require Import Base BaseLemmas TreeUtil Edit Show ShowSpec.
Local Open Scope string_scope.

Lemma app_str_assoc a b c : (a ++ b) ++ c = a ++ (b ++ c).
Proof. induction a as [|d a IH]; cbn; [reflexivity|]. now rewrite IH. Qed.
Lemma app_str_nil a : a ++ "" = a.
Proof. induction a as [|d a IH]; cbn; [reflexivity|]. now rewrite IH. Qed.
Lemma occurs_no c s : occurs c s = negb (no_sep c s).
Proof. induction s as [|d s IH]; cbn; [reflexivity|]. rewrite IH. now destruct (Ascii.eqb d c). Qed.
Lemma no_sep_app c a b : no_sep c (a ++ b) = (no_sep c a && no_sep c b)%bool.
Proof. induction a as [|d a IH]; cbn; [reflexivity|]. rewrite IH. now rewrite andb_assoc. Qed.
Lemma spaces_no k : no_sep nl (spaces k) = true.
Proof. induction k as [|k IH]; [reflexivity|]. exact IH. Qed.
Lemma spaces_app j k : spaces j ++ spaces k = spaces (j + k).
Proof. induction j as [|j IH]; cbn; [reflexivity|]. now rewrite IH. Qed.

Lemma split_cat c a b : split c (a ++ String c b) = (split c a ++ split c b)%list.
Proof.
  induction a as [|d a IH]; cbn [append split].
  - now rewrite Ascii.eqb_refl.
  - rewrite IH. destruct (Ascii.eqb d c); [reflexivity|]. destruct (split c a) as [|p ps] eqn:E; [destruct (split_nonempty c a E)|reflexivity].
Qed.
Lemma add_last_ne x l s : l <> [] -> add_last (x :: l) s = x :: add_last l s.
Proof. destruct l; [congruence|reflexivity]. Qed.
Lemma split_tail c a b : no_sep c b = true -> split c (a ++ b) = add_last (split c a) b.
Proof.
  intros H. induction a as [|d a IH]; cbn [append split].
  - now rewrite (split_no_sep_id c b H).
  - rewrite IH. pose proof (split_nonempty c a) as N. destruct (Ascii.eqb d c); [now rewrite add_last_ne|].
    destruct (split c a) as [|p [|q ps]]; [congruence|reflexivity|reflexivity].
Qed.
Lemma split_one c s : no_sep c s = true <-> exists x, split c s = [x].
Proof.
  split; [intros H; exists s; now apply split_no_sep_id|]. intros (x & H). pose proof (split_no_sep c s) as F. rewrite H in F. inversion F; subst.
  rewrite <- (join_split c s), H. assumption.
Qed.
Lemma lines_moved pre s : no_sep nl pre = true -> lines (moved pre s) = map (append pre) (lines s).
Proof.
  intros H. unfold lines, moved. apply split_join.
  - intros E. apply map_eq_nil in E. exact (split_nonempty nl s E).
  - pose proof (split_no_sep nl s) as F. induction F as [|x l Fx F IH]; [constructor|]. cbn [map]. constructor; [now rewrite no_sep_app, H, Fx|exact IH].
Qed.
Lemma lines_commas items : items <> [] -> lines (commas items ++ ",") = flat_map (fun x => add_last (lines x) ",") items.
Proof.
  unfold lines. induction items as [|x [|y items] IH]; intros N; [congruence| |].
  - cbn [commas flat_map]. rewrite app_nil_r. apply split_tail. reflexivity.
  - change (commas (x :: y :: items)) with (x ++ "," ++ String nl (commas (y :: items))). cbn [flat_map]. rewrite app_str_assoc. cbn [append].
    change (x ++ String "," (String nl (commas (y :: items) ++ ","))) with (x ++ ("," ++ String nl (commas (y :: items) ++ ","))).
    rewrite <- app_str_assoc, split_cat, (split_tail nl x ",") by reflexivity. f_equal. apply IH. discriminate.
Qed.
Lemma lines_enclose n base k o c items : items <> [] -> no_sep nl o = true -> no_sep nl c = true -> no_sep nl base = true ->
  lines (enclose n base k o c items) = (o :: flat_map (fun x => add_last (lines x) ",") items ++ [append (margin n base k) c])%list.
Proof.
  intros N Ho Hc Hb. rewrite <- (lines_commas items N). unfold enclose, lines. rewrite (split_app_sep nl o _ Ho). f_equal.
  change (commas items ++ "," ++ String nl (margin n base k ++ c)) with (commas items ++ ("," ++ String nl (margin n base k ++ c))).
  rewrite <- app_str_assoc, split_cat. f_equal. apply split_no_sep_id. unfold margin. now rewrite !no_sep_app, Hb, spaces_no, Hc.
Qed.

(** the first line exactly, the others up to indentation *)
Definition good (l s : list string) : Prop := exists h tl ts, l = h :: tl /\ s = h :: ts /\ Forall2 indented tl ts.
Lemma indented_refl x : indented x x.
Proof. exists 0. reflexivity. Qed.
Lemma indented_all l : Forall2 indented l l.
Proof. induction l; constructor; [apply indented_refl|assumption]. Qed.
Lemma good_refl l : l <> [] -> good l l.
Proof. destruct l as [|h t]; [congruence|]. intros _. exists h, t, t. split; [reflexivity|]. split; [reflexivity|apply indented_all]. Qed.
Lemma good_weak l s : good l s -> Forall2 indented l s.
Proof. intros (h & tl & ts & -> & -> & F). constructor; [apply indented_refl|exact F]. Qed.
Lemma indented_last l s x : Forall2 indented l s -> Forall2 indented (add_last l x) (add_last s x).
Proof.
  intros F. induction F as [|a b l s (k & ->) F IH]; [constructor|]. destruct F as [|a' b' l s I F].
  - cbn. constructor; [|constructor]. exists k. apply app_str_assoc.
  - rewrite !add_last_ne by discriminate. constructor; [now exists k|exact IH].
Qed.
Lemma indented_moved pre l s : blank pre -> Forall2 indented l s -> Forall2 indented (map (append pre) l) s.
Proof.
  intros (k & ->) F. induction F as [|a b l s (j & ->) F IH]; [constructor|]. cbn. constructor; [|exact IH]. exists (k + j). now rewrite <- app_str_assoc, spaces_app.
Qed.
Lemma blank_no s : blank s -> no_sep nl s = true.
Proof. intros (k & ->). apply spaces_no. Qed.
Lemma blank_margin n base k : blank base -> blank (margin n base k).
Proof. intros (j & ->). exists (j + k * n). apply spaces_app. Qed.

Lemma item_lines pre x s : blank pre -> good (lines x) s -> Forall2 indented (lines (seq_item pre x)) s.
Proof.
  intros B G. unfold seq_item. rewrite occurs_no. destruct (no_sep nl x) eqn:E; cbn [negb].
  - unfold lines in *. rewrite (split_no_sep_id nl x E) in G. rewrite split_no_sep_id by now rewrite no_sep_app, (blank_no pre B), E.
    apply (indented_moved pre [x] s B). now apply good_weak.
  - rewrite (lines_moved pre x (blank_no pre B)). apply (indented_moved pre _ s B). now apply good_weak.
Qed.
Lemma entry_lines pre k x s : blank pre -> occurs nl k = false -> good (lines x) s -> Forall2 indented (lines (dict_item pre k x)) (entry k s).
Proof.
  intros B K G. rewrite occurs_no in K. apply negb_false_iff in K. unfold dict_item. rewrite occurs_no. destruct (no_sep nl x) eqn:E; cbn [negb].
  - unfold lines in *. rewrite (split_no_sep_id nl x E) in G. rewrite split_no_sep_id by now rewrite !no_sep_app, (blank_no pre B), K, E.
    destruct G as (h & tl & ts & E1 & -> & F). injection E1 as <- <-. inversion F; subst. cbn [entry]. constructor; [|constructor].
    destruct B as (j & ->). exists j. reflexivity.
  - assert (L : exists h h' tl, s = h :: h' :: tl).
    { destruct G as (h & tl & ts & E1 & -> & F). destruct F as [|a b tl ts I F]; [|eauto]. exfalso. assert (X : no_sep nl x = true) by (apply split_one; eauto). congruence. }
    destruct L as (h & h' & tl & ->). cbn [entry]. unfold lines. rewrite split_app_sep by now rewrite !no_sep_app, (blank_no pre B), K.
    constructor; [destruct B as (j & ->); exists j; reflexivity|]. pose proof (lines_moved pre x (blank_no pre B)) as M. unfold lines in M. rewrite M.
    apply (indented_moved pre _ _ B). now apply good_weak.
Qed.

Section Fmt.
Context {A : Type} (repr : tree A -> string) (is_leaf : tree A -> bool) (n : nat) (limit : option Z) (base : string).
Hypothesis B : blank base.
Let leaf (t : tree A) : list string := lines (truncate limit (repr t)).

Lemma good_block k o c items ss : items <> [] -> no_sep nl o = true -> no_sep nl c = true -> Forall2 (fun x s => Forall2 indented (lines x) s) items ss ->
  good (lines (enclose n base k o c items)) (block o c ss).
Proof.
  intros N Ho Hc F. rewrite (lines_enclose n base k o c items N Ho Hc (blank_no base B)). unfold block. cbn [app].
  eexists o, _, _. split; [reflexivity|]. split; [reflexivity|]. apply Forall2_app.
  - clear N. induction F as [|x s items ss I F IH]; [constructor|]. cbn [flat_map]. apply Forall2_app; [now apply indented_last|exact IH].
  - constructor; [|constructor]. destruct (blank_margin n base k B) as (j & ->). exists j. reflexivity.
Qed.
Lemma fmt_good : forall t k, plain_keys t -> exists s, fmt repr is_leaf n limit base k t = outermost base k s /\ good (lines s) (shown leaf is_leaf t).
Proof.
  fix F 1. intros t k P.
  assert (L : good (lines (truncate limit (repr t))) (leaf t)) by (apply good_refl; apply split_nonempty).
  destruct t as [a| |kvs|ts|ts]; cbn [fmt shown]; (eexists; split; [reflexivity|]); match goal with |- context [is_leaf ?x] => destruct (is_leaf x) end; try exact L.
  - assert (X : Forall2 (fun x s => Forall2 indented (lines x) s) (map (fun kv => dict_item (margin n base (S k)) (fst kv) (fmt repr is_leaf n limit base (S k) (snd kv))) kvs)
      (map (fun kv => entry (fst kv) (shown leaf is_leaf (snd kv))) kvs)).
    { clear L. cbn [plain_keys] in P. induction kvs as [|[key v] kvs IH]; [constructor|].
      destruct P as (P1 & P2 & P3). cbn [map fst snd]. constructor; [|exact (IH P3)]. apply entry_lines; [now apply blank_margin|exact P1|].
      destruct (F v (S k) P2) as (s & E & G). rewrite E. exact G. }
    clear F. destruct kvs as [|kv kvs]; [apply good_refl; discriminate|]. apply good_block; [discriminate|reflexivity|reflexivity|exact X].
  - assert (X : Forall2 (fun x s => Forall2 indented (lines x) s) (map (fun x => seq_item (margin n base (S k)) (fmt repr is_leaf n limit base (S k) x)) ts)
      (map (shown leaf is_leaf) ts)).
    { clear L. cbn [plain_keys] in P. induction ts as [|x ts IH]; [constructor|].
      destruct P as (P1 & P2). cbn [map]. constructor; [|exact (IH P2)]. apply item_lines; [now apply blank_margin|].
      destruct (F x (S k) P1) as (s & E & G). rewrite E. exact G. }
    clear F. destruct ts as [|x ts]; [apply good_refl; discriminate|]. apply good_block; [discriminate|reflexivity|reflexivity|exact X].
  - assert (X : Forall2 (fun x s => Forall2 indented (lines x) s) (map (fun x => seq_item (margin n base (S k)) (fmt repr is_leaf n limit base (S k) x)) ts)
      (map (shown leaf is_leaf) ts)).
    { clear L. cbn [plain_keys] in P. induction ts as [|x ts IH]; [constructor|].
      destruct P as (P1 & P2). cbn [map]. constructor; [|exact (IH P2)]. apply item_lines; [now apply blank_margin|].
      destruct (F x (S k) P1) as (s & E & G). rewrite E. exact G. }
    clear F. destruct ts as [|x ts]; [apply good_refl; discriminate|]. apply good_block; [discriminate|reflexivity|reflexivity|exact X].
Qed.
Lemma fmt_lines t : plain_keys t -> Forall2 indented (lines (fmt repr is_leaf n limit base 0 t)) (shown leaf is_leaf t).
Proof.
  intros P. destruct (fmt_good t 0 P) as (s & E & G). rewrite E. cbn [outermost]. destruct G as (h & tl & ts & E1 & -> & F).
  assert (X : lines (base ++ s) = (base ++ h) :: tl).
  { assert (NB := blank_no base B). unfold lines in *. clear - E1 NB. revert E1. induction base as [|c b IH]; [auto|]. cbn [no_sep] in NB. apply andb_prop in NB as [N1 N2].
    intros E1. cbn [append split]. rewrite (IH N2 E1). destruct (Ascii.eqb c nl); [discriminate|reflexivity]. }
  rewrite X. constructor; [|exact F]. destruct B as (j & ->). exists j. reflexivity.
Qed.
End Fmt.

(** *** shortening *)
Lemma sub_length s k : k <= String.length s -> String.length (substring 0 k s) = k.
Proof. revert k. induction s as [|c s IH]; intros [|k] H; cbn in *; try lia. now rewrite IH by lia. Qed.
Lemma len_app a b : String.length (a ++ b) = String.length a + String.length b.
Proof. induction a as [|c a IH]; cbn; [reflexivity|]. now rewrite IH. Qed.
Lemma upto_length s i : String.length (upto s i) = cut (String.length s) i.
Proof. unfold upto. apply sub_length. unfold cut. destruct (Z.ltb_spec i 0); lia. Qed.
Lemma truncate_line_short m s : (3 <= m)%Z -> (Z.of_nat (String.length (truncate_line (Some m) s)) <= m)%Z.
Proof.
  intros H. unfold truncate_line. destruct (Z.ltb_spec m (Z.of_nat (String.length s))); [|lia]. rewrite len_app, upto_length. unfold cut. cbn [String.length].
  destruct (Z.ltb_spec (m - 3) 0); lia.
Qed.
Lemma truncate_line_long m s : (0 <= m < 3)%Z -> (m < Z.of_nat (String.length s))%Z -> (m < Z.of_nat (String.length (truncate_line (Some m) s)))%Z.
Proof.
  intros H L. unfold truncate_line. destruct (Z.ltb_spec m (Z.of_nat (String.length s))); [|lia]. rewrite len_app, upto_length. unfold cut. cbn [String.length].
  destruct (Z.ltb_spec (m - 3) 0); lia.
Qed.
Lemma upto_no s i : no_sep nl s = true -> no_sep nl (upto s i) = true.
Proof.
  unfold upto. generalize (cut (String.length s) i). induction s as [|c s IH]; intros [|k] H; cbn in *; try reflexivity. apply andb_prop in H as [-> H]. now apply IH.
Qed.
Lemma truncate_lines limit s : lines (truncate limit s) = map (truncate_line limit) (lines s).
Proof.
  unfold truncate. destruct limit as [m|]; [|cbn [truncate_line]; now rewrite map_id].
  assert (T : forall x, no_sep nl x = true -> no_sep nl (truncate_line (Some m) x) = true).
  { intros x H. unfold truncate_line. destruct (_ <? _)%Z; [|exact H]. now rewrite no_sep_app, (upto_no x (m - 3) H). }
  rewrite occurs_no. unfold lines. destruct (no_sep nl s) eqn:E; cbn [negb].
  - rewrite (split_no_sep_id nl s E). cbn [map]. apply split_no_sep_id. now apply T.
  - apply split_join; [intros X; apply map_eq_nil in X; exact (split_nonempty nl s X)|]. pose proof (split_no_sep nl s) as F.
    induction F as [|x l Fx F IH]; [constructor|]. cbn [map]. constructor; [now apply T|exact IH].
Qed.
Lemma count_app c a b : count c (a ++ b) = count c a + count c b.
Proof. induction a as [|d a IH]; cbn [append count]; [reflexivity|]. rewrite IH. lia. Qed.
