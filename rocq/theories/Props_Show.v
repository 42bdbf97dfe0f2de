(** C116: the texts that describe models. *)
From Coq Require Import ZArith.
From Verif Require Import Base BaseLemmas TreeUtil Edit Show ShowSpec ShowProofs.
Local Open Scope string_scope.

(** Up to indentation the text consists of the brackets, keys and leaves of the tree,
    in order, each leaf with the lines of its [repr], shortened line by line. *)
Theorem C116_content : forall A (repr : tree A -> string) is_leaf n limit base t, blank base -> plain_keys t ->
  Forall2 indented (lines (fmt repr is_leaf n limit base 0 t)) (shown (fun x => map (truncate_line limit) (lines (repr x))) is_leaf t).
Proof.
  intros A repr is_leaf n limit base t B P. pose proof (fmt_lines repr is_leaf n limit base B t P) as F.
  replace (shown (fun x => map (truncate_line limit) (lines (repr x))) is_leaf t) with (shown (fun x => lines (truncate limit (repr x))) is_leaf t); [exact F|].
  clear. revert t. fix IH 1. intros [a| |kvs|ts|ts]; cbn [shown]; rewrite ?truncate_lines; match goal with |- context [is_leaf ?x] => destruct (is_leaf x) end; try reflexivity.
  - assert (E : map (fun kv => entry (fst kv) (shown (fun x => lines (truncate limit (repr x))) is_leaf (snd kv))) kvs =
      map (fun kv => entry (fst kv) (shown (fun x => map (truncate_line limit) (lines (repr x))) is_leaf (snd kv))) kvs).
    { induction kvs as [|[k v] kvs IHk]; [reflexivity|]. cbn [map fst snd]. now rewrite (IH v), IHk. }
    rewrite E. reflexivity.
  - assert (E : map (shown (fun x => lines (truncate limit (repr x))) is_leaf) ts = map (shown (fun x => map (truncate_line limit) (lines (repr x))) is_leaf) ts).
    { induction ts as [|v ts IHt]; [reflexivity|]. cbn [map]. now rewrite (IH v), IHt. }
    rewrite E. reflexivity.
  - assert (E : map (shown (fun x => lines (truncate limit (repr x))) is_leaf) ts = map (shown (fun x => map (truncate_line limit) (lines (repr x))) is_leaf) ts).
    { induction ts as [|v ts IHt]; [reflexivity|]. cbn [map]. now rewrite (IH v), IHt. }
    rewrite E. reflexivity.
Qed.
Definition leaf_text (t : tree string) : string := match t with Leaf s => s | _ => "None" end.
Definition nested : tree string := Dict [("w", Leaf "Bias"); ("m", Lst [Leaf "ReLU"; Tup []])].
Example C116_content_example : plain_keys nested /\ lines (fmt leaf_text (fun _ => false) 1 None "  " 0 nested) =
  ["  {"; "   w: Bias,"; "   m:"; "   ["; "       ReLU,"; "       (),"; "      ],"; "  }"].
Proof. split; [cbn; tauto|reflexivity]. Qed.

(** *** shortened leaves *)
Theorem C116_limit_partial : forall m s x, (3 <= m)%Z -> In x (lines (truncate (Some m) s)) -> (Z.of_nat (String.length x) <= m)%Z.
Proof. intros m s x H I. rewrite truncate_lines in I. apply in_map_iff in I as (y & <- & _). now apply truncate_line_short. Qed.
Definition C116_limit_always : Prop := forall m s x, (0 <= m)%Z -> In x (lines (truncate (Some m) s)) -> (Z.of_nat (String.length x) <= m)%Z.
(** Limits below three never shorten a line to the limit. *)
Theorem C116_small_limit_never : forall m y, (0 <= m < 3)%Z -> no_sep nl y = true -> (m < Z.of_nat (String.length y))%Z ->
  exists x, lines (truncate (Some m) y) = [x] /\ (m < Z.of_nat (String.length x))%Z.
Proof.
  intros m y H N L. exists (truncate_line (Some m) y). split; [|now apply truncate_line_long]. rewrite truncate_lines. unfold lines. now rewrite (split_no_sep_id nl y N).
Qed.
Theorem C116_limit_refuted : ~ C116_limit_always.
Proof. intros H. specialize (H 2%Z "abcdef" "abcde..." ltac:(lia)). cbn in H. specialize (H (or_introl eq_refl)). lia. Qed.
Example C116_limit_example : truncate (Some 6%Z) "abcdefgh" = "abc..." /\ (3 <= 6)%Z.
Proof. split; [reflexivity|lia]. Qed.

(** *** indentation *)
(** Closing brackets stand below their opening ones in the outermost container only:
    for a container in a list they are always further to the right. *)
Theorem C116_outermost : forall A (repr : tree A -> string) is_leaf n limit base x ts, blank base -> is_leaf (Lst (x :: ts)) = false ->
  exists mid, lines (fmt repr is_leaf n limit base 0 (Lst (x :: ts))) = (append base "[" :: mid ++ [append base "]"])%list.
Proof.
  intros A repr is_leaf n limit base x ts B L. cbn [fmt outermost]. rewrite L.
  set (items := map _ (x :: ts)). assert (N : items <> []) by discriminate. pose proof (lines_enclose n base 0 "[" "]" items N eq_refl eq_refl (blank_no base B)) as E.
  unfold lines in *. assert (X : forall h tl, split nl (enclose n base 0 "[" "]" items) = h :: tl -> split nl (base ++ enclose n base 0 "[" "]" items) = (base ++ h) :: tl).
  { pose proof (blank_no base B) as NB. clear - NB. generalize (enclose n base 0 "[" "]" items). intros s h tl. induction base as [|c b IH]; [auto|]. cbn [no_sep] in NB. apply andb_prop in NB as [N1 N2].
    intros E. cbn [append split]. rewrite (IH N2 E). destruct (Ascii.eqb c nl); [discriminate|reflexivity]. }
  rewrite (X _ _ E). eexists. f_equal. f_equal. unfold margin. cbn [spaces Nat.mul]. now rewrite app_str_nil.
Qed.
Theorem C116_nested_never : forall A (repr : tree A -> string) is_leaf n limit base x ts, blank base -> n <> 0 -> is_leaf (Lst (x :: ts)) = false -> is_leaf (Lst [Lst (x :: ts)]) = false ->
  exists a b mid, lines (fmt repr is_leaf n limit base 0 (Lst [Lst (x :: ts)])) = ([append base "["; append (spaces a) "["] ++ mid ++ [append (spaces b) "],"; append base "]"])%list /\ a < b.
Proof.
  intros A repr is_leaf n limit base x ts B N L1 L2. destruct B as (j & ->). set (base := spaces j).
  assert (NB : no_sep nl base = true) by apply spaces_no.
  set (inner := fmt repr is_leaf n limit base 1 (Lst (x :: ts))).
  assert (I : exists tl, lines inner = ("[" :: tl ++ [append (spaces (j + n)) "]"])%list).
  { unfold inner. cbn [fmt outermost]. rewrite L1. eexists. rewrite lines_enclose by (try discriminate; try reflexivity; assumption). f_equal. f_equal. unfold margin. rewrite Nat.mul_1_l. unfold base. now rewrite spaces_app. }
  destruct I as (tl & I).
  assert (O : no_sep nl inner = false).
  { destruct (no_sep nl inner) eqn:E; [|reflexivity]. apply split_one in E as (y & E). unfold lines in I. rewrite E in I. injection I as _ I. destruct tl; discriminate. }
  assert (M : lines (seq_item (margin n base 1) inner) = map (append (spaces (j + n))) ("[" :: tl ++ [append (spaces (j + n)) "]"])%list).
  { unfold seq_item. rewrite occurs_no, O. cbn [negb]. rewrite lines_moved by (unfold margin; now rewrite no_sep_app, NB, spaces_no). rewrite I. unfold margin. rewrite Nat.mul_1_l. unfold base. now rewrite spaces_app. }
  exists (j + n), (j + n + (j + n)), (map (append (spaces (j + n))) tl). split; [|lia].
  assert (E : fmt repr is_leaf n limit base 0 (Lst [Lst (x :: ts)]) = base ++ enclose n base 0 "[" "]" [seq_item (margin n base 1) inner]).
  { cbn [fmt outermost map]. rewrite L2. reflexivity. }
  rewrite E. pose proof (lines_enclose n base 0 "[" "]" [seq_item (margin n base 1) inner] ltac:(discriminate) eq_refl eq_refl NB) as F.
  assert (X : forall s h tl, split nl s = h :: tl -> split nl (base ++ s) = (base ++ h) :: tl).
  { clear - NB. intros s h tl. clearbody base. induction base as [|c b IH]; [auto|]. cbn [no_sep] in NB. apply andb_prop in NB as [N1 N2].
    intros E. cbn [append split]. rewrite (IH N2 E). destruct (Ascii.eqb c nl); [discriminate|reflexivity]. }
  unfold lines at 1. rewrite (X _ _ _ F). cbn [flat_map app]. rewrite app_nil_r, M. cbn [map]. rewrite map_app. cbn [map]. f_equal.
  assert (Y : forall (l : list string) h y z, add_last (h :: l ++ [y])%list z = (h :: l ++ [append y z])%list).
  { clear. intros l. induction l as [|a l IH]; intros h y z; [reflexivity|]. cbn [app]. rewrite add_last_ne by discriminate. now rewrite IH. }
  rewrite Y. cbn [app]. f_equal. rewrite <- app_assoc. cbn [app]. do 2 f_equal.
  - rewrite <- app_str_assoc, spaces_app. rewrite app_str_assoc. reflexivity.
  - unfold margin. cbn [spaces Nat.mul]. now rewrite app_str_nil.
Qed.
Example C116_nested_example : lines (fmt leaf_text (fun _ => false) 1 None "  " 0 (Lst [Lst [Leaf "ReLU"]])) = ["  ["; "   ["; "       ReLU,"; "      ],"; "  ]"].
Proof. reflexivity. Qed.
Definition C116_aligned_always : Prop := forall (repr : tree string -> string) n base x ts, blank base ->
  exists a mid, lines (fmt repr (fun _ => false) n None base 0 (Lst [Lst (x :: ts)])) = ([append base "["; append (spaces a) "["] ++ mid ++ [append (spaces a) "],"; append base "]"])%list.
Theorem C116_aligned_refuted : ~ C116_aligned_always.
Proof.
  intros H. destruct (H leaf_text 1 "  " (Leaf "x") [] ltac:(exists 2; reflexivity)) as (a & mid & E). clear H.
  change (["  ["; "   ["; "       x,"; "      ],"; "  ]"] = ([append "  " "["; append (spaces a) "["] ++ mid ++ [append (spaces a) "],"; append "  " "]"])%list) in E.
  destruct a as [|[|[|[|a]]]]; try discriminate E. destruct mid as [|m1 [|m2 [|m3 [|m4 mid]]]]; discriminate E.
Qed.

(** *** texts of models *)
Theorem C116_model : forall A (repr : tree A -> string) is_leaf name t, no_sep nl name = true -> plain_keys t ->
  exists l, lines (model_repr repr is_leaf name t) = (append name "(" :: l ++ [")"])%list /\ Forall2 indented l (shown (fun x => lines (repr x)) is_leaf t).
Proof.
  intros A repr is_leaf name t N P. exists (lines (fmt repr is_leaf 1 None "  " 0 t)). split.
  - unfold model_repr, lines. rewrite <- app_str_assoc, split_app_sep by now rewrite no_sep_app, N. now rewrite split_cat.
  - exact (fmt_lines repr is_leaf 1 None "  " ltac:(exists 2; reflexivity) t P).
Qed.
(** a graph model lists every connection on its own line *)
Theorem C116_graph : forall A (repr : tree A -> string) is_leaf name t conns, conns <> [] -> (exists k v, In (k, v) conns /\ v <> []) ->
  (forall k v, In (k, v) conns -> no_sep nl k = true /\ Forall (fun i => no_sep nl i = true) v) ->
  lines (graph_repr repr is_leaf name t conns) = (lines (model_repr repr is_leaf name t) ++ "Connections:" :: flat_map (fun kv => map (fun i => append (fst kv) (append " -> " i)) (snd kv)) conns)%list.
Proof.
  intros A repr is_leaf name t conns NE (k0 & v0 & I0 & V0) P. unfold graph_repr, lines. rewrite split_cat. f_equal. rewrite split_app_sep by reflexivity. f_equal.
  destruct conns as [|kv conns]; [congruence|]. apply split_join.
  - intros E. assert (X : forall kv', In kv' (kv :: conns) -> snd kv' = []).
    { intros kv' I. apply (f_equal (@length string)) in E. rewrite flat_map_concat_map in E. destruct (in_split _ _ I) as (l1 & l2 & El). rewrite El in E. rewrite map_app, concat_app, app_length in E. cbn in E. rewrite app_length, map_length in E.
      destruct (snd kv'); [reflexivity|cbn in E; lia]. }
    apply V0. exact (X (k0, v0) I0).
  - apply Forall_forall. intros x I. apply in_flat_map in I as ([k v] & I1 & I2). apply in_map_iff in I2 as (i & <- & I2). destruct (P k v I1) as [P1 P2]. cbn [fst snd] in *.
    rewrite Forall_forall in P2. rewrite !no_sep_app, P1, (P2 i I2). reflexivity.
Qed.
Example C116_graph_example : lines (graph_repr leaf_text (fun _ => false) "Net" (Dict [("a", Leaf "ReLU")]) [("input", ["a"]); ("a", ["output"])]) =
  ["Net("; "  {"; "   a: ReLU,"; "  }"; ")"; "Connections:"; "input -> a"; "a -> output"].
Proof. reflexivity. Qed.

(** Parentheses match in the text of a module unless it is frozen and has parameters. *)
Definition balanced (s : string) : Prop := count "(" s = count ")" s.
Definition C116_balanced_always : Prop := forall name number c ready trainable, balanced name -> (forall n, balanced (number n)) -> balanced (module_repr name number c ready trainable).
Theorem C116_balanced_partial : forall name number c ready trainable, balanced name -> (forall n, balanced (number n)) ->
  trainable = true \/ ready = false \/ c = None \/ c = Some 0 -> balanced (module_repr name number c ready trainable).
Proof.
  intros name number c ready trainable B N H. unfold module_repr, balanced in *. destruct c as [c|].
  - destruct ready.
    + destruct (Nat.eqb_spec c 0) as [ -> |E]; [exact B|]. destruct trainable; cbn [negb].
      * rewrite !count_app, B, (N c). cbn. lia.
      * destruct H as [H|[H|[H|H]]]; congruence.
    + rewrite !count_app, B. reflexivity.
  - destruct ready; cbn [negb]; [exact B|]. rewrite !count_app, B. reflexivity.
Qed.
Theorem C116_frozen_never : forall name number c, balanced name -> (forall n, balanced (number n)) -> c <> 0 -> ~ balanced (module_repr name number (Some c) true false).
Proof.
  intros name number c B N C. unfold module_repr, balanced in *. destruct (Nat.eqb_spec c 0) as [E|E]; [congruence|]. cbn [negb]. rewrite !count_app, B, (N c). cbn. lia.
Qed.
Theorem C116_balanced_refuted : ~ C116_balanced_always.
Proof. intros H. apply (C116_frozen_never "Bias" (fun _ => "3") 3); [reflexivity|reflexivity|discriminate|]. apply H; reflexivity. Qed.
Example C116_balanced_example : module_repr "Bias" (fun _ => "3") (Some 3) true true = "Bias (trainable floats: 3)" /\ module_repr "Bias" (fun _ => "3") (Some 3) true false = "Bias (trainable floats: 3) [frozen])".
Proof. split; reflexivity. Qed.

Print Assumptions C116_content.
Print Assumptions C116_limit_refuted.
Print Assumptions C116_nested_never.
Print Assumptions C116_model.
Print Assumptions C116_graph.
Print Assumptions C116_balanced_partial.
