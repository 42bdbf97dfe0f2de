(** C06, C07, C08, C11: connection dictionaries of graph models. *)
From Verif Require Import Base BaseLemmas TreeUtil TreeSpec Resolve Connections ConcretizeSpec
  ConcretizeProofs ConnSpec ConnProofs PlaceProofs RenameProofs.
From Coq Require Import Permutation.
Local Open Scope string_scope.
Local Open Scope list_scope.

(** C06.  Concretising slot paths always succeeds (never runs out of indices);
    the results are pairwise not extensions of one another (hence different);
    unambiguous paths are unchanged, ambiguous ones get one more component,
    which is new at that position: the first free number in the order of the
    paths when all keys there are numbers, a fresh key otherwise
    ([slot_given]). *)
Theorem C06_slots_made_distinct :
  forall (sep : ascii) (uuid : nat -> string) (n : nat) (paths : list string),
    is_digit_char sep = false -> paths <> [] -> fresh_source sep uuid paths ->
    exists n' outs, concretize_paths sep uuid n paths = Ok (n', outs) /\
    length outs = length paths /\
    (forall i j a b, nth_error outs i = Some a -> nth_error outs j = Some b -> i <> j ->
        ~ prefix (comps sep a) (comps sep b)) /\
    (forall i p o, nth_error paths i = Some p -> nth_error outs i = Some o ->
       slot_given sep uuid paths i p o).
Proof. exact concretize_paths_spec. Qed.
Print Assumptions C06_slots_made_distinct.

(** a source of fresh keys for the examples *)
Definition uu (n : nat) : string := append "uuid" (str_of n).
Lemma uu_inj m n : uu m = uu n -> m = n.
Proof. unfold uu. simpl. intros H. injection H as H. apply str_of_inj; exact H. Qed.
Lemma uu_ok n : no_sep "." (uu n) = true /\ uu n <> EmptyString.
Proof.
  split; [|discriminate]. unfold uu.
  assert (H := isdigit_str_of n). unfold isdigit in H.
  assert (G : forall s, all_digits s = true -> no_sep "." s = true).
  { induction s as [|c s IH]; [reflexivity|]. cbn [all_digits no_sep]. intros E.
    apply andb_true_iff in E as [E1 E2]. rewrite IH by exact E2.
    destruct (Ascii.eqb_spec c "."); [subst c; discriminate E1|reflexivity]. }
  cbn [append no_sep]. simpl (Ascii.eqb _ _). cbn [negb andb]. apply G.
  destruct (str_of n); [discriminate|exact H].
Qed.
Lemma uu_fresh paths :
  forallb (fun p => forallb (fun k => negb (startswith k "uuid")) (comps "." p)) paths = true ->
  fresh_source "." uu paths.
Proof.
  intros H. split; [exact uu_inj|]. split; [exact uu_ok|]. intros n p Hp Hc.
  rewrite forallb_forall in H. specialize (H p Hp). rewrite forallb_forall in H. specialize (H _ Hc).
  unfold uu in H. rewrite startswith_refl_app in H. discriminate.
Qed.

Definition doc_paths := ["a.b.0.1"; "a.b.0"; "a.b"; "a.1"; "a.1"; "a.2"; "a"; ""].
Example C06_hyps : is_digit_char "." = false /\ doc_paths <> [] /\ fresh_source "." uu doc_paths.
Proof. split; [reflexivity|]. split; [discriminate|]. apply uu_fresh. vm_compute. reflexivity. Qed.
Example C06_example :
  concretize_paths "." uu 0 doc_paths =
  Ok (2, ["a.b.0.1"; "a.b.0.0"; "a.b.1"; "a.1.0"; "a.1.1"; "a.2"; "a.uuid1"; "uuid0"]).
Proof. vm_compute. reflexivity. Qed.

(* ------------------------------------------------------------------ *)
(** C08.  For connections written with clean paths to modules (or the output)
    the concretised dictionary has exactly the user's connections: there is a
    list Q of (source, target as written, concrete target) whose first two
    columns are the user's (source, target) pairs in the order written and whose
    outer columns are the resulting pairs, with multiplicity; each concrete
    target is the slot given to the written one ([slot_given]: unambiguous
    targets are kept, the others are extended by the first free number in the
    order written, or by a fresh key); no two concrete targets overlap. *)
Theorem C08_connections_kept :
  forall (sep : ascii), is_digit_char sep = false ->
  forall (uuid : nat -> string) (in_key out_key : string),
    no_sep sep in_key = true /\ in_key <> EmptyString ->
    no_sep sep out_key = true /\ out_key <> EmptyString ->
  forall (A : Type) (t : tree A) (conns : dict cval) (cc : dict (list string)),
    well_written sep out_key t conns ->
    fresh_source sep uuid (map snd (pairs (normalize conns))) ->
    concretize_connections sep uuid in_key out_key t conns = Ok cc ->
    NoDup (dkeys cc) /\
    exists Q : list (string * string * string),
      map fst Q = pairs (normalize conns) /\
      Permutation (map (fun q => (fst (fst q), snd q)) Q) (pairs cc) /\
      (forall i k v w, nth_error Q i = Some (k, v, w) -> clean sep w /\
          slot_given sep uuid (map snd (pairs (normalize conns))) i v w) /\
      (forall i j q1 q2, nth_error Q i = Some q1 -> nth_error Q j = Some q2 -> i <> j ->
          ~ prefix (split sep (snd q1)) (split sep (snd q2))).
Proof. exact (fun sep Hs uuid ik ok Hi Ho A => @concretize_connections_spec sep Hs uuid ik ok Hi Ho A). Qed.
Print Assumptions C08_connections_kept.

(** C08: such connections are accepted, when in addition every source exists
    and no target is the input. *)
Theorem C08_valid_connections_accepted :
  forall (sep : ascii), is_digit_char sep = false ->
  forall (uuid : nat -> string) (in_key out_key : string),
    no_sep sep in_key = true /\ in_key <> EmptyString ->
    no_sep sep out_key = true /\ out_key <> EmptyString ->
  forall (A : Type) (t : tree A) (conns : dict cval),
    well_written sep out_key t conns ->
    (forall k c, In (k, c) conns -> is_source sep in_key out_key t k) ->
    (forall k v, In (k, v) (pairs (normalize conns)) -> ~ reserved sep in_key v) ->
    fresh_source sep uuid (map snd (pairs (normalize conns))) ->
    exists cc, concretize_connections sep uuid in_key out_key t conns = Ok cc.
Proof.
  intros sep Hs uuid ik ok Hi Ho A t conns H1 H2 H3 H4.
  destruct (partition_ok sep ik ok Hi Ho t conns H1 H2 H3) as [pc Hpc].
  eapply concretize_total; eauto.
Qed.
Print Assumptions C08_valid_connections_accepted.

(** The order in which a source lists its targets is not kept, although the
    documentation of concretize_connections says "Order is preserved". *)
Theorem C08_order_preserved_refuted :
  exists (t : tree nat) (conns : dict cval),
    normalize conns = [("input", ["M1.0"; "M2.0"; "M1.1"]); ("M1", ["output"]); ("M2", ["output"])] /\
    concretize_connections "." uu "input" "output" t conns =
      Ok [("input", ["M1.0"; "M1.1"; "M2.0"]); ("M1", ["output.0"]); ("M2", ["output.1"])].
Proof.
  exists (Dict [("M1", Leaf 1); ("M2", Leaf 2)]),
    [("input", Many ["M1.0"; "M2.0"; "M1.1"]); ("M1", One "output"); ("M2", One "output")].
  vm_compute. split; reflexivity.
Qed.
Print Assumptions C08_order_preserved_refuted.

(** Without "no trailing separator" a connection can be lost: the keys "M1" and
    "M1." are different for the user but the second overwrites the first. *)
Theorem C08_trailing_separator_loses_connection_refuted :
  exists (t : tree nat) (conns : dict cval) cc,
    In ("M1", "output.a") (pairs (normalize conns)) /\
    concretize_connections "." uu "input" "output" t conns = Ok cc /\
    ~ In "output.a" (map snd (pairs cc)).
Proof.
  exists (Dict [("M1", Leaf 1)]),
    [("input", One "M1"); ("M1", One "output.a"); ("M1.", One "output.b")]. eexists.
  split; [vm_compute; auto|]. split; [vm_compute; reflexivity|].
  vm_compute. intuition discriminate.
Qed.
Print Assumptions C08_trailing_separator_loses_connection_refuted.

(** A network meeting all hypotheses: nested modules, fan-out, several sources
    for one module, a user-written slot, a structured output. *)
Definition net_tree : tree nat := Dict [("A", Leaf 1); ("B", Lst [Leaf 2; Leaf 3])].
Definition net_conns : dict cval :=
  [("input.0", Many ["A"; "B.0"; "B.1"]); ("input.1", One "A"); ("B.0", One "A.2");
   ("B.1", One "output.x"); ("A", One "output.y")].

Lemma net_well_written : well_written "." "output" net_tree net_conns.
Proof.
  assert (Hc : forall p, negb (String.eqb p "") && forallb (fun k => negb (String.eqb k "")) (split "." p) = true -> clean "." p).
  { intros p H. apply andb_true_iff in H as [H1 H2]. split.
    - destruct (String.eqb_spec p ""); [discriminate|assumption].
    - apply Forall_forall. intros k Hk. rewrite forallb_forall in H2. specialize (H2 k Hk).
      destruct (String.eqb_spec k ""); [discriminate|assumption]. }
  split; [|split].
  - simpl. repeat constructor; simpl; intuition discriminate.
  - intros k c H. simpl in H. apply Hc.
    repeat (destruct H as [H|H]; [injection H as <- <-; reflexivity|]). destruct H.
  - intros k v H. simpl in H. split.
    + apply Hc. repeat (destruct H as [H|H]; [injection H as <- <-; reflexivity|]). destruct H.
    + destruct H as [H|[H|[H|[H|[H|[H|[H|[]]]]]]]]; injection H as <- <-.
      * right. exists ["A"], [], (Leaf 1). auto.
      * right. exists ["B"; "0"], [], (Leaf 2). auto.
      * right. exists ["B"; "1"], [], (Leaf 3). auto.
      * right. exists ["A"], [], (Leaf 1). auto.
      * right. exists ["A"], ["2"], (Leaf 1). auto.
      * left. exists ["x"]. reflexivity.
      * left. exists ["y"]. reflexivity.
Qed.
Lemma net_fresh : fresh_source "." uu (map snd (pairs (normalize net_conns))).
Proof. apply uu_fresh. vm_compute. reflexivity. Qed.
Example C08_example :
  concretize_connections "." uu "input" "output" net_tree net_conns =
  Ok [("input.0", ["A.0"; "B.0"; "B.1"]); ("input.1", ["A.1"]); ("B.0", ["A.2"]);
      ("B.1", ["output.x"]); ("A", ["output.y"])].
Proof. vm_compute. reflexivity. Qed.
Example C08_example_accept_hyps :
  (forall k c, In (k, c) net_conns -> is_source "." "input" "output" net_tree k) /\
  (forall k v, In (k, v) (pairs (normalize net_conns)) -> ~ reserved "." "input" v).
Proof.
  split.
  - intros k c H. simpl in H. destruct H as [H|[H|[H|[H|[H|[]]]]]]; injection H as <- <-.
    + left. exists ["0"]. reflexivity.
    + left. exists ["1"]. reflexivity.
    + right. split; [intros [r E]; discriminate|]. exists ["B"; "0"], [], (Leaf 2). auto.
    + right. split; [intros [r E]; discriminate|]. exists ["B"; "1"], [], (Leaf 3). auto.
    + right. split; [intros [r E]; discriminate|]. exists ["A"], [], (Leaf 1). auto.
  - intros k v H [r E]. simpl in H.
    repeat (destruct H as [H|H]; [injection H as <- <-; discriminate|]). destruct H.
Qed.

(* ------------------------------------------------------------------ *)
(** C07.  Placement never raises the internal error, and when it succeeds the
    two resulting trees hold, at each concrete target, exactly its one source,
    and nothing else. *)
Theorem C07_every_slot_one_source :
  forall (sep : ascii), is_digit_char sep = false ->
  forall (uuid : nat -> string) (in_key out_key : string),
    no_sep sep in_key = true /\ in_key <> EmptyString ->
    no_sep sep out_key = true /\ out_key <> EmptyString ->
  forall (A : Type) (t : tree A) (conns : dict cval),
    well_written sep out_key t conns ->
    fresh_source sep uuid (map snd (pairs (normalize conns))) ->
    plain_outputs sep out_key conns ->
    place_connections sep uuid in_key out_key t conns <> Err RuntimeError /\
    (forall placed outrem, place_connections sep uuid in_key out_key t conns = Ok (placed, outrem) ->
     exists Q : list (string * string * string),
      map fst Q = pairs (normalize conns) /\
      (forall i k v w, nth_error Q i = Some (k, v, w) -> clean sep w /\
          slot_given sep uuid (map snd (pairs (normalize conns))) i v w) /\
      (forall i j q1 q2, nth_error Q i = Some q1 -> nth_error Q j = Some q2 -> i <> j ->
          ~ prefix (split sep (snd q1)) (split sep (snd q2))) /\
      (forall k v w, In (k, v, w) Q ->
         match split sep w with
         | s :: r => if String.eqb s out_key then walk outrem r = Some (Leaf k)
                     else walk placed (s :: r) = Some (Leaf k)
         | [] => False
         end) /\
      (forall ks a, walk outrem ks = Some (Leaf a) ->
         exists v w r, In (a, v, w) Q /\ split sep w = out_key :: r /\ same_keys ks r) /\
      (forall ks a, walk placed ks = Some (Leaf a) ->
         exists v w, In (a, v, w) Q /\ same_keys ks (split sep w))).
Proof. exact (fun sep Hs uuid ik ok Hi Ho A => @place_spec sep Hs uuid ik ok Hi Ho A). Qed.
Print Assumptions C07_every_slot_one_source.

Example C07_example_hyps : plain_outputs "." "output" net_conns.
Proof.
  intros k v H E. simpl in H.
  destruct H as [H|[H|[H|[H|[H|[H|[H|[]]]]]]]]; injection H as <- <-; try discriminate E.
  - exists ["x"]. reflexivity.
  - exists ["y"]. reflexivity.
Qed.
Example C07_example :
  place_connections "." uu "input" "output" net_tree net_conns =
  Ok (Dict [("A", Lst [Leaf "input.0"; Leaf "input.1"; Leaf "B.0"]);
            ("B", Lst [Leaf "input.0"; Leaf "input.0"])],
      Dict [("x", Leaf "B.1"); ("y", Leaf "A")]).
Proof. vm_compute. reflexivity. Qed.

(** The internal error does occur when targets carry a trailing separator, and
    when a container of modules is a target. *)
Theorem C07_trailing_separator_refuted :
  exists (t : tree nat) conns,
    (forall k v, In (k, v) (pairs (normalize conns)) -> startswith v "M1.x" = true) /\
    place_connections "." uu "input" "output" t conns = Err RuntimeError.
Proof.
  exists (Dict [("M1", Leaf 1)]), [("input.a", One "M1.x."); ("input.b", One "M1.x."); ("input.c", One "M1.x.0")].
  split; [|vm_compute; reflexivity].
  intros k v H. simpl in H. repeat (destruct H as [H|H]; [injection H as <- <-; reflexivity|]). destruct H.
Qed.
Print Assumptions C07_trailing_separator_refuted.
Theorem C07_container_target_refuted :
  exists (t : tree nat) conns, NoDup (dkeys conns) /\
    (forall k v, In (k, v) (pairs (normalize conns)) -> clean "." v /\ exists u, walk t (split "." v) = Some u) /\
    place_connections "." uu "input" "output" t conns = Err RuntimeError.
Proof.
  exists (Dict [("b", Lst [Leaf 1])]), [("input.0", One "b"); ("input.1", One "b"); ("input.2", One "b.0")].
  split; [|split; [|vm_compute; reflexivity]].
  - simpl. repeat constructor; simpl; intuition discriminate.
  - intros k v H. simpl in H.
    destruct H as [H|[H|[H|[]]]]; injection H as <- <-;
      (split; [split; [discriminate|repeat constructor; discriminate]|eexists; reflexivity]).
Qed.
Print Assumptions C07_container_target_refuted.

(* ------------------------------------------------------------------ *)
(** C11.  The ordering step does not look at names: under every injective
    renaming of the nodes it gives the renamed order (or the same failure). *)
Theorem C11_order_commutes_with_renaming_partial :
  forall (f : string -> string), (forall a b, f a = f b -> a = b) ->
  forall (g : graph) (s e : string),
    resolve_connections (map (fun kv => (f (fst kv), map f (snd kv))) g) (f s) (f e) =
    rmap (fun r => (map f (fst r), map f (snd r))) (resolve_connections g s e).
Proof. exact resolve_rename. Qed.
Print Assumptions C11_order_commutes_with_renaming_partial.
Example C11_example :
  resolve_connections (map (fun kv => (append "x" (fst kv), map (append "x") (snd kv)))
      [("input", ["b"; "a"]); ("a", ["output"]); ("b", ["a"])]) "xinput" "xoutput"
  = Ok (["xinput"; "xb"; "xa"; "xoutput"], ["xoutput"; "xa"; "xb"; "xinput"]).
Proof. vm_compute. reflexivity. Qed.

(** For the whole procedure the names do matter: a container called "inputs"
    works as "stage" but not as "inputs" (the outer connection graph cuts its
    paths at the first separator), and a module called "output_layer" gives a
    corrupted output structure. *)
Theorem C11_inputs_name_refuted :
  exists (net : string -> tree nat) (conns : string -> dict cval),
    (forall n, net n = Dict [(n, Dict [("M1", Leaf 1)])]) /\
    (forall n, conns n = [("input", One (append n ".M1")); (append n ".M1", One "output")]) /\
    (let* g := get_outer_connections "." "input" "output" (net "stage") (conns "stage") in
     rmap fst (resolve_connections g "input" "output")) = Ok ["input"; "stage.M1"; "output"] /\
    (let* g := get_outer_connections "." "input" "output" (net "inputs") (conns "inputs") in
     rmap fst (resolve_connections g "input" "output")) = Err RuntimeError.
Proof.
  exists (fun n => Dict [(n, Dict [("M1", Leaf 1)])]),
         (fun n => [("input", One (append n ".M1")); (append n ".M1", One "output")]).
  repeat split; vm_compute; reflexivity.
Qed.
Print Assumptions C11_inputs_name_refuted.
Theorem C11_output_layer_name_refuted :
  exists (net : string -> tree nat) (conns : string -> dict cval),
    (forall n, net n = Dict [(n, Leaf 1)]) /\
    (forall n, conns n = [("input", One n); (n, One "output")]) /\
    rmap snd (place_connections "." uu "input" "output" (net "last") (conns "last"))
      = Ok (Leaf "last") /\
    rmap snd (place_connections "." uu "input" "output" (net "output_layer") (conns "output_layer"))
      = Ok (Dict [("output_layer", Leaf "input"); ("output", Leaf "output_layer")]).
Proof.
  exists (fun n => Dict [(n, Leaf 1)]), (fun n => [("input", One n); (n, One "output")]).
  repeat split; vm_compute; reflexivity.
Qed.
Print Assumptions C11_output_layer_name_refuted.
