(** C16 (sequential models), C17, C18, C20. *)
From Verif Require Import Base BaseLemmas TreeUtil TreeSpec Connections NonSeq NonSeqSpec NonSeqProofs
  NonSeqNet Seq SeqSpec SeqProofs SeqOrder SeqMain Props_Conn Props_NonSeq.
Local Open Scope string_scope.
Local Open Scope list_scope.

(** C17.  A successful call runs the modules one after the other along the
    unique ordered list of their positions (every module once, lists by index,
    dictionaries by sorted key), each with its own parameters, state and random
    key; the returned state holds at every module the state it returned and has
    the containers of the module tree. *)
Theorem C17_sequential_composition :
  forall (A Rng M : Type) (call : M -> tree A -> tree A -> bool -> tree A -> Rng -> result (tree A * tree A))
    (split_rng : Rng -> nat -> list Rng), (forall r n, length (split_rng r n) = n) ->
  forall (modules : tree M) params data training state rng out st',
  wf_tree modules ->
  seq_callable call split_rng modules params data training state rng = Ok (out, st') ->
  exists pos ns,
    in_sequence modules pos /\ (forall pos', in_sequence modules pos' -> pos' = pos) /\
    composed call modules params state training ns pos (split_rng rng (length pos)) data out /\
    (forall p, In p pos -> walk st' p = Some (ns p)) /\
    (forall ks a, walk modules ks = Some a -> atomic a = false ->
       exists b, walk st' ks = Some b /\ same_kind (kind_of a) (kind_of b)).
Proof.
  intros A Rng M call split_rng Hl modules params data training state rng out st' Hwf H.
  destruct (seq_sound call split_rng Hl _ _ _ _ _ _ _ _ Hwf H) as [pos [ns [H1 [H2 [H3 H4]]]]].
  exists pos, ns. split; [exact H1|]. split; [|auto]. intros pos' H'. exact (in_sequence_unique _ _ _ H' H1).
Qed.
Print Assumptions C17_sequential_composition.

(** Conversely the call succeeds whenever the composition is defined, the
    parameter and state trees have the containers of the module tree and no
    module's parameters are [None]. *)
Theorem C17_composition_computed :
  forall (A Rng M : Type) (call : M -> tree A -> tree A -> bool -> tree A -> Rng -> result (tree A * tree A))
    (split_rng : Rng -> nat -> list Rng), (forall r n, length (split_rng r n) = n) ->
  forall (modules : tree M) params data training state rng out pos ns,
  wf_tree modules -> fits modules params -> fits modules state -> in_sequence modules pos ->
  (forall p, In p pos -> walk params p <> Some NoneT) ->
  composed call modules params state training ns pos (split_rng rng (length pos)) data out ->
  exists st', seq_callable call split_rng modules params data training state rng = Ok (out, st') /\
    (forall p, In p pos -> walk st' p = Some (ns p)).
Proof.
  exact (fun A Rng M call split_rng Hl modules params data training state rng out pos ns =>
    @seq_complete A Rng M call split_rng Hl modules params data training state rng out pos ns).
Qed.
Print Assumptions C17_composition_computed.

(** How the modules are nested does not matter: two module trees whose
    positions, in order, hold the same modules, parameters and states give the
    same output and the same new states. *)
Theorem C17_nesting_irrelevant :
  forall (A Rng M : Type) (call : M -> tree A -> tree A -> bool -> tree A -> Rng -> result (tree A * tree A))
    (split_rng : Rng -> nat -> list Rng), (forall r n, length (split_rng r n) = n) ->
  forall (modules1 modules2 : tree M) params1 params2 data training state1 state2 rng out st1 pos1 pos2,
  wf_tree modules1 -> wf_tree modules2 -> fits modules2 params2 -> fits modules2 state2 ->
  in_sequence modules1 pos1 -> in_sequence modules2 pos2 ->
  Forall2 (fun p q => walk modules1 p = walk modules2 q /\ walk params1 p = walk params2 q /\
                      walk state1 p = walk state2 q) pos1 pos2 ->
  seq_callable call split_rng modules1 params1 data training state1 rng = Ok (out, st1) ->
  exists st2, seq_callable call split_rng modules2 params2 data training state2 rng = Ok (out, st2) /\
    Forall2 (fun p q => walk st1 p = walk st2 q) pos1 pos2.
Proof.
  exact (fun A Rng M call split_rng Hl => @seq_nesting A Rng M call split_rng Hl).
Qed.
Print Assumptions C17_nesting_irrelevant.

(** modules: double the data and add the module's number, its parameters and
    its random key *)
Definition scall (m : nat) (mp data : tree nat) (training : bool) (ms : tree nat) (rng : nat)
  : result (tree nat * tree nat) :=
  Ok (Leaf (2 * tsum data + m + tsum mp + rng), Leaf (S (tsum ms))).
Definition skeys (r n : nat) : list nat := map (fun i => 100 * r + i) (seq 0 n).
Lemma skeys_len r n : length (skeys r n) = n.
Proof. unfold skeys. rewrite map_length, seq_length. reflexivity. Qed.
Lemma skeys_NoDup r n : NoDup (skeys r n).
Proof.
  unfold skeys. apply FinFun.Injective_map_NoDup; [|apply seq_NoDup]. intros i j H. lia.
Qed.
Definition smods : tree nat := Dict [("b", Leaf 3); ("a", Lst [Leaf 1; Tup [Leaf 2; NoneT]])].
Definition sparams : tree nat := Dict [("a", Lst [Tup []; Tup [Leaf 10; NoneT]]); ("b", Lst [Leaf 7])].
Definition sstate : tree nat := Dict [("a", Lst [Leaf 0; Tup [Leaf 5; NoneT]]); ("b", Leaf 9)].
Example C17_example :
  seq_callable scall skeys smods sparams (Leaf 1) false sstate 0 =
  Ok (Leaf 50, Dict [("a", Lst [Leaf 1; Tup [Leaf 6; NoneT]]); ("b", Leaf 10)]).
Proof. vm_compute. reflexivity. Qed.
Example C17_example_hyps :
  (forall r n, length (skeys r n) = n) /\ wf_tree smods /\ fits smods sparams /\ fits smods sstate /\
  in_sequence smods [["a"; "0"]; ["a"; "1"; "0"]; ["b"]].
Proof.
  assert (W : wf_tree smods).
  { unfold smods. repeat constructor; simpl; intuition discriminate. }
  split; [exact skeys_len|]. split; [exact W|]. split; [|split].
  - unfold smods, sparams. repeat (constructor; simpl); eexists; (split; [reflexivity|]); repeat (constructor; simpl).
  - unfold smods, sstate. repeat (constructor; simpl); eexists; (split; [reflexivity|]); repeat (constructor; simpl).
  - exact (treedef_sequence smods W).
Qed.

(* ------------------------------------------------------------------ *)
(** C18.  A dictionary of modules is not applied in insertion order: keys are
    sorted. *)
Theorem C18_insertion_order_refuted :
  exists (d : list (string * tree nat)) params data state out out',
    NoDup (dkeys d) /\
    seq_callable scall skeys (Dict d) params data false state 0 = Ok out /\
    seq_callable scall skeys (Lst (map snd d)) params data false state 0 = Err ValueError /\
    seq_callable scall skeys (Lst (map snd d)) (Lst [Tup []; Tup []]) data false (Lst [Tup []; Tup []]) 0 = Ok out' /\
    fst out <> fst out'.
Proof.
  exists [("z", Leaf 5); ("a", Leaf 1)], (Dict [("z", Tup []); ("a", Tup [])]), (Leaf 1), (Dict [("z", Tup []); ("a", Tup [])]).
  do 2 eexists. split; [repeat constructor; simpl; intuition discriminate|].
  split; [vm_compute; reflexivity|]. split; [vm_compute; reflexivity|]. split; [vm_compute; reflexivity|].
  vm_compute. discriminate.
Qed.
Print Assumptions C18_insertion_order_refuted.

(** What does hold: when the keys were inserted in sorted order the dictionary
    is applied in insertion order. *)
Theorem C18_sorted_insertion_partial :
  forall (M : Type) (d : list (string * M)),
    ordered (fun a b => str_before (fst a) (fst b)) d ->
    in_sequence (Dict (map (fun kv => (fst kv, Leaf (snd kv))) d)) (map (fun kv => [fst kv]) d) /\
    leaves (Dict (map (fun kv => (fst kv, Leaf (snd kv))) d)) = map snd d.
Proof.
  intros M d Ho.
  set (t := Dict (map (fun kv : string * M => (fst kv, Leaf (snd kv))) d)).
  assert (Hnd : NoDup (dkeys (map (fun kv : string * M => (fst kv, Leaf (snd kv))) d))).
  { unfold dkeys. rewrite map_map. simpl. induction Ho as [|[k x] l Hx _ IH]; constructor; [|exact IH].
    intros Hi. apply in_map_iff in Hi as [[k' x'] [E Hi]]. simpl in E. subst k'.
    apply (Hx _) in Hi. exact (str_before_irrefl _ Hi). }
  assert (Hw : wf_tree t).
  { constructor; [exact Hnd|]. apply Forall_map. apply Forall_forall. intros kv _. constructor. }
  assert (Hs : in_sequence t (map (fun kv => [fst kv]) d)).
  { split.
    - clear -Ho. assert (G : forall d', ordered (fun a b : string * M => str_before (fst a) (fst b)) d' ->
        ordered (before t) (map (fun kv => [fst kv]) d')).
      { induction 1 as [|x l Hx _ IH]; simpl; constructor; [|exact IH].
        intros y Hy. apply in_map_iff in Hy as [z [<- Hz]]. constructor. apply Hx. exact Hz. }
      apply G. exact Ho.
    - intros p. rewrite in_map_iff. split.
      + intros [[k x] [<- Hi]]. exists x. simpl. econstructor; [|constructor].
        apply In_dget; [exact Hnd|]. apply in_map_iff. exists (k, x). auto.
      + intros [x Hx]. inversion Hx as [|? k u q ? Hg Hl| |]; subst. apply dget_In in Hg.
        apply in_map_iff in Hg as [[k' x'] [E Hi]]. simpl in E. injection E as <- <-. inversion Hl; subst.
        exists (k', x). auto. }
  split; [exact Hs|].
  destruct (pos_leaves t Hw _ Hs) as [_ Hm].
  assert (Hm2 : Forall2 (fun p x => walk t p = Some (Leaf x)) (map (fun kv => [fst kv]) d) (map snd d)).
  { assert (G : forall d', incl d' d -> Forall2 (fun p x => walk t p = Some (Leaf x)) (map (fun kv => [fst kv]) d') (map snd d')).
    { induction d' as [|[k x] d' IH]; intros Hi; simpl; constructor.
      - cbn [walk child t]. replace (dget _ k) with (Some (@Leaf M x)); [reflexivity|]. symmetry.
        apply In_dget; [exact Hnd|]. apply in_map_iff. exists (k, x). split; [reflexivity|]. apply Hi. left; reflexivity.
      - apply IH. intros z Hz. apply Hi. right; exact Hz. }
    apply G, incl_refl. }
  eapply Forall2_fun; [|exact Hm|exact Hm2]. intros p a b Ha Hb. cbv beta in Ha, Hb. congruence.
Qed.
Print Assumptions C18_sorted_insertion_partial.
Example C18_example : ordered (fun a b : string * nat => str_before (fst a) (fst b)) [("a", 5); ("a1", 4); ("b", 1)].
Proof.
  repeat constructor; intros y Hy; simpl in Hy; intuition; subst; simpl.
  - apply sb_rest. apply sb_end.
  - apply sb_chr. vm_compute. lia.
  - apply sb_chr. vm_compute. lia.
Qed.

(* ------------------------------------------------------------------ *)
(** C16 (sequential models). *)
Theorem C16_sequential_shapes :
  forall (A Rng M Sh : Type) (call : M -> tree A -> tree A -> bool -> tree A -> Rng -> result (tree A * tree A))
    (split_rng : Rng -> nat -> list Rng), (forall r n, length (split_rng r n) = n) ->
  forall (shape : A -> Sh) (out_shape : M -> tree Sh -> result (tree Sh)) (enough : tree Sh -> bool)
    (modules : tree M) params data training state rng out st' o,
  wf_tree modules ->
  (forall p m, walk modules p = Some (Leaf m) -> honest shape call out_shape m) ->
  seq_callable call split_rng modules params data training state rng = Ok (out, st') ->
  seq_shapes out_shape enough modules (tmap shape data) = Ok o ->
  o = tmap shape out.
Proof.
  exact (fun A Rng M Sh call split_rng Hl shape out_shape enough =>
    @seq_shapes_agree A Rng M call split_rng Hl Sh shape out_shape enough).
Qed.
Print Assumptions C16_sequential_shapes.
Example C16_sequential_example :
  seq_shapes gout (fun _ => true) smods (Leaf true) = Ok (Lst [Leaf false; Leaf true]) /\
  seq_callable gcall2 skeys smods sparams (Leaf 1) false sstate 0 =
  Ok (Lst [Leaf 10; Leaf 3], Dict [("a", Lst [NoneT; Tup [NoneT; NoneT]]); ("b", NoneT)]).
Proof. split; vm_compute; reflexivity. Qed.

(* ------------------------------------------------------------------ *)
(** C20.  In a graph model all modules receive the very same key: with the key
    as the data, two parallel modules give equal outputs. *)
Theorem C20_graph_keys_refuted :
  exists (modules : tree nat) conns,
    forall rng : nat,
    exists k st, nonseq_model "." (fun m mp d tr ms r => Ok (Leaf (m * 0 + r), ms)) uu modules conns
        (Dict [("A", NoneT); ("B", NoneT)]) (Leaf 0) false (Dict [("A", NoneT); ("B", NoneT)]) rng
      = Ok (Dict [("x", Leaf k); ("y", Leaf k)], st).
Proof.
  exists (Dict [("A", Leaf 1); ("B", Leaf 2)]),
    [("input", Many ["A"; "B"]); ("A", One "output.x"); ("B", One "output.y")].
  intros rng. do 2 eexists. vm_compute. reflexivity.
Qed.
Print Assumptions C20_graph_keys_refuted.

(** ... for every graph: each module's call carries the key given to the model. *)
Theorem C20_graph_same_key :
  forall (sep : ascii), is_digit_char sep = false -> no_sep sep "input" = true -> no_sep sep "output" = true ->
  forall (uuid : nat -> string) (A Rng M : Type)
    (call : M -> tree A -> tree A -> bool -> tree A -> Rng -> result (tree A * tree A))
    (modules : tree M) conns params data training state rng out st',
  good_network sep uuid modules conns ->
  nonseq_model sep call uuid modules conns params data training state rng = Ok (out, st') ->
  forall p, live_module sep modules conns p -> exists m mp ind ms res,
    walk modules (split sep p) = Some (Leaf m) /\ call m mp ind training ms rng = Ok res /\
    walk st' (split sep p) = Some (snd res).
Proof.
  intros sep H1 H2 H3 uuid A Rng M call modules conns params data training state rng out st' Hg H p Hp.
  destruct (model_sound sep H1 H2 H3 uuid call _ _ _ _ _ _ _ _ _ Hg H) as [nodes [od [val [news [Hn [Hok [Hd [Hf [Hs _]]]]]]]]].
  apply (proj1 (proj2 Hn)) in Hp. assert (Hw := Hs p Hp). apply in_map_iff in Hp as [[p' [m deps]] [<- Hi]].
  destruct Hd as [_ Hd]. destruct (Hd _ _ _ Hi) as [ind [mp [ms [_ [_ [_ Hc]]]]]].
  exists m, mp, ind, ms, (val p', news p'). split; [eapply Hn; exact Hi|]. auto.
Qed.
Print Assumptions C20_graph_same_key.

(** In a sequential model the keys are those of [jax.random.split], one per
    module, in order: pairwise different when [split] gives different keys. *)
Theorem C20_sequential_keys :
  forall (A Rng M : Type) (call : M -> tree A -> tree A -> bool -> tree A -> Rng -> result (tree A * tree A))
    (split_rng : Rng -> nat -> list Rng),
  (forall r n, length (split_rng r n) = n) -> (forall r n, NoDup (split_rng r n)) ->
  forall (modules : tree M) params data training state rng out st',
  wf_tree modules ->
  seq_callable call split_rng modules params data training state rng = Ok (out, st') ->
  exists pos ns keys,
    in_sequence modules pos /\ length keys = length pos /\ NoDup keys /\
    composed call modules params state training ns pos keys data out.
Proof.
  intros A Rng M call split_rng Hl Hnd modules params data training state rng out st' Hwf H.
  destruct (seq_sound call split_rng Hl _ _ _ _ _ _ _ _ Hwf H) as [pos [ns [H1 [H2 _]]]].
  exists pos, ns, (split_rng rng (length pos)). auto.
Qed.
Print Assumptions C20_sequential_keys.
Example C20_example : (forall r n, NoDup (skeys r n)) /\ wf_tree smods.
Proof. split; [exact skeys_NoDup|exact (proj1 (proj2 C17_example_hyps))]. Qed.
