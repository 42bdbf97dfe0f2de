(** C12-C16: graph models. *)
From Verif Require Import Base BaseLemmas TreeUtil TreeSpec TreeProofs Resolve Connections ConcretizeSpec
  ConcretizeProofs ConnSpec ConnProofs PlaceProofs NonSeq NonSeqSpec NonSeqProofs NonSeqRun NonSeqNet
  NonSeqDead NonSeqShape Props_Conn.
From Coq Require Import Permutation Relations.Operators_Properties.
Local Open Scope string_scope.
Local Open Scope list_scope.

(** C12.  A successful call of the model is described by a network [nodes]
    read off the connections ([network_of]: exactly the modules on a path from
    the input to the output, each once, with input trees that hold exactly the
    connected sources) whose dataflow equations have a solution [val], [news];
    the solution is the only one, and the output is the output tree with every
    source replaced by its value. *)
Theorem C12_dataflow_semantics :
  forall (sep : ascii), is_digit_char sep = false -> no_sep sep "input" = true -> no_sep sep "output" = true ->
  forall (uuid : nat -> string) (A Rng M : Type)
    (call : M -> tree A -> tree A -> bool -> tree A -> Rng -> result (tree A * tree A))
    (modules : tree M) conns params data training state rng out st',
  good_network sep uuid modules conns ->
  nonseq_model sep call uuid modules conns params data training state rng = Ok (out, st') ->
  exists nodes out_deps val news,
    network_of sep uuid modules conns nodes out_deps /\
    dataflow sep call "input" nodes params data training state rng val news /\
    filled (value_at sep ("input" :: map fst nodes) val) out_deps out /\
    (forall val2 news2, dataflow sep call "input" nodes params data training state rng val2 news2 ->
       (forall n, In n ("input" :: map fst nodes) -> val2 n = val n) /\
       (forall p, In p (map fst nodes) -> news2 p = news p)).
Proof.
  intros sep H1 H2 H3 uuid A Rng M call modules conns params data training state rng out st' Hg H.
  destruct (model_sound sep H1 H2 H3 uuid call _ _ _ _ _ _ _ _ _ Hg H) as [nodes [od [val [news [Hn [Hok [Hd [Hf _]]]]]]]].
  exists nodes, od, val, news. split; [exact Hn|]. split; [exact Hd|]. split; [exact Hf|].
  intros val2 news2 Hd2. exact (dataflow_unique sep call _ _ _ _ _ _ _ _ _ _ _ Hok Hd2 Hd).
Qed.
Print Assumptions C12_dataflow_semantics.

(** Conversely, once the network compiles and its slots can be laid out, every
    solution of the equations is computed: the call succeeds with that output. *)
Theorem C12_solutions_computed :
  forall (sep : ascii), is_digit_char sep = false -> no_sep sep "input" = true -> no_sep sep "output" = true ->
  forall (uuid : nat -> string) (A Rng M : Type)
    (call : M -> tree A -> tree A -> bool -> tree A -> Rng -> result (tree A * tree A))
    (modules : tree M) conns order callables deps out_deps slots,
  good_network sep uuid modules conns ->
  compiled sep uuid modules conns = Ok (order, callables, (deps, out_deps)) ->
  @empty_slots sep A order = Ok slots ->
  exists nodes, network_of sep uuid modules conns nodes out_deps /\ map fst nodes = body order /\
  forall params data training state rng val news out,
    (forall p, In p (map fst nodes) -> settable state (split sep p)) ->
    dataflow sep call "input" nodes params data training state rng val news ->
    filled (value_at sep ("input" :: map fst nodes) val) out_deps out ->
    exists st', nonseq_model sep call uuid modules conns params data training state rng = Ok (out, st').
Proof. exact (fun sep H1 H2 H3 uuid A Rng M call => @model_complete sep H1 H2 H3 uuid A Rng M call). Qed.
Print Assumptions C12_solutions_computed.

(** a network with a dead module D and shared inputs *)
Definition gmods : tree nat := Dict [("A", Leaf 1); ("B", Lst [Leaf 2; Leaf 3]); ("D", Leaf 7)].
Definition gconns : dict cval :=
  [("input.0", Many ["A"; "B.0"; "B.1"; "D"]); ("input.1", One "A"); ("B.0", One "A.2");
   ("B.1", One "output.x"); ("A", One "output.y")].

Lemma cleanb p : negb (String.eqb p "") && forallb (fun k => negb (String.eqb k "")) (split "." p) = true -> clean "." p.
Proof.
  intros H. apply andb_true_iff in H as [H1 H2]. split.
  - destruct (String.eqb_spec p ""); [discriminate|assumption].
  - apply Forall_forall. intros k Hk. rewrite forallb_forall in H2. specialize (H2 k Hk).
    destruct (String.eqb_spec k ""); [discriminate|assumption].
Qed.
Lemma gnet_good : good_network "." uu gmods gconns.
Proof.
  split; [reflexivity|]. split; [|split; [|split; [|split]]].
  - split; [|split].
    + simpl. repeat constructor; simpl; intuition discriminate.
    + intros k c H. simpl in H. apply cleanb.
      repeat (destruct H as [H|H]; [injection H as <- <-; reflexivity|]). destruct H.
    + intros k v H. simpl in H. split.
      * apply cleanb. repeat (destruct H as [H|H]; [injection H as <- <-; reflexivity|]). destruct H.
      * destruct H as [H|[H|[H|[H|[H|[H|[H|[H|[]]]]]]]]]; injection H as <- <-.
        -- right. exists ["A"], [], (Leaf 1). auto.
        -- right. exists ["B"; "0"], [], (Leaf 2). auto.
        -- right. exists ["B"; "1"], [], (Leaf 3). auto.
        -- right. exists ["D"], [], (Leaf 7). auto.
        -- right. exists ["A"], [], (Leaf 1). auto.
        -- right. exists ["A"], ["2"], (Leaf 1). auto.
        -- left. exists ["x"]. reflexivity.
        -- left. exists ["y"]. reflexivity.
  - apply uu_fresh. vm_compute. reflexivity.
  - intros k v H E. simpl in H.
    destruct H as [H|[H|[H|[H|[H|[H|[H|[H|[]]]]]]]]]; injection H as <- <-; try discriminate E.
    + exists ["x"]. reflexivity.
    + exists ["y"]. reflexivity.
  - intros k c H E. simpl in H.
    destruct H as [H|[H|[H|[H|[H|[]]]]]]; injection H as <- <-; try (destruct E; discriminate).
    + exists ["0"]. reflexivity.
    + exists ["1"]. reflexivity.
  - intros k v H. simpl in H.
    destruct H as [H|[H|[H|[H|[H|[H|[H|[H|[]]]]]]]]]; injection H as <- <-;
      unfold canonical; simpl; repeat (constructor; [intros E; try discriminate E; reflexivity|]); constructor.
Qed.

(** modules: add the module's number, its parameter and all its inputs; the
    state counts the calls *)
Fixpoint tsum (t : tree nat) : nat :=
  match t with
  | Leaf n => n
  | NoneT => 0
  | Dict d => fold_right (fun kv n => tsum (snd kv) + n) 0 d
  | Lst l => fold_right (fun x n => tsum x + n) 0 l
  | Tup l => fold_right (fun x n => tsum x + n) 0 l
  end.
Definition gcall (m : nat) (mp data : tree nat) (training : bool) (ms : tree nat) (rng : nat)
  : result (tree nat * tree nat) :=
  Ok (Leaf (m + tsum mp + tsum data), Leaf (S (tsum ms))).
Definition gparams : tree nat := Dict [("A", Leaf 10); ("B", Lst [Leaf 20; Leaf 30]); ("D", Leaf 70)].
Definition gstate : tree nat := Dict [("A", Leaf 5); ("B", Lst [Leaf 6; Leaf 7]); ("D", Leaf 8)].
Definition gdata : tree nat := Lst [Leaf 100; Leaf 200].
Example C12_example :
  nonseq_model "." gcall uu gmods gconns gparams gdata false gstate 0 =
  Ok (Dict [("x", Leaf 133); ("y", Leaf 433)],
      Dict [("A", Leaf 6); ("B", Lst [Leaf 7; Leaf 8]); ("D", Leaf 8)]).
Proof. vm_compute. reflexivity. Qed.
Example C12_example_compiled :
  compiled "." uu gmods gconns =
  Ok (["input"; "B.0"; "B.1"; "A"; "output"], [None; Some 2; Some 3; Some 1],
      ([NoneT; Leaf "input.0"; Leaf "input.0"; Lst [Leaf "input.0"; Leaf "input.1"; Leaf "B.0"]],
       Dict [("x", Leaf "B.1"); ("y", Leaf "A")])) /\
  is_ok (@empty_slots "." nat ["input"; "B.0"; "B.1"; "A"; "output"]) = true.
Proof. split; vm_compute; reflexivity. Qed.

(** Not every acyclic network of total modules can be called: when a dictionary
    of modules mixes numeric and other keys and the numeric one comes first, the
    store for intermediate values is laid out as a list, which cannot hold the
    other key.  The same network with the key "y" instead of "0" works. *)
Theorem C12_mixed_keys_refuted :
  exists (modules : tree nat) conns data modules2 conns2,
    is_ok (compiled "." uu modules conns) = true /\
    nonseq_model "." gcall uu modules conns modules data false modules 0 = Err KeyError /\
    is_ok (nonseq_model "." gcall uu modules2 conns2 modules2 data false modules2 0) = true.
Proof.
  exists (Dict [("B", Dict [("0", Leaf 1); ("x", Leaf 2)])]),
    [("B.0", One "B.x"); ("input", One "B.0"); ("B.x", One "output")], (Leaf 3),
    (Dict [("B", Dict [("y", Leaf 1); ("x", Leaf 2)])]),
    [("B.y", One "B.x"); ("input", One "B.y"); ("B.x", One "output")].
  split; [vm_compute; reflexivity|]. split; vm_compute; reflexivity.
Qed.
Print Assumptions C12_mixed_keys_refuted.

(* ------------------------------------------------------------------ *)
(** C13.  Replace every module, parameter and state that is not on a path from
    the input to the output by anything else (keeping the containers of the
    module tree): the call still succeeds with the same output and the same
    state of every live module, and everything else in the state is left as it
    is. *)
Theorem C13_unconnected_irrelevant :
  forall (sep : ascii), is_digit_char sep = false -> no_sep sep "input" = true -> no_sep sep "output" = true ->
  forall (uuid : nat -> string) (A Rng M : Type)
    (call : M -> tree A -> tree A -> bool -> tree A -> Rng -> result (tree A * tree A))
    (modules modules' : tree M) conns params params' data training state state' rng out st1,
  good_network sep uuid modules conns ->
  same_layout modules modules' ->
  (forall p, live_module sep modules conns p ->
     walk modules (split sep p) = walk modules' (split sep p) /\
     walk params (split sep p) = walk params' (split sep p) /\
     walk state (split sep p) = walk state' (split sep p) /\ settable state' (split sep p)) ->
  nonseq_model sep call uuid modules conns params data training state rng = Ok (out, st1) ->
  exists st2,
    nonseq_model sep call uuid modules' conns params' data training state' rng = Ok (out, st2) /\
    (forall p, live_module sep modules conns p -> walk st2 (split sep p) = walk st1 (split sep p)) /\
    (forall ks, (forall p, live_module sep modules conns p -> diverge (split sep p) ks) -> walk st2 ks = walk state' ks).
Proof. exact (fun sep H1 H2 H3 uuid A Rng M call => @dead_modules sep H1 H2 H3 uuid A Rng M call). Qed.
Print Assumptions C13_unconnected_irrelevant.

(** ... in particular an unconnected module's own state is returned unchanged. *)
Theorem C13_unconnected_state_kept :
  forall (sep : ascii), is_digit_char sep = false -> no_sep sep "input" = true -> no_sep sep "output" = true ->
  forall (uuid : nat -> string) (A Rng M : Type)
    (call : M -> tree A -> tree A -> bool -> tree A -> Rng -> result (tree A * tree A))
    (modules : tree M) conns params data training state rng out st' p m,
  good_network sep uuid modules conns ->
  walk modules (split sep p) = Some (Leaf m) -> canonical sep p -> ~ live_module sep modules conns p ->
  nonseq_model sep call uuid modules conns params data training state rng = Ok (out, st') ->
  walk st' (split sep p) = walk state (split sep p).
Proof. exact (fun sep H1 H2 H3 uuid A Rng M call => @dead_state sep H1 H2 H3 uuid A Rng M call). Qed.
Print Assumptions C13_unconnected_state_kept.

Lemma gnet_dead : ~ live_module "." gmods gconns "D".
Proof.
  intros [[_ H] [_ Hno]]. apply clos_rt_rt1n in H. inversion H as [|y z Hf Hr]; subst; clear H Hno.
  destruct Hf as [k [v [Hkv [Hk _]]]]. destruct Hk as [[E _]|[_ [_ [rest [a [E _]]]]]]; [discriminate|].
  simpl in Hkv. repeat (destruct Hkv as [Hkv|Hkv]; [injection Hkv as <- <-; discriminate E|]). destruct Hkv.
Qed.
Definition gmods' : tree nat := Dict [("A", Leaf 1); ("B", Lst [Leaf 2; Leaf 3]); ("D", Leaf 1000)].
Definition gparams' : tree nat := Dict [("A", Leaf 10); ("B", Lst [Leaf 20; Leaf 30]); ("D", NoneT)].
Definition gstate' : tree nat := Dict [("A", Leaf 5); ("B", Lst [Leaf 6; Leaf 7]); ("D", Lst [])].
Lemma glive p : live_module "." gmods gconns p -> p = "A" \/ p = "B.0" \/ p = "B.1".
Proof.
  intros Hl. assert (Hl' := Hl). destruct Hl as [[H _] [Hi Ho]].
  apply clos_rt_rtn1 in H. inversion H as [|y z Hf Hr]; subst; [congruence|].
  destruct Hf as [k [v [Hkv [_ Hv]]]]. 
  assert (Hfun : forall u, outer_path "." "output" gmods v u -> p = u).
  { intros u Hu. eapply outer_path_fun; eauto. }
  clear Hv. simpl in Hkv.
  assert (Hm : forall q a r, clean "." q -> walk gmods (split "." q) = Some a -> (r <> [] -> atomic a = true) ->
     ~ reserved "." "output" v -> split "." v = split "." q ++ r -> p = q).
  { intros q a r Hc Hw Ha Hr' E. apply Hfun. right. split; [exact Hr'|]. split; [exact Hc|]. exists r, a. auto. }
  assert (Hres : forall v', split "." v' = split "." v' -> True) by auto.
  destruct Hkv as [E|[E|[E|[E|[E|[E|[E|[E|[]]]]]]]]]; injection E as <- <-.
  - left. apply (Hm "A" (Leaf 1) []); try reflexivity; [apply cleanb; reflexivity|intros [r E]; discriminate].
  - right; left. apply (Hm "B.0" (Leaf 2) []); try reflexivity; [apply cleanb; reflexivity|intros [r E]; discriminate].
  - right; right. apply (Hm "B.1" (Leaf 3) []); try reflexivity; [apply cleanb; reflexivity|intros [r E]; discriminate].
  - exfalso. assert (p = "D") as ->.
    { apply (Hm "D" (Leaf 7) []); try reflexivity; [apply cleanb; reflexivity|intros [r E]; discriminate]. }
    exact (gnet_dead Hl').
  - left. apply (Hm "A" (Leaf 1) []); try reflexivity; [apply cleanb; reflexivity|intros [r E]; discriminate].
  - left. apply (Hm "A" (Leaf 1) ["2"]); try reflexivity; [apply cleanb; reflexivity|intros [r E]; discriminate].
  - exfalso. apply Ho, Hfun. left. split; [reflexivity|exists ["x"]; reflexivity].
  - exfalso. apply Ho, Hfun. left. split; [reflexivity|exists ["y"]; reflexivity].
Qed.
Example C13_hyps :
  good_network "." uu gmods gconns /\ same_layout gmods gmods' /\
  (forall p, live_module "." gmods gconns p ->
     walk gmods (split "." p) = walk gmods' (split "." p) /\
     walk gparams (split "." p) = walk gparams' (split "." p) /\
     walk gstate (split "." p) = walk gstate' (split "." p) /\ settable gstate' (split "." p)) /\
  ~ live_module "." gmods gconns "D" /\ canonical "." "D" /\ walk gmods (split "." "D") = Some (Leaf 7).
Proof.
  split; [exact gnet_good|]. split.
  { unfold same_layout, gmods, gmods'. repeat first [constructor | split]; simpl; eauto. }
  split; [|split; [exact gnet_dead|split; [|reflexivity]]].
  - intros p Hp. apply glive in Hp as [ -> | [ -> | -> ]]; simpl; repeat split; try reflexivity; auto.
  - unfold canonical. simpl. constructor; [discriminate|constructor].
Qed.
Example C13_example :
  nonseq_model "." gcall uu gmods' gconns gparams' gdata false gstate' 0 =
  Ok (Dict [("x", Leaf 133); ("y", Leaf 433)],
      Dict [("A", Leaf 6); ("B", Lst [Leaf 7; Leaf 8]); ("D", Lst [])]).
Proof. vm_compute. reflexivity. Qed.

(* ------------------------------------------------------------------ *)
(** C14.  After a call the state of every executed module is the one it
    returned, every path that parts from all executed modules is unchanged, and
    every container above (or beside) the modules keeps its kind, keys and
    length. *)
Theorem C14_state_update :
  forall (sep : ascii), is_digit_char sep = false -> no_sep sep "input" = true -> no_sep sep "output" = true ->
  forall (uuid : nat -> string) (A Rng M : Type)
    (call : M -> tree A -> tree A -> bool -> tree A -> Rng -> result (tree A * tree A))
    (modules : tree M) conns params data training state rng out st',
  good_network sep uuid modules conns ->
  nonseq_model sep call uuid modules conns params data training state rng = Ok (out, st') ->
  (exists nodes out_deps val news,
    network_of sep uuid modules conns nodes out_deps /\
    dataflow sep call "input" nodes params data training state rng val news /\
    (forall p, live_module sep modules conns p -> walk st' (split sep p) = Some (news p))) /\
  (forall ks, (forall p, live_module sep modules conns p -> diverge (split sep p) ks) ->
     walk st' ks = walk state ks) /\
  (forall ks, (forall p, live_module sep modules conns p ->
                 diverge (split sep p) ks \/ exists e, e <> [] /\ split sep p = ks ++ e) ->
     option_map kind_of (walk st' ks) = option_map kind_of (walk state ks)).
Proof.
  intros sep H1 H2 H3 uuid A Rng M call modules conns params data training state rng out st' Hg H.
  destruct (model_sound sep H1 H2 H3 uuid call _ _ _ _ _ _ _ _ _ Hg H) as [nodes [od [val [news [Hn [Hok [Hd [Hf [Hs Hu]]]]]]]]].
  assert (Hl : forall p, In p (map fst nodes) <-> live_module sep modules conns p) by apply Hn.
  split; [|split].
  - exists nodes, od, val, news. split; [exact Hn|]. split; [exact Hd|]. intros p Hp. apply Hs, Hl, Hp.
  - intros ks Hks. apply Hu. intros p Hp. apply Hks, Hl, Hp.
  - intros ks Hks. eapply (state_structure sep H1 H2 H3 uuid call); eauto.
Qed.
Print Assumptions C14_state_update.
Example C14_example_hyps : good_network "." uu gmods gconns.
Proof. exact gnet_good. Qed.

(* ------------------------------------------------------------------ *)
(** C15.  The bare callable of a graph model does change the state object the
    caller passed in. *)
Theorem C15_state_argument_modified_refuted :
  exists (modules : tree nat) conns params data state r,
    nonseq_object_call "." gcall uu modules conns params data false state 0 = Ok r /\
    caller_params r = params /\ caller_state r <> state.
Proof.
  exists gmods, gconns, gparams, gdata, gstate. eexists. split; [vm_compute; reflexivity|].
  split; [reflexivity|discriminate].
Qed.
Print Assumptions C15_state_argument_modified_refuted.

(** What is kept: the object's parts beside the executed modules, and the
    whole object when no module changes its own state. *)
Theorem C15_unexecuted_parts_kept_partial :
  forall (sep : ascii), is_digit_char sep = false -> no_sep sep "input" = true -> no_sep sep "output" = true ->
  forall (uuid : nat -> string) (A Rng M : Type)
    (call : M -> tree A -> tree A -> bool -> tree A -> Rng -> result (tree A * tree A))
    (modules : tree M) conns params data training state rng r,
  good_network sep uuid modules conns ->
  nonseq_object_call sep call uuid modules conns params data training state rng = Ok r ->
  caller_params r = params /\ caller_state r = ret_state r /\
  (forall ks, (forall p, live_module sep modules conns p -> diverge (split sep p) ks) ->
     walk (caller_state r) ks = walk state ks) /\
  ((forall m mp ind ms o ns, call m mp ind training ms rng = Ok (o, ns) -> ns = ms) ->
   forall p, live_module sep modules conns p -> walk (caller_state r) (split sep p) = walk state (split sep p)).
Proof.
  intros sep H1 H2 H3 uuid A Rng M call modules conns params data training state rng r Hg H.
  unfold nonseq_object_call in H.
  destruct (nonseq_model sep call uuid modules conns params data training state rng) as [[out st']|] eqn:E; [|discriminate].
  cbn [rbind] in H. injection H as <-. cbn [caller_params caller_state ret_state].
  destruct (model_sound sep H1 H2 H3 uuid call _ _ _ _ _ _ _ _ _ Hg E) as [nodes [od [val [news [Hn [Hok [Hd [Hf [Hs Hu]]]]]]]]].
  assert (Hl : forall p, In p (map fst nodes) <-> live_module sep modules conns p) by apply Hn.
  split; [reflexivity|]. split; [reflexivity|]. split.
  - intros ks Hks. apply Hu. intros p Hp. apply Hks, Hl, Hp.
  - intros Hpure p Hp. apply Hl in Hp. rewrite (Hs p Hp).
    apply in_map_iff in Hp as [[p' [m deps]] [<- Hp]]. destruct Hd as [_ Hd].
    destruct (Hd _ _ _ Hp) as [ind [mp [ms [_ [_ [Hw Hc]]]]]]. simpl in *. rewrite Hw. f_equal.
    eapply Hpure; eauto.
Qed.
Print Assumptions C15_unexecuted_parts_kept_partial.

(* ------------------------------------------------------------------ *)
(** C16 (graph models).  If the announced output shape of every live module is
    always its real one, then the shapes the model announces for every
    intermediate value, for every module input and for the output are the
    shapes of the values it computes.  [shape] is the shape of a single array
    without its batch axis. *)
Theorem C16_graph_shapes :
  forall (sep : ascii), is_digit_char sep = false -> no_sep sep "input" = true -> no_sep sep "output" = true ->
  forall (uuid : nat -> string) (A Rng M Sh : Type)
    (call : M -> tree A -> tree A -> bool -> tree A -> Rng -> result (tree A * tree A))
    (shape : A -> Sh) (out_shape : M -> tree Sh -> result (tree Sh))
    (modules : tree M) conns params data training state rng out st' ins outs o,
  good_network sep uuid modules conns ->
  (forall p m, live_module sep modules conns p -> walk modules (split sep p) = Some (Leaf m) ->
     honest shape call out_shape m) ->
  nonseq_model sep call uuid modules conns params data training state rng = Ok (out, st') ->
  model_shapes sep out_shape uuid modules conns (tmap shape data) = Ok (ins, outs, o) ->
  exists nodes out_deps val news,
    network_of sep uuid modules conns nodes out_deps /\
    dataflow sep call "input" nodes params data training state rng val news /\
    filled (value_at sep ("input" :: map fst nodes) val) out_deps out /\
    (forall n, In n ("input" :: map fst nodes) -> walk outs (split sep n) = Some (tmap shape (val n))) /\
    (forall p m deps, In (p, (m, deps)) nodes -> exists ind,
        filled (value_at sep ("input" :: map fst nodes) val) deps ind /\
        walk ins (split sep p) = Some (tmap shape ind)) /\
    o = tmap shape out.
Proof.
  exact (fun sep H1 H2 H3 uuid A Rng M Sh call shape out_shape =>
    @model_shapes_agree sep H1 H2 H3 uuid A Rng M Sh call shape out_shape).
Qed.
Print Assumptions C16_graph_shapes.

(** a toy shape: the parity of the number; the module announces the parity of
    its sum *)
Definition gpar (n : nat) : bool := Nat.odd n.
Fixpoint txor (t : tree bool) : bool :=
  match t with
  | Leaf b => b
  | NoneT => false
  | Dict d => fold_right (fun kv n => xorb (txor (snd kv)) n) false d
  | Lst l => fold_right (fun x n => xorb (txor x) n) false l
  | Tup l => fold_right (fun x n => xorb (txor x) n) false l
  end.
Definition gcall2 (m : nat) (mp data : tree nat) (training : bool) (ms : tree nat) (rng : nat)
  : result (tree nat * tree nat) :=
  Ok (Lst [Leaf (m + tsum data); Leaf m], NoneT).
Definition gout (m : nat) (t : tree bool) : result (tree bool) :=
  Ok (Lst [Leaf (xorb (gpar m) (txor t)); Leaf (gpar m)]).
Lemma odd_add a b : Nat.odd (a + b) = xorb (Nat.odd a) (Nat.odd b).
Proof. apply Nat.odd_add. Qed.
Lemma tsum_txor t : Nat.odd (tsum t) = txor (tmap gpar t).
Proof.
  induction t as [x| |d IH|l IH|l IH] using tree_ind2; try reflexivity; simpl.
  - induction IH as [|[k x] d Hx _ IHd]; [reflexivity|]. simpl in *. rewrite odd_add, Hx, IHd. reflexivity.
  - induction IH as [|x d Hx _ IHd]; [reflexivity|]. simpl in *. rewrite odd_add, Hx, IHd. reflexivity.
  - induction IH as [|x d Hx _ IHd]; [reflexivity|]. simpl in *. rewrite odd_add, Hx, IHd. reflexivity.
Qed.
Example C16_example_honest : forall m, honest gpar gcall2 gout m.
Proof.
  intros m mp ind training ms rng out ns o Hc Ho. injection Hc as <- <-. injection Ho as <-.
  cbn [tmap map]. unfold gpar at 1. rewrite odd_add, tsum_txor. reflexivity.
Qed.
Example C16_example :
  model_shapes "." gout uu gmods gconns (tmap gpar gdata) =
  Ok (Dict [("input", NoneT); ("B", Lst [Leaf false; Leaf false]);
            ("A", Lst [Leaf false; Leaf false; Lst [Leaf false; Leaf false]]); ("output", NoneT)],
      Dict [("input", Lst [Leaf false; Leaf false]);
            ("B", Lst [Lst [Leaf false; Leaf false]; Lst [Leaf true; Leaf true]]);
            ("A", Lst [Leaf true; Leaf true]); ("output", NoneT)],
      Dict [("x", Lst [Leaf true; Leaf true]); ("y", Lst [Leaf true; Leaf true])]).
Proof. vm_compute. reflexivity. Qed.
