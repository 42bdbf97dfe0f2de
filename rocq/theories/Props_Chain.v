(** C19: a graph model whose connections form a chain against the sequential model. *)
From Verif Require Import Base BaseLemmas TreeUtil TreeSpec TreeProofs Connections ConcretizeSpec ConnSpec ConnProofs
  NonSeq NonSeqSpec NonSeqNet Seq ChainSpec ChainProofs CompileSpec ChainCompile Props_Conn Props_NonSeq Props_Seq.
From Coq Require Import Permutation.
Local Open Scope string_scope.
Local Open Scope list_scope.

(** C19, from the graph model to the sequential model: [chain] says that the
    connections, as (source, target) pairs in any order, are
    input -> p1 -> ... -> pn -> output for distinct module paths; [ms], [mps],
    [mss] are the modules, parameters and states found at p1, ..., pn.  Whatever
    the graph model returns, the sequential model [m1, ..., mn] returns the same
    output, and the state it returns for the i-th module is the one the graph
    model stores at pi.  The modules must not use the random key (the key of
    the sequential model is an arbitrary other one), and no module's parameters
    may be None (the sequential model rejects those, see C17). *)
Theorem C19_chain_is_sequential :
  forall (A Rng M : Type)
    (call : M -> tree A -> tree A -> bool -> tree A -> Rng -> result (tree A * tree A))
    (split_rng : Rng -> nat -> list Rng),
  (forall r n, length (split_rng r n) = n) ->
  (forall m mp d training ms r1 r2, call m mp d training ms r1 = call m mp d training ms r2) ->
  forall (sep : ascii), is_digit_char sep = false -> no_sep sep "input" = true -> no_sep sep "output" = true ->
  forall (uuid : nat -> string) (modules : tree M) (conns : dict cval) (ps : list string),
  good_network sep uuid modules conns ->
  chain sep modules conns ps ->
  forall (params data state : tree A) (training : bool) (ms : list M) (mps mss : list (tree A)),
  Forall2 (fun p m => walk modules (split sep p) = Some (Leaf m)) ps ms ->
  at_paths sep params ps mps -> at_paths sep state ps mss ->
  forall (rng rng' : Rng) (out st' : tree A),
  Forall (fun p => p <> NoneT) mps ->
  nonseq_model sep call uuid modules conns params data training state rng = Ok (out, st') ->
  exists sts, seq_callable call split_rng (Lst (map Leaf ms)) (Lst mps) data training (Lst mss) rng' = Ok (out, Lst sts) /\
    at_paths sep st' ps sts.
Proof. exact (fun A R M => @chain_sequential A R M). Qed.
Print Assumptions C19_chain_is_sequential.

(** C19, the other way round: the graph model compiles and does what the
    sequential model does.  The state must have a slot for every module, and the
    components of the module paths in the same place (below the top level)
    must be all numbers or all names; fresh keys (uuid4 hex strings) must not
    consist of digits only. *)
Theorem C19_sequential_is_chain :
  forall (A Rng M : Type)
    (call : M -> tree A -> tree A -> bool -> tree A -> Rng -> result (tree A * tree A))
    (split_rng : Rng -> nat -> list Rng),
  (forall r n, length (split_rng r n) = n) ->
  (forall m mp d training ms r1 r2, call m mp d training ms r1 = call m mp d training ms r2) ->
  forall (sep : ascii), is_digit_char sep = false -> no_sep sep "input" = true -> no_sep sep "output" = true ->
  forall (uuid : nat -> string), (forall n, isdigit (uuid n) = false) ->
  forall (modules : tree M) (conns : dict cval) (ps : list string),
  good_network sep uuid modules conns ->
  chain sep modules conns ps ->
  (forall k c, In (k, c) conns -> k = "input" \/ In k ps) ->
  uniform (map (split sep) ps) ->
  forall (params data state : tree A) (training : bool) (ms : list M) (mps mss : list (tree A)),
  Forall2 (fun p m => walk modules (split sep p) = Some (Leaf m)) ps ms ->
  at_paths sep params ps mps -> at_paths sep state ps mss ->
  forall (rng rng' : Rng) (out sts : tree A),
  (forall p, In p ps -> settable state (split sep p)) ->
  Forall (fun p => p <> NoneT) mps ->
  seq_callable call split_rng (Lst (map Leaf ms)) (Lst mps) data training (Lst mss) rng' = Ok (out, sts) ->
  exists st', nonseq_model sep call uuid modules conns params data training state rng = Ok (out, st') /\
    exists nss, sts = Lst nss /\ at_paths sep st' ps nss.
Proof. exact (fun A R M => @sequential_chain_full A R M). Qed.
Print Assumptions C19_sequential_is_chain.

(** a chain through a list and a dictionary, written in an odd order; the
    module "D" is not connected *)
Definition cmods : tree nat := Dict [("A", Leaf 1); ("B", Lst [Leaf 2; Leaf 3]); ("D", Leaf 7)].
Definition cconns : dict cval :=
  [("A", Many ["B.0"]); ("input", One "B.1"); ("B.0", One "output"); ("B.1", One "A")].
Definition cpaths := ["B.1"; "A"; "B.0"].
Definition ccall (m : nat) (mp data : tree nat) (training : bool) (ms : tree nat) (rng : nat)
  : result (tree nat * tree nat) :=
  Ok (Leaf (m + tsum mp * tsum data), Leaf (tsum ms + tsum data)).
Definition cparams : tree nat := Dict [("A", Leaf 10); ("B", Lst [Leaf 20; Leaf 30]); ("D", Leaf 70)].
Definition cstate : tree nat := Dict [("A", Leaf 100); ("B", Lst [Leaf 200; Leaf 300]); ("D", Leaf 700)].

Lemma cchain : chain "." cmods cconns cpaths.
Proof.
  split; [repeat constructor; simpl; intuition discriminate|]. split.
  - change (pairs (normalize cconns)) with [("A", "B.0"); ("input", "B.1"); ("B.0", "output"); ("B.1", "A")].
    change (links "input" cpaths) with [("input", "B.1"); ("B.1", "A"); ("A", "B.0"); ("B.0", "output")].
    eapply perm_trans; [apply perm_swap|]. apply perm_skip.
    eapply perm_trans; [apply perm_skip, perm_swap|]. eapply perm_trans; [apply perm_swap|]. apply perm_skip. reflexivity.
  - intros p [ <- |[ <- |[ <- |[]]]]; (split; [intros [r E]; discriminate|split; [intros [r E]; discriminate|eexists; reflexivity]]).
Qed.
Lemma cgood : good_network "." uu cmods cconns.
Proof.
  split; [reflexivity|]. split; [|split; [|split; [|split]]].
  - split; [|split].
    + simpl. repeat constructor; simpl; intuition discriminate.
    + intros k c H. simpl in H. apply cleanb.
      repeat (destruct H as [H|H]; [injection H as <- <-; reflexivity|]). destruct H.
    + intros k v H. simpl in H. split.
      * apply cleanb. repeat (destruct H as [H|H]; [injection H as <- <-; reflexivity|]). destruct H.
      * destruct H as [H|[H|[H|[H|[]]]]]; injection H as <- <-.
        -- right. exists ["B"; "0"], [], (Leaf 2). auto.
        -- right. exists ["B"; "1"], [], (Leaf 3). auto.
        -- left. exists []. reflexivity.
        -- right. exists ["A"], [], (Leaf 1). auto.
  - apply uu_fresh. vm_compute. reflexivity.
  - intros k v H E. simpl in H.
    destruct H as [H|[H|[H|[H|[]]]]]; injection H as <- <-; try discriminate E. exists []. reflexivity.
  - intros k c H E. simpl in H.
    destruct H as [H|[H|[H|[H|[]]]]]; injection H as <- <-; try (destruct E; discriminate). exists []. reflexivity.
  - intros k v H. simpl in H.
    destruct H as [H|[H|[H|[H|[]]]]]; injection H as <- <-;
      unfold canonical; simpl; repeat (constructor; [intros E; try discriminate E; reflexivity|]); constructor.
Qed.
Example C19_hyps :
  good_network "." uu cmods cconns /\ chain "." cmods cconns cpaths /\
  (forall r n, length (skeys r n) = n) /\
  (forall m mp d training ms r1 r2, ccall m mp d training ms r1 = ccall m mp d training ms r2) /\
  Forall2 (fun p m => walk cmods (split "." p) = Some (Leaf m)) cpaths [3; 1; 2] /\
  at_paths "." cparams cpaths [Leaf 30; Leaf 10; Leaf 20] /\ at_paths "." cstate cpaths [Leaf 300; Leaf 100; Leaf 200] /\
  Forall (fun p => p <> NoneT) [Leaf 30; Leaf 10; @Leaf nat 20] /\
  (forall p, In p cpaths -> settable cstate (split "." p)) /\
  (forall n, isdigit (uu n) = false) /\ (forall k c, In (k, c) cconns -> k = "input" \/ In k cpaths) /\
  uniform (map (split ".") cpaths).
Proof.
  split; [exact cgood|]. split; [exact cchain|]. split; [|split; [reflexivity|]].
  { intros r n. unfold skeys. rewrite map_length, seq_length. reflexivity. }
  split; [repeat constructor|]. split; [repeat constructor|]. split; [repeat constructor|].
  split; [repeat constructor; discriminate|]. split.
  - intros p [ <- |[ <- |[ <- |[]]]]; simpl; repeat split; eauto.
  - split; [intros n; reflexivity|]. split.
    + intros k c H. simpl in H. destruct H as [H|[H|[H|[H|[]]]]]; injection H as <- _; simpl; auto.
    + intros c a b r s Ha Hb Hc. simpl in Ha, Hb. destruct c as [|x [|y [|z c]]]; [congruence| | |].
      * destruct Ha as [Ha|[Ha|[Ha|[]]]]; try discriminate; destruct Hb as [Hb|[Hb|[Hb|[]]]]; try discriminate;
          injection Ha as <- <- _; injection Hb as <- _; reflexivity.
      * destruct Ha as [Ha|[Ha|[Ha|[]]]]; discriminate.
      * destruct Ha as [Ha|[Ha|[Ha|[]]]]; discriminate.
Qed.
Example C19_example :
  nonseq_model "." ccall uu cmods cconns cparams (Leaf 4) false cstate 5 =
    Ok (Leaf 24622, Dict [("A", Leaf 223); ("B", Lst [Leaf 1431; Leaf 304]); ("D", Leaf 700)]) /\
  seq_callable ccall skeys (Lst (map Leaf [3; 1; 2])) (Lst [Leaf 30; Leaf 10; Leaf 20]) (Leaf 4) false
    (Lst [Leaf 300; Leaf 100; Leaf 200]) 9 =
    Ok (Leaf 24622, Lst [Leaf 304; Leaf 223; Leaf 1431]).
Proof. vm_compute. split; reflexivity. Qed.
