(** C66: which graph models compile. *)
From Verif Require Import Base BaseLemmas TreeUtil TreeSpec TreeProofs Connections ConcretizeSpec ConnSpec ConnProofs
  NonSeq NonSeqSpec NonSeqNet NonSeqDead CompileSpec CompileOk Seq ChainSpec ChainProofs Props_Conn Props_NonSeq Props_Seq Props_Chain.
From Coq Require Import Relations Relations.Operators_Properties.
Local Open Scope string_scope.
Local Open Scope list_scope.

(** C66: a graph model whose connections lead from existing nodes to existing
    modules, with target keys in the same place all numbers or all names,
    compiles if and only if the output depends on the input, no module on a
    path from input to output depends on itself, and everything such a module
    (or the output) takes data from depends on the input. *)
Theorem C66_compiles_iff :
  forall (sep : ascii), is_digit_char sep = false -> no_sep sep "input" = true -> no_sep sep "output" = true ->
  forall (uuid : nat -> string), (forall n, isdigit (uuid n) = false) ->
  forall (M : Type) (modules : tree M) (conns : dict cval),
  good_network sep uuid modules conns ->
  proper_ends sep modules conns ->
  (exists c, compiled sep uuid modules conns = Ok c) <-> proper_flow sep modules conns.
Proof.
  intros sep H1 H2 H3 uuid H4 M modules conns Hg He. split.
  - intros [[[order cal] dd] H]. eapply (compile_flow sep H2 H3); eauto.
  - intros Hf. destruct (compile_ok sep H1 H2 H3 uuid H4 modules conns Hg He Hf unit) as [o [c [d [od [s [H _]]]]]]. eauto.
Qed.
Print Assumptions C66_compiles_iff.

(** C66: such a model, called with a state that has a slot for every module,
    returns an output as soon as its dataflow equations have a solution: no
    error comes from the model itself *)
Theorem C66_runs_if_modules_do :
  forall (sep : ascii), is_digit_char sep = false -> no_sep sep "input" = true -> no_sep sep "output" = true ->
  forall (uuid : nat -> string), (forall n, isdigit (uuid n) = false) ->
  forall (A Rng M : Type) (call : M -> tree A -> tree A -> bool -> tree A -> Rng -> result (tree A * tree A))
    (modules : tree M) (conns : dict cval),
  good_network sep uuid modules conns ->
  proper_ends sep modules conns -> proper_flow sep modules conns ->
  exists nodes out_deps, network_of sep uuid modules conns nodes out_deps /\
  forall params data training state rng val news out,
    (forall p, live_module sep modules conns p -> settable state (split sep p)) ->
    dataflow sep call "input" nodes params data training state rng val news ->
    filled (value_at sep ("input" :: map fst nodes) val) out_deps out ->
    exists st', nonseq_model sep call uuid modules conns params data training state rng = Ok (out, st').
Proof.
  intros sep H1 H2 H3 uuid H4 A Rng M call modules conns Hg He Hf.
  destruct (compile_ok sep H1 H2 H3 uuid H4 modules conns Hg He Hf A) as [o [c [d [od [s [E1 E2]]]]]].
  destruct (model_complete sep H1 H2 H3 uuid call modules conns o c d od s Hg E1 E2) as [nodes [Hn [_ Hrun]]].
  exists nodes, od. split; [exact Hn|]. intros params data training state rng val news out Hs. apply Hrun.
  intros p Hp. apply Hs. apply Hn. exact Hp.
Qed.
Print Assumptions C66_runs_if_modules_do.

(** the network of C12, with a module that leads nowhere *)
Definition gedges : list (string * string) :=
  [("input", "A"); ("input", "B.0"); ("input", "B.1"); ("input", "D"); ("B.0", "A"); ("B.1", "output"); ("A", "output")].
Lemma gfeeds u v : feeds "." "input" "output" gmods gconns u v <-> In (u, v) gedges.
Proof.
  assert (I : forall k, reserved "." "input" k -> outer_path "." "input" gmods k "input") by (intros k Hk; left; auto).
  assert (O : forall k, reserved "." "output" k -> outer_path "." "output" gmods k "output") by (intros k Hk; left; auto).
  assert (S : forall key k p a r, ~ reserved "." key k -> clean "." p -> walk gmods (split "." p) = Some a ->
             (r <> [] -> atomic a = true) -> split "." k = split "." p ++ r -> outer_path "." key gmods k p).
  { intros key k p a r Hr Hc Hw Ha E. right. split; [exact Hr|]. split; [exact Hc|]. exists r, a. auto. }
  assert (I0 : outer_path "." "input" gmods "input.0" "input") by (apply I; exists ["0"]; reflexivity).
  assert (I1 : outer_path "." "input" gmods "input.1" "input") by (apply I; exists ["1"]; reflexivity).
  assert (SA : outer_path "." "input" gmods "A" "A").
  { apply (S _ _ _ (Leaf 1) []); try reflexivity; [intros [r E]; discriminate|apply cleanb; reflexivity]. }
  assert (SB0 : outer_path "." "input" gmods "B.0" "B.0").
  { apply (S _ _ _ (Leaf 2) []); try reflexivity; [intros [r E]; discriminate|apply cleanb; reflexivity]. }
  assert (SB1 : outer_path "." "input" gmods "B.1" "B.1").
  { apply (S _ _ _ (Leaf 3) []); try reflexivity; [intros [r E]; discriminate|apply cleanb; reflexivity]. }
  assert (TA : outer_path "." "output" gmods "A" "A").
  { apply (S _ _ _ (Leaf 1) []); try reflexivity; [intros [r E]; discriminate|apply cleanb; reflexivity]. }
  assert (TA2 : outer_path "." "output" gmods "A.2" "A").
  { apply (S _ _ _ (Leaf 1) ["2"]); try reflexivity; [intros [r E]; discriminate|apply cleanb; reflexivity]. }
  assert (TB0 : outer_path "." "output" gmods "B.0" "B.0").
  { apply (S _ _ _ (Leaf 2) []); try reflexivity; [intros [r E]; discriminate|apply cleanb; reflexivity]. }
  assert (TB1 : outer_path "." "output" gmods "B.1" "B.1").
  { apply (S _ _ _ (Leaf 3) []); try reflexivity; [intros [r E]; discriminate|apply cleanb; reflexivity]. }
  assert (TD : outer_path "." "output" gmods "D" "D").
  { apply (S _ _ _ (Leaf 7) []); try reflexivity; [intros [r E]; discriminate|apply cleanb; reflexivity]. }
  assert (TX : outer_path "." "output" gmods "output.x" "output") by (apply O; exists ["x"]; reflexivity).
  assert (TY : outer_path "." "output" gmods "output.y" "output") by (apply O; exists ["y"]; reflexivity).
  split.
  - intros [k [w [Hkw [O1 O2]]]]. simpl in Hkw.
    destruct Hkw as [E|[E|[E|[E|[E|[E|[E|[E|[]]]]]]]]]; injection E as <- <-;
      match type of O1 with outer_path _ _ _ ?a _ => match goal with X : outer_path _ "input" _ a _ |- _ =>
        rewrite (outer_path_fun _ _ _ _ _ _ O1 X) end end;
      match type of O2 with outer_path _ _ _ ?a _ => match goal with X : outer_path _ "output" _ a _ |- _ =>
        rewrite (outer_path_fun _ _ _ _ _ _ O2 X) end end; simpl; auto 12.
  - intros H. simpl in H. destruct H as [E|[E|[E|[E|[E|[E|[E|[]]]]]]]]; injection E as <- <-.
    + exists "input.1", "A". simpl. auto 12.
    + exists "input.0", "B.0". simpl. auto 12.
    + exists "input.0", "B.1". simpl. auto 12.
    + exists "input.0", "D". simpl. auto 12.
    + exists "B.0", "A.2". simpl. auto 12.
    + exists "B.1", "output.x". simpl. auto 12.
    + exists "A", "output.y". simpl. auto 12.
Qed.
Definition grank (s : string) : nat :=
  if String.eqb s "input" then 0 else if String.eqb s "output" then 3 else if String.eqb s "A" then 2 else 1.
Example C66_hyps :
  is_digit_char "." = false /\ (forall n, isdigit (uu n) = false) /\
  good_network "." uu gmods gconns /\ proper_ends "." gmods gconns /\ proper_flow "." gmods gconns.
Proof.
  split; [reflexivity|]. split; [intros n; reflexivity|]. split; [exact gnet_good|]. split; [split; [|split]|split; [|split]].
  - intros k c H. simpl in H. destruct H as [H|[H|[H|[H|[H|[]]]]]]; injection H as <- <-.
    + left. exists ["0"]. reflexivity.
    + left. exists ["1"]. reflexivity.
    + right. split; [intros [r E]; discriminate|]. exists ["B"; "0"], [], (Leaf 2). auto.
    + right. split; [intros [r E]; discriminate|]. exists ["B"; "1"], [], (Leaf 3). auto.
    + right. split; [intros [r E]; discriminate|]. exists ["A"], [], (Leaf 1). auto.
  - intros k v H. simpl in H. destruct H as [H|[H|[H|[H|[H|[H|[H|[H|[]]]]]]]]]; injection H as <- <-; (split; [intros [r E]; discriminate|]).
    + right. exists ["A"], [], 1. auto.
    + right. exists ["B"; "0"], [], 2. auto.
    + right. exists ["B"; "1"], [], 3. auto.
    + right. exists ["D"], [], 7. auto.
    + right. exists ["A"], [], 1. auto.
    + right. exists ["A"], ["2"], 1. auto.
    + left. exists ["x"]. reflexivity.
    + left. exists ["y"]. reflexivity.
  - intros c a b r s Ha Hb Hc. simpl in Ha, Hb. destruct c as [|x [|y c]]; [congruence| |].
    + destruct Ha as [Ha|[Ha|[Ha|[Ha|[Ha|[Ha|[Ha|[Ha|[]]]]]]]]]; try discriminate;
        destruct Hb as [Hb|[Hb|[Hb|[Hb|[Hb|[Hb|[Hb|[Hb|[]]]]]]]]]; try discriminate;
        injection Ha; injection Hb; intros; subst; try discriminate; reflexivity.
    + exfalso. destruct Ha as [Ha|[Ha|[Ha|[Ha|[Ha|[Ha|[Ha|[Ha|[]]]]]]]]]; destruct c; discriminate.
  - eapply rt_trans; apply rt_step, gfeeds; [|right; right; right; right; right; right; left; reflexivity]. left. reflexivity.
  - intros p _ Hc.
    assert (G : forall a b, clos_trans _ (feeds "." "input" "output" gmods gconns) a b -> grank a < grank b).
    { intros a b H. induction H as [a b H|a b c _ IH1 _ IH2]; [|lia]. apply gfeeds in H. simpl in H.
      destruct H as [E|[E|[E|[E|[E|[E|[E|[]]]]]]]]; injection E as <- <-; vm_compute; lia. }
    apply G in Hc. lia.
  - intros u p H _. apply gfeeds in H. simpl in H.
    destruct H as [E|[E|[E|[E|[E|[E|[E|[]]]]]]]]; injection E as <- <-; try apply rt_refl; apply rt_step, gfeeds; simpl; auto 12.
Qed.
Example C66_example :
  compiled "." uu gmods gconns =
  Ok (["input"; "B.0"; "B.1"; "A"; "output"], [None; Some 2; Some 3; Some 1],
      ([NoneT; Leaf "input.0"; Leaf "input.0"; Lst [Leaf "input.0"; Leaf "input.1"; Leaf "B.0"]],
       Dict [("x", Leaf "B.1"); ("y", Leaf "A")])).
Proof. vm_compute. reflexivity. Qed.

(** Keys that mix numbers and names: a dictionary of modules {"0": .., "a": ..}
    is otherwise fine but the model does not compile. *)
Definition mixmods : tree nat := Dict [("B", Dict [("0", Leaf 2); ("a", Leaf 3)])].
Definition mixconns : dict cval := [("input", One "B.0"); ("B.0", One "B.a"); ("B.a", One "output")].
Lemma mixgood : good_network "." uu mixmods mixconns.
Proof.
  split; [reflexivity|]. split; [|split; [|split; [|split]]].
    + split; [|split].
      * simpl. repeat constructor; simpl; intuition discriminate.
      * intros k c H. simpl in H. apply cleanb.
        repeat (destruct H as [H|H]; [injection H as <- <-; reflexivity|]). destruct H.
      * intros k v H. simpl in H. split.
        -- apply cleanb. repeat (destruct H as [H|H]; [injection H as <- <-; reflexivity|]). destruct H.
        -- destruct H as [H|[H|[H|[]]]]; injection H as <- <-.
           ++ right. exists ["B"; "0"], [], (Leaf 2). auto.
           ++ right. exists ["B"; "a"], [], (Leaf 3). auto.
           ++ left. exists []. reflexivity.
    + apply uu_fresh. vm_compute. reflexivity.
    + intros k v H E. simpl in H. destruct H as [H|[H|[H|[]]]]; injection H as <- <-; try discriminate E. exists []. reflexivity.
    + intros k c H E. simpl in H. destruct H as [H|[H|[H|[]]]]; injection H as <- <-; try (destruct E; discriminate). exists []. reflexivity.
    + intros k v H. simpl in H.
      destruct H as [H|[H|[H|[]]]]; injection H as <- <-;
        unfold canonical; simpl; repeat (constructor; [intros E; try discriminate E; reflexivity|]); constructor.
Qed.
Theorem C66_mixed_keys_refuted :
  exists (modules : tree nat) (conns : dict cval),
    good_network "." uu modules conns /\
    (forall k c, In (k, c) conns -> is_source "." "input" "output" modules k) /\
    pairs (normalize conns) = [("input", "B.0"); ("B.0", "B.a"); ("B.a", "output")] /\
    (exists order, get_execution_order "." modules conns = Ok order) /\
    compiled "." uu modules conns = Err KeyError.
Proof.
  exists mixmods, mixconns. split; [|split; [|split; [reflexivity|split; [eexists; vm_compute; reflexivity|vm_compute; reflexivity]]]].
  - exact mixgood.
  - intros k c H. simpl in H. destruct H as [H|[H|[H|[]]]]; injection H as <- <-.
    + left. exists []. reflexivity.
    + right. split; [intros [r E]; discriminate|]. exists ["B"; "0"], [], (Leaf 2). auto.
    + right. split; [intros [r E]; discriminate|]. exists ["B"; "a"], [], (Leaf 3). auto.
Qed.
Print Assumptions C66_mixed_keys_refuted.
(** Such a chain is a chain that the graph model does not follow, though the
    sequential model of the same modules works. *)
Definition C19_always : Prop :=
  forall (modules : tree nat) (conns : dict cval) (ps : list string),
  good_network "." uu modules conns -> chain "." modules conns ps -> (forall k c, In (k, c) conns -> k = "input" \/ In k ps) ->
  forall (params data state : tree nat) (training : bool) (ms : list nat) (mps mss : list (tree nat)),
  Forall2 (fun p m => walk modules (split "." p) = Some (Leaf m)) ps ms ->
  at_paths "." params ps mps -> at_paths "." state ps mss ->
  forall rng rng' (out sts : tree nat),
  (forall p, In p ps -> settable state (split "." p)) -> Forall (fun p => p <> NoneT) mps ->
  seq_callable ccall skeys (Lst (map Leaf ms)) (Lst mps) data training (Lst mss) rng' = Ok (out, sts) ->
  exists st', nonseq_model "." ccall uu modules conns params data training state rng = Ok (out, st').
Theorem C19_mixed_keys_refuted : ~ C19_always.
Proof.
  intros H. specialize (H mixmods mixconns ["B.0"; "B.a"] mixgood).
  destruct (H ltac:(split; [repeat constructor; simpl; intuition discriminate|split; [reflexivity|];
      intros p [ <- |[ <- |[]]]; (split; [intros [r E]; discriminate|split; [intros [r E]; discriminate|eexists; reflexivity]])])
    ltac:(intros k c [E|[E|[E|[]]]]; injection E as <- _; simpl; auto)
    (Dict [("B", Dict [("0", Leaf 10); ("a", Leaf 20)])]) (Leaf 4) (Dict [("B", Dict [("0", Leaf 100); ("a", Leaf 200)])]) false
    [2; 3] [Leaf 10; Leaf 20] [Leaf 100; Leaf 200] ltac:(repeat constructor) ltac:(repeat constructor) ltac:(repeat constructor)
    5 9 (Leaf 843) (Lst [Leaf 104; Leaf 242]) ltac:(intros p [ <- |[ <- |[]]]; simpl; repeat split; eauto)
    ltac:(repeat constructor; discriminate) ltac:(vm_compute; reflexivity)) as (st' & E).
  vm_compute in E. discriminate E.
Qed.
Print Assumptions C19_mixed_keys_refuted.

