(** C11: the names of modules do not matter. *)
From Verif Require Import Base BaseLemmas TreeUtil NonSeq NonSeqSpec Resolve Connections RenameSpec RenameStr RenameConn RenameNet Props_Conn Props_NonSeq.
Local Open Scope string_scope.
Local Open Scope list_scope.

(** A renaming of the modules at the top level, applied to the module tree, the
    connections, the parameters and the state, changes neither the output nor
    the kind of failure, and the new state is the renamed one. *)
Theorem C11_renaming_partial :
  forall (sep : ascii) (f : string -> string), renaming sep f -> no_sep sep "input" = true -> no_sep sep "output" = true ->
  forall (uuid : nat -> string) (A Rng M : Type) (call : M -> tree A -> tree A -> bool -> tree A -> Rng -> result (tree A * tree A))
    (modules : dict (tree M)) conns params data training state rng, named_conns sep conns ->
  nonseq_model sep call uuid (rename_top f (Dict modules)) (rename_conns sep f conns) (rename_top f params) data training (rename_top f state) rng =
  match nonseq_model sep call uuid (Dict modules) conns params data training state rng with
  | Ok (out, st) => Ok (out, rename_top f st)
  | Err e => Err e
  end.
Proof.
  intros sep f HR Hi Ho uuid A Rng M call d c params data training state rng H. rewrite (model_R sep uuid f HR Hi Ho call d c params data training state rng H).
  destruct (nonseq_model sep call uuid (Dict d) c params data training state rng) as [[out st]|]; reflexivity.
Qed.
Print Assumptions C11_renaming_partial.
(** The modules run in the same order. *)
Theorem C11_execution_order_partial :
  forall (sep : ascii) (f : string -> string), renaming sep f -> no_sep sep "input" = true -> no_sep sep "output" = true ->
  forall (M : Type) (modules : dict (tree M)) conns, named_conns sep conns ->
  get_execution_order sep (rename_top f (Dict modules)) (rename_conns sep f conns) =
  match get_execution_order sep (Dict modules) conns with Ok order => Ok (map (rename_path sep f) order) | Err e => Err e end.
Proof. intros sep f HR Hi Ho M d c H. rewrite (order_R sep f HR Hi Ho d c H). destruct (get_execution_order sep (Dict d) c); reflexivity. Qed.
Print Assumptions C11_execution_order_partial.
(** Compilation sees the same shapes, stored under the new names. *)
Theorem C11_shapes_partial :
  forall (sep : ascii) (f : string -> string), renaming sep f -> no_sep sep "input" = true -> no_sep sep "output" = true ->
  forall (uuid : nat -> string) (M Sh : Type) (out_shape : M -> tree Sh -> result (tree Sh)) (modules : dict (tree M)) conns input_shape, named_conns sep conns ->
  model_shapes sep out_shape uuid (rename_top f (Dict modules)) (rename_conns sep f conns) input_shape =
  match model_shapes sep out_shape uuid (Dict modules) conns input_shape with
  | Ok (ins, outs, o) => Ok (rename_top f ins, rename_top f outs, o)
  | Err e => Err e
  end.
Proof.
  intros sep f HR Hi Ho uuid M Sh os d c sh H. rewrite (shapes_R sep uuid f HR Hi Ho os d c sh H). destruct (model_shapes sep os uuid (Dict d) c sh) as [[[i o] x]|]; reflexivity.
Qed.
Print Assumptions C11_shapes_partial.

(** a swap of two names *)
Definition swap (a b k : string) : string := if String.eqb k a then b else if String.eqb k b then a else k.
Lemma swap_renaming sep a b : no_sep sep a = true -> no_sep sep b = true -> kept_name a = false -> kept_name b = false -> renaming sep (swap a b).
Proof.
  intros Ha Hb Ka Kb. unfold swap. split.
  - intros x y. destruct (String.eqb_spec x a), (String.eqb_spec x b), (String.eqb_spec y a), (String.eqb_spec y b); intros E; congruence.
  - intros k Hk. destruct (String.eqb k a); [exact Hb|]. destruct (String.eqb k b); [exact Ha|exact Hk].
  - intros k Hk. destruct (String.eqb_spec k a) as [->|_]; [congruence|]. destruct (String.eqb_spec k b) as [->|_]; [congruence|reflexivity].
Qed.
Example C11_ex_hyp : renaming "." (swap "A" "in_put") /\ named_conns "." gconns /\ no_sep "." "input" = true /\ no_sep "." "output" = true.
Proof.
  split; [apply swap_renaming; reflexivity|]. split; [|split; reflexivity].
  repeat constructor; unfold named; vm_compute; discriminate.
Qed.
Example C11_ex_renamed : rename_top (swap "A" "in_put") gmods = Dict [("in_put", Leaf 1); ("B", Lst [Leaf 2; Leaf 3]); ("D", Leaf 7)] /\
  rename_conns "." (swap "A" "in_put") gconns =
  [("input.0", Many ["in_put"; "B.0"; "B.1"; "D"]); ("input.1", One "in_put"); ("B.0", One "in_put.2"); ("B.1", One "output.x"); ("in_put", One "output.y")].
Proof. split; vm_compute; reflexivity. Qed.
Example C11_ex_call :
  nonseq_model "." gcall uu (rename_top (swap "A" "in_put") gmods) (rename_conns "." (swap "A" "in_put") gconns) (rename_top (swap "A" "in_put") gparams) gdata false
    (rename_top (swap "A" "in_put") gstate) 0 =
  Ok (Dict [("x", Leaf 133); ("y", Leaf 433)], Dict [("in_put", Leaf 6); ("B", Lst [Leaf 7; Leaf 8]); ("D", Leaf 8)]).
Proof. vm_compute. reflexivity. Qed.
Example C11_ex_order :
  get_execution_order "." (rename_top (swap "A" "in_put") gmods) (rename_conns "." (swap "A" "in_put") gconns) = Ok ["input"; "B.0"; "B.1"; "in_put"; "output"].
Proof. vm_compute. reflexivity. Qed.
