(** C135: the outputs of a compiled model have an axis besides the samples. *)
From Verif Require Import Base BaseLemmas TreeUtil TreeSpec Resolve Connections ConnSpec ConcretizeSpec NonSeq NonSeqSpec NonSeqProofs NonSeqNet NonSeqShape Seq SeqSpec SeqMain Props_Conn Props_NonSeq Props_Seq Props_Chain Axes.
Local Open Scope string_scope.
Local Open Scope list_scope.

(** Data that is one array has an axis besides the samples; data in a container is
    not empty. *)
Definition bare_with_axes {A} (shape : A -> list nat) (out : tree A) : Prop := forall a, out = Leaf a -> shape a <> [].
Definition not_empty {A} (out : tree A) : Prop := out <> NoneT /\ out <> Dict [] /\ out <> Lst [] /\ out <> Tup [].
(** Every array has an axis besides the samples. *)
Definition with_axes {A} (shape : A -> list nat) (out : tree A) : Prop := forall a, In a (leaves out) -> shape a <> [].

Lemma len_ok_shape {A} (shape : A -> list nat) out : len_ok (tmap shape out) = true <-> bare_with_axes shape out /\ not_empty out.
Proof.
  unfold len_ok, bare_with_axes, not_empty. destruct out as [a| |d|l|l]; cbn [tmap shape_len].
  - destruct (shape a) as [|n s] eqn:E; split.
    + discriminate.
    + intros [H _]. destruct (H a eq_refl E).
    + intros _. split; [intros b Hb; injection Hb as <-; rewrite E; discriminate|repeat split; discriminate].
    + reflexivity.
  - split; [discriminate|intros [_ [H _]]; contradiction].
  - rewrite map_length. destruct d as [|x d]; split; try discriminate; try reflexivity.
    + intros [_ (_ & H & _)]. contradiction.
    + intros _. repeat split; discriminate.
  - rewrite map_length. destruct l as [|x l]; split; try discriminate; try reflexivity.
    + intros [_ (_ & _ & H & _)]. contradiction.
    + intros _. repeat split; discriminate.
  - rewrite map_length. destruct l as [|x l]; split; try discriminate; try reflexivity.
    + intros [_ (_ & _ & _ & H)]. contradiction.
    + intros _. repeat split; discriminate.
Qed.

(** What a SequentialModel that compiled for the data returns: if it is one array,
    it has an axis besides the samples. *)
Theorem C135_sequential_partial {A Rng M} (call : M -> tree A -> tree A -> bool -> tree A -> Rng -> result (tree A * tree A))
    (split_rng : Rng -> nat -> list Rng) (shape : A -> list nat) out_shape (modules : tree M) params data training state rng out st' o :
  (forall r n, length (split_rng r n) = n) -> wf_tree modules ->
  (forall p m, walk modules p = Some (Leaf m) -> honest shape call out_shape m) ->
  seq_output out_shape modules (tmap shape data) = Ok o ->
  seq_callable call split_rng modules params data training state rng = Ok (out, st') ->
  bare_with_axes shape out /\ not_empty out.
Proof.
  intros Hl Hw Hh Ho Hc. assert (E := C16_sequential_shapes A Rng M (list nat) call split_rng Hl shape out_shape len_ok modules params data training state rng out st' o Hw Hh Hc Ho).
  apply len_ok_shape. rewrite <- E. unfold seq_output, seq_shapes in Ho. apply rbind_ok in Ho as (o' & _ & Ho). destruct (len_ok o') eqn:El; [|discriminate]. injection Ho as <-. exact El.
Qed.
(** The same for a NonSequentialModel. *)
Theorem C135_graph_partial {A Rng M} (sep : ascii) (uuid : nat -> string) (call : M -> tree A -> tree A -> bool -> tree A -> Rng -> result (tree A * tree A))
    (shape : A -> list nat) out_shape (modules : tree M) conns params data training state rng out st' o :
  is_digit_char sep = false -> no_sep sep "input" = true -> no_sep sep "output" = true ->
  good_network sep uuid modules conns ->
  (forall p m, live_module sep modules conns p -> walk modules (split sep p) = Some (Leaf m) -> honest shape call out_shape m) ->
  graph_output sep out_shape uuid modules conns (tmap shape data) = Ok o ->
  nonseq_model sep call uuid modules conns params data training state rng = Ok (out, st') ->
  bare_with_axes shape out /\ not_empty out.
Proof.
  intros H1 H2 H3 Hg Hh Ho Hc. unfold graph_output in Ho. apply rbind_ok in Ho as ([[ins outs] o'] & Hs & Ho). cbn [snd] in Ho.
  destruct (C16_graph_shapes sep H1 H2 H3 uuid A Rng M (list nat) call shape out_shape modules conns params data training state rng out st' ins outs o' Hg Hh Hc Hs) as (? & ? & ? & ? & _ & _ & _ & _ & _ & E).
  apply len_ok_shape. rewrite <- E. destruct (len_ok o') eqn:El; [reflexivity|discriminate].
Qed.
(** Nothing else is rejected: the shapes of the modules and this decide. *)
Theorem C135_accepted {A M} (shape : A -> list nat) out_shape (modules : tree M) s out :
  rfold (fun s m => out_shape m s) (leaves modules) s = Ok (tmap shape out) ->
  (seq_output out_shape modules s = Ok (tmap shape out) <-> bare_with_axes shape out /\ not_empty out).
Proof.
  intros H. unfold seq_output, seq_shapes. rewrite H. cbn [rbind]. rewrite <- len_ok_shape. destruct (len_ok (tmap shape out)); split; congruence.
Qed.

(** Arrays by their shapes; a module that hands its data on, and one that puts it in
    a dictionary. *)
Definition w_call (m : bool) (_ d : tree (list nat)) (_ : bool) (st : tree (list nat)) (_ : nat) : result (tree (list nat) * tree (list nat)) :=
  Ok (if m then Dict [("a", d)] else d, st).
Definition w_out (m : bool) (s : tree (list nat)) : result (tree (list nat)) := Ok (if m then Dict [("a", s)] else s).
Lemma tmap_id {A} (t : tree A) : tmap (fun x => x) t = t.
Proof.
  induction t as [x| |d IH|l IH|l IH] using tree_ind2; cbn [tmap]; try reflexivity; f_equal.
  - induction IH as [|[k x] d Hx _ IHd]; [reflexivity|]. cbn [map fst snd] in *. rewrite Hx, IHd. reflexivity.
  - induction IH as [|x d Hx _ IHd]; [reflexivity|]. cbn [map]. rewrite Hx, IHd. reflexivity.
  - induction IH as [|x d Hx _ IHd]; [reflexivity|]. cbn [map]. rewrite Hx, IHd. reflexivity.
Qed.
Lemma w_honest m : honest (fun s : list nat => s) w_call w_out m.
Proof. intros mp ind tr ms rng out ns o Hc Ho. injection Hc as <- <-. rewrite tmap_id in Ho. injection Ho as <-. apply tmap_id. Qed.
Definition w_keys (r n : nat) : list nat := repeat r n.
Example C135_sequential_example : wf_tree (Lst [Leaf false]) /\ seq_output w_out (Lst [Leaf false]) (Leaf [3]) = Ok (Leaf [3]) /\
  seq_callable w_call w_keys (Lst [Leaf false]) (Lst [Tup []]) (Leaf [3]) false (Lst [Tup []]) 0 = Ok (Leaf [3], Lst [Tup []]) /\
  seq_output w_out (Lst [Leaf false]) (Leaf []) = Err ValueError.
Proof. split; [repeat constructor|repeat split; vm_compute; reflexivity]. Qed.

(** The network of C19, every array with one axis of size 2. *)
Example C135_graph_example : good_network "." uu cmods cconns /\ (forall m, honest (fun _ => [2]) ccall (fun _ _ => Ok (Leaf [2])) m) /\
  graph_output "." (fun _ _ => Ok (Leaf [2])) uu cmods cconns (Leaf [2]) = Ok (Leaf [2]) /\
  exists n st', nonseq_model "." ccall uu cmods cconns cparams (Leaf 1) false cstate 0 = Ok (Leaf n, st').
Proof.
  split; [exact cgood|]. split; [intros m mp ind tr ms rng out ns o Hc Ho; injection Hc as <- <-; injection Ho as <-; reflexivity|].
  split; [vm_compute; reflexivity|]. eexists _, _. vm_compute. reflexivity.
Qed.

(** Outputs without axes get through in a container: for a module that returns one,
    and for every graph model whose output is written to "output.a". *)
Definition C135_always : Prop := forall (modules : tree bool) params data state rng out st' o,
  wf_tree modules -> seq_output w_out modules data = Ok o ->
  seq_callable w_call w_keys modules params data false state rng = Ok (out, st') -> with_axes (fun s => s) out.
Theorem C135_refuted : ~ C135_always /\
  (exists out st', graph_output "." w_out uu (Dict [("m", Leaf false)]) [("input", One "m"); ("m", One "output.a")] (Leaf []) = Ok out /\
     nonseq_model "." w_call uu (Dict [("m", Leaf false)]) [("input", One "m"); ("m", One "output.a")] (Dict [("m", Tup [])]) (Leaf []) false (Dict [("m", Tup [])]) 0 = Ok (out, st') /\
     ~ with_axes (fun s => s) out) /\
  graph_output "." w_out uu (Dict [("m", Leaf false)]) [("input", One "m"); ("m", One "output")] (Leaf []) = Err ValueError.
Proof.
  split; [|split].
  - intros H. refine (H (Lst [Leaf true]) (Lst [Tup []]) (Leaf []) (Lst [Tup []]) 0 _ _ _ _ eq_refl eq_refl [] _ eq_refl); [repeat constructor|left; reflexivity].
  - eexists _, _. split; [vm_compute; reflexivity|]. split; [vm_compute; reflexivity|]. intros H. apply (H []); [left; reflexivity|reflexivity].
  - vm_compute. reflexivity.
Qed.
Print Assumptions C135_sequential_partial. Print Assumptions C135_graph_partial. Print Assumptions C135_accepted. Print Assumptions C135_refuted.
