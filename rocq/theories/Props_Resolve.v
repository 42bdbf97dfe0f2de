(** C09, C10: execution order of a connection graph (resolve_connections). *)
From Verif Require Import Base BaseLemmas Resolve ResolveSpec ResolveProofs.
Local Open Scope string_scope.
Local Open Scope list_scope.

(** C09.  Whenever an order is produced: no module twice, exactly the modules
    lying on a path from input to output, input first, output last, every module
    after all its sources. *)
Theorem C09_order_is_topological :
  forall g s e order vis,
    wf_graph g -> (forall u, ~ edge g u s) ->
    resolve_connections g s e = Ok (order, vis) ->
    NoDup order /\ (forall v, In v order <-> live g s e v) /\
    (exists mid, order = s :: mid) /\ last order EmptyString = e /\
    topological g order /\ (forall v, In v vis <-> reach g v e).
Proof. exact resolve_sound. Qed.
Print Assumptions C09_order_is_topological.

Definition diamond : graph :=
  [("input", ["b"; "a"]); ("a", ["c"]); ("b", ["a"; "c"; "dead"]); ("c", ["output"])].

Example C09_nonvacuous :
  wf_graph diamond /\ (forall u, ~ edge diamond u "input") /\
  exists vis, resolve_connections diamond "input" "output"
              = Ok (["input"; "b"; "a"; "c"; "output"], vis).
Proof.
  split; [|split].
  - unfold wf_graph; simpl. repeat constructor; simpl; intuition discriminate.
  - intros u H. apply edge_neighbors in H. unfold neighbors, diamond in H. simpl in H.
    repeat (match type of H with context [String.eqb ?a ?b] => destruct (String.eqb a b) end);
      simpl in H; intuition discriminate.
  - eexists. vm_compute. reflexivity.
Qed.

(** The hypothesis "no edge into the input" is needed for the bare function:
    with such an edge a wrong order passes the validation.  (The public API
    rejects "input" as a target before this function is called.) *)
Definition loop_to_start : graph :=
  [("s", ["A"; "X"]); ("A", ["s"; "B"]); ("B", ["B"; "X"]); ("X", ["e"])].
Theorem C09_edge_into_start_refuted :
  exists g s e order vis, wf_graph g /\ resolve_connections g s e = Ok (order, vis) /\ ~ NoDup order.
Proof.
  exists loop_to_start, "s", "e", ["s"; "A"; "s"; "X"; "e"]. eexists. split; [|split].
  - unfold wf_graph; simpl. repeat constructor; simpl; intuition discriminate.
  - vm_compute. reflexivity.
  - intros H. inversion H; subst. simpl in *. tauto.
Qed.
Print Assumptions C09_edge_into_start_refuted.

(** C10.  Exact acceptance condition: the output is reachable, the live part is
    acyclic, and every source of a live module is reachable from the input.
    All other graphs fail with RuntimeError (and the searches terminate). *)
Theorem C10_accepted_iff :
  forall g s e,
    wf_graph g -> (forall u, ~ edge g u s) ->
    (exists order vis, resolve_connections g s e = Ok (order, vis)) <->
    reach g s e /\ (forall v, live g s e v -> ~ reach1 g v v) /\
    (forall u v, edge g u v -> live g s e v -> reach g s u).
Proof. exact resolve_iff. Qed.
Print Assumptions C10_accepted_iff.

Theorem C10_otherwise_runtime_error :
  forall g s e,
    wf_graph g -> (forall u, ~ edge g u s) ->
    (exists r, resolve_connections g s e = Ok r) \/
    resolve_connections g s e = Err RuntimeError.
Proof. exact resolve_only_runtime_error. Qed.
Print Assumptions C10_otherwise_runtime_error.

(** The stated property is false: a module without any path from the input
    (it may take no data at all) that feeds a live module makes an acyclic network
    fail. *)
Definition dead_source : graph := [("input", ["M"]); ("N", ["M"]); ("M", ["output"])].
Theorem C10_acyclic_accepted_refuted :
  exists g s e, wf_graph g /\ (forall u, ~ edge g u s) /\ reach g s e /\
    (forall v, ~ reach1 g v v) /\ resolve_connections g s e = Err RuntimeError.
Proof.
  exists dead_source, "input", "output".
  assert (Hn : forall u v, edge dead_source u v ->
           (u = "input" /\ v = "M") \/ (u = "N" /\ v = "M") \/ (u = "M" /\ v = "output")).
  { intros u v H. apply edge_neighbors in H. unfold neighbors, dead_source in H. simpl in H.
    destruct (String.eqb_spec u "input"); [simpl in H; intuition|].
    destruct (String.eqb_spec u "N"); [simpl in H; intuition|].
    destruct (String.eqb_spec u "M"); simpl in H; intuition. }
  split; [|split; [|split; [|split]]].
  - unfold wf_graph; simpl. repeat constructor; simpl; intuition discriminate.
  - intros u H. apply Hn in H. intuition discriminate.
  - eapply rt_trans; apply rt_step.
    + exists ["M"]. split; [reflexivity|left; reflexivity].
    + exists ["output"]. split; [reflexivity|left; reflexivity].
  - apply (rank_acyclic _ (fun v => if String.eqb v "M" then 1 else if String.eqb v "output" then 2 else 0)).
    intros u v H. apply Hn in H. intuition (subst; simpl; lia).
  - vm_compute. reflexivity.
Qed.
Print Assumptions C10_acyclic_accepted_refuted.

Example C10_nonvacuous : exists order vis, resolve_connections diamond "input" "output" = Ok (order, vis).
Proof. do 2 eexists. vm_compute. reflexivity. Qed.
Example C10_cycle_rejected :
  resolve_connections [("input", ["A"]); ("A", ["B"; "output"]); ("B", ["A"])] "input" "output"
  = Err RuntimeError.
Proof. vm_compute. reflexivity. Qed.
