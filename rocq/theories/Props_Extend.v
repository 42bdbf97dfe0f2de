(** Property theorems about extending structures (C56, C57), the positive
    parts.  [walk], [atomic], [wf_tree] are from TreeSpec.v, [same_kind] says
    that two nodes are both dictionaries, both lists or both tuples. *)
From Coq Require Import Permutation.
From Verif Require Import Base BaseLemmas TreeUtil TreeSpec ConcretizeSpec ConnSpec CompileSpec ExtendOk ExtendKind ExtendOrder.
Open Scope string_scope.

(** C56: whenever the call succeeds, every container of the base is still a
    container of the same kind at the same place: tuples stay tuples, lists
    lists and dictionaries dictionaries, whatever was added below them.
    (When the call fails on tuples: C56_extend_nested_tuple_refuted.) *)
Theorem C56_kinds_kept_partial :
  forall (A : Type) (eqA : A -> A -> bool) (sep : ascii) (base t : tree A) (paths : list string) (fv : fills),
    extend_structure eqA sep (Some base) paths fv = Ok t ->
    forall ks x, walk base ks = Some x -> atomic x = false ->
    exists y, walk t ks = Some y /\ same_kind x y.
Proof. exact (fun A eqA sep base t paths fv => @extend_keeps_kinds A eqA sep base paths fv t). Qed.
Print Assumptions C56_kinds_kept_partial.

Example C56_kinds_example :
  extend_structure Nat.eqb "." (Some (Tup [Dict [("a", Tup [Leaf 1; Lst [Tup [Leaf 2]]])]; NoneT]))
    ["0.a.1.0.1"; "0.a.3"; "1"; "0.b.0"] (FillList [Leaf 7; Leaf 8; Tup [Leaf 9]; Leaf 5])
  = Ok (Tup [Dict [("a", Tup [Leaf 1; Lst [Tup [Leaf 2; Leaf 7]]; NoneT; Leaf 8]); ("b", Lst [Leaf 5])]; Tup [Leaf 9]]).
Proof. vm_compute. reflexivity. Qed.

(** C57: building a new structure from non-empty paths, none a beginning of
    another, with indices in the standard form and with keys below the same
    node all indices or all names, succeeds for every order of the
    (path, value) pairs, and the results are equal for Python's [==]. *)
Theorem C57_order_independent_partial :
  forall (A : Type) (eqA : A -> A -> bool) (sep : ascii),
    (forall a, eqA a a = true) ->
  forall pfs qgs : list (string * tree A),
    Forall (fun pf => fst pf <> "") pfs ->
    Forall (fun pf => Forall (fun k => isdigit k = true -> k = str_of (int_of k)) (split sep (fst pf))) pfs ->
    uniform (map (fun pf => split sep (fst pf)) pfs) ->
    ForallOrdPairs (fun pf qf => ~ prefix (split sep (fst pf)) (split sep (fst qf)) /\
                                 ~ prefix (split sep (fst qf)) (split sep (fst pf))) pfs ->
    Forall (fun pf => wf_tree (snd pf)) pfs ->
    Permutation pfs qgs ->
  exists t u,
    extend_structure eqA sep None (map fst pfs) (FillList (map snd pfs)) = Ok t /\
    extend_structure eqA sep None (map fst qgs) (FillList (map snd qgs)) = Ok u /\
    tree_eqb eqA t u = true.
Proof.
  exact (fun A eqA sep refl pfs qgs H1 H2 H3 H4 H5 H6 =>
           @extend_order A eqA sep refl pfs qgs (conj H1 (conj H2 (conj H3 H4))) H5 H6).
Qed.
Print Assumptions C57_order_independent_partial.

(** The insertion order of dictionary entries does differ. *)
Example C57_order_example :
  let pfs := [("a.x", Leaf 1); ("a.y", Leaf 2); ("b.0", Leaf 3)] in
  uniform (map (fun pf => split "." (fst pf)) pfs) /\
  exists t u,
    extend_structure Nat.eqb "." None (map fst pfs) (FillList (map snd pfs)) = Ok t /\
    extend_structure Nat.eqb "." None (map fst (rev pfs)) (FillList (map snd (rev pfs))) = Ok u /\
    t <> u /\ tree_eqb Nat.eqb t u = true.
Proof.
  cbn zeta. split.
  - intros c a b r s H1 H2 Hc. cbn in H1, H2.
    repeat destruct H1 as [H1|H1]; try contradiction; repeat destruct H2 as [H2|H2]; try contradiction;
      destruct c as [|c1 [|c2 [|c3 c]]]; try congruence; injection H1; injection H2; intros; subst; try discriminate; reflexivity.
  - do 2 eexists. split; [vm_compute; reflexivity|]. split; [vm_compute; reflexivity|]. split; [discriminate|reflexivity].
Qed.
