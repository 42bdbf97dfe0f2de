(** Property theorems about dotted paths into PyTrees (C01-C05, C56, C57).
    Reading and writing are the API functions [getitem]/[setitem] (models of
    getitem_by_strpath / setitem_by_strpath with the default [is_leaf=None]);
    [walk], [path_keys], [diverge], [tuple_free] are from TreeSpec.v. *)
From Verif Require Import Base BaseLemmas TreeUtil TreeSpec TreeProofs ExtendProofs MutableProofs.
Open Scope string_scope.

(** A sample tree used by the examples. *)
Definition ex_tree : tree nat :=
  Dict [("a", Lst [Leaf 1; Tup [Leaf 2; NoneT]]); ("b", Dict [("c", Leaf 3)])].

(* ------------------------------------------------------------------ *)
(** C01: if writing [v] at path [s] succeeds, reading [s] gives [v]. *)
Theorem C01_write_then_read :
  forall (A : Type) (sep : ascii) (t t' : tree A) (s : string) (v : tree A) (early : bool),
    setitem sep no_leaf t s v = Ok t' ->
    getitem sep no_leaf early t' s = Ok (v, "").
Proof. exact (fun A sep t t' s v early => @setitem_getitem A sep early t t' s v). Qed.
Print Assumptions C01_write_then_read.

Example C01_example :
  exists t', setitem "." no_leaf ex_tree "a.0" (Leaf 7) = Ok t' /\ t' <> ex_tree.
Proof. eexists; split; [vm_compute; reflexivity|discriminate]. Qed.

(** C02: a successful write at [p] does not change the outcome (value,
    remainder or exception) of reading any path [q] that parts from [p]. *)
Theorem C02_write_is_local :
  forall (A : Type) (sep : ascii) (t t' : tree A) (p q : string) (v : tree A) (early : bool),
    setitem sep no_leaf t p v = Ok t' ->
    diverge (path_keys sep p) (path_keys sep q) ->
    getitem sep no_leaf early t' q = getitem sep no_leaf early t q.
Proof. exact (fun A sep t t' p q v early => @setitem_frame A sep early t t' p q v). Qed.
Print Assumptions C02_write_is_local.

Example C02_example :
  is_ok (setitem "." no_leaf ex_tree "a.0" (Leaf 7)) = true /\
  diverge (path_keys "." "a.0") (path_keys "." "a.1.0") /\
  getitem "." no_leaf false ex_tree "a.1.0" = Ok (Leaf 2, "").
Proof.
  split; [reflexivity|]. split; [|reflexivity].
  exists 1, "0", "1". repeat split; try reflexivity; [discriminate|intros _ _; discriminate].
Qed.

(** C03, strict lookup: it succeeds exactly when the keys of the path lead to
    a node, and returns that node. *)
Theorem C03_strict_lookup :
  forall (A : Type) (sep : ascii) (t : tree A) (s : string) (u : tree A),
    getitem sep no_leaf false t s = Ok (u, "") <-> walk t (path_keys sep s) = Some u.
Proof. exact (fun A sep => @getitem_full_walk A sep). Qed.
Print Assumptions C03_strict_lookup.

(** C03, early-return lookup: the path splits into the keys consumed (which
    lead to the returned node) and the remainder; a non-empty remainder is
    left only at an atomic node, and exactly then the strict lookup fails with
    TypeError; all other failures are the same. *)
Theorem C03_partial_lookup_splits_path :
  forall (A : Type) (sep : ascii) (t : tree A) (s : string),
    match getitem sep no_leaf true t s with
    | Ok (u, r) =>
        (r = "" /\ walk t (path_keys sep s) = Some u /\
         getitem sep no_leaf false t s = Ok (u, ""))
        \/
        (r <> "" /\ atomic u = true /\
         (exists ks, split sep s = (ks ++ split sep r)%list /\ walk t ks = Some u) /\
         getitem sep no_leaf false t s = Err TypeError)
    | Err e => e <> TypeError /\ e <> OutOfFuel /\ getitem sep no_leaf false t s = Err e
    end.
Proof. exact (fun A sep => @getitem_early_spec A sep). Qed.
Print Assumptions C03_partial_lookup_splits_path.

Example C03_example_full : getitem "." no_leaf true ex_tree "b.c" = Ok (Leaf 3, "").
Proof. reflexivity. Qed.
Example C03_example_rest : getitem "." no_leaf true ex_tree "b.c.x.y" = Ok (Leaf 3, "x.y").
Proof. reflexivity. Qed.
Example C03_example_err : getitem "." no_leaf true ex_tree "b.z.x" = Err KeyError.
Proof. reflexivity. Qed.

(* ------------------------------------------------------------------ *)
(** C04: a successful extension keeps every old leaf, puts every leaf fill
    value at its path, and adds nothing else. [fills] is the list of fill
    values after the "one value for all" form has been expanded. *)
Theorem C04_extend_structure :
  forall (A : Type) (eqA : A -> A -> bool), (forall a b, eqA a b = true -> a = b) ->
  forall (sep : ascii) (base : option (tree A)) (paths : list string) (fv : fills) (t : tree A),
    extend_structure eqA sep base paths fv = Ok t ->
    let fills := match fv with FillList l => l | FillOne v => repeat v (length paths) end in
    length fills = length paths /\
    (forall b ks a, base = Some b -> walk b ks = Some (Leaf a) -> walk t ks = Some (Leaf a)) /\
    (forall i p a, nth_error paths i = Some p -> nth_error fills i = Some (Leaf a) ->
       walk t (split sep p) = Some (Leaf a)) /\
    (forall ks a, walk t ks = Some (Leaf a) ->
       (exists b, base = Some b /\ walk b ks = Some (Leaf a)) \/
       exists i p fill k1 k2, nth_error paths i = Some p /\ nth_error fills i = Some fill /\
          ks = (k1 ++ k2)%list /\ same_keys k1 (split sep p) /\ walk fill k2 = Some (Leaf a)).
Proof. exact (fun A eqA H sep => @extend_structure_post A eqA H sep). Qed.
Print Assumptions C04_extend_structure.

(** C04: conflicting requests fail instead of overwriting. *)
Theorem C04_conflicting_fills_rejected :
  forall (A : Type) (eqA : A -> A -> bool), (forall a b, eqA a b = true -> a = b) ->
  forall (sep : ascii) base paths fills i j p a b,
    nth_error paths i = Some p -> nth_error paths j = Some p ->
    nth_error fills i = Some (Leaf a) -> nth_error fills j = Some (Leaf b) -> a <> b ->
    is_ok (extend_structure eqA sep base paths (FillList fills)) = false.
Proof. exact (fun A eqA H sep => @extend_conflict A eqA H sep). Qed.
Print Assumptions C04_conflicting_fills_rejected.

Theorem C04_existing_leaf_not_overwritten :
  forall (A : Type) (eqA : A -> A -> bool), (forall a b, eqA a b = true -> a = b) ->
  forall (sep : ascii) b paths fills i p a c,
    walk b (split sep p) = Some (Leaf c) ->
    nth_error paths i = Some p -> nth_error fills i = Some (Leaf a) -> a <> c ->
    is_ok (extend_structure eqA sep (Some b) paths (FillList fills)) = false.
Proof. exact (fun A eqA H sep => @extend_no_overwrite A eqA H sep). Qed.
Print Assumptions C04_existing_leaf_not_overwritten.

(** the documentation examples of extend_structure_from_strpaths *)
Example C04_example_doc1 :
  extend_structure Nat.eqb "." (Some (Dict [("x", Leaf 1)])) ["y.z"; "y.w"] (FillOne (Leaf 42))
  = Ok (Dict [("x", Leaf 1); ("y", Dict [("z", Leaf 42); ("w", Leaf 42)])]).
Proof. reflexivity. Qed.
Example C04_example_doc2 :
  extend_structure Nat.eqb "." (Some (Lst [])) ["0.a"; "1.1.2"] (FillList [Leaf 10; Leaf 20])
  = Ok (Lst [Dict [("a", Leaf 10)]; Lst [NoneT; Lst [NoneT; NoneT; Leaf 20]]]).
Proof. reflexivity. Qed.
Example C04_example_tuple :
  extend_structure Nat.eqb "." (Some (Dict [("x", Tup [Leaf 1])])) ["x.1"] (FillList [Leaf 5])
  = Ok (Dict [("x", Tup [Leaf 1; Leaf 5])]).
Proof. reflexivity. Qed.
Example C04_example_conflict :
  extend_structure Nat.eqb "." None ["a"; "a"] (FillList [Leaf 5; Leaf 6]) = Err ValueError.
Proof. reflexivity. Qed.

(** C56 (documented: "any tuples that need to be extended in the base PyTree
    will have their type preserved") is false when a tuple sits directly in
    another (non-root) tuple: the call fails although the slot is free. *)
Theorem C56_extend_nested_tuple_refuted :
  exists (base : tree nat) (p : string) (v : nat),
    walk base (split "." p) = None /\
    walk base (removelast (split "." p)) = Some (Tup [Leaf 1]) /\
    extend_structure Nat.eqb "." (Some base) [p] (FillList [Leaf v]) = Err TypeError.
Proof. exists (Dict [("a", Tup [Tup [Leaf 1]])]), "a.0.1", 5. vm_compute. auto. Qed.
Print Assumptions C56_extend_nested_tuple_refuted.

(** C57 (the order in which the paths are listed does not matter) is false:
    an index-like key seen first fixes the container to a list. *)
Theorem C57_extend_order_independent_refuted :
  exists (p1 p2 : string) (v1 v2 : nat) t,
    extend_structure Nat.eqb "." None [p1; p2] (FillList [Leaf v1; Leaf v2]) = Ok t /\
    extend_structure Nat.eqb "." None [p2; p1] (FillList [Leaf v2; Leaf v1]) = Err KeyError.
Proof. exists "a.b", "a.0", 1, 2. eexists. vm_compute. split; reflexivity. Qed.
Print Assumptions C57_extend_order_independent_refuted.

(* ------------------------------------------------------------------ *)
(** C05: conversion to mutable containers always terminates with a tree that
    has no tuple, the same leaves in the same flattening order, and the same
    leaf or None (or failure) at every key list. [wf_tree]: dictionary keys are
    unique, as in every Python dict. *)
Theorem C05_make_mutable :
  forall (A : Type) (t : tree A), wf_tree t ->
  exists m, make_mutable t = Ok m /\ tuple_free m /\ wf_tree m /\ leaves m = leaves t /\
    (forall ks x, atomic x = true -> (walk t ks = Some x <-> walk m ks = Some x)) /\
    (forall ks, walk t ks = None <-> walk m ks = None).
Proof. exact (fun A => @make_mutable_spec A). Qed.
Print Assumptions C05_make_mutable.

Theorem C05_make_mutable_fixpoint :
  forall (A : Type) (t : tree A), tuple_free t -> make_mutable t = Ok t.
Proof. exact (fun A => @make_mutable_tuple_free A). Qed.
Print Assumptions C05_make_mutable_fixpoint.

Example C05_example :
  wf_tree ex_tree /\ ~ tuple_free ex_tree /\
  make_mutable ex_tree =
    Ok (Dict [("a", Lst [Leaf 1; Lst [Leaf 2; NoneT]]); ("b", Dict [("c", Leaf 3)])]).
Proof.
  split; [|split; [|reflexivity]].
  - repeat (constructor; simpl); intuition discriminate.
  - intros H. apply has_outer_tuple_false in H. discriminate.
Qed.
