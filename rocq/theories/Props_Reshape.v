(** C53 and C54: modules that rearrange data. *)
From Coq Require Import ZArith.
From Verif Require Import Base TreeUtil TreeSpec NonSeqSpec NdArray SerialSpec Reshape ReshapeSpec ReshapeProofs ReshapeMain ConcatProofs.
Local Open Scope string_scope.
Local Open Scope list_scope.
Local Open Scope nat_scope.

(* ------------------------------------------------------------------ *)
(** * C53 *)

(** For targets that fit at every leaf the announced shapes are those of the
    output and the entries keep their order. *)
Theorem C53_reshape {V} b shapes (T : tree (option (list Z))) (data : tree (arr V)) :
  1 <= b -> wf_tree shapes -> solid shapes -> trel fits shapes T -> trel (batch_of b) shapes data ->
  exists A out, reshape_shape (Some T) shapes = Ok A /\ reshape_call (Some T) data = Ok out /\
    trel (announced b) A out /\ trel same_entries data out.
Proof. exact (reshape_ok b shapes T data). Qed.

(** A target accepted when compiling can be met at every leaf. *)
Theorem C53_rejects shapes (T : tree (option (list Z))) A s0 :
  wf_tree shapes -> solid shapes -> has_leaf shapes s0 -> wf_tree T -> T <> Leaf None ->
  (forall l, has_leaf T (Some l) -> sizes_only l) ->
  reshape_shape (Some T) shapes = Ok A -> trel possible (boxed shapes) (boxed T).
Proof. exact (shape_rejects shapes T A s0). Qed.

Theorem C53_flatten {V} b shapes (data : tree (arr V)) :
  1 <= b -> wf_tree shapes -> solid shapes -> (exists s, has_leaf shapes s) -> (forall s, has_leaf shapes s -> s <> []) -> trel (batch_of b) shapes data ->
  exists A out, flatten_shape shapes = Ok A /\ flatten_call shapes data = Ok out /\ trel (announced b) A out /\ trel same_entries data out /\
    trel (fun x y => shp y = [b; prod (skipn 1 (shp x))]) data out.
Proof. exact (flatten_ok b shapes data). Qed.

Theorem C53_tree_flatten {V} b shapes (data : tree (arr V)) : wf_tree shapes -> solid shapes -> trel (batch_of b) shapes data ->
  exists S, tree_flatten_shape shapes = Lst (map (fun s => Leaf (Some s)) S) /\ tree_flatten_call data = Lst (map Leaf (leaves data)) /\
    Forall2 (batch_of b) S (leaves data).
Proof. exact (tree_flatten_ok b shapes data). Qed.

Theorem C53_tree_key {V} b sep kp shapes (data : tree (arr V)) : wf_tree shapes -> solid shapes -> trel (batch_of b) shapes data ->
  (forall A, tree_key_shape sep kp shapes = Ok A -> exists out, tree_key_call sep kp data = Ok out /\ trel (batch_of b) A out) /\
  (forall out, tree_key_call sep kp data = Ok out -> exists A, tree_key_shape sep kp shapes = Ok A /\ trel (batch_of b) A out).
Proof. exact (tree_key_ok b sep kp shapes data). Qed.
Theorem C53_tree_key_picks {V} sep kp (data : tree (arr V)) out : tree_key_call sep (Some kp) data = Ok out ->
  (forall p, has_leaf kp p -> walk data (path_keys sep p) <> None) ->
  exists w, out = plant w /\ trel (fun p u => walk data (path_keys sep p) = Some u) kp w.
Proof. exact (tree_key_picks sep kp data out). Qed.

(** Two arrays in a dictionary: (6,) to (2,-1) and (2,2) to (4,). *)
Definition ex_shapes : tree (list nat) := Dict [("u", Leaf [6]); ("v", Leaf [2; 2])].
Definition ex_target : tree (option (list Z)) := Dict [("u", Leaf (Some [2; -1]%Z)); ("v", Leaf (Some [4]%Z))].
Definition ex_data : tree (arr nat) := Dict [("u", Leaf (mk_arr [1; 6] [0; 1; 2; 3; 4; 5])); ("v", Leaf (mk_arr [1; 2; 2] [6; 7; 8; 9]))].
Lemma ex_wf : wf_tree ex_shapes.
Proof. constructor; [repeat constructor; cbn; intuition discriminate|repeat constructor]. Qed.
Lemma ex_solid : solid ex_shapes.
Proof. constructor. intros k t [[= <- <-]|[[= <- <-]|[]]]; constructor. Qed.
Lemma ex_batch : trel (batch_of 1) ex_shapes ex_data.
Proof. eapply tr_dict; [reflexivity|]. constructor; [split; [reflexivity|constructor; reflexivity]|]. constructor; [split; [reflexivity|constructor; reflexivity]|]. constructor. Qed.
Example C53_example : wf_tree ex_shapes /\ solid ex_shapes /\ trel fits ex_shapes ex_target /\ trel (batch_of 1) ex_shapes ex_data /\
  reshape_shape (Some ex_target) ex_shapes = Ok (Dict [("u", Leaf (Some [DInt 2; DInt 3])); ("v", Leaf (Some [DInt 4]))]) /\
  reshape_call (Some ex_target) ex_data = Ok (Dict [("u", Leaf (mk_arr [1; 2; 3] [0; 1; 2; 3; 4; 5])); ("v", Leaf (mk_arr [1; 4] [6; 7; 8; 9]))]).
Proof.
  split; [exact ex_wf|]. split; [exact ex_solid|]. split; [|split; [exact ex_batch|split; reflexivity]].
  eapply tr_dict; [reflexivity|]. constructor; [split; [reflexivity|constructor]|constructor; [split; [reflexivity|constructor]|constructor]].
  - exists [2; -1]%Z, [2; 3]. split; [reflexivity|]. split; [split; [constructor; [right; reflexivity|constructor; [left; reflexivity|constructor]]|reflexivity]|]. split.
    + apply count_one. cbn. repeat constructor.
    + intros _. split; [discriminate|]. intros [H|[H|[]]]; discriminate.
  - exists [4]%Z, [4]. split; [reflexivity|]. split; [split; [constructor; [right; reflexivity|constructor]|reflexivity]|]. split.
    + apply count_one. cbn. repeat constructor.
    + intros [H|[]]; discriminate.
Qed.
Example C53_rejects_example : reshape_shape (Some (Dict [("u", Leaf (Some [2; -1]%Z)); ("v", Leaf (Some [3]%Z))])) ex_shapes = Err AssertionError /\
  reshape_shape (Some (Dict [("u", Leaf (Some [4; -1]%Z)); ("v", Leaf (Some [4]%Z))])) ex_shapes = Err AssertionError /\
  (forall l, has_leaf ex_target (Some l) -> sizes_only l).
Proof.
  split; [reflexivity|]. split; [reflexivity|]. intros l H. inversion H as [|? k t ? Hin Hl| |]; subst. destruct Hin as [[= <- <-]|[[= <- <-]|[]]]; inversion Hl; subst; intros d Hd; cbn in Hd; intuition lia.
Qed.
Example C53_flatten_example : (forall s, has_leaf ex_shapes s -> s <> []) /\
  flatten_shape ex_shapes = Ok (Dict [("u", Leaf (Some [DInt 6])); ("v", Leaf (Some [DInt 4]))]) /\
  flatten_call ex_shapes ex_data = Ok (Dict [("u", Leaf (mk_arr [1; 6] [0; 1; 2; 3; 4; 5])); ("v", Leaf (mk_arr [1; 4] [6; 7; 8; 9]))]).
Proof.
  split; [|split; reflexivity]. intros s H. inversion H as [|? k t ? Hin Hl| |]; subst. destruct Hin as [[= <- <-]|[[= <- <-]|[]]]; inversion Hl; discriminate.
Qed.
Example C53_tree_key_example :
  tree_key_shape "." (Some (Lst [Leaf "v"; Leaf "u"])) ex_shapes = Ok (Lst [Leaf [2; 2]; Leaf [6]]) /\
  tree_key_call "." (Some (Lst [Leaf "v"; Leaf "u"])) ex_data = Ok (Lst [Leaf (mk_arr [1; 2; 2] [6; 7; 8; 9]); Leaf (mk_arr [1; 6] [0; 1; 2; 3; 4; 5])]) /\
  tree_key_shape "." (Some (Leaf "w")) ex_shapes = Err ValueError.
Proof. repeat split. Qed.

(** An entry None leaves the array alone but announces None as its shape (the
    documented target [(2,3), (None, (-1,))]). *)
Theorem C53_none_refuted : exists (T : tree (option (list Z))) shapes (data : tree (arr nat)) A out, trel (batch_of 1) shapes data /\
  reshape_shape (Some T) shapes = Ok A /\ reshape_call (Some T) data = Ok out /\ ~ trel (announced 1) A out.
Proof.
  exists (Lst [Leaf (Some [2; 3]%Z); Tup [Leaf None; Leaf (Some [-1]%Z)]]), (Lst [Leaf [6]; Tup [Leaf [1]; Leaf [1; 2]]]),
    (Lst [Leaf (mk_arr [1; 6] [0; 1; 2; 3; 4; 5]); Tup [Leaf (mk_arr [1; 1] [0]); Leaf (mk_arr [1; 1; 2] [0; 1])]]). eexists. eexists. split.
  { constructor. constructor; [constructor; reflexivity|]. constructor; [|constructor]. constructor. constructor; [constructor; reflexivity|]. constructor; [constructor; reflexivity|constructor]. }
  split; [vm_compute; reflexivity|]. split; [vm_compute; reflexivity|]. intros T. inversion T as [| |? ? F|?|?]; subst. inversion F as [|? ? ? ? _ F1]; subst. inversion F1 as [|? ? ? ? T1 _]; subst.
  inversion T1 as [| | |? ? F2|]; subst. inversion F2 as [|? ? ? ? T2 _]; subst. inversion T2 as [? ? (l & E & _)| | | |]; subst. discriminate.
Qed.
(** A tuple of one target is accepted for a single array, which then cannot be
    evaluated. *)
Theorem C53_tuple_refuted : exists (T : tree (option (list Z))) shapes (data : tree (arr nat)) A e, trel (batch_of 1) shapes data /\
  reshape_shape (Some T) shapes = Ok A /\ reshape_call (Some T) data = Err e.
Proof.
  exists (Tup [Leaf (Some [2; 3]%Z)]), (Leaf [6]), (Leaf (mk_arr [1; 6] [0; 1; 2; 3; 4; 5])). eexists. eexists. split; [constructor; reflexivity|]. split; vm_compute; reflexivity.
Qed.
(** Negative sizes whose product fits pass the check. *)
Theorem C53_negative_refuted : exists (T : tree (option (list Z))) shapes (data : tree (arr nat)) A e, trel (batch_of 1) shapes data /\
  reshape_shape (Some T) shapes = Ok A /\ reshape_call (Some T) data = Err e.
Proof.
  exists (Leaf (Some [-2; -2]%Z)), (Leaf [4]), (Leaf (mk_arr [1; 4] [0; 1; 2; 3])). eexists. eexists. split; [constructor; reflexivity|]. split; vm_compute; reflexivity.
Qed.
(** Flatten announces a floating-point size for single numbers. *)
Theorem C53_scalar_refuted : exists shapes (data : tree (arr nat)) A out, trel (batch_of 1) shapes data /\
  flatten_shape shapes = Ok A /\ flatten_call shapes data = Ok out /\ A = Leaf (Some [DFloat 1]) /\ ~ trel (announced 1) A out.
Proof.
  exists (Leaf []), (Leaf (mk_arr [1] [0])). eexists. eexists. split; [constructor; reflexivity|]. split; [vm_compute; reflexivity|]. split; [vm_compute; reflexivity|]. split; [reflexivity|].
  intros T. inversion T as [? ? (l & E & _)| | | |]; subst. destruct l as [|n l]; discriminate.
Qed.

(* ------------------------------------------------------------------ *)
(** * C54 *)

(** For axes counted from zero, or none, the announced shape is the real one
    for every number of samples, and exactly the announceable is evaluated. *)
Theorem C54_shape {V} sep axis path_order b shapes (data : tree (arr V)) : inner axis -> 1 <= b -> wf_tree shapes -> solid shapes -> trel (batch_of b) shapes data ->
  (forall s, concat_shape sep axis path_order shapes = Ok s -> exists c, concat_call sep axis path_order data = Ok c /\ shp c = b :: s) /\
  (forall c, concat_call sep axis path_order data = Ok c -> exists s, concat_shape sep axis path_order shapes = Ok s /\ shp c = b :: s).
Proof. exact (concat_shapes sep axis path_order b shapes data). Qed.
(** Every entry is kept, the arrays following each other in path order. *)
Theorem C54_entries {V} (d : V) sep axis path_order b shapes (data : tree (arr V)) c : inner axis -> 1 <= b -> trel (batch_of b) shapes data ->
  (forall a, has_leaf data a -> wf_arr a) -> concat_call sep axis path_order data = Ok c ->
  exists ls, chosen_leaves sep path_order data ls /\ joined d (inner_axis axis) (prepared axis ls) c.
Proof. exact (concat_entries d sep axis path_order b shapes data c). Qed.

Definition ex_pair : tree (arr nat) := Dict [("v", Leaf (mk_arr [2; 1] [7; 8])); ("u", Leaf (mk_arr [2; 2] [0; 1; 2; 3]))].
Definition ex_pair_shapes : tree (list nat) := Dict [("v", Leaf [1]); ("u", Leaf [2])].
Lemma ex_pair_batch : trel (batch_of 2) ex_pair_shapes ex_pair.
Proof. eapply tr_dict; [reflexivity|]. constructor; [split; [reflexivity|constructor; reflexivity]|]. constructor; [split; [reflexivity|constructor; reflexivity]|]. constructor. Qed.
Example C54_example : wf_tree ex_pair_shapes /\ solid ex_pair_shapes /\ trel (batch_of 2) ex_pair_shapes ex_pair /\ (forall a, has_leaf ex_pair a -> wf_arr a) /\
  concat_shape "." (Some 0%Z) None ex_pair_shapes = Ok [3] /\
  concat_call "." (Some 0%Z) None ex_pair = Ok (mk_arr [2; 3] [0; 1; 7; 2; 3; 8]) /\
  concat_call "." None (Some ["v"; "u"]) ex_pair = Ok (mk_arr [2; 3] [7; 0; 1; 8; 2; 3]).
Proof.
  split; [constructor; [repeat constructor; cbn; intuition discriminate|repeat constructor]|]. split; [constructor; intros k t [[= <- <-]|[[= <- <-]|[]]]; constructor|].
  split; [exact ex_pair_batch|]. split; [|repeat split; vm_compute; reflexivity].
  intros a H. inversion H as [|? k t ? Hin Hl| |]; subst. destruct Hin as [[= <- <-]|[[= <- <-]|[]]]; inversion Hl; reflexivity.
Qed.

(** Axis -1 joins the samples instead of the last axis: two samples become
    four. *)
Theorem C54_refuted : exists shapes (data : tree (arr nat)) s c, trel (batch_of 2) shapes data /\
  concat_shape "." (Some (-1)%Z) None shapes = Ok s /\ concat_call "." (Some (-1)%Z) None data = Ok c /\ shp c <> 2 :: s /\ hd 0 (shp c) = 4.
Proof.
  exists (Lst [Leaf [1]; Leaf [1]]), (Lst [Leaf (mk_arr [2; 1] [0; 1]); Leaf (mk_arr [2; 1] [2; 3])]). eexists. eexists. split.
  { constructor. constructor; [constructor; reflexivity|]. constructor; [constructor; reflexivity|constructor]. }
  split; [vm_compute; reflexivity|]. split; [vm_compute; reflexivity|]. split; [discriminate|reflexivity].
Qed.
(** Axis -2 is the last axis. *)
Theorem C54_shifted_refuted : exists (data : tree (arr nat)) shapes, trel (batch_of 2) shapes data /\
  concat_call "." (Some (-2)%Z) None data = Ok (mk_arr [2; 1; 2] [0; 2; 1; 3]) /\ concat_call "." (Some 1%Z) None data = Ok (mk_arr [2; 1; 2] [0; 2; 1; 3]) /\
  concat_call "." (Some 0%Z) None data = Ok (mk_arr [2; 2; 1] [0; 2; 1; 3]).
Proof.
  exists (Lst [Leaf (mk_arr [2; 1; 1] [0; 1]); Leaf (mk_arr [2; 1; 1] [2; 3])]), (Lst [Leaf [1; 1]; Leaf [1; 1]]). split.
  { constructor. constructor; [constructor; reflexivity|]. constructor; [constructor; reflexivity|constructor]. }
  repeat split; vm_compute; reflexivity.
Qed.

Print Assumptions C53_reshape. Print Assumptions C53_rejects. Print Assumptions C53_flatten. Print Assumptions C53_tree_flatten.
Print Assumptions C53_tree_key. Print Assumptions C53_tree_key_picks. Print Assumptions C53_none_refuted. Print Assumptions C54_shape. Print Assumptions C54_entries. Print Assumptions C54_refuted.
