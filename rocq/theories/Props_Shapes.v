(** C78: comparisons of the shapes of trees of arrays. *)
From Coq Require Import ZArith Lia.
From Verif Require Import Base TreeUtil TreeSpec NonSeqSpec Serial SerialSpec TrainArgs Shapes ShapesSpec ShapesProofs.
Local Open Scope list_scope.

Theorem C78_shapes_equal : forall ax t u, wf_tree t -> wf_tree u -> shapes_equal ax t u = Ok true <-> trel (agree ax) t u.
Proof. exact shapes_equal_spec. Qed.
Theorem C78_uniform : forall ax t,
  has_uniform ax t = Ok true <-> (length (leaves t) <= 1 \/ forall s r, has_leaf t s -> has_leaf t r -> agree ax s r).
Proof. exact uniform_spec. Qed.
Theorem C78_uniform_equal : forall ax t u, uniform_equal ax t u = Ok true <->
  ((exists s, has_leaf t s) /\ (exists r, has_leaf u r) /\ forall s r, has_leaf t s \/ has_leaf u s -> has_leaf t r \/ has_leaf u r -> agree ax s r).
Proof. exact uniform_equal_spec. Qed.
(** They give an answer when the axes exist (and, for the third, both trees have
    a leaf). *)
Theorem C78_answer_partial : forall ax t u, (forall s, has_leaf t s \/ has_leaf u s -> has_axes ax s) ->
  (exists b, shapes_equal ax t u = Ok b) /\ (exists b, has_uniform ax t = Ok b) /\
  ((exists s, has_leaf t s) -> (exists s, has_leaf u s) -> exists b, uniform_equal ax t u = Ok b).
Proof.
  intros ax t u H. split; [apply shapes_equal_total; exact H|]. split; [apply uniform_total; auto|]. intros Ht Hu. apply uniform_equal_total; assumption.
Qed.
(** The comparison that training makes is this one. *)
Theorem C78_training : forall A (shape : A -> list nat) (t : tree A) u, leaves u = map shape (leaves t) -> has_uniform_0 shape t = has_uniform (At 0) u.
Proof. exact (fun A shape => train_uniform shape). Qed.

(** *** examples *)
Definition ta : tree (list nat) := Dict [("b"%string, Leaf [5; 2]); ("a"%string, Lst [Leaf [5; 3; 2]; NoneT])].
Definition tb : tree (list nat) := Dict [("a"%string, Lst [Leaf [7; 3; 2]; NoneT]); ("b"%string, Leaf [4; 2])].
Example C78_example : shapes_equal (Sl (Some 1%Z) None) ta tb = Ok true /\ shapes_equal All ta tb = Ok false /\ shapes_equal (At (-1)) ta tb = Ok true /\
  has_uniform (At 0) ta = Ok true /\ has_uniform (Ats [0%Z; (-1)%Z]) ta = Ok true /\ has_uniform (At 0) tb = Ok false /\ uniform_equal (At 0) ta tb = Ok false /\
  uniform_equal (At (-1)) ta tb = Ok true.
Proof. vm_compute. repeat split. Qed.
Example C78_example_wf : wf_tree ta /\ wf_tree tb /\ trel (agree (At (-1))) ta tb.
Proof.
  assert (W1 : wf_tree ta) by (repeat constructor; cbn; intuition discriminate). assert (W2 : wf_tree tb) by (repeat constructor; cbn; intuition discriminate).
  split; [exact W1|]. split; [exact W2|]. apply C78_shapes_equal; [exact W1|exact W2|vm_compute; reflexivity].
Qed.

(** *** what is not true *)
(** an empty tree is compared with an IndexError instead of an answer *)
Theorem C78_empty_refuted : exists ax t u, (forall s, has_leaf t s \/ has_leaf u s -> has_axes ax s) /\ uniform_equal ax t u = Err IndexError.
Proof. exists (At 0), (Lst []), (Leaf [2]). split; [|reflexivity]. intros s [H|H]; inversion H as [|? ? ? ? HI|? ? ? HI|? ? ? HI]; subst; [destruct HI|]. exists 2. left. split; [lia|reflexivity]. Qed.
(** a single leaf has uniform shapes along an axis that it does not have *)
Theorem C78_missing_axis_refuted : exists ax t s, has_leaf t s /\ ~ has_axes ax s /\ has_uniform ax t = Ok true.
Proof.
  exists (At 3), (Leaf [2]), [2]. split; [constructor|]. split; [|reflexivity]. intros (v & [[_ H]|[H _]]); [discriminate|lia].
Qed.

Print Assumptions C78_shapes_equal.
Print Assumptions C78_uniform_equal.
