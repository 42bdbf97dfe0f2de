(** Vocabulary for the round trip of modules: two objects are the same when
    every attribute and the trainability agree; an object is reachable when it
    comes from a constructor call by compiling, setting parameters and
    switching trainability. *)
From Coq Require Import ZArith.
From Verif Require Import Base Modules.

Definition same_obj (o o' : obj) : Prop :=
  (forall k, dget (attrs o) k = dget (attrs o') k) /\ trn o = trn o'.

Inductive reach (init : obj -> Prop) (compiled : obj -> obj -> Prop) (set : obj -> pv -> result obj) : obj -> Prop :=
| r_init o : init o -> reach init compiled set o
| r_compile o o' : reach init compiled set o -> compiled o o' -> reach init compiled set o'
| r_params o p o' : reach init compiled set o -> set o p = Ok o' -> reach init compiled set o'
| r_trainable o b : reach init compiled set o -> reach init compiled set (set_trainable o b).

(** Copying gives the same object. *)
Definition copies (tower : bool) (c : cls) (o : obj) : Prop :=
  exists o', copy tower c o = Ok o' /\ same_obj o o'.

(** Types of attribute values: None, or a tree whose leaves all satisfy [f]. *)
Definition leaves_are (f : pv -> bool) (v : pv) : Prop := forall x, In x (pleaves v) -> f x = true.
