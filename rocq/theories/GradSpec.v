(** What gradients of models should be. *)
From Verif Require Import Base TreeUtil TreeSpec NonSeqSpec BatchSpec NdArray.
Local Open Scope list_scope.

(** The data of one sample. *)
Definition only {S} (x : tree S) : tree (list S) := tmap (fun u => [u]) x.
(** [F] is what the model makes of one sample. *)
Definition alone {S O St} (raw : tree (list S) -> St -> result (tree (list O) * St)) (st : St) (F : tree S -> result (tree O)) : Prop :=
  forall x y, F x = Ok y <-> exists Y st', raw (only x) st = Ok (Y, st') /\ sample Y 0 = tmap Some y.
(** A derivative depends on the values of the function only. *)
Definition of_values {X Y Z} (jac : (X -> result Y) -> X -> result Z) : Prop :=
  forall F G x d, (forall x' y, F x' = Ok y <-> G x' = Ok y) -> jac F x = Ok d -> jac G x = Ok d.
(** It exists, with structure [gl], if the function is defined everywhere. *)
Definition derives {S O J} (jac : (tree S -> result (tree O)) -> tree S -> result (tree J)) (inl outl gl : tree unit) : Prop :=
  forall F, (forall x, layout x = inl -> exists y, F x = Ok y /\ layout y = outl) ->
    forall x, layout x = inl -> exists d, jac F x = Ok d /\ layout d = gl.
(** A derivative of several rows consists of the derivatives of the rows. *)
Definition by_rows {P O J} (jac : (P -> result (tree (list O))) -> P -> result (tree (list J))) (outl gl : tree unit)
    (row : (P -> tree (option O)) -> P -> tree (option J)) : Prop :=
  forall n (F : P -> tree (list O)), (forall p, layout (F p) = outl /\ uniform n (F p)) ->
    forall p, exists D, jac (fun p => Ok (F p)) p = Ok D /\ layout D = gl /\ uniform n D /\
      forall i, i < n -> sample D i = row (fun p => sample (F p) i) p.
