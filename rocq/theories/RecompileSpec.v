(** When a model is compiled for a shape, throughout. *)
From Verif Require Import Base Recompile.
Local Open Scope list_scope.

Section Spec.
Context {Sh : Type} (proper : Sh -> bool).
Notation model := (model Sh).

(** [relay R l s t]: shapes from [s] to [t] along the modules [l] *)
Definition relay (R : model -> Sh -> Sh -> Prop) : list model -> Sh -> Sh -> Prop :=
  fix go l s t := match l with [] => s = t | x :: l' => exists u, R x s u /\ go l' u t end.

(** What the model gives for input of shape [s]: one module after the other,
    whatever has been compiled for which shape. *)
Fixpoint flows (m : model) (s t : Sh) : Prop :=
  match m with
  | Plain o _ _ => o s = Ok t
  | Seq _ l | Graph _ l => relay flows l s t
  end.
(** Every module in it was compiled for the shape it gets, and every model in it
    notes the shape it gets and the shape it gives. *)
Fixpoint right (m : model) (s t : Sh) : Prop :=
  match m with
  | Plain o _ c => c = Some s /\ o s = Ok t
  | Seq sh l | Graph sh l => sh = Some (s, t) /\ proper t = true /\ relay right l s t
  end.

(** No model in it is ready ... *)
Fixpoint fresh (m : model) : Prop :=
  match m with
  | Plain _ _ _ => True
  | Seq _ l | Graph _ l => ready m = false /\ (fix go (l : list model) := match l with [] => True | x :: l' => fresh x /\ go l' end) l
  end.
(** ... or only outside of graph models; or a graph model is ready as it should be. *)
Fixpoint good (m : model) : Prop :=
  match m with
  | Plain _ _ _ => True
  | Seq _ l => (fix go (l : list model) := match l with [] => True | x :: l' => good x /\ go l' end) l
  | Graph sh l =>
      (ready m = false -> (fix go (l : list model) := match l with [] => True | x :: l' => fresh x /\ go l' end) l) /\
      (ready m = true -> forall a b, sh = Some (a, b) -> right m a b)
  end.
(** No model without modules in it. *)
Fixpoint inhabited (m : model) : Prop :=
  match m with
  | Plain _ _ _ => True
  | Seq _ l | Graph _ l => l <> [] /\ (fix go (l : list model) := match l with [] => True | x :: l' => inhabited x /\ go l' end) l
  end.
End Spec.
