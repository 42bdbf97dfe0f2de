(** Which data arguments training should accept. *)
From Coq Require Import ZArith.
From Verif Require Import Base TreeUtil TreeSpec NonSeqSpec BatchSpec SerialSpec EinsumSpec TrainArgs TrainArgsProofs.
Local Open Scope list_scope.

Section Spec.
Context {A : Type} (shape : A -> list nat).

(** Arrays of [n] samples with at least one further axis. *)
Definition tabular (n : nat) (t : tree A) : Prop := forall x, has_leaf t x -> exists k r, shape x = n :: k :: r.
(** The same structure, and samples of the same shapes. *)
Definition same_samples (t u : tree A) : Prop := trel (fun a b => tl (shape a) = tl (shape b)) t u.

(** [n]: training samples, [m]: validation samples. *)
Record acceptable (n m : nat) (a : targs (A := A)) : Prop := mk_acceptable {
  ac_sense : ~ senseless a;
  ac_X : populated (a_X a) /\ tabular n (a_X a);
  ac_Y : forall y, a_Y a = Some y -> populated y /\ tabular n y;
  ac_unc : forall y u, a_Y a = Some y -> a_Y_unc a = Some u -> same_samples y u /\ tabular n u;
  ac_X_val : forall x, a_X_val a = Some x -> same_samples (a_X a) x /\ tabular m x;
  ac_Y_val : forall y yv, a_Y a = Some y -> a_Y_val a = Some yv -> same_samples y yv /\ tabular m yv;
  ac_val_unc : forall y yv, a_Y a = Some y -> a_Y_val_unc a = Some yv -> same_samples y yv /\ tabular m yv;
  ac_params : forall p, a_params a = Some p -> alike p (a_flags a);
  ac_adam : forall s, a_resume a = true -> a_adam a = Some s -> alike s (a_flags a) }.

(** All trees are as Python builds them: no key twice. *)
Definition proper (a : targs (A := A)) : Prop :=
  wf_tree (a_X a) /\ wf_tree (a_flags a) /\
  (forall t, In (Some t) [a_Y a; a_Y_unc a; a_X_val a; a_Y_val a; a_Y_val_unc a] -> wf_tree t) /\
  (forall t, In (Some t) [a_adam a; a_params a] -> wf_tree t).

(** The batch sizes used with [k] samples. *)
Definition batch_of (k : nat) (asked used : Z) : Prop := used = Z.min asked (Z.of_nat k).
Definition val_batch_of (k : nat) (asked used : Z) : Prop :=
  (asked <= 0 /\ used = Z.of_nat k)%Z \/ (0 < asked /\ used = Z.min asked (Z.of_nat k))%Z.
End Spec.
