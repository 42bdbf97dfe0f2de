(** What it means for a precision to last. *)
From Coq Require Import ZArith.
From Verif Require Import Base TreeUtil Batch Train TrainModel Precision PrecTrain.
Local Open Scope list_scope.

(** An array of [w] bits per real number. *)
Definition bits {V} (w : nat) (a : arr V) : Prop := a_dt a = DFloat w \/ a_dt a = DComplex (2 * w).

Section Spec.
Context {S1 S2 S3 V G MV MSt Rng F : Type}.
(** The optimiser and the callback of the caller keep the precision of the
    arrays they change ([jax.lax.while_loop] insists on it). *)
Definition keeps_bits (update : G -> ostate (arr V) MV -> ostate (arr V) MV) (w : nat) : Prop :=
  forall g s, bits w (ox s) -> bits w (ox (update g s)).
Definition call_keeps (k : @call S1 S2 S3 (arr V) Rng F) (w : nat) : Prop :=
  forall fl r e ps, Forall (bits w) ps -> Forall (bits w) (snd (c_callback (k_settings k fl) r e ps)).
(** What is done with the model, other than setting its precision to something
    else: parameters set by hand are of the precision. *)
Definition respects (w : nat) (o : @pop S1 S2 S3 V MSt Rng F) : Prop :=
  match o with
  | OPrec _ => False
  | OOther (OTrain k) => call_keeps k w
  | OOther (OSet _ ps) => Forall (bits w) ps
  | OOther (OEdit _ ps _ _ _) => Forall (bits w) ps
  | OOther _ => True
  end.
(** Optimiser states of the precision, if there are any. *)
Definition opt_bits (w : nat) (m : @model (arr V) MV MSt Rng) : Prop :=
  forall s os, m_opt m = Some (s, os) -> Forall (fun o => bits w (ox o)) os.
End Spec.
