(** Setting the precision of a model that is trained before and after
    (parametricmatrixmodels/model.py L957-1029, L1201-1249, modules/basemodule.py
    L610-694).

    The model is that of TrainModel.v (ready, parameters as a list of arrays),
    with arrays of Precision.v. Simplifications: those of these two files; the
    conversion of the states of the modules is one function [st_prec]. *)
From Coq Require Import ZArith.
From Verif Require Import Base TreeUtil Batch Train TrainModel Precision.
Local Open Scope list_scope.

Section Life.
Context {S1 S2 S3 V G MV MSt Rng F : Type}.
Notation A := (arr V).
Notation OS := (ostate A MV).
Variable astype : A -> dtype -> A.
Variable x64 : bool.
Variable st_prec : bool -> MSt -> MSt.
Variable update : G -> OS -> OS.
Variable zeros : A -> MV.
Variable dloss : nat -> @batch S1 S2 S3 -> bool -> MSt -> Rng -> list A -> result ((nat -> G) * MSt).
Variable vloss : nat -> @batch S1 S2 S3 -> MSt -> Rng -> list A -> result F.
Variable split2 : Rng -> Rng * Rng.
Variable perm : Rng -> nat -> list nat.
Variable fzero : F.
Variables fadd fsub : F -> F -> F.
Variable fdivn : F -> nat -> F.
Variables flt fle : F -> F -> bool.
Notation model := (@TrainModel.model A MV MSt Rng).

(** [Model.set_precision] of a ready model, L980-1020: parameters and states of
    the modules are converted, the optimiser states are not touched. *)
Definition set_precision (m : model) (p : prec) : model * result unit :=
  match check x64 p true with
  | Err e => (m, Err e)
  | Ok b => (mk_model (TrainModel.m_struct m) (map (set_param_prec astype b) (TrainModel.m_params m)) (m_flags m)
               (st_prec b (TrainModel.m_state m)) (m_rng m) (m_opt m), Ok tt)
  end.

Inductive pop := OPrec (p : prec) | OOther (o : @op S1 S2 S3 A MSt Rng F).
Definition pstep (m : model) (o : pop) : model :=
  match o with
  | OPrec p => fst (set_precision m p)
  | OOther o => step update zeros dloss vloss split2 perm fzero fadd fsub fdivn flt fle m o
  end.
Definition plife (m : model) (l : list pop) : model := fold_left pstep l m.
End Life.
