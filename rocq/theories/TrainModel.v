(** [Model.train] around the training loop of Train.v: what is handed to it and
    what becomes of the result, over the life of a model
    (parametricmatrixmodels/model.py L1027-1249, training.py L1275-1284,
    L1540-1565, L1667-1668, L1686-1747).

    Simplifications: a tree of parameters is its structure and the list of its
    leaves, the form in which [train] handles it (L1540-1565); the trainable
    flags are one per leaf (model.py L1197-1199, see Params.v for how they come
    about); loss functions and optimiser are the arguments of Train.v, in
    particular checks of the arguments are in TrainArgs.v; modules accept any
    parameters of the right structure (refusals are in Params.v). *)
From Coq Require Import ZArith.
From Verif Require Import Base TreeUtil Batch Train TrainArgs.
Local Open Scope list_scope.

Section Model.
Context {S1 S2 S3 P G MV MSt Rng F : Type}.
Notation OS := (ostate P MV).
Variable update : G -> OS -> OS.
(** [init_fn], training.py L147-154, L229-236: the moments are zeros, the
    counter is 0. *)
Variable zeros : P -> MV.
Variable dloss : nat -> @batch S1 S2 S3 -> bool -> MSt -> Rng -> list P -> result ((nat -> G) * MSt).
Variable vloss : nat -> @batch S1 S2 S3 -> MSt -> Rng -> list P -> result F.
Variable split2 : Rng -> Rng * Rng.
Variable perm : Rng -> nat -> list nat.
Variable fzero : F.
Variables fadd fsub : F -> F -> F.
Variable fdivn : F -> nat -> F.
Variables flt fle : F -> F -> bool.

Record model := mk_model {
  m_struct : tree unit; m_params : list P; m_flags : list bool; m_state : MSt; m_rng : Rng;
  m_opt : option (tree unit * list OS) }.

(** The arguments of [train] that matter; the settings get the flags of the
    model. *)
Record call := mk_call {
  k_resume : bool; k_settings : list bool -> @settings P Rng F; k_data : @batch S1 S2 S3; k_val : @batch S1 S2 S3; k_rng : Rng }.

Definition init (p : P) : OS := mk_ostate p (zeros p) 0.

(** What [_train] starts with: training.py L1275-1284, L1544-1565, L1667-1668. *)
Definition handed (m : model) (k : call) : result (tree unit * list OS) :=
  if k_resume k then
    match m_opt m with
    | None => Err ValueError
    | Some (s, os) => if same_struct s (m_struct m) then Ok (s, os) else Err ValueError
    end
  else Ok (m_struct m, map init (m_params m)).

(** model.py L1201-1249 with training.py L1686-1747: parameters, states, key and
    optimiser state are those returned. An exception leaves the model as it
    was. *)
Definition train (m : model) (k : call) : model * result unit :=
  match (let* (s, os) := handed m k in
         let* r := train_loop update dloss vloss split2 perm fzero fadd fsub fdivn flt fle
                     (k_settings k (m_flags m)) (k_data k) (k_val k) (k_rng k) 0 os (m_state m) (m_rng m) in
         Ok (s, r)) with
  | Err e => (m, Err e)
  | Ok (s, (c, _, _, _)) =>
      let '(os, st, rng) := c in
      (mk_model s (map ox os) (m_flags m) st rng (Some (s, os)), Ok tt)
  end.

(** [set_params], model.py L303-340: the optimiser state is not touched. *)
Definition set_params (m : model) (s : tree unit) (ps : list P) : model * result unit :=
  if same_struct s (m_struct m) then (mk_model s ps (m_flags m) (m_state m) (m_rng m) (m_opt m), Ok tt)
  else (m, Err ValueError).
(** The [trainable] flags, basemodule.py L46-83. *)
Definition set_flags (m : model) (fl : list bool) : model :=
  mk_model (m_struct m) (m_params m) fl (m_state m) (m_rng m) (m_opt m).
(** [set_state] and [set_rng], model.py L365-412. *)
Definition set_state (m : model) (st : MSt) (rng : Rng) : model :=
  mk_model (m_struct m) (m_params m) (m_flags m) st rng (m_opt m).
(** All that goes through [reset] (model.py L192-207: edits of the modules,
    loading) may change everything but forgets the optimiser state. *)
Definition edited (s : tree unit) (ps : list P) (fl : list bool) (st : MSt) (rng : Rng) : model :=
  mk_model s ps fl st rng None.

Inductive op :=
| OTrain (k : call) | OSet (s : tree unit) (ps : list P) | OFlags (fl : list bool)
| OState (st : MSt) (rng : Rng) | OEdit (s : tree unit) (ps : list P) (fl : list bool) (st : MSt) (rng : Rng).
(** Exceptions are caught by the caller. *)
Definition step (m : model) (o : op) : model :=
  match o with
  | OTrain k => fst (train m k)
  | OSet s ps => fst (set_params m s ps)
  | OFlags fl => set_flags m fl
  | OState st rng => set_state m st rng
  | OEdit s ps fl st rng => edited s ps fl st rng
  end.
Definition life (m : model) (l : list op) : model := fold_left step l m.
End Model.
Arguments mk_call {S1 S2 S3 P Rng F}.
Arguments k_resume {S1 S2 S3 P Rng F}. Arguments k_settings {S1 S2 S3 P Rng F}. Arguments k_data {S1 S2 S3 P Rng F}.
Arguments k_val {S1 S2 S3 P Rng F}. Arguments k_rng {S1 S2 S3 P Rng F}.
