(** What saving, loading and freezing mean for training. *)
From Verif Require Import Base TreeUtil TreeSpec NonSeqSpec SerialSpec Batch Train TrainSteps TrainModel Params ParamsSpec FineTune.
Local Open Scope list_scope.

(** The same models: same modules (with parameters and flags), states, key and
    optimiser states; dictionaries of optimiser states may list their entries
    in another order. *)
Definition same_opt {P MV} (o o' : option (tree (ostate P MV))) : Prop :=
  match o, o' with
  | None, None => True
  | Some t, Some u => trel eq t u
  | _, _ => False
  end.
Definition same_model {M P MV MSt Rng} (m m' : @model M P MV MSt Rng) : Prop :=
  mods m = mods m' /\ mst m = mst m' /\ mrng m = mrng m' /\ same_opt (mopt m) (mopt m').

Section Spec.
Context {S1 S2 S3 M P G MV MSt Rng F : Type}.
Context (m_get : M -> tree P) (m_set : M -> tree P -> M * result unit) (m_train : M -> bool) (m_reload : M -> result M).
(** Modules that are what is said of them: with parameters that are a tree,
    that come back the same from a file, accept their own parameters, and stay
    such modules when parameters are set. *)
Record fine_modules (fine : M -> Prop) : Prop := {
  fm_wf : forall a, fine a -> wf_tree (m_get a);
  fm_reload : forall a, fine a -> m_reload a = Ok a;
  fm_steady : forall a, fine a -> m_set a (m_get a) = (a, Ok tt);
  fm_set : forall a p b, fine a -> m_set a p = (b, Ok tt) -> fine b }.
(** A model of such modules, at least one, whose optimiser states (if there are
    any) are about its current parameters. *)
Definition some_modules {X} (t : tree X) : Prop := match t with Leaf _ => False | _ => truthy t = true end.
Record in_order (fine : M -> Prop) (m : @model M P MV MSt Rng) : Prop := {
  io_wf : wfn (Nest (mods m));
  io_some : some_modules (mods m);
  io_fine : forall a, atom_in (Nest (mods m)) a -> fine a;
  io_opt : forall o, mopt m = Some o -> wf_tree o /\ trel (fun s p => ox s = p) o (get m_get (Nest (mods m))) }.
(** Only flags are set. *)
Definition only_flags (fine sel : M -> Prop) (f : tree (net M) -> tree (net M)) : Prop :=
  forall t, nrel (fun a a' => m_get a' = m_get a /\ (fine a -> fine a') /\ (sel a <-> sel a')) (Nest t) (Nest (f t)).
(** The flags go to the loop as they are, and the callback of the caller leaves
    the number of arrays and those that are frozen alone. *)
Definition decent_call (k : @call S1 S2 S3 P Rng F) : Prop :=
  forall fl, c_flags (k_settings k fl) = fl /\ keeps_frozen (k_settings k fl).
Definition decent (fine sel : M -> Prop) (o : @op S1 S2 S3 M P Rng F) : Prop :=
  match o with OTrain k => decent_call k | OFlags f => only_flags fine sel f | OReload => True end.
Definition is_training (o : @op S1 S2 S3 M P Rng F) : Prop := match o with OTrain _ => True | _ => False end.

(** Going through the operations, [Q] holds of the model before each training,
    and an operation that raises an exception has changed nothing (no module
    refuses the parameters it is given by a training). *)
Fixpoint during (step : @model M P MV MSt Rng -> @op S1 S2 S3 M P Rng F -> @model M P MV MSt Rng * result unit)
    (Q : @model M P MV MSt Rng -> Prop) (m : model) (l : list op) : Prop :=
  match l with
  | [] => True
  | o :: l' => (is_training o -> Q m) /\ (snd (step m o) = Ok tt \/ fst (step m o) = m) /\ during step Q (fst (step m o)) l'
  end.
(** The chosen modules are frozen, and entries of the model that are models
    themselves are frozen or trainable as a whole. *)
Definition all_frozen (sel : M -> Prop) (m : @model M P MV MSt Rng) : Prop :=
  (forall a, atom_in (Nest (mods m)) a -> sel a -> m_train a = false) /\
  (forall x, has_leaf (mods m) x -> unmixed m_get m_train x).
End Spec.
