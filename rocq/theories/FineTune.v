(** Training, freezing, saving and loading, module by module
    (parametricmatrixmodels/model.py L85-95, L1027-1264, L1581-1741, training.py
    L1275-1284, L1540-1565, L1667-1747).

    This puts together Params.v (modules and their flags), Train.v (the loop)
    and Serial.v (what is saved). Simplifications:
    - modules are those of Params.v, with one more method [m_reload]: the module
      that serialising a module and deserialising it into a new object gives
      (Modules.v);
    - the states of all modules are one value, as is the random key; both are
      saved and loaded as they are;
    - the model is ready, so that training does not compile it (model.py L1089);
    - the checks of the arguments are in TrainArgs.v. *)
From Coq Require Import ZArith.
From Verif Require Import Base TreeUtil NonSeqSpec Batch Train TrainArgs Seq Params TrainModel.
Local Open Scope list_scope.

Section Map.
Context {X Y : Type} (f : X -> result Y).
(** [jax.tree.map(f, t)] over modules; dictionaries of modules are listed in the
    order of their keys, as in Params.v. *)
Fixpoint tmapM (t : tree X) : result (tree Y) :=
  match t with
  | Leaf x => let* y := f x in Ok (Leaf y)
  | NoneT => Ok NoneT
  | Dict d =>
      let* e := (fix go d := match d with
                             | [] => Ok []
                             | (k, x) :: d' => let* y := tmapM x in let* e := go d' in Ok ((k, y) :: e)
                             end) d in
      Ok (Dict e)
  | Lst l =>
      let* m := (fix go l := match l with
                             | [] => Ok []
                             | x :: l' => let* y := tmapM x in let* m := go l' in Ok (y :: m)
                             end) l in
      Ok (Lst m)
  | Tup l =>
      let* m := (fix go l := match l with
                             | [] => Ok []
                             | x :: l' => let* y := tmapM x in let* m := go l' in Ok (y :: m)
                             end) l in
      Ok (Tup m)
  end.
End Map.

(** [jax.tree.unflatten(jax.tree.structure(t), vs)]. *)
Definition rebuild {X Y} (t : tree X) (vs : list Y) : result (tree Y) := unflatten (treedef t) (map Leaf vs).
(** [bool(t)] of a tree that is not a single leaf (model.py L1619). *)
Definition truthy {X} (t : tree X) : bool :=
  match t with NoneT | Lst [] | Tup [] | Dict [] => false | _ => true end.

Section Model.
Context {S1 S2 S3 M P G MV MSt Rng F : Type}.
Notation OS := (ostate P MV).
Variable m_get : M -> tree P.
Variable m_set : M -> tree P -> M * result unit.
Variable m_train : M -> bool.
Variable m_reload : M -> result M.
Variable update : G -> OS -> OS.
Variable zeros : P -> MV.
Variable dloss : nat -> @batch S1 S2 S3 -> bool -> MSt -> Rng -> list P -> result ((nat -> G) * MSt).
Variable vloss : nat -> @batch S1 S2 S3 -> MSt -> Rng -> list P -> result F.
Variable split2 : Rng -> Rng * Rng.
Variable perm : Rng -> nat -> list nat.
Variable fzero : F.
Variables fadd fsub : F -> F -> F.
Variable fdivn : F -> nat -> F.
Variables flt fle : F -> F -> bool.

Record model := mk_model { mods : tree (net M); mst : MSt; mrng : Rng; mopt : option (tree OS) }.
Notation call := (@call S1 S2 S3 P Rng F).

(** The optimiser states the loop starts with: training.py L1275-1284,
    L1554-1565, L1667-1668. *)
Definition handed (m : model) (k : call) : result (tree OS) :=
  let z := flagged m_get m_train (mods m) in
  if k_resume k then
    match mopt m with
    | None => Err ValueError
    | Some o => if same_struct o z then Ok o else Err ValueError
    end
  else Ok (tmap (fun bp => init zeros (snd bp)) z).

(** [train] of training.py, L1540-1747. *)
Definition trained (m : model) (k : call) : result (tree OS * MSt * Rng) :=
  let* o := handed m k in
  let* (c, _, _, _) := train_loop update dloss vloss split2 perm fzero fadd fsub fdivn flt fle
                (k_settings k (map fst (leaves (flagged m_get m_train (mods m))))) (k_data k) (k_val k) (k_rng k)
                0 (leaves o) (mst m) (mrng m) in
  let '(os, s, r) := c in
  let* o' := rebuild o os in
  Ok (o', s, r).

(** [Model.train], model.py L1186-1249. If a module refuses its parameters
    (L1242), those before it have been set; states, key and optimiser states
    have not. *)
Definition train (m : model) (k : call) : model * result unit :=
  match trained m k with
  | Err e => (m, Err e)
  | Ok (o, s, r) =>
      match put m_set (Nest (mods m)) (tmap ox o) with
      | (Nest t, Ok _) => (mk_model t s r (Some o), Ok tt)
      | (Nest t, Err e) => (mk_model t (mst m) (mrng m) (mopt m), Err e)
      | (Atom _, _) => (m, Err ValueError)                (* does not happen *)
      end
  end.

(** [set_params], model.py L304-334: the optimiser states are not touched. *)
Definition set_params (m : model) (p : tree P) : model * result unit :=
  match put m_set (Nest (mods m)) p with
  | (Nest t, r) => (mk_model t (mst m) (mrng m) (mopt m), r)
  | (Atom _, _) => (m, Err ValueError)                    (* does not happen *)
  end.

(** [serialize] and [deserialize] into a new model, L1600-1637 and L1682-1741:
    every module, at every depth, is made anew; a model inside is a module, so
    its parameters are set once more after those of its modules (L1738, with
    basemodule.py L880-882). *)
Fixpoint reload_net (n : net M) : result (net M) :=
  match n with
  | Atom a => let* b := m_reload a in Ok (Atom b)
  | Nest t => let* t' := tmapM reload_net t in
              match put m_set (Nest t') (tsub (fun x => get m_get x) t) with
              | (n', Ok _) => Ok n'
              | (_, Err e) => Err e
              end
  end.
(** The optimiser states are saved as the list of their leaves (L1610-1621) and
    put back with the structure of the parameters (L1713-1724). *)
Definition reload_opt (m : model) : result (option (tree OS)) :=
  match mopt m with
  | None => Ok None
  | Some o => if truthy o then let* o' := rebuild (get m_get (Nest (mods m))) (leaves o) in Ok (Some o') else Ok None
  end.
Definition reload (m : model) : result model :=
  let* n := reload_net (Nest (mods m)) in
  let* o := reload_opt m in
  match n with
  | Nest t => Ok (mk_model t (mst m) (mrng m) o)
  | Atom _ => Err ValueError                               (* does not happen *)
  end.

(** What is done with a model: training, setting flags of modules (model.py
    L92-95, basemodule.py L60-78; any function [f] that only does that), saving
    and going on with what is loaded. An exception is caught by the caller, who
    goes on with the model there was. *)
Inductive op := OTrain (k : call) | OFlags (f : tree (net M) -> tree (net M)) | OReload.
Definition step (m : model) (o : op) : model * result unit :=
  match o with
  | OTrain k => train m k
  | OFlags f => (mk_model (f (mods m)) (mst m) (mrng m) (mopt m), Ok tt)
  | OReload => match reload m with Ok m' => (m', Ok tt) | Err e => (m, Err e) end
  end.
(** The model at the end, and what each operation gave. *)
Fixpoint life (m : model) (l : list op) : model * list (result unit) :=
  match l with
  | [] => (m, [])
  | o :: l' => let (m1, r) := step m o in let (m2, rs) := life m1 l' in (m2, r :: rs)
  end.
End Model.
Arguments mk_model {M P MV MSt Rng}. Arguments OTrain {S1 S2 S3 M P Rng F}. Arguments OFlags {S1 S2 S3 M P Rng F}. Arguments OReload {S1 S2 S3 M P Rng F}.
