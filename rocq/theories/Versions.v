(** Versions in saved data (parametricmatrixmodels/modules/basemodule.py
    L826-914, model.py L192-207, L1639-1741; conformal/conformalizedmodel.py
    L1616-1638).

    Simplifications: versions are compared after parsing ([packaging.version]),
    so a version here is a parsed one; saved modules are their class, the two
    versions and the remaining entries [D]; setting these ([set_hyperparameters]
    and so on) is one function [build] of the class, as is [upgrade]; the parts
    of a model are loaded in the order of jax; name, key and optimiser states of
    a model belong to its entries. *)
From Verif Require Import Base TreeUtil.
Local Open Scope list_scope.

Section Versions.
Context {V C D O : Type}.
Variable veqb : V -> V -> bool.          (* == of parsed versions *)
Variable current : V.                    (* pmm.__version__ *)
Variable version : C -> V.               (* cls.__version__ *)
Variable upgrade : C -> D -> result D.   (* self.upgrade, basemodule.py L895-914 *)
(** What a module of the class is after its entries are set, given the parts it
    consists of (none, or the modules of a model). *)
Variable build : C -> list O -> D -> result O.

(** Saved data: of a module (basemodule.py L816-824), or of a model (model.py
    L1622-1637, with self_serialized, which is what basemodule.py saves of it). *)
Inductive saved :=
| SModule (c : C) (package module : V) (d : D)
| SModel (c : C) (package : V) (model : V) (parts : list saved) (package' module : V) (d : D).

(** basemodule.py L857-892. *)
Definition base_deserialize (strict : bool) (c : C) (parts : list O) (package module : V) (d : D) : result O :=
  if negb (veqb current package) && strict then Err ValueError           (* L858-868 *)
  else let* d' := if veqb module (version c) then Ok d else upgrade c d in   (* L870-874 *)
       build c parts d'.
(** model.py L1662-1741; the version of the model is read, but nothing depends
    on it (L1674-1679). *)
Fixpoint deserialize (strict : bool) (s : saved) : result O :=
  match s with
  | SModule c p v d => base_deserialize strict c [] p v d
  | SModel c p _ ss p' v d =>
      if negb (veqb current p) && strict then Err ValueError              (* L1663-1672 *)
      else
        let* os := (fix go l := match l with
                                | [] => Ok []
                                | x :: l' => let* o := deserialize strict x in let* os := go l' in Ok (o :: os)
                                end) ss in                                (* L1690-1697 *)
        base_deserialize strict c os p' v d                               (* L1738-1741 *)
  end.

(** [model.load(file, strict_package_version=strict)] of an object in use: it is
    reset first (L1662), then the version of the package is looked at, then the
    modules are replaced (L1682). [halfway] is whatever the object is if loading
    fails after that. *)
Definition package_of (s : saved) : V := match s with SModule _ p _ _ => p | SModel _ p _ _ _ _ _ => p end.
Definition load_into {S} (reset : S -> S) (halfway : S -> saved -> S) (become : O -> S) (strict : bool) (m : S) (s : saved) : S * result unit :=
  if negb (veqb current (package_of s)) && strict then (reset m, Err ValueError)
  else match deserialize strict s with
       | Ok o => (become o, Ok tt)
       | Err e => (halfway (reset m) s, Err e)
       end.

(** ConformalizedModel.deserialize, conformal/conformalizedmodel.py L1616-1638:
    the version of the package is looked at, then the model inside is
    deserialised, without strict_package_version; [wrap] is the rest. *)
Definition conformal_deserialize {R} (wrap : O -> result R) (strict : bool) (package : V) (s : saved) : result R :=
  if negb (veqb current package) && strict then Err ValueError
  else let* o := deserialize false s in wrap o.
End Versions.
Arguments SModule {V C D}. Arguments SModel {V C D}.
