(** What loading does to the dictionary it loads from
    (parametricmatrixmodels/model.py L1660-1741, modules/basemodule.py L857-892).

    Simplifications: the modules of a model are in a list, in the order of jax;
    of the entries of a model only the modules and "self_serialized" are kept
    apart, the others, which are read only, are part of [C]; [upgrade] returns
    what it is given (the default, basemodule.py L895-914). *)
From Verif Require Import Base.
From Coq Require Import String.
Local Open Scope string_scope.
Local Open Scope list_scope.

Section SavedData.
(** entries, classes and other data that are read only, module objects *)
Context {X C O : Type}.
(** what a module makes of its entries *)
Variable build : C -> list (string * X) -> result O.
(** versions and classes; structure, key and optimiser states; what a model
    makes of its modules and its own entries *)
Variable start : C -> result unit.
Variable check : C -> list O -> result unit.
Variable assemble : C -> list O -> list (string * X) -> result O.

Inductive data :=
| DModule (c : C) (entries : list (string * X))
| DModel (c : C) (modules : list data) (own : list (string * X)).

(** [dict.pop(key, None)] *)
Definition pop (k : string) (l : list (string * X)) : list (string * X) :=
  filter (fun p => negb (String.eqb k (fst p))) l.
(** L1728-1735 *)
Definition pops (l : list (string * X)) : list (string * X) :=
  pop "trainable" (pop "_optimizer_state" (pop "rng" l)).

(** The modules one after the other, up to the first exception, L1691-1697; the
    dictionaries are those in the data, not copies. *)
Definition deserialize_all (des : data -> data * result O) : list data -> list data * result (list O) :=
  fix go ds :=
  match ds with
  | [] => ([], Ok [])
  | d :: ds' =>
      match des d with
      | (d1, Err e) => (d1 :: ds', Err e)
      | (d1, Ok o) => let (ds1, r) := go ds' in (d1 :: ds1, let* os := r in Ok (o :: os))
      end
  end.
(** [deserialize]: the data as they are afterwards, and what was loaded *)
Fixpoint deserialize (d : data) : data * result O :=
  match d with
  | DModule c entries => (d, build c entries)                      (* basemodule.py L857-892 *)
  | DModel c ms own =>
      match start c with
      | Err e => (d, Err e)                                        (* L1660-1688 *)
      | Ok _ =>
          match deserialize_all deserialize ms with
          | (ms1, Err e) => (DModel c ms1 own, Err e)
          | (ms1, Ok os) =>
              match check c os with
              | Err e => (DModel c ms1 own, Err e)                 (* L1700-1725 *)
              | Ok _ => (DModel c ms1 (pops own), assemble c os (pops own))  (* L1728-1741 *)
              end
          end
      end
  end.
End SavedData.
Arguments data : clear implicits.
