(** Model of who owns the connections of a graph model: the dictionary object
    given to NonSequentialModel.__init__ (nonsequentialmodel.py L256), handed on
    by copy (basemodule.py L917-930, get_hyperparameters L959-967, serialize
    basemodule.py L755-788, set_hyperparameters L969-978), and read from a file
    (model.py L1764-1811), in /repo/parametricmatrixmodels. *)
From Verif Require Import Base.
Local Open Scope string_scope.
Local Open Scope list_scope.

Section Wire.
Context {V : Type}.
(** Can the connections be saved automatically (is_serializable, basemodule.py
    L757-783)?  Entries that cannot are left out with a warning. *)
Context (serializable : dict V -> bool).

(** The dictionary objects of a program, and for every graph model the one that
    its attribute [connections] refers to.  Simplification: lists inside a
    dictionary are values, not objects. *)
Record world := mk_world { dicts : list (dict V); models : list nat }.

(** Replace the [i]-th entry. *)
Fixpoint replace {A} (l : list A) (i : nat) (x : A) : list A :=
  match l, i with
  | [], _ => []
  | _ :: l, 0 => x :: l
  | y :: l, S i => y :: replace l i x
  end.

(** What a program can do with graph models and their connections. *)
Inductive op :=
| NewDict (d : dict V)          (* conns = {...} *)
| Build (r : option nat)        (* NonSequentialModel(modules, conns), or without connections *)
| Copy (m : nat)                (* model.copy() *)
| Reload (m : nat)              (* model.save(file); NonSequentialModel.from_file(file) *)
| Assign (m r : nat)            (* model.connections = conns *)
| Put (m : nat) (k : string) (v : V). (* model.connections[k] = v *)

(** Without connections every model gets a dictionary of its own (L256). *)
Definition fresh_model (w : world) (d : dict V) : world :=
  mk_world (dicts w ++ [d]) (models w ++ [length (dicts w)]).

(** A name that does not exist is given as a KeyError (NameError in Python).
    Simplification: [copy] and [save] of a model that is not ready raise a
    RuntimeError (L940-943) and create nothing; here the models are ready. *)
Definition step (w : world) (o : op) : result world :=
  match o with
  | NewDict d => Ok (mk_world (dicts w ++ [d]) (models w))
  | Build None => Ok (fresh_model w [])
  | Build (Some r) =>
      match nth_error (dicts w) r with
      | Some _ => Ok (mk_world (dicts w) (models w ++ [r]))
      | None => Err KeyError
      end
  | Copy m =>
      match nth_error (models w) m with
      | Some r =>
          match nth_error (dicts w) r with
          | Some d => if serializable d then Ok (mk_world (dicts w) (models w ++ [r])) else Ok (fresh_model w [])
          | None => Err KeyError
          end
      | None => Err KeyError
      end
  | Reload m =>
      match nth_error (models w) m with
      | Some r =>
          match nth_error (dicts w) r with
          | Some d => Ok (fresh_model w (if serializable d then d else []))
          | None => Err KeyError
          end
      | None => Err KeyError
      end
  | Assign m r =>
      match nth_error (models w) m, nth_error (dicts w) r with
      | Some _, Some _ => Ok (mk_world (dicts w) (replace (models w) m r))
      | _, _ => Err KeyError
      end
  | Put m k v =>
      match nth_error (models w) m with
      | Some r =>
          match nth_error (dicts w) r with
          | Some d => Ok (mk_world (replace (dicts w) r (dset d k v)) (models w))
          | None => Err KeyError
          end
      | None => Err KeyError
      end
  end.

(** A program: its operations one after another from nothing. *)
Fixpoint run (w : world) (p : list op) : result world :=
  match p with
  | [] => Ok w
  | o :: p => let* w' := step w o in run w' p
  end.
Definition nothing : world := mk_world [] [].

(** The connections of a model as [model.connections] shows them. *)
Definition wiring (w : world) (m : nat) : option (dict V) :=
  match nth_error (models w) m with Some r => nth_error (dicts w) r | None => None end.
End Wire.
Arguments world : clear implicits.
Arguments op : clear implicits.
