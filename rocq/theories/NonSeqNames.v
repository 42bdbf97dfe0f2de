(** A graph model with a single module under a chosen name:
    [NonSequentialModel({k: module}, {"input": k, k: "output"}, separator=...)],
    /repo/parametricmatrixmodels/nonsequentialmodel.py. *)
From Coq Require Import Ascii.
From Verif Require Import Base TreeUtil Connections NonSeq.
Local Open Scope string_scope.
Local Open Scope list_scope.

(** [__init__], L258-268: the names that the constructor refuses (the modules
    are checked only if they are a dictionary, and only its own keys). *)
Definition construct {M} (modules : tree M) (conns : dict cval) : result (tree M * dict cval) :=
  match modules with
  | Dict d => if dmem d "input" then Err ValueError else if dmem d "output" then Err ValueError else Ok (modules, conns)
  | _ => Ok (modules, conns)
  end.

(** the model and its connections *)
Definition under_name {M} (k : string) (m : M) : tree M := Dict [(k, Leaf m)].
Definition wires (k : string) : dict cval := [("input", One k); (k, One "output")].

(** construct and call it with parameters and state of the module ([get_params]
    and [get_state] have the structure of the modules, L737-925 for the call) *)
Definition run_named {A Rng M} (sep : ascii)
    (call : M -> tree A -> tree A -> bool -> tree A -> Rng -> result (tree A * tree A)) (uuid : nat -> string)
    (k : string) (m : M) (params data : tree A) (training : bool) (state : tree A) (rng : Rng) : result (tree A * tree A) :=
  let* (modules, conns) := construct (under_name k m) (wires k) in
  nonseq_model sep call uuid modules conns (Dict [(k, params)]) data training (Dict [(k, state)]) rng.
