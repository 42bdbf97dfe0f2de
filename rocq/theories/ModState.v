(** Model of how a model reads and writes the states of its modules: get_state and
    set_state (model.py L337-397), get_state of graph models (nonsequentialmodel.py
    L927-957) and the option update_state of a call (model.py L614-624), in
    /repo/parametricmatrixmodels. *)
From Verif Require Import Base.
Local Open Scope list_scope.

Section ModState.
(** Module objects, their parameters and states; data, results. *)
Context {O P St X Y : Type}.
(** [get_params], [get_state] and [is_ready] of a module. *)
Context (m_params : O -> P) (m_get : O -> St) (m_ready : O -> bool).
(** [set_state] of a module; the argument may be Python's None. *)
Context (m_set : O -> option St -> result O).

(** All module objects of a program. *)
Definition heap : Type := nat -> O.
Definition write (h : heap) (r : nat) (o : O) : heap := fun s => if Nat.eqb s r then o else h s.

(** The kinds of models; of a graph model the modules in the execution order. *)
Inductive kind := Sequential | Graph (order : list nat).

(** The modules of a model are given as the references in the order of
    jax.tree.leaves.  Simplification: the structure of the containers is left out;
    a state of another structure is one with another number of entries here. *)

(** model.py L363; nonsequentialmodel.py L940-957.  Simplification: the shapes of a
    graph model are set, so that it is ready if the modules of its order are
    (L339-370). *)
Definition get_state (k : kind) (ms : list nat) (h : heap) : result (list (option St)) :=
  match k with
  | Sequential => Ok (map (fun r => Some (m_get (h r))) ms)
  | Graph order =>
      if forallb (fun r => m_ready (h r)) order then
        Ok (map (fun r => if m_ready (h r) then Some (m_get (h r)) else None) ms)
      else Err RuntimeError
  end.

(** The calls of [set_state] one after another; after an exception the modules
    before have their new states. *)
Fixpoint set_each (ms : list nat) (st : list (option St)) (h : heap) : heap * result unit :=
  match ms, st with
  | r :: ms, s :: st =>
      match m_set (h r) s with
      | Ok o => set_each ms st (write h r o)
      | Err e => (h, Err e)
      end
  | [], [] => (h, Ok tt)
  | _, _ => (h, Err ValueError)
  end.
(** model.py L384-397: None is ignored, the structures are compared before the
    first module is set, every exception becomes a ValueError. *)
Definition set_state (ms : list nat) (st : option (list (option St))) (h : heap) : heap * result unit :=
  match st with
  | None => (h, Ok tt)
  | Some st =>
      if Nat.eqb (length ms) (length st) then
        let (h', r) := set_each ms st h in (h', match r with Ok _ => Ok tt | Err _ => Err ValueError end)
      else (h, Err ValueError)
  end.

(** The callable of the model: parameters, data and states to result and states. *)
Context (forward : list P -> X -> list (option St) -> result (Y * list (option St))).

(** A call, model.py L614-630 (the readiness of the model was checked before). *)
Definition call (update : bool) (k : kind) (ms : list nat) (x : X) (h : heap) : heap * result (Y * list (option St)) :=
  match get_state k ms h with
  | Err e => (h, Err e)
  | Ok st =>
      match forward (map (fun r => m_params (h r)) ms) x st with
      | Err e => (h, Err e)
      | Ok (y, st') =>
          if update then
            let (h', r) := set_state ms (Some st') h in
            (h', match r with Ok _ => Ok (y, st') | Err e => Err e end)
          else (h, Ok (y, st'))
      end
  end.

(** Calls one after another, up to the first exception; the results. *)
Fixpoint calls (update : bool) (k : kind) (ms : list nat) (xs : list X) (h : heap) : heap * result (list Y) :=
  match xs with
  | [] => (h, Ok [])
  | x :: xs =>
      let (h1, r) := call update k ms x h in
      match r with
      | Err e => (h1, Err e)
      | Ok (y, _) => let (h2, r') := calls update k ms xs h1 in (h2, let* ys := r' in Ok (y :: ys))
      end
  end.
End ModState.
