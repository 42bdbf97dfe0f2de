(** Interrupting a training with Ctrl-C (SIGINT) or SIGTERM, in
    /repo/parametricmatrixmodels/training.py L96-110 (GracefulKiller), L511-512,
    L807-811, L829-861 and L1105-1118.

    [_train] is compiled by [jax.jit] (L378-396): its Python statements are
    executed once, when the function is traced, and only then the compiled loop
    runs.  [Model.train] makes the static arguments of [_train] anew in every
    call, so every training is traced.  So in a verbose training
    [killer = GracefulKiller()] (L512) and [killer.active = False] (L1118) are
    both executed before the first epoch.

    Simplifications.  A handler that is called while the loop runs is called
    before the loop condition is looked at again.  The other reasons to stop are
    a function [more] of the number of epochs done (the loop itself: Train.v).
    A training that is ended by the default action of a signal counts as
    interrupted there. *)
From Verif Require Import Base.
Local Open Scope list_scope.

Inductive sig := SigInt | SigTerm.
Record killer := mk_killer { kill_now : bool; active : bool }.
(** What Python does with both signals: [None] is the handling at the start of
    the process (SIGINT raises KeyboardInterrupt, SIGTERM ends the process). *)
Definition handler := option killer.

Inductive effect := Swallowed | Interrupted (s : sig).
(** GracefulKiller.exit_gracefully, L104-110; without a killer the action of Python. *)
Definition deliver (s : sig) (h : handler) : handler * effect :=
  match h with
  | None => (None, Interrupted s)
  | Some k => if kill_now k && active k then (Some k, Interrupted SigInt)
              else (Some (mk_killer true (active k)), Swallowed)
  end.
(** Signals one after the other, up to the first that interrupts. *)
Fixpoint deliver_all (l : list sig) (h : handler) : handler * effect :=
  match l with
  | [] => (h, Swallowed)
  | s :: l' => match deliver s h with
               | (h', Swallowed) => deliver_all l' h'
               | stop => stop
               end
  end.

Inductive ending := Done (epochs : nat) | Stopped (s : sig) (epochs : nat) | Failed (e : err).

(** The compiled loop (L829-861, L1102): the condition, with the flag of the
    killer in a verbose training only, and the signals that arrive in the epoch.
    [fuel] is [epochs - start_epoch]. *)
Fixpoint loop (fuel : nat) (verbose : bool) (more : nat -> bool) (arrive : nat -> list sig) (done : nat) (h : handler)
  : handler * ending :=
  match fuel with
  | 0 => (h, Done done)
  | S fuel' =>
      if negb (verbose && match h with Some k => kill_now k | None => false end) && more done then
        match deliver_all (arrive done) h with
        | (h', Swallowed) => loop fuel' verbose more arrive (S done) h'
        | (h', Interrupted s) => (h', Stopped s done)
        end
      else (h, Done done)
  end.

Record training := mk_training {
  g_verbose : bool;
  g_main_thread : bool;          (* called in the main thread of the process *)
  g_tracing : list sig;          (* signals while the function is traced *)
  g_trace_error : option err;    (* an error while it is traced *)
  g_epochs : nat; g_more : nat -> bool;
  g_arrive : nat -> list sig     (* signals in each epoch *)
}.
(** [_train]: L511-512 ([signal.signal] raises ValueError outside the main
    thread), the tracing, L1118, and the loop. *)
Definition train (t : training) (h : handler) : handler * ending :=
  if g_verbose t && negb (g_main_thread t) then (h, Failed ValueError) else
  let h1 := if g_verbose t then Some (mk_killer false true) else h in
  match deliver_all (g_tracing t) h1 with
  | (h2, Interrupted s) => (h2, Stopped s 0)
  | (h2, Swallowed) =>
      match g_trace_error t with
      | Some e => (h2, Failed e)
      | None =>
          let h3 := if g_verbose t then match h2 with Some k => Some (mk_killer (kill_now k) false) | None => None end else h2 in
          loop (g_epochs t) (g_verbose t) (g_more t) (g_arrive t) 0 h3
      end
  end.

(** What happens in a process, as far as signals are concerned. *)
Inductive action := Train (t : training) | Signal (s : sig).
Definition act (a : action) (h : handler) : handler :=
  match a with Train t => fst (train t h) | Signal s => fst (deliver s h) end.
Definition history (l : list action) : handler := fold_left (fun h a => act a h) l None.
