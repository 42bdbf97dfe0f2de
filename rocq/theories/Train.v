(** Model of the training loop, /repo/parametricmatrixmodels/training.py
    L96-1128 (argument handling of [train] is in TrainArgs.v). *)
From Coq Require Import ZArith.
From Verif Require Import Base TreeUtil Batch.
Local Open Scope list_scope.

(** OptimizerState, L33-63: parameters, the two moments (kept together), epoch
    counter. *)
Record ostate (P MV : Type) : Type := mk_ostate { ox : P; omv : MV; oi : nat }.
Arguments mk_ostate {P MV}. Arguments ox {P MV}. Arguments omv {P MV}. Arguments oi {P MV}.

Section Optimizer.
Context {P G MV : Type}.
(** the arithmetic of one Adam update, L163-174 resp. L243-266, as a function
    of gradient, parameters, moments and counter (it also uses the schedule) *)
Variable num : G -> P -> MV -> nat -> P * MV.

(** adam.update, L156-175: the counter is kept *)
Definition adam_update (dx : G) (s : ostate P MV) : ostate P MV :=
  let (x, mv) := num dx (ox s) (omv s) (oi s) in mk_ostate x mv (oi s).
(** complex_adam.update, L238-268: the counter is advanced (L268) *)
Definition complex_adam_update (dx : G) (s : ostate P MV) : ostate P MV :=
  let (x, mv) := num dx (ox s) (omv s) (oi s) in mk_ostate x mv (oi s + 1).
(** L185-193, L278-286 *)
Definition update_params_direct (p : P) (s : ostate P MV) : ostate P MV := mk_ostate p (omv s) (oi s).
(** L195-204, L288-297 *)
Definition increment_epoch (inc : nat) (s : ostate P MV) : ostate P MV := mk_ostate (ox s) (omv s) (oi s + inc).
End Optimizer.

Section Train.
(** rows of inputs, targets, uncertainties; parameter arrays, gradients,
    moments; model state; random keys; floating point numbers *)
Context {S1 S2 S3 P G MV MSt Rng F : Type}.
Notation OS := (ostate P MV).
Definition batch : Type := tree (list S1) * option (tree (list S2)) * option (tree (list S3)).

(** [update_fn] *)
Variable update : G -> OS -> OS.
(** derivative of the loss with respect to its positional arguments (the
    parameters are arguments 7, 8, ... of the loss of L1574-1588), and the new
    model state: arguments epoch, batch, training flag, state, key, parameters *)
Variable dloss : nat -> batch -> bool -> MSt -> Rng -> list P -> result ((nat -> G) * MSt).
(** validation loss (its new state is dropped, L569-582): epoch, batch, state, key,
    parameters *)
Variable vloss : nat -> batch -> MSt -> Rng -> list P -> result F.
(** [jax.random.split(key)] and [jax.random.permutation] (see Batch.v) *)
Variable split2 : Rng -> Rng * Rng.
Variable perm : Rng -> nat -> list nat.
(** floating point: zero, addition, subtraction, division by an integer, [<], [<=] *)
Variable fzero : F.
Variables fadd fsub : F -> F -> F.
Variable fdivn : F -> nat -> F.
Variables flt fle : F -> F -> bool.

(** trainable_argnums, L1608-1610: [7 + i for i, flag in enumerate(flags) if flag] *)
Fixpoint argnums_from (i : nat) (flags : list bool) : list nat :=
  match flags with
  | [] => []
  | true :: fl => 7 + i :: argnums_from (S i) fl
  | false :: fl => argnums_from (S i) fl
  end.
Definition trainable_argnums := argnums_from 0.

(** grad_loss_fn, L1615-1622: [jax.grad(loss_fn, argnums=trainable_argnums,
    has_aux=True)] returns the derivatives with respect to the listed arguments,
    in the order listed *)
Definition grad_loss_fn (flags : list bool) epoch b training st rng ps : result (list G * MSt) :=
  let* (g, st') := dloss epoch b training st rng ps in
  Ok (map g (trainable_argnums flags), st').

(** the loop L355-364 of _train_step *)
Fixpoint apply_updates (flags : list bool) (adams : list OS) (dparams : list G) (idx : nat) : result (list OS) :=
  match flags, adams with
  | f :: flags', s :: adams' =>
      if f then
        match nth_error dparams idx with
        | Some d => let* r := apply_updates flags' adams' dparams (S idx) in Ok (update d s :: r)
        | None => Err IndexError
        end
      else let* r := apply_updates flags' adams' dparams idx in Ok (s :: r)
  | _, _ => Ok []
  end.

(** what a training step carries: optimizer states, model state, model key *)
Definition carry : Type := list OS * MSt * Rng.

(** _train_step, L303-370 *)
Definition train_step (flags : list bool) (epoch : nat) (b : batch) (c : carry) : result carry :=
  let '(adams, st, rng) := c in
  let (new_rng, rng1) := split2 rng in
  let* (dparams, st') := grad_loss_fn flags epoch b true st rng1 (map ox adams) in
  let* adams' := apply_updates flags adams dparams 0 in
  Ok (adams', st', new_rng).

(** [batch_leaves(...) if data is not None else None] *)
Definition opt_tree {A B} (f : A -> result B) (o : option A) : result (option B) :=
  match o with Some a => let* b := f a in Ok (Some b) | None => Ok None end.
Definition get_batch (D : batch) (size idx : nat) (len : option nat) : result batch :=
  let '(X, Y, U) := D in
  let* x := batch_leaves X size idx len in
  let* y := opt_tree (fun t => batch_leaves t size idx len) Y in
  let* u := opt_tree (fun t => batch_leaves t size idx len) U in
  Ok (x, y, u).
(** L598-608 and L888-898: the three data trees permuted with one key *)
Definition shuffle (D : batch) (key : Rng) : result batch :=
  let '(X, Y, U) := D in
  let* x := random_permute_leaves perm (fun k _ => [k]) X key false in
  let* y := opt_tree (fun t => random_permute_leaves perm (fun k _ => [k]) t key false) Y in
  let* u := opt_tree (fun t => random_permute_leaves perm (fun k _ => [k]) t key false) U in
  Ok (x, y, u).

Definition num_rows (D : batch) : result nat := first_size (fst (fst D)).

(** the batches of one epoch, L907-975: the loop over the full batches and the
    remainder *)
Definition epoch_steps (flags : list bool) (batch_size : nat) (D : batch) (key : Rng) (epoch : nat) (c : carry)
  : result carry :=
  let* n := num_rows D in                                             (* L502 *)
  if batch_size =? 0 then Err ZeroDivisionError
  else
    let num := n / batch_size in                                      (* L504 *)
    let rem := n mod batch_size in                                    (* L506 *)
    let* D' := shuffle D key in
    let* c1 := rfold (fun c j => let* b := get_batch D' batch_size j None in
                                 train_step flags epoch b c) (seq 0 num) c in
    if 0 <? rem then
      let* b := get_batch D' batch_size num (Some rem) in
      train_step flags epoch b c1
    else Ok c1.

(** batched_val_loss_fn, L519-675 *)
Definition batched_val_loss (val_size : nat) (D : batch) (ps : list P) (st : MSt) (mrng key : Rng) (epoch : nat)
  : result F :=
  let* n := num_rows D in
  if val_size =? 0 then Err ZeroDivisionError
  else
    let num := n / val_size in
    let rem := n mod val_size in
    let total := num + (if 0 <? rem then 1 else 0) in                 (* L509 *)
    let* D' := shuffle D key in
    let* m := rfold (fun acc j => let* b := get_batch D' val_size j None in
                                  let* v := vloss epoch b st mrng ps in
                                  Ok (fadd acc (fdivn v total))) (seq 0 num) fzero in
    if 0 <? rem then
      let* b := get_batch D' val_size num (Some rem) in
      let* v := vloss epoch b st mrng ps in
      Ok (fadd m (fdivn v total))
    else Ok m.

(** the state of the epoch loop, L813-827 *)
Record tstate := mk_t {
  t_rng : Rng; t_epoch : nat; t_carry : carry; t_best : carry;
  t_val : F; t_best_val : F; t_best_epoch : nat; t_patience : Z }.

(** static arguments of _train; [kill e] is the value of [killer.kill_now] when
    the loop condition is evaluated with epoch counter [e]. *)
Record settings := mk_settings {
  c_flags : list bool; c_batch : nat; c_val_batch : nat; c_epochs : nat; c_target : F;
  c_patience : Z; c_delta : F; c_verbose : bool; c_kill : nat -> bool;
  c_callback : Rng -> nat -> list P -> Rng * list P }.

(** epoch_cond_fn, L829-861; the interrupt flag is only looked at in verbose mode *)
Definition epoch_cond (cf : settings) (t : tstate) : bool :=
  (if c_verbose cf then negb (c_kill cf (t_epoch t)) else true)
  && (t_epoch t <? c_epochs cf) && flt (c_target cf) (t_best_val t) && (0 <? t_patience t)%Z.

(** the training part and the validation of one epoch, L884-992 *)
Definition epoch_work (cf : settings) (D DV : batch) (rng : Rng) (epoch : nat) (c : carry)
  : result (Rng * carry * F) :=
  let (rng1, key1) := split2 rng in
  let* c1 := epoch_steps (c_flags cf) (c_batch cf) D key1 epoch c in
  let '(adams, st, mrng) := c1 in
  let (rng2, key2) := split2 rng1 in
  let* v := batched_val_loss (c_val_batch cf) DV (map ox adams) st mrng key2 epoch in
  Ok (rng2, c1, v).

(** the callback and the counters, L1034-1049 *)
Fixpoint zip_with {A B C} (f : A -> B -> C) (l : list A) (m : list B) : list C :=
  match l, m with a :: l', b :: m' => f a b :: zip_with f l' m' | _, _ => [] end.
Definition after_epoch (cf : settings) (rng : Rng) (epoch : nat) (c : carry) : Rng * carry :=
  let '(adams, st, mrng) := c in
  let (rng', ps) := c_callback cf rng epoch (map ox adams) in
  let adams1 := zip_with update_params_direct ps adams in
  (rng', (zip_with (fun (f : bool) s => increment_epoch (if f then 1 else 0) s) (c_flags cf) adams1, st, mrng)).

(** epoch_body_fn, L863-1065 *)
Definition epoch_body (cf : settings) (D DV : batch) (t : tstate) : result tstate :=
  let* (rv, v) := epoch_work cf D DV (t_rng t) (t_epoch t) (t_carry t) in
  let (rng, c) := rv in
  let improved := fle v (fsub (t_best_val t) (c_delta cf)) in        (* L996-998 *)
  let patience := if improved then c_patience cf else (t_patience t - 1)%Z in
  let '(bv, be, bc) :=                                              (* L1005-1025 *)
    if flt v (t_best_val t) then (v, t_epoch t, c) else (t_best_val t, t_best_epoch t, t_best t) in
  let (rng', c') := after_epoch cf rng (t_epoch t) c in
  Ok (mk_t rng' (t_epoch t + 1) c' bc v bv be patience).

(** [lax.while_loop]; the fuel is the number of epochs, which is enough *)
Fixpoint epoch_loop (fuel : nat) (cf : settings) (D DV : batch) (t : tstate) : result tstate :=
  if epoch_cond cf t then
    match fuel with
    | 0 => Err OutOfFuel
    | S fuel' => let* t' := epoch_body cf D DV t in epoch_loop fuel' cf D DV t'
    end
  else Ok t.

(** [jax.grad] and [jax.jacfwd] with no argument to differentiate by raise a
    ValueError when they are traced ([max(argnums)] of an empty list, [vmap] over
    nothing), and [lax.while_loop] traces its body whether it will be run or not
    (L1101-1103). *)
Definition traced (flags : list bool) : result unit :=
  match trainable_argnums flags with [] => Err ValueError | _ => Ok tt end.
(** _train, L397-1128; returns best optimizer states, model state and key,
    final epoch, best validation loss, best epoch *)
Definition train_loop (cf : settings) (D DV : batch) (batch_rng : Rng) (start_epoch : nat) (adams : list OS)
    (init_state : MSt) (init_rng : Rng) : result (carry * nat * F * nat) :=
  let (mrng, key) := split2 init_rng in                              (* L1068 *)
  let* v := batched_val_loss (c_val_batch cf) DV (map ox adams) init_state mrng key start_epoch in
  let c := (adams, init_state, mrng) in
  let* _ := traced (c_flags cf) in
  let* t := epoch_loop (c_epochs cf) cf D DV (mk_t batch_rng start_epoch c c v v start_epoch (c_patience cf)) in
  Ok (t_best t, t_epoch t, t_best_val t, t_best_epoch t).
End Train.
