(** How gradients are taken: forward or reverse (parametricmatrixmodels/model.py
    L192-207, L633-956, training.py L1608-1622), and which kinds of numbers jax
    allows for it.

    Simplifications: of arrays only the data types matter; the shapes of a model
    are trees of lists of sizes; jit and the contents of the functions are left
    out (Cache.v, Grad.v). The rules of jax ([jax.jacfwd], [jax.jacrev]
    and [jax.grad] without [holomorphic=True]) are those of its documentation and
    sources; they are not part of the repository. *)
From Verif Require Import Base TreeUtil NonSeqSpec Precision.
Local Open Scope list_scope.

(** [jax.tree.reduce(get_num_elems, shape, initializer=0)], L700-709, L878-887:
    jax looks into tuples, so [get_num_elems] gets the sizes one by one, and
    [onp.prod] of a number is that number. *)
Definition num_elems (t : tree (list nat)) : nat := fold_left (fun count n => count + n) (concat (leaves t)) 0.
(** L714, L892. *)
Definition fewer (i o : tree (list nat)) : bool := num_elems i <? num_elems o.

Definition real (d : dtype) : bool := match d with DFloat _ => true | _ => false end.
Definition inexact (d : dtype) : bool := match d with DFloat _ | DComplex _ => true | _ => false end.
(** [jax.jacfwd]: all numbers it differentiates by must be real, and there must
    be some. *)
Definition jacfwd (arg : list dtype) : result unit :=
  if forallb real arg then match arg with [] => Err ValueError | _ => Ok tt end else Err TypeError.
(** [jax.jacrev]: floating-point arguments and real results. *)
Definition jacrev (arg out : list dtype) : result unit :=
  if forallb inexact arg && forallb real out then Ok tt else Err TypeError.
Definition differentiate (fwd : bool) (arg out : list dtype) : result unit := if fwd then jacfwd arg else jacrev arg out.

Section Calls.
Context {O : Type} (opts_eqb : O -> O -> bool).
(** [grad_callable_params] and [autobatched_grad_callable_params] with their
    options, or the two for inputs: the direction they go. *)
Record slots := mk_slots { g : option bool; auto : option (O * bool) }.
(** L196-207 [reset]. *)
Definition fresh : slots := mk_slots None None.
(** L703-814 and L881-942, for a ready model with these shapes, by arguments of
    these types, with results of these types. *)
Definition gradient (i o : tree (list nat)) (arg out : list dtype) (s : slots) (fwd : option bool) (opts : O) : slots * result unit :=
  let fwd' := match g s, fwd with None, None => Some (fewer i o) | _, _ => fwd end in     (* L703-714 *)
  let b := match g s, fwd' with
           | Some b, None => b
           | _, Some b' => b'                                                              (* L717-760 *)
           | None, None => false                                                           (* does not happen *)
           end in
  let a := match auto s with
           | Some (o0, b0) => if opts_eqb o0 opts then (o0, b0) else (opts, b)             (* L774-797 *)
           | None => (opts, b)
           end in
  (mk_slots (Some b) (Some a), differentiate (snd a) arg out).
Fixpoint gradients (i o : tree (list nat)) (arg out : list dtype) (s : slots) (l : list (option bool * O)) : list (result unit) :=
  match l with
  | [] => []
  | (fwd, opts) :: l' => let (s', r) := gradient i o arg out s fwd opts in r :: gradients i o arg out s' l'
  end.
End Calls.

(** The gradient of the loss in a training, training.py L1608-1622 (the loss is
    a real number): [jax.grad] is reverse; without anything to differentiate by
    it raises ValueError (Train.v). *)
Fixpoint chosen {A} (flags : list bool) (l : list A) : list A :=
  match flags, l with
  | b :: flags', a :: l' => if b then a :: chosen flags' l' else chosen flags' l'
  | _, _ => []
  end.
Definition train_gradient (fwd : bool) (flags : list bool) (params : list dtype) : result unit :=
  match chosen flags params with
  | [] => Err ValueError
  | l => if fwd then jacfwd l else jacrev l [DFloat 32]
  end.
