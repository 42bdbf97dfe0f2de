(** Gradients of models: /repo/parametricmatrixmodels/model.py L633-956.

    Simplifications:
    - parameters, training flag ([False]) and random key are fixed: they are
      passed unchanged to every call;
    - [jax.jacfwd]/[jax.jacrev] are function arguments; they give the same
      values and are not distinguished here (see Cache.v for which of them is used);
    - as everywhere in Batch.v, an array of data is the list of its rows. *)
From Verif Require Import Base TreeUtil NonSeqSpec Batch NdArray.
Local Open Scope list_scope.

(** [jnp.stack]: what vmap does with the results for the samples, for an array. *)
Definition stack {V} (l : list (arr V)) : result (arr V) :=
  match l with
  | [] => Err ValueError
  | a :: _ => if forallb (fun b => if list_eq_dec Nat.eq_dec (shp b) (shp a) then true else false) l
              then Ok (mk_arr (length l :: shp a) (flat_map dat l)) else Err TypeError
  end.
(** Row [i] of every array. *)
Definition sample_at {S} (X : tree (list S)) (i : nat) : result (tree S) :=
  tmapA (fun x => match nth_error x i with Some r => Ok r | None => Err IndexError end) X.
(** The trees for all samples as one tree; they must have the same structure. *)
Definition together {A} (ts : list (tree A)) : result (tree (list A)) := concatenate (map (tmap (fun a => [a])) ts).

Section Inputs.
Context {S O J V : Type}.
Notation St := (tree (arr V)).
(** [self._get_callable()] *)
Variable raw : tree (list S) -> St -> result (tree (list O) * St).
(** [jax.jacfwd], [jax.jacrev] of a function of one sample *)
Variable jac : (tree S -> result (tree O)) -> tree S -> result (tree J).

(** [callable_single], L737-757, with [remove_batch_dim], L734-735 *)
Definition callable_single (st : St) (x : tree S) : result (tree O * St) :=
  let* (y, st') := raw (tmap (fun u => [u]) x) st in
  let* y0 := tmapA (fun u => match nth_error u 0 with Some r => Ok r | None => Err IndexError end) y in
  Ok (y0, st').
(** L759-766, with [has_aux=True]: the state is handed through *)
Definition grad_single (st : St) (x : tree S) : result (tree J * St) :=
  let* r := callable_single st x in
  let* g := jac (fun x' => let* r := callable_single st x' in Ok (fst r)) x in
  Ok (g, snd r).
(** L767-769: [jax.vmap] over the samples. Both results, the gradient and the
    state, are stacked along a new axis 0 ([out_axes] is 0 for everything). An
    empty axis is a ValueError here. *)
Definition grad_callable_inputs (X : tree (list S)) (st : St) : result (tree (list J) * St) :=
  let* n := first_size X in
  if forallb (fun x => length x =? n) (leaves X) then
    let* rs := rmapM (fun i => let* x := sample_at X i in grad_single st x) (seq 0 n) in
    let* g := together (map fst rs) in
    let* s := together (map snd rs) in
    let* s' := tmapA stack s in
    Ok (g, s')
  else Err ValueError.
(** [grad_input], L777-813; with [return_state=True] *)
Definition grad_input (scalar_row : S -> bool) (max_batch_size : option nat) (avoid_recompilation : bool) (X : tree (list S)) (st : St) :=
  autobatch grad_callable_inputs scalar_row max_batch_size avoid_recompilation X st.
End Inputs.

Section Params.
Context {P S O J St : Type}.
Variable raw : P -> tree (list S) -> St -> result (tree (list O) * St).
Variable jac : (P -> result (tree (list O))) -> P -> result (tree (list J)).
(** L897-911 *)
Definition grad_callable_params (p : P) (X : tree (list S)) (st : St) : result (tree (list J) * St) :=
  let* r := raw p X st in
  let* g := jac (fun p' => let* r := raw p' X st in Ok (fst r)) p in
  Ok (g, snd r).
(** [grad_params], L913-956 *)
Definition grad_params (scalar_row : S -> bool) (max_batch_size : option nat) (avoid_recompilation : bool) (p : P) (X : tree (list S)) (st : St) :=
  autobatch (grad_callable_params p) scalar_row max_batch_size avoid_recompilation X st.
End Params.
