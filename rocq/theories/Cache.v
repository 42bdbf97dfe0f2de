(** Model of the functions a model caches between calls: [Model.reset],
    [__call__], [grad_input], [grad_params], [train], [set_params], [set_state],
    [set_hyperparameters], [deserialize] and module edits, model.py L192-209,
    L510-955, L1093-1249, L1302-1500, L1546-1578, L1639-1742, and [compile] of
    SequentialModel (sequentialmodel.py L93-153) and NonSequentialModel
    (nonsequentialmodel.py L404-521).  All in /repo/parametricmatrixmodels.

    A module is a pair of what its [_get_callable] reads when the function is
    built (as modules/einsum.py L629 does) and what the function reads from the
    module object when it is traced (as modules/reshape.py does).  A jitted
    function keeps, per signature (shapes and types of the arguments), what it
    read when it was traced.  The numerical work is left out: an evaluation is
    described by the modules, parameters and state it uses.  Functions live in a
    store, so that the same function can be held by several slots. *)
From Verif Require Import Base.
Local Open Scope list_scope.

Section Cache.
Context {E L P S Sh Sg : Type}.
Definition modl := (E * L)%type.
(** external: [compile] of a module, which may change it even if it raises, with
    the output shape afterwards; [get_output_shape] of a module as it is; whether
    [len(output_shape) >= 1] *)
Record compiler := mk_compiler {
  compile_one : modl -> Sh -> modl * result Sh; shape_one : modl -> Sh -> result Sh; enough : Sh -> bool }.
(** external: equality of signatures and shapes, shape part of a signature,
    the size comparison of L705-716, readiness and compilation of one module *)
Context (sg_eqb : Sg -> Sg -> bool) (sh_eqb : Sh -> Sh -> bool) (shape_of : Sg -> Sh).
Context (fewer : Sh -> Sh -> bool) (ready1 : modl -> bool) (compile1 : compiler).

Inductive what := Value | GradInput (fwd : bool) | GradParams (fwd : bool).
Record fn := mk_fn { what_of : what; early : list E; traces : list (Sg * list L) }.
(** max_batch_size, avoid_recompilation *)
Definition opts := (option nat * bool)%type.
Definition opts_eqb (a b : opts) : bool :=
  (match fst a, fst b with Some m, Some n => Nat.eqb m n | None, None => true | _, _ => false end && Bool.eqb (snd a) (snd b))%bool.

Record model := mk_model {
  sequential : bool;
  mods : list modl; pars : P; sts : S;
  in_shape : option Sh; out_shape : option Sh;
  store : list fn;
  callable : option nat; auto : option (opts * nat);
  g_in : option (bool * nat); auto_in : option (opts * nat);
  g_par : option (bool * nat); auto_par : option (opts * nat) }.

(** L192-209 *)
Definition reset (m : model) : model :=
  mk_model (sequential m) (mods m) (pars m) (sts m) None None (store m) None None None None None None.
Definition set_mods (m : model) (ms : list modl) : model :=
  mk_model (sequential m) ms (pars m) (sts m) (in_shape m) (out_shape m) (store m) (callable m) (auto m) (g_in m) (auto_in m) (g_par m) (auto_par m).
Definition set_vals (m : model) (p : P) (s : S) : model :=
  mk_model (sequential m) (mods m) p s (in_shape m) (out_shape m) (store m) (callable m) (auto m) (g_in m) (auto_in m) (g_par m) (auto_par m).
Definition set_shapes (m : model) (i o : option Sh) : model :=
  mk_model (sequential m) (mods m) (pars m) (sts m) i o (store m) (callable m) (auto m) (g_in m) (auto_in m) (g_par m) (auto_par m).
Definition set_store (m : model) (st : list fn) : model :=
  mk_model (sequential m) (mods m) (pars m) (sts m) (in_shape m) (out_shape m) st (callable m) (auto m) (g_in m) (auto_in m) (g_par m) (auto_par m).

(** L157-165 *)
Definition is_ready (m : model) : bool :=
  (negb (match mods m with [] => true | _ => false end) && forallb ready1 (mods m) &&
   match in_shape m with Some _ => true | None => false end && match out_shape m with Some _ => true | None => false end)%bool.
(** L492-508 *)
Definition verify (m : model) (sg : Sg) : result unit :=
  if negb (is_ready m) then Err RuntimeError else
  match in_shape m with
  | Some s => if sh_eqb s (shape_of sg) then Ok tt else Err ValueError
  | None => Err RuntimeError
  end.

(** [_get_callable] and its transformations *)
Definition build (m : model) (w : what) : list fn * nat :=
  (store m ++ [mk_fn w (map fst (mods m)) []], length (store m)).
(** running a function: what it reads late comes from the modules when it is
    traced; a jitted function keeps that *)
Definition find_trace (f : fn) (sg : Sg) : option (list L) :=
  option_map snd (find (fun t => sg_eqb (fst t) sg) (traces f)).
Record event := mk_event { quantity : what; used : list modl; with_pars : P; with_sts : S }.
Definition exec (m : model) (jit : bool) (r : nat) (sg : Sg) : model * result event :=
  match nth_error (store m) r with
  | None => (m, Err RuntimeError)
  | Some f =>
      let now := map snd (mods m) in
      match (if jit then find_trace f sg else None) with
      | Some late => (m, Ok (mk_event (what_of f) (combine (early f) late) (pars m) (sts m)))
      | None =>
          ((if jit then set_store m (upd (store m) r (mk_fn (what_of f) (early f) (traces f ++ [(sg, now)]))) else m),
           Ok (mk_event (what_of f) (combine (early f) now) (pars m) (sts m)))
      end
  end.

(** [__call__], L568-618 *)
Definition call (m : model) (o : opts) (sg : Sg) : model * result event :=
  match verify m sg with
  | Err e => (m, Err e)
  | Ok _ =>
      let '(st, r) := match callable m with Some r => (store m, r) | None => build m Value end in
      let '(o', r') := match auto m with Some (o0, r0) => if opts_eqb o0 o then (o0, r0) else (o, r) | None => (o, r) end in
      let m' := mk_model (sequential m) (mods m) (pars m) (sts m) (in_shape m) (out_shape m) st (Some r) (Some (o', r')) (g_in m) (auto_in m) (g_par m) (auto_par m) in
      exec m' true r' sg
  end.
(** the part common to grad_input, L691-795, and grad_params, L868-935: the slots
    are the gradient function with its direction and the batched one *)
Definition grad_slots (m : model) (mk : bool -> what) (g : option (bool * nat)) (a : option (opts * nat)) (fwd : option bool) (o : opts)
  : list fn * (bool * nat) * (opts * nat) :=
  let fwd' := match g, fwd with
              | None, None => Some (match in_shape m, out_shape m with Some i, Some u => fewer i u | _, _ => false end)
              | _, _ => fwd
              end in
  let '(st, g') :=
    match g with
    | Some (b, r) =>
        match fwd' with
        | Some b' => if Bool.eqb b b' then (store m, (b, r)) else let '(st, r') := build m (mk b') in (st, (b', r'))
        | None => (store m, (b, r))
        end
    | None => let b' := match fwd' with Some b' => b' | None => false end in
              let '(st, r') := build m (mk b') in (st, (b', r'))
    end in
  let a' := match a with Some (o0, r0) => if opts_eqb o0 o then (o0, r0) else (o, snd g') | None => (o, snd g') end in
  (st, g', a').
Definition grad_input (m : model) (fwd : option bool) (o : opts) (sg : Sg) : model * result event :=
  match verify m sg with
  | Err e => (m, Err e)
  | Ok _ =>
      let '(st, g', a') := grad_slots m GradInput (g_in m) (auto_in m) fwd o in
      let m' := mk_model (sequential m) (mods m) (pars m) (sts m) (in_shape m) (out_shape m) st (callable m) (auto m) (Some g') (Some a') (g_par m) (auto_par m) in
      (* autobatch jits only to avoid recompilation, model_util.py L107-111 *)
      exec m' (snd (fst a')) (snd a') sg
  end.
Definition grad_params (m : model) (fwd : option bool) (o : opts) (sg : Sg) : model * result event :=
  match verify m sg with
  | Err e => (m, Err e)
  | Ok _ =>
      let '(st, g', a') := grad_slots m GradParams (g_par m) (auto_par m) fwd o in
      let m' := mk_model (sequential m) (mods m) (pars m) (sts m) (in_shape m) (out_shape m) st (callable m) (auto m) (g_in m) (auto_in m) (Some g') (Some a') in
      exec m' (snd (fst a')) (snd a') sg
  end.

(** compiling the modules one after another, sequentialmodel.py L134-147; on
    failure the modules before the failing one stay compiled.  A failing
    [get_output_shape] counts as part of the compilation of its module (its
    exception is not wrapped there) *)
Fixpoint compile_mods (ms : list modl) (s : Sh) : list modl * result Sh :=
  match ms with
  | [] => ([], Ok s)
  | x :: ms' =>
      match compile_one compile1 x s with
      | (x', Ok s') => let '(ms'', r) := compile_mods ms' s' in (x' :: ms'', r)
      | (x', Err _) => (x' :: ms', Err RuntimeError)
      end
  end.
(** [_get_shape_progression], nonsequentialmodel.py L440-442: the shape each module
    is given, from the modules as they are, and the output shape *)
Fixpoint shape_mods (ms : list modl) (s : Sh) : result (list Sh * Sh) :=
  match ms with
  | [] => Ok ([], s)
  | x :: ms' => let* s' := shape_one compile1 x s in let* r := shape_mods ms' s' in Ok (s :: fst r, snd r)
  end.
(** ... and compiling each for its shape, L483-521 *)
Fixpoint compile_for (ms : list modl) (ss : list Sh) : list modl * result unit :=
  match ms, ss with
  | x :: ms', s :: ss' =>
      match compile_one compile1 x s with
      | (x', Ok _) => let '(ms'', r) := compile_for ms' ss' in (x' :: ms'', r)
      | (x', Err _) => (x' :: ms', Err RuntimeError)
      end
  | _, _ => (ms, Ok tt)
  end.
(** [compile]; the new parameters and state are given.  A SequentialModel sets its
    output shape before it checks it (L147-153).  A NonSequentialModel that is ready
    only checks the shape (L409-430); otherwise it sets both shapes and checks the
    output (L438-450) before it compiles the modules, here in the order of the list
    (its execution order, modelled in NonSeq.v; connections that give none leave
    the model as it is) *)
Definition compile (m : model) (s : Sh) (p : P) (st : S) : model * result unit :=
  if (negb (sequential m) && is_ready m)%bool then
    (m, match in_shape m with Some s0 => if sh_eqb s0 s then Ok tt else Err AssertionError | None => Err AssertionError end)
  else if sequential m then
    let '(ms, r) := compile_mods (mods m) s in
    let m' := set_vals (set_mods m ms) p st in
    match r with
    | Ok out => (set_shapes m' (Some s) (Some out), if enough compile1 out then Ok tt else Err ValueError)
    | Err e => (set_shapes m' (Some s) (out_shape m), Err e)
    end
  else
    match shape_mods (mods m) s with
    | Err e => (set_shapes m (Some s) (out_shape m), Err e)
    | Ok (ss, out) =>
        let m1 := set_shapes m (Some s) (Some out) in
        if negb (enough compile1 out) then (m1, Err ValueError)
        else let '(ms, r) := compile_for (mods m) ss in (set_vals (set_mods m1 ms) p st, r)
    end.

Inductive action :=
| Edit (ms : list modl)                                   (* any of the editing methods, see Edit.v *)
| Deserialize (ms : list modl) (p : P) (s : S) (i o : option Sh)
| SetHyper (ms : option (list modl)) (i o : option Sh)
| Mutate (j : nat) (x : modl)                             (* changing a module object in place *)
| Compile (s : Sh) (p : P) (st : S)
| SetParams (p : P) | SetState (s : S)
| Train (sg : Sg) (p : P) (s : S)                         (* final parameters and state given *)
| Call (o : opts) (sg : Sg)
| GradIn (fwd : option bool) (o : opts) (sg : Sg)
| GradPar (fwd : option bool) (o : opts) (sg : Sg).

Definition quiet (x : model * result unit) : model * option event := (fst x, None).
Definition eventful (x : model * result event) : model * option event :=
  (fst x, match snd x with Ok e => Some e | Err _ => None end).
Definition step (m : model) (a : action) : model * option event :=
  match a with
  | Edit ms => (set_mods (reset m) ms, None)
  | Deserialize ms p s i o => (set_shapes (set_vals (set_mods (reset m) ms) p s) i o, None)
  | SetHyper ms i o => (set_shapes (match ms with Some ms => set_mods m ms | None => m end) i o, None)
  | Mutate j x => (set_mods m (upd (mods m) j x), None)
  | Compile s p st => quiet (compile m s p st)
  | SetParams p => (set_vals m p (sts m), None)
  | SetState s => (set_vals m (pars m) s, None)
  | Train sg p s =>
      match verify m sg with
      | Ok _ => (set_vals m p s, Some (mk_event Value (mods m) (pars m) (sts m)))   (* a new callable, L1113 *)
      | Err _ => (m, None)
      end
  | Call o sg => eventful (call m o sg)
  | GradIn f o sg => eventful (grad_input m f o sg)
  | GradPar f o sg => eventful (grad_params m f o sg)
  end.
(** a history: the model before each action with the action and the event *)
Fixpoint history (m : model) (l : list action) : list (model * action * option event) :=
  match l with
  | [] => []
  | a :: l' => let '(m', e) := step m a in (m, a, e) :: history m' l'
  end.
End Cache.
Arguments what : clear implicits.
Arguments model : clear implicits. Arguments event : clear implicits. Arguments action : clear implicits. Arguments fn : clear implicits. Arguments modl : clear implicits. Arguments compiler : clear implicits.
