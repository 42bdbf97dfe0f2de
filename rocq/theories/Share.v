(** Modules are objects: models hold references to them, so a module can occur
    in several models or several times in one. Methods of models that change
    modules: parametricmatrixmodels/model.py L85-95, L281-334, L1031-1249,
    L1581-1725, sequentialmodel.py L96-150, modules/basemodule.py L916-951.

    Simplifications: those of Params.v except the last but one ("no sharing");
    a module object is a value of [M], replaced as a whole by the methods of the
    module (no module changes its attributes in place); the trees of modules
    are not edited here (Edit.v); models as modules are sequential. *)
From Verif Require Import Base TreeUtil NonSeqSpec Params.
Local Open Scope list_scope.

(** The calls of [f] for the leaves of [t] with their parts of [u]
    ([jax.tree.map] for the effects), until one raises an exception. *)
Section Walk.
Context {X Y H : Type} (f : X -> tree Y -> H -> H * result unit).
Fixpoint hwalk (t : tree X) (u : tree Y) (h : H) {struct t} : H * result unit :=
  match t, u with
  | Leaf x, _ => f x u h
  | Dict d, Dict e =>
      (fix go d h := match d with
                     | [] => (h, Ok tt)
                     | (k, x) :: d' =>
                         match dget e k with
                         | Some y => let (h', r) := hwalk x y h in
                                     match r with Ok _ => go d' h' | Err e => (h', Err e) end
                         | None => (h, Err ValueError)
                         end
                     end) d h
  | Lst l, Lst m | Tup l, Tup m =>
      (fix go l m h := match l, m with
                       | x :: l', y :: m' => let (h', r) := hwalk x y h in
                                             match r with Ok _ => go l' m' h' | Err e => (h', Err e) end
                       | _, _ => (h, Ok tt)
                       end) l m h
  | _, _ => (h, Ok tt)
  end.
End Walk.
(** [jax.tree.map(f, t)] where [f] has an effect. *)
Section Map.
Context {X Y H : Type} (f : X -> H -> result (Y * H)).
Fixpoint smap (t : tree X) (h : H) {struct t} : result (tree Y * H) :=
  match t with
  | Leaf x => let* (y, h') := f x h in Ok (Leaf y, h')
  | NoneT => Ok (NoneT, h)
  | Dict d =>
      let* (e, h') := (fix go d h := match d with
                                     | [] => Ok ([], h)
                                     | (k, x) :: d' => let* (y, h1) := smap x h in let* (e, h2) := go d' h1 in Ok ((k, y) :: e, h2)
                                     end) d h in
      Ok (Dict e, h')
  | Lst l =>
      let* (m, h') := (fix go l h := match l with
                                     | [] => Ok ([], h)
                                     | x :: l' => let* (y, h1) := smap x h in let* (m, h2) := go l' h1 in Ok (y :: m, h2)
                                     end) l h in
      Ok (Lst m, h')
  | Tup l =>
      let* (m, h') := (fix go l h := match l with
                                     | [] => Ok ([], h)
                                     | x :: l' => let* (y, h1) := smap x h in let* (m, h2) := go l' h1 in Ok (y :: m, h2)
                                     end) l h in
      Ok (Tup m, h')
  end.
End Map.

Section Share.
Context {M P Rng Sh : Type}.
Variable m_get : M -> tree P.
Variable m_set : M -> tree P -> M * result unit.
Variable m_train : M -> bool.
Variable m_freeze : bool -> M -> M.
(** [compile] and [get_output_shape] of a module. *)
Variable m_compile : M -> Rng -> Sh -> M * result unit.
Variable m_out : M -> Sh -> result Sh.
(** [len(output_shape) >= 1], sequentialmodel.py L149-153. *)
Variable wide : Sh -> bool.
Variable split : Rng -> Rng * Rng.
(** [copy] of a module, basemodule.py L916-930. *)
Variable m_copy : M -> result M.

(** The module objects, by reference. *)
Definition heap : Type := nat -> M.
Definition upd (h : heap) (r : nat) (x : M) : heap := fun s => if Nat.eqb s r then x else h s.
(** A model with its modules in place of the references. *)
Fixpoint view (h : heap) (m : net nat) : net M :=
  match m with Atom r => Atom (h r) | Nest t => Nest (tsub (fun x => Leaf (view h x)) t) end.

(** [get_params], model.py L302. *)
Fixpoint hget (h : heap) (m : net nat) : tree P := match m with Atom r => m_get (h r) | Nest t => tsub (fun x => hget h x) t end.
(** [set_params], model.py L325-334. *)
Fixpoint hput (m : net nat) (p : tree P) (h : heap) {struct m} : heap * result unit :=
  match m with
  | Atom r => let (x, e) := m_set (h r) p in (upd h r x, e)
  | Nest t => if prefix t p then hwalk (fun x q h => hput x q h) t p h else (h, Err ValueError)
  end.
(** The setter of [trainable], L92-95. *)
Fixpoint hfreeze (b : bool) (m : net nat) (h : heap) {struct m} : heap :=
  match m with
  | Atom r => upd h r (m_freeze b (h r))
  | Nest t => fold_left (fun h f => f h) (leaves (tsub (fun x => Leaf (fun h => hfreeze b x h)) t)) h
  end.
(** [compile], sequentialmodel.py L123-153, with the shape it arrives at. *)
Fixpoint hcompile (m : net nat) (rng : Rng) (s : Sh) (h : heap) {struct m} : heap * result Sh :=
  match m with
  | Atom r => let (x, e) := m_compile (h r) rng s in
              (upd h r x, match e with Ok _ => m_out x s | Err e => Err e end)
  | Nest t =>
      let '(_, h', e) :=
        fold_left (fun (st : Rng * heap * result Sh) (f : Rng -> Sh -> heap -> heap * result Sh) =>
                     let '(rng, h, e) := st in
                     match e with
                     | Ok s => let (rng', k) := split rng in let (h', e') := f k s h in (rng', h', e')
                     | Err _ => st
                     end)
                  (leaves (tsub (fun x => Leaf (fun rng s h => hcompile x rng s h)) t)) (rng, h, Ok s) in
      (h', match e with Ok s => if wide s then Ok s else Err ValueError | Err e => Err e end)
  end.
(** [train], L1190-1245, see Params.v. *)
Definition htrain (train : tree (bool * P) -> result (tree P)) (t : tree (net nat)) (h : heap) : heap * result unit :=
  match train (flagged m_get m_train (tsub (fun x => Leaf (view h x)) t)) with
  | Ok p => hput (Nest t) p h
  | Err e => (h, Err e)
  end.

Inductive op :=
| OSet (m : net nat) (p : tree P) | OFreeze (b : bool) (m : net nat) | OCompile (m : net nat) (rng : Rng) (s : Sh)
| OTrain (train : tree (bool * P) -> result (tree P)) (t : tree (net nat)).
Definition op_model (o : op) : net nat :=
  match o with OSet m _ | OFreeze _ m | OCompile m _ _ => m | OTrain _ t => Nest t end.
(** Exceptions are caught by the caller. *)
Definition step (h : heap) (o : op) : heap :=
  match o with
  | OSet m p => fst (hput m p h)
  | OFreeze b m => hfreeze b m h
  | OCompile m rng s => fst (hcompile m rng s h)
  | OTrain train t => fst (htrain train t h)
  end.
Definition run (h : heap) (l : list op) : heap := fold_left step l h.

(** [copy], basemodule.py L916-930 with model.py L1581-1725: new modules are
    made for all places (L1682-1697); the references from [snd] on are free. *)
Fixpoint hcopy (m : net nat) (st : heap * nat) {struct m} : result (net nat * (heap * nat)) :=
  match m with
  | Atom r => let* x := m_copy (fst st r) in Ok (Atom (snd st), (upd (fst st) (snd st) x, S (snd st)))
  | Nest t => let* (t', st') := smap (fun x st => hcopy x st) t st in Ok (Nest t', st')
  end.
End Share.
Arguments OSet {P Rng Sh}. Arguments OFreeze {P Rng Sh}. Arguments OCompile {P Rng Sh}. Arguments OTrain {P Rng Sh}. Arguments op_model {P Rng Sh}.
