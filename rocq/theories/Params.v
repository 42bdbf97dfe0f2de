(** The parameters of models: /repo/parametricmatrixmodels/model.py L85-95,
    L147-155, L281-334, L1186-1264; modules/basemodule.py L45-78, L222-249,
    L931-951.

    Simplifications:
    - a module that is not a model is any type [M] with its own methods;
      [m_set] returns the module after the call also if it raised an exception;
    - dictionaries of modules are listed in the order of their keys (these
      functions reach them only through jax, which sorts);
    - a model occurs once (no sharing of modules);
    - training itself is a function of the parameters with their flags, see Train.v. *)
From Verif Require Import Base TreeUtil NonSeqSpec.
Local Open Scope list_scope.

(** A module or a model (of modules and models). *)
Inductive net (M : Type) := Atom (m : M) | Nest (t : tree (net M)).
Arguments Atom {M}. Arguments Nest {M}.

Section Sub.
Context {X Y : Type} (f : X -> tree Y).
(** [jax.tree.map(f, t)] where [f] returns trees. *)
Fixpoint tsub (t : tree X) : tree Y :=
  match t with
  | Leaf x => f x
  | NoneT => NoneT
  | Dict d => Dict (map (fun kv => (fst kv, tsub (snd kv))) d)
  | Lst l => Lst (map tsub l)
  | Tup l => Tup (map tsub l)
  end.
End Sub.
Section Trees.
Context {X Y : Type}.
(** The structure of [t] is a prefix of that of [u]. *)
Fixpoint prefix (t : tree X) (u : tree Y) {struct t} : bool :=
  match t, u with
  | Leaf _, _ => true
  | NoneT, NoneT => true
  | Dict d, Dict e =>
      (length d =? length e) &&
      (fix go d := match d with
                   | [] => true
                   | (k, x) :: d' => match dget e k with Some y => prefix x y && go d' | None => false end
                   end) d
  | Lst l, Lst m | Tup l, Tup m =>
      (fix go l m := match l, m with
                     | [], [] => true
                     | x :: l', y :: m' => prefix x y && go l' m'
                     | _, _ => false
                     end) l m
  | _, _ => false
  end.
Context (f : X -> tree Y -> X * result unit).
(** The calls of [f] for the leaves of [t], one after the other, until one
    raises an exception. *)
Fixpoint walk (t : tree X) (u : tree Y) {struct t} : tree X * result unit :=
  match t, u with
  | Leaf x, _ => let (x', r) := f x u in (Leaf x', r)
  | Dict d, Dict e =>
      let (d', r) := (fix go d := match d with
                                  | [] => ([], Ok tt)
                                  | (k, x) :: d' =>
                                      match dget e k with
                                      | Some y => let (x', r) := walk x y in
                                                  match r with
                                                  | Ok _ => let (d'', r') := go d' in ((k, x') :: d'', r')
                                                  | Err e => ((k, x') :: d', Err e)
                                                  end
                                      | None => (d, Err ValueError)
                                      end
                                  end) d in
      (Dict d', r)
  | Lst l, Lst m =>
      let (l', r) := (fix go l m := match l, m with
                                    | x :: l', y :: m' => let (x', r) := walk x y in
                                                          match r with
                                                          | Ok _ => let (l'', r') := go l' m' in (x' :: l'', r')
                                                          | Err e => (x' :: l', Err e)
                                                          end
                                    | _, _ => (l, Ok tt)
                                    end) l m in
      (Lst l', r)
  | Tup l, Tup m =>
      let (l', r) := (fix go l m := match l, m with
                                    | x :: l', y :: m' => let (x', r) := walk x y in
                                                          match r with
                                                          | Ok _ => let (l'', r') := go l' m' in (x' :: l'', r')
                                                          | Err e => (x' :: l', Err e)
                                                          end
                                    | _, _ => (l, Ok tt)
                                    end) l m in
      (Tup l', r)
  | _, _ => (t, Ok tt)
  end.
End Trees.

Section Params.
Context {M P : Type}.
(** [get_params], [set_params], [trainable] and its setter,
    [get_num_trainable_floats] of a module. *)
Variable m_get : M -> tree P.
Variable m_set : M -> tree P -> M * result unit.
Variable m_train : M -> bool.
Variable m_freeze : bool -> M -> M.
Variable m_count : M -> option nat.

(** [get_params], model.py L302. *)
Fixpoint get (m : net M) : tree P := match m with Atom a => m_get a | Nest t => tsub (fun x => get x) t end.
(** [set_params], model.py L325-334: the structure of the modules must be a
    prefix of that of the parameters. *)
Fixpoint put (m : net M) (p : tree P) {struct m} : net M * result unit :=
  match m with
  | Atom a => let (a', r) := m_set a p in (Atom a', r)
  | Nest t => if prefix t p then let (t', r) := walk (fun x q => put x q) t p in (Nest t', r) else (m, Err ValueError)
  end.
(** [trainable], model.py L86-90. *)
Fixpoint trainable (m : net M) : bool :=
  match m with Atom a => m_train a | Nest t => existsb (fun b : bool => b) (leaves (tsub (fun x => Leaf (trainable x)) t)) end.
(** The setter of [trainable], model.py L92-95 ([freeze], [unfreeze]: basemodule.py L931-951). *)
Fixpoint set_trainable (b : bool) (m : net M) : net M :=
  match m with Atom a => Atom (m_freeze b a) | Nest t => Nest (tsub (fun x => Leaf (set_trainable b x)) t) end.
(** [get_trainable_modules], model.py L1259-1264, one entry. *)
Definition is_trainable (m : net M) : bool := trainable m && match leaves (get m) with [] => false | _ => true end.
(** L1197-1199: the flags of the modules, broadcast to their parameters
    ([jax.tree.broadcast]); kept beside the parameters here. *)
Definition flagged (t : tree (net M)) : tree (bool * P) := tsub (fun m => tmap (fun p => (is_trainable m, p)) (get m)) t.
(** [train], L1190-1245 as far as parameters are concerned. *)
Definition train_model (train : tree (bool * P) -> result (tree P)) (t : tree (net M)) : net M * result unit :=
  match train (flagged t) with
  | Ok p => put (Nest t) p
  | Err e => (Nest t, Err e)
  end.

(** [get_num_trainable_floats], model.py L147-155. *)
Fixpoint total (l : list (option nat)) : option nat :=
  match l with
  | [] => Some 0
  | Some n :: l' => match total l' with Some s => Some (n + s) | None => None end
  | None :: _ => None
  end.
Fixpoint count (m : net M) : option nat := match m with Atom a => m_count a | Nest t => total (leaves (tsub (fun x => Leaf (count x)) t)) end.
End Params.

(** [get_num_trainable_floats] of a module that does not define its own,
    basemodule.py L233-244: [size] and [is_complex] of an array. *)
Definition base_count {M P} (ready : M -> bool) (m_get : M -> tree P) (size : P -> nat) (is_complex : P -> bool) (m : M) : option nat :=
  if ready m then Some (fold_left (fun s p => s + (if is_complex p then 2 else 1) * size p) (leaves (m_get m)) 0) else None.
