(** Model of reaching modules by key or path, [Model.__getitem__] and
    [Model.__setitem__], and of readiness, [is_ready], [_get_all_unready_modules]
    and [_get_unready_reason], /repo/parametricmatrixmodels/model.py L157-190 and
    L1267-1337.
    Objects are values, i.e. no module or container occurs in two places (C103
    treats modules that do).  The keys of dictionaries may be any key, as in
    Python.  Slices, and tuples as entries of a path, are left out.  Of a model
    only its modules and whether its two shapes are set are kept; the rest that
    [reset] clears (L192-209) follows the shapes. *)
From Coq Require Import ZArith.
From Verif Require Import Base TreeUtil Edit.
Local Open Scope list_scope.

(** an entry of a path: a string, an integer, [None], or another hashable object
    such as the entries [DictKey('a')], [SequenceKey(0)] of the paths that
    [jax.tree_util] reports *)
Inductive key := KS (s : string) | KI (z : Z) | KN | KO (n : nat).
Definition key_eqb (a b : key) : bool :=
  match a, b with
  | KS s, KS t => String.eqb s t
  | KI x, KI y => Z.eqb x y
  | KN, KN => true
  | KO m, KO n => Nat.eqb m n
  | _, _ => false
  end.

(** a module (its number, whether it is ready), a model (whether input and output
    shape are set, its modules), or a container *)
Inductive node :=
| Mod (n : nat) (ready : bool)
| Mdl (i o : bool) (c : node)
| DictN (d : list (key * node))
| ListN (l : list node)
| TupN (l : list node).

(** Python dictionaries with such keys *)
Fixpoint klook (d : list (key * node)) (k : key) : option node :=
  match d with [] => None | (k', x) :: d' => if key_eqb k k' then Some x else klook d' k end.
Fixpoint kset (d : list (key * node)) (k : key) (x : node) : list (key * node) :=
  match d with [] => [(k, x)] | (k', y) :: d' => if key_eqb k k' then (k', x) :: d' else (k', y) :: kset d' k x end.

(** [curr[k]] for anything that is not a model: modules cannot be subscripted *)
Definition item (n : node) (k : key) : result node :=
  match n with
  | DictN d => match klook d k with Some x => Ok x | None => Err KeyError end
  | ListN l | TupN l => match k with KI z => py_get l z | _ => Err TypeError end
  | _ => Err TypeError
  end.
(** [curr[k] = x] likewise *)
Definition set_item (n : node) (k : key) (x : node) : result node :=
  match n with
  | DictN d => Ok (DictN (kset d k x))
  | ListN l => match k with KI z => let* l' := py_set l z x in Ok (ListN l') | _ => Err TypeError end
  | _ => Err TypeError
  end.

(** model.py L1267-1300 for a single key: the container must be of the kind that
    fits the key *)
Definition fits (c : node) (k : key) : result unit :=
  match k, c with
  | KS _, DictN _ => Ok tt
  | KI _, ListN _ | KI _, TupN _ => Ok tt
  | KS _, _ | KI _, _ => Err KeyError
  | _, _ => Err TypeError
  end.
(** [curr[k]] *)
Definition get1 (n : node) (k : key) : result node :=
  match n with
  | Mdl _ _ c => match k with KN => Ok c | _ => let* _ := fits c k in item c k end
  | _ => item n k
  end.
(** the loop of model.py L1274-1279 *)
Fixpoint getp (n : node) (p : list key) : result node :=
  match p with [] => Ok n | k :: p' => let* n' := get1 n k in getp n' p' end.

(** [self.reset()], model.py L192-209 *)
Definition reset (n : node) : node := match n with Mdl _ _ c => Mdl false false c | _ => n end.
(** what [model[None] = x] stores, model.py L1308-1312 *)
Definition wrapped (x : node) : node := match x with Mod _ _ | Mdl _ _ _ => ListN [x] | _ => x end.
(** [curr[k] = x], model.py L1302-1337 if [curr] is a model; the second component
    tells whether it was refused *)
Definition set1 (n : node) (k : key) (x : node) : node * result unit :=
  match n with
  | Mdl i o c =>
      match k with
      | KN => (Mdl false false (wrapped x), Ok tt)
      | _ => match (let* _ := fits c k in set_item c k x) with
             | Ok c' => (Mdl false false c', Ok tt)
             | Err e => (Mdl false false c, Err e)
             end
      end
  | _ => match set_item n k x with Ok n' => (n', Ok tt) | Err e => (n, Err e) end
  end.
(** the object that [curr[k]] returned was changed to [x] *)
Definition change_item (n : node) (k : key) (x : node) : node :=
  match n, k with
  | DictN d, _ => DictN (kset d k x)
  | ListN l, KI z => match py_set l z x with Ok l' => ListN l' | Err _ => n end
  | TupN l, KI z => match py_set l z x with Ok l' => TupN l' | Err _ => n end
  | _, _ => n
  end.
Definition change (n : node) (k : key) (x : node) : node :=
  match n with
  | Mdl i o c => match k with KN => Mdl i o x | _ => Mdl i o (change_item c k x) end
  | _ => change_item n k x
  end.
(** model.py L1314-1319: down to the last but one entry, then an assignment *)
Fixpoint setp (n : node) (p : list key) (x : node) : node * result unit :=
  match p with
  | [] => (n, Err IndexError)
  | [k] => set1 n k x
  | k :: p' =>
      match get1 n k with
      | Ok n' => let '(n'', r) := setp n' p' x in (change n k n'', r)
      | Err e => (n, Err e)
      end
  end.

(** [model[path]] and [model[path] = x] for tuples, model.py L1274-1279, L1307-1319 *)
Definition get_path (i o : bool) (c : node) (p : list key) : result node := getp c p.
Definition set_path (i o : bool) (c : node) (p : list key) (x : node) : node * result unit :=
  let '(c', r) := setp c p x in (Mdl false false c', r).

(** *** Readiness *)
(** [jax.tree.leaves(self.modules)]; the entries of dictionaries in the order of
    insertion, since only membership matters here *)
Fixpoint leaves (n : node) : list node :=
  match n with
  | Mod _ _ | Mdl _ _ _ => [n]
  | DictN d => flat_map (fun kv => leaves (snd kv)) d
  | ListN l | TupN l => flat_map leaves l
  end.
(** [is_ready] of modules and models, model.py L157-165; for a container: of all
    its leaves *)
Fixpoint is_ready (n : node) : bool :=
  match n with
  | Mod _ r => r
  | Mdl i o c => (Nat.ltb 0 (length (leaves c)) && is_ready c && i && o)%bool
  | DictN d => forallb (fun kv => is_ready (snd kv)) d
  | ListN l | TupN l => forallb is_ready l
  end.
(** model.py L167-172 *)
Definition unready_modules (c : node) : list node := filter (fun m => negb (is_ready m)) (leaves c).
(** the five messages of model.py L174-190 *)
Inductive reason := NoModules | Unready (l : list node) | NoInput | NoOutput | Unknown.
Definition unready_reason (i o : bool) (c : node) : reason :=
  if Nat.eqb (length (leaves c)) 0 then NoModules else
  if Nat.ltb 0 (length (unready_modules c)) then Unready (unready_modules c) else
  if negb i then NoInput else if negb o then NoOutput else Unknown.

(** A graph model, nonsequentialmodel.py L339-374: the execution order (if there is
    one) as the modules it names; that these paths lead to modules of the model is
    C07-C09.  The reason is inherited. *)
Definition graph_ready (order : option (list node)) (i o : bool) : bool :=
  match order with None => false | Some ms => (forallb is_ready ms && i && o)%bool end.
