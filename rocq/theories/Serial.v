(** Serialising and deserialising whole models
    (parametricmatrixmodels/model.py L1529-1742, L1756-1825,
    nonsequentialmodel.py L927-978).

    A model is a tree of modules, each of which may itself be a model.
    Simplifications:
    - class names and module names in the saved data (L1591-1598) are
      represented by the class itself, next to the serialised data of each
      module; all are produced by [jax.tree.map] over the same tree;
    - versions agree; the module name entries are not used when loading;
    - the random key and the optimiser states are opaque; the optimiser state
      is the list of its leaves (L1611-1620 flattens it, L1714-1717 rebuilds it
      with the structure of the parameters);
    - module states are (), as for all built-in modules (see Modules.v);
    - compiled functions are not part of the value: L1662 resets them. *)
From Verif Require Import Base TreeUtil Modules.
Local Open Scope string_scope.
Local Open Scope list_scope.
Local Open Scope nat_scope.

Inductive netkind := KSeq | KGraph.
Record fields := mk_fields {
  f_name : option string; f_rng : nat; f_opt : option (list pv);
  f_in : pv; f_out : pv;
  f_order : pv; f_conns : pv; f_sep : pv }.   (* the last three: graph models *)

Inductive mdl := Atom (c : cls) (o : obj) | Net (k : netkind) (f : fields) (ms : tree mdl).
(** Parameters of a model: a tree with the parameters of each module. *)
Inductive ptr := PA (p : pv) | PT (t : tree ptr).
Inductive sdat :=
| SAtom (c : cls) (d : sdata)
| SNet (k : netkind) (name : option string) (key : nat) (opt : option (list pv))
       (hyper : dict pv) (sms : tree sdat) (structure : tree unit) (params : ptr).

Section Map.
Context {X Y : Type} (f : X -> result Y).
(** [jax.tree.map(f, t)]: dictionary entries come back in sorted key order.
    (An exception is raised for the first failing entry in insertion order
    here, in sorted order in jax.) *)
Fixpoint jmapM (t : tree X) : result (tree Y) :=
  match t with
  | Leaf x => let* y := f x in Ok (Leaf y)
  | NoneT => Ok NoneT
  | Dict d =>
      let* e := (fix go d := match d with
                             | [] => Ok []
                             | (k, x) :: d' => let* y := jmapM x in let* e := go d' in Ok ((k, y) :: e)
                             end) d in
      Ok (Dict (sort_kvs e))
  | Lst l =>
      let* m := (fix go l := match l with
                             | [] => Ok []
                             | x :: l' => let* y := jmapM x in let* m := go l' in Ok (y :: m)
                             end) l in
      Ok (Lst m)
  | Tup l =>
      let* m := (fix go l := match l with
                             | [] => Ok []
                             | x :: l' => let* y := jmapM x in let* m := go l' in Ok (y :: m)
                             end) l in
      Ok (Tup m)
  end.
End Map.

Section Zip.
Context {X Y Z : Type} (f : X -> Y -> result Z).
(** [jax.tree.map(f, t, u)] where [u] has the same structure (otherwise
    ValueError) and [f] updates the leaves of [t] in place. *)
Fixpoint tzipM (t : tree X) (u : tree Y) {struct t} : result (tree Z) :=
  match t, u with
  | Leaf x, Leaf y => let* z := f x y in Ok (Leaf z)
  | NoneT, NoneT => Ok NoneT
  | Dict d, Dict e =>
      if length d =? length e then
        let* r := (fix go d := match d with
                               | [] => Ok []
                               | (k, x) :: d' =>
                                   match dget e k with
                                   | Some y => let* z := tzipM x y in let* r := go d' in Ok ((k, z) :: r)
                                   | None => Err ValueError
                                   end
                               end) d in
        Ok (Dict r)
      else Err ValueError
  | Lst l, Lst m =>
      let* r := (fix go l m := match l, m with
                               | [], [] => Ok []
                               | x :: l', y :: m' => let* z := tzipM x y in let* r := go l' m' in Ok (z :: r)
                               | _, _ => Err ValueError
                               end) l m in
      Ok (Lst r)
  | Tup l, Tup m =>
      let* r := (fix go l m := match l, m with
                               | [], [] => Ok []
                               | x :: l', y :: m' => let* z := tzipM x y in let* r := go l' m' in Ok (z :: r)
                               | _, _ => Err ValueError
                               end) l m in
      Ok (Tup r)
  | _, _ => Err ValueError
  end.
End Zip.

(** model.py L302: [jax.tree.map(lambda m: m.get_params(), self.modules)]. *)
Fixpoint params (m : mdl) : result ptr :=
  match m with
  | Atom c o => let* p := get_par c o in Ok (PA p)
  | Net _ _ ms => let* t := jmapM params ms in Ok (PT t)
  end.

(** model.py L328-335 (a tree of modules) and the modules' own set_params. *)
Fixpoint put_params (m : mdl) (p : ptr) {struct m} : result mdl :=
  match m, p with
  | Atom c o, PA v => let* o' := set_par c o v in Ok (Atom c o')
  | Net k f ms, PT t => let* ms' := tzipM put_params ms t in Ok (Net k f ms')
  | _, _ => Err ValueError
  end.

(** model.py L1538-1544, nonsequentialmodel.py L960-967. The entries "modules"
    (a tree with modules in it) and "rng" are never serialisable;
    "_optimizer_state" is left out here: when None it has no effect on loading
    (L1564-1565), and a state made of arrays is only set once more to what
    L1713-1724 have set already (its structure is that of the parameters). *)
Definition net_hyper (k : netkind) (f : fields) : dict pv :=
  match k with
  | KSeq => [("input_shape", f_in f); ("output_shape", f_out f)]
  | KGraph => [("execution_order", f_order f); ("connections", f_conns f); ("separator", f_sep f);
               ("input_shape", f_in f); ("output_shape", f_out f)]
  end.
(** model.py L1556-1563, nonsequentialmodel.py L970-978. *)
Definition net_set_hyper (k : netkind) (f : fields) (h : dict pv) : result fields :=
  let get key d := match dget h key with Some v => v | None => d end in
  match dget h "input_shape", dget h "output_shape" with
  | Some i, Some o =>
      Ok match k with
         | KSeq => mk_fields (f_name f) (f_rng f) (f_opt f) i o (f_order f) (f_conns f) (f_sep f)
         | KGraph => mk_fields (f_name f) (f_rng f) (f_opt f) i o
                       (get "execution_order" (f_order f)) (get "connections" (f_conns f)) (get "separator" (f_sep f))
         end
  | _, _ => Err KeyError
  end.

Section Serial.
Context (tower : bool).
(** [is_ready] of a graph model (nonsequentialmodel.py L339-370). *)
Context (graph_ready : fields -> tree mdl -> bool).

(** Model.serialize L1591-1637 with BaseModule.serialize of the model itself
    (its get_state raises RuntimeError for a graph model that is not ready,
    nonsequentialmodel.py L940-943). *)
Fixpoint save (m : mdl) : result sdat :=
  match m with
  | Atom c o => let* d := serialize tower c o in Ok (SAtom c d)
  | Net k f ms =>
      let* sms := jmapM save ms in
      let* st := jmapM (fun _ => Ok tt) ms in
      let* p := jmapM params ms in
      if match k with KSeq => true | KGraph => graph_ready f ms end then
        Ok (SNet k (f_name f) (f_rng f) (match f_opt f with Some (x :: l) => Some (x :: l) | _ => None end)
                 (filter (fun kv => serializable tower (snd kv)) (net_hyper k f)) sms st (PT p))
      else Err RuntimeError
  end.

(** Model.deserialize L1662-1741. The model starts out fresh: for graph models
    the separator is "." and the connections are the empty dictionary. *)
Definition fresh_fields (name : option string) (key : nat) (opt : option (list pv)) : fields :=
  mk_fields name key opt VNone VNone VNone (VDict []) (VStr ".").
Definition unit_eqb (_ _ : unit) : bool := true.
Fixpoint load (d : sdat) : result mdl :=
  match d with
  | SAtom c d => let* o := deserialize c (fresh c) d in Ok (Atom c o)
  | SNet k name key opt h sms st p =>
      let* ms := jmapM load sms in
      let* st' := jmapM (fun _ => Ok tt) ms in
      if tree_eqb unit_eqb st' st then
        let* f := net_set_hyper k (fresh_fields name key opt) h in
        match p with
        | PT NoneT => Ok (Net k f ms)             (* params None: not set *)
        | PT t => let* ms' := tzipM put_params ms t in Ok (Net k f ms')
        | PA _ => Err ValueError
        end
      else Err ValueError
  end.
End Serial.

(* ------------------------------------------------------------------ *)
(** * Files *)

(** np.savez turns each entry into an array, np.load and [tolist] (L1807-1812)
    turn it back. A list or tuple becomes an array whose axes are the nested
    sequence levels (numpy refuses ragged nesting with ValueError) down to the
    first non-sequence, which is kept as an object; tolist gives lists. *)
Fixpoint ashape {X} (t : tree X) : option (list nat) :=
  match t with
  | Lst l | Tup l =>
      match (fix go l := match l with
                         | [] => Some []
                         | x :: l' => match ashape x, go l' with
                                      | Some s, Some ss => Some (s :: ss)
                                      | _, _ => None
                                      end
                         end) l with
      | Some [] => Some [0]
      | Some (s :: ss) => if forallb (str_list_eqb s) ss then Some (length l :: s) else None
      | None => None
      end
  | _ => Some []
  end.
Fixpoint listify {X} (t : tree X) : tree X :=
  match t with
  | Lst l | Tup l => Lst (map listify l)
  | _ => t
  end.
Definition through_file {X} (t : tree X) : result (tree X) :=
  match ashape t with Some _ => Ok (listify t) | None => Err ValueError end.

(** L1744-1825: the tree entries go through the file; the structure, the
    parameters (inside the dictionary "self_serialized") and everything inside
    dictionaries are pickled and come back unchanged. *)
Section File.
Context (tower : bool) (graph_ready : fields -> tree mdl -> bool).
Definition save_load (m : mdl) : result mdl :=
  let* d := save tower graph_ready m in
  match d with
  | SNet k name key opt h sms st p => let* sms' := through_file sms in load (SNet k name key opt h sms' st p)
  | SAtom _ _ => Err AttributeError   (* only models have save and load *)
  end.
End File.
