(** What it means for a model to come back from serialisation. *)
From Coq Require Import Permutation.
From Verif Require Import Base TreeUtil TreeSpec NonSeqSpec Modules ModulesSpec Serial.

(** Two trees with related leaves; dictionaries may list their entries in
    different orders. *)
Inductive trel {X Y} (R : X -> Y -> Prop) : tree X -> tree Y -> Prop :=
| tr_leaf x y : R x y -> trel R (Leaf x) (Leaf y)
| tr_none : trel R NoneT NoneT
| tr_lst l m : Forall2 (trel R) l m -> trel R (Lst l) (Lst m)
| tr_tup l m : Forall2 (trel R) l m -> trel R (Tup l) (Tup m)
| tr_dict d e e' : Permutation e' e ->
    Forall2 (fun a b => fst a = fst b /\ trel R (snd a) (snd b)) d e' ->
    trel R (Dict d) (Dict e).

(** Same name, random key, optimiser states, shapes and (graph models)
    execution order, connections and separator. *)
Definition opt_leaves (f : fields) : list pv := match f_opt f with Some l => l | None => [] end.
Definition same_fields (k : netkind) (f f' : fields) : Prop :=
  f_name f = f_name f' /\ f_rng f = f_rng f' /\ opt_leaves f = opt_leaves f' /\
  f_in f = f_in f' /\ f_out f = f_out f' /\
  (k = KGraph -> f_order f = f_order f' /\ f_conns f = f_conns f' /\ f_sep f = f_sep f').

(** Same classes, same attributes in every module, at every depth. *)
Inductive msame : mdl -> mdl -> Prop :=
| ms_atom c o o' : same_obj o o' -> msame (Atom c o) (Atom c o')
| ms_net k f f' ms ms' : same_fields k f f' -> trel msame ms ms' -> msame (Net k f ms) (Net k f' ms').

(** A module whose own parameters can be set again, on itself or on an equal
    object, with no change. *)
Definition settled (c : cls) (o : obj) : Prop :=
  exists p, get_par c o = Ok p /\
    forall o1, same_obj o o1 -> exists o2, set_par c o1 p = Ok o2 /\ same_obj o o2.

(** Models all of whose modules copy and are settled, whose shapes are trees of
    integers (or None), whose graph data are trees of strings and (graph
    models) which are ready, at every depth. *)
Inductive good (tower : bool) (ready : fields -> tree mdl -> bool) : mdl -> Prop :=
| good_atom c o : copies tower c o -> settled c o -> good tower ready (Atom c o)
| good_net k f ms :
    wf_tree ms -> (forall m, has_leaf ms m -> good tower ready m) ->
    leaves_are is_int (f_in f) -> leaves_are is_int (f_out f) ->
    (k = KGraph -> ready f ms = true /\ leaves_are is_str (f_order f) /\
                   leaves_are is_str (f_conns f) /\ leaves_are is_str (f_sep f)) ->
    good tower ready (Net k f ms).

(** A nested list of the given shape; whatever is not a list or a tuple is an
    entry. *)
Inductive array_of {X} : list nat -> tree X -> Prop :=
| ar_leaf x : array_of [] (Leaf x)
| ar_none : array_of [] NoneT
| ar_dict d : array_of [] (Dict d)
| ar_lst s l : Forall (array_of s) l -> array_of (length l :: s) (Lst l).
