(** Specification of the order of modules in a container and of their
    composition. *)
From Verif Require Import Base TreeUtil TreeSpec NonSeqSpec.
Local Open Scope list_scope.

(** The position [p] comes before [q] in [t]: at the node where they part the
    key of [p] is smaller: by number in lists and tuples, by string order
    (code points) in dictionaries. *)
Inductive str_before : string -> string -> Prop :=
| sb_end c s : str_before EmptyString (String c s)
| sb_chr c d s t : nat_of_ascii c < nat_of_ascii d -> str_before (String c s) (String d t)
| sb_rest c s t : str_before s t -> str_before (String c s) (String c t).

Inductive before {A} : tree A -> list string -> list string -> Prop :=
| bf_dict d k1 k2 p q : str_before k1 k2 -> before (Dict d) (k1 :: p) (k2 :: q)
| bf_lst l i j p q : i < j -> before (Lst l) (str_of i :: p) (str_of j :: q)
| bf_tup l i j p q : i < j -> before (Tup l) (str_of i :: p) (str_of j :: q)
| bf_below t u k p q : child t k = Some u -> before u p q -> before t (k :: p) (k :: q).

(** the positions of the leaves; list positions are written in decimal *)
Inductive leaf_pos {A} : tree A -> list string -> A -> Prop :=
| lp_leaf x : leaf_pos (Leaf x) [] x
| lp_dict d k u p x : dget d k = Some u -> leaf_pos u p x -> leaf_pos (Dict d) (k :: p) x
| lp_lst l i u p x : nth_error l i = Some u -> leaf_pos u p x -> leaf_pos (Lst l) (str_of i :: p) x
| lp_tup l i u p x : nth_error l i = Some u -> leaf_pos u p x -> leaf_pos (Tup l) (str_of i :: p) x.

(** [seq] lists the leaf positions, each once, in order *)
Inductive ordered {X} (R : X -> X -> Prop) : list X -> Prop :=
| ord_nil : ordered R []
| ord_cons x l : (forall y, In y l -> R x y) -> ordered R l -> ordered R (x :: l).
Definition in_sequence {A} (t : tree A) (seq : list (list string)) : Prop :=
  ordered (before t) seq /\ forall p, In p seq <-> exists x, leaf_pos t p x.

(** One module after the other: the positions, the keys and the data before
    each module.  [ns p] is the new state of the module at [p]. *)
Inductive composed {A Rng M}
    (call : M -> tree A -> tree A -> bool -> tree A -> Rng -> result (tree A * tree A))
    (modules : tree M) (params state : tree A) (training : bool) (ns : list string -> tree A)
  : list (list string) -> list Rng -> tree A -> tree A -> Prop :=
| comp_nil d : composed call modules params state training ns [] [] d d
| comp_cons p ps r rs m mp ms d d1 out :
    walk modules p = Some (Leaf m) -> walk params p = Some mp -> walk state p = Some ms ->
    call m mp d training ms r = Ok (d1, ns p) ->
    composed call modules params state training ns ps rs d1 out ->
    composed call modules params state training ns (p :: ps) (r :: rs) d out.

(** Same kind of container with the same keys (in any order) or length. *)
Definition same_kind (a b : kind) : Prop :=
  match a, b with
  | KLeaf, KLeaf | KNone, KNone => True
  | KDict ks, KDict ks' => forall k, In k ks <-> In k ks'
  | KLst m, KLst n | KTup m, KTup n => m = n
  | _, _ => False
  end.

(** [u] has the containers of [t], with anything at the leaves of [t]. *)
Inductive fits {X Y} : tree X -> tree Y -> Prop :=
| fits_leaf x u : fits (Leaf x) u
| fits_none : fits NoneT NoneT
| fits_lst l m : Forall2 fits l m -> fits (Lst l) (Lst m)
| fits_tup l m : Forall2 fits l m -> fits (Tup l) (Tup m)
| fits_dict d e :
    length d = length e ->
    Forall (fun kv => exists y, dget e (fst kv) = Some y /\ fits (snd kv) y) d ->
    fits (Dict d) (Dict e).
