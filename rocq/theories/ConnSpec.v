(** Specification vocabulary for connection dictionaries. *)
From Verif Require Import Base BaseLemmas TreeUtil TreeSpec ConcretizeSpec Connections.

(** a path without empty components: not empty, no leading, trailing or
    doubled separator *)
Definition clean (sep : ascii) (p : string) : Prop :=
  p <> EmptyString /\ Forall (fun k => k <> EmptyString) (split sep p).

(** all (source, target) pairs of a connection dictionary *)
Definition pairs (conn : dict (list string)) : list (string * string) :=
  flat_map (fun kv => map (fun v => (fst kv, v)) (snd kv)) conn.

(** the components start with the reserved key *)
Definition reserved (sep : ascii) (key p : string) : Prop :=
  exists rest, split sep p = key :: rest.

(** a target: the output (or a slot of it), or a module (or a slot of it),
    where a module is an atomic node of the module tree *)
Definition is_target {A} (sep : ascii) (out_key : string) (t : tree A) (p : string) : Prop :=
  reserved sep out_key p \/
  exists ks rest u, split sep p = ks ++ rest /\ walk t ks = Some u /\ atomic u = true.

(** the connections a user may write without surprises *)
Definition well_written {A} (sep : ascii) (out_key : string) (t : tree A)
    (conns : dict cval) : Prop :=
  NoDup (dkeys conns) /\
  (forall k c, In (k, c) conns -> clean sep k) /\
  (forall k v, In (k, v) (pairs (normalize conns)) -> clean sep v /\ is_target sep out_key t v).

(** a source: the input (or a slot of it), or a node of the module tree, or a
    slot of a module *)
Definition is_source {A} (sep : ascii) (in_key out_key : string) (t : tree A) (p : string) : Prop :=
  reserved sep in_key p \/
  (~ reserved sep out_key p /\
   exists ks rest u, split sep p = ks ++ rest /\ walk t ks = Some u /\ (rest = [] \/ atomic u = true)).

(** no module name merely begins with the letters of the output key *)
Definition plain_outputs (sep : ascii) (out_key : string) (conns : dict cval) : Prop :=
  forall k v, In (k, v) (pairs (normalize conns)) -> startswith v out_key = true ->
    reserved sep out_key v.
