(** Specification vocabulary for slot paths. *)
From Verif Require Import Base BaseLemmas.

(** the components of a path; the empty path has none *)
Definition comps (sep : ascii) (p : string) : list string :=
  if String.eqb p EmptyString then [] else split sep p.

(** [p] is equal to, or leads to something containing, [q] *)
Definition prefix (p q : list string) : Prop := exists t, q = p ++ t.

(** path number [i] is neither repeated nor on the way to another path *)
Definition unambiguous (sep : ascii) (paths : list string) (i : nat) : Prop :=
  forall j p q, nth_error paths i = Some p -> nth_error paths j = Some q -> i <> j ->
    ~ prefix (comps sep p) (comps sep q).

(** how many of the paths lead through [p] *)
Definition lead_through (sep : ascii) (paths : list string) (p : string) (i : nat) : Prop :=
  exists q, nth_error paths i = Some q /\ prefix (comps sep p) (comps sep q).

(** the keys that other paths use directly below [p] *)
Definition sibling (sep : ascii) (paths : list string) (p k : string) : Prop :=
  exists q rest, In q paths /\ comps sep q = comps sep p ++ k :: rest.

(** [m] is the number for path [i] among the equal paths [p]: as many numbers
    below it are free (not used by a sibling) as there are earlier equal paths *)
Definition first_free (sep : ascii) (paths : list string) (p : string) (i m : nat) : Prop :=
  exists L L', NoDup L /\ (forall n, In n L <-> n < m /\ forall e, sibling sep paths p e -> int_of e <> n) /\
    NoDup L' /\ (forall j, In j L' <-> j < i /\ exists q, nth_error paths j = Some q /\ comps sep q = comps sep p) /\
    length L = length L'.

(** the slot [o] given to path number [i], written [p]: an unambiguous path is
    kept; any other one is extended by exactly one new key, which no path uses
    there already.  If all keys in use there are numbers the new key is the
    first free number in the order the paths are written, otherwise it comes
    from the source of fresh keys. *)
Definition slot_given (sep : ascii) (uuid : nat -> string) (paths : list string) (i : nat) (p o : string) : Prop :=
  (unambiguous sep paths i /\ o = p) \/
  (~ unambiguous sep paths i /\ exists k,
     comps sep o = comps sep p ++ [k] /\ no_sep sep k = true /\ k <> EmptyString /\
     ~ sibling sep paths p k /\
     ((forall e, sibling sep paths p e -> isdigit e = true) ->
        exists m L, k = str_of m /\ NoDup L /\ m < length L /\
          (forall j, In j L -> lead_through sep paths p j) /\
          (forall e, sibling sep paths p e -> int_of e <> m) /\ first_free sep paths p i m) /\
     ((exists e, sibling sep paths p e /\ isdigit e = false) -> exists m, k = uuid m)).

(** what is assumed of the source of fresh keys (uuid4): never repeats, never
    collides with a component the user wrote, contains no separator *)
Definition fresh_source (sep : ascii) (uuid : nat -> string) (paths : list string) : Prop :=
  (forall m n, uuid m = uuid n -> m = n) /\
  (forall n, no_sep sep (uuid n) = true /\ uuid n <> EmptyString) /\
  (forall n p, In p paths -> ~ In (uuid n) (comps sep p)).
