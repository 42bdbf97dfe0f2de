From Verif Require Import Base TreeUtil Versions.
Local Open Scope list_scope.
Section Spec.
Context {V C D O : Type}.
(** The versions of the package noted in saved data, at any depth. *)
Inductive noted_package : @saved V C D -> V -> Prop :=
| np_module c p v d : noted_package (SModule c p v d) p
| np_model c p mv ss p' v d : noted_package (SModel c p mv ss p' v d) p
| np_self c p mv ss p' v d : noted_package (SModel c p mv ss p' v d) p'
| np_part c p mv ss p' v d s x : In s ss -> noted_package s x -> noted_package (SModel c p mv ss p' v d) x.
(** ... and of modules, with their class. *)
Inductive noted_module : @saved V C D -> C -> V -> Prop :=
| nm_module c p v d : noted_module (SModule c p v d) c v
| nm_self c p mv ss p' v d : noted_module (SModel c p mv ss p' v d) c v
| nm_part c p mv ss p' v d s k x : In s ss -> noted_module s k x -> noted_module (SModel c p mv ss p' v d) k x.
(** The same data as the present version would have written them: all versions
    are present ones, and the entries of modules of another version are what
    [upgrade] makes of them. *)
Inductive rewritten (current : V) (version : C -> V) (upgrade : C -> D -> result D) : saved -> saved -> Prop :=
| rw_module c p v d d' : (v = version c /\ d' = d) \/ (v <> version c /\ upgrade c d = Ok d') ->
    rewritten current version upgrade (SModule c p v d) (SModule c current (version c) d')
| rw_model c p mv ss ss' p' v d d' : Forall2 (rewritten current version upgrade) ss ss' ->
    (v = version c /\ d' = d) \/ (v <> version c /\ upgrade c d = Ok d') ->
    rewritten current version upgrade (SModel c p mv ss p' v d) (SModel c current (version c) ss' current (version c) d').
End Spec.
