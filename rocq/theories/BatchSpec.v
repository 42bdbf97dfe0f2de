(** Specification of batching, in terms of the rows of the arrays. *)
From Coq Require Import Permutation.
From Verif Require Import Base TreeUtil TreeSpec NonSeqSpec.
Local Open Scope list_scope.

(** all arrays of the tree have [n] rows *)
Definition uniform {S} (n : nat) (t : tree (list S)) : Prop :=
  forall x, has_leaf t x -> length x = n.
(** the tree has an array at all *)
Definition populated {S} (t : tree S) : Prop := exists x, has_leaf t x.

(** rows [lo .. lo+n-1] of every array *)
Definition rows {S} (lo n : nat) (t : tree (list S)) : tree (list S) :=
  tmap (fun x => firstn n (skipn lo x)) t.

(** the consecutive slices of the given sizes, from row [lo] on *)
Fixpoint slices {S} (lo : nat) (sizes : list nat) (t : tree (list S)) : list (tree (list S)) :=
  match sizes with
  | [] => []
  | n :: ss => rows lo n t :: slices (lo + n) ss t
  end.

(** running a state-carrying function on one piece after the other *)
Inductive threaded {X Y St} (fn : X -> St -> result (Y * St)) : list X -> St -> list Y -> St -> Prop :=
| th_nil st : threaded fn [] st [] st
| th_cons x xs st y st1 ys st2 :
    fn x st = Ok (y, st1) -> threaded fn xs st1 ys st2 -> threaded fn (x :: xs) st (y :: ys) st2.

(** the containers of a tree, leaves forgotten *)
Definition layout {S} (t : tree S) : tree unit := tmap (fun _ => tt) t.

(** [t] has the layout of every piece, and each of its arrays is the
    corresponding arrays of the pieces one after the other *)
Definition joined {S} (pieces : list (tree (list S))) (t : tree (list S)) : Prop :=
  Forall (fun p => layout p = layout t) pieces /\
  forall ks x, walk t ks = Some (Leaf x) ->
    exists xs, Forall2 (fun p y => walk p ks = Some (Leaf y)) pieces xs /\ x = concat xs.

(** row [i] of every array *)
Definition sample {S} (t : tree (list S)) (i : nat) : tree (option S) :=
  tmap (fun x => nth_error x i) t.

(** [fn] treats every sample on its own: the state is not changed, and on any
    data of [n >= 1] rows it succeeds with arrays of [n] rows whose row [i] is
    a function of row [i] of the data *)
Definition samplewise {S O St} (fn : tree (list S) -> St -> result (tree (list O) * St))
    (inl outl : tree unit) (g : St -> tree (option S) -> tree (option O)) : Prop :=
  forall n st X, 1 <= n -> layout X = inl -> uniform n X ->
    exists Y, fn X st = Ok (Y, st) /\ layout Y = outl /\ uniform n Y /\
              forall i, i < n -> sample Y i = g st (sample X i).
