(** What the check of the continuous features should say. *)
From Coq Require Import Permutation.
From Verif Require Import Base TreeUtil TreeSpec NonSeqSpec SerialSpec OneHot Strata.
Local Open Scope list_scope.

(** The number of different samples. *)
Definition different {A} (l : list A) (d : nat) : Prop := exists D, NoDup D /\ (forall r, In r D <-> In r l) /\ length D = d.
(** More than ten different samples, and more than one in twenty. *)
Definition looks_continuous {A} (l : list A) : Prop := exists d, different l d /\ 10 < d /\ length l < 20 * d.
(** The leaves of the data together with what is said about them. *)
Definition said (r : tree (bdata * bool)) (X : tree bdata) (c : tree bool) : Prop :=
  wf_tree r /\ trel (fun p x => fst p = x) r X /\ trel (fun p b => snd p = b) r c.
(** At most [n] samples, complete, with one axis at least and at most [k] entries along the first one. *)
Definition small (n k : nat) (x : bdata) : Prop :=
  length (o_rows x) <= n /\ (forall r, In r (o_rows x) -> length r = features x) /\ exists a s, o_shape x = a :: s /\ a <= k.
Definition shuffles (order : nat -> list nat) : Prop := forall n, Permutation (seq 0 n) (order n).
