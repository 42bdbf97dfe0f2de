(** What bias corrections should do. *)
From Coq Require Import Reals.
From Verif Require Import Base TreeUtil TreeSpec SerialSpec OneHot Strata LayersSpec.
Local Open Scope R_scope.
Local Open Scope list_scope.

(** Number [j] of sample [i]. *)
Definition at_ (x : bdata) (i j : nat) : R := nth j (nth i (o_rows x) []) 0.
(** [n] samples, all complete. *)
Definition batch (n : nat) (x : bdata) : Prop := length (o_rows x) = n /\ forall r, In r (o_rows x) -> length r = features x.

(** At least half of the numbers are at most [m], at least half at least [m]. *)
Definition upto (m : R) (l : list R) : nat := length (filter (fun x => if Rle_dec x m then true else false) l).
Definition from (m : R) (l : list R) : nat := length (filter (fun x => if Rle_dec m x then true else false) l).
Definition is_median (l : list R) (m : R) : Prop := (length l <= 2 * upto m l)%nat /\ (length l <= 2 * from m l)%nat.

(** Sample [i] of [X] and sample [j] of [X'] agree in all selected features. *)
Definition same_stratum (t : tree bool) (X X' : tree bdata) (i j : nat) : Prop :=
  forall ks x x', leaf_at t ks true -> leaf_at X ks x -> leaf_at X' ks x' -> nth i (o_rows x) [] = nth j (o_rows x') [].
Definition stratum (t : tree bool) (X : tree bdata) (n i : nat) (I : list nat) : Prop :=
  NoDup I /\ forall j, In j I <-> (j < n)%nat /\ same_stratum t X X i j.

(** Same leaves and shapes. *)
Definition alike (x y : bdata) : Prop := o_shape x = o_shape y /\ length (o_rows x) = length (o_rows y).
(** The leaves at one path of targets and predictions. *)
Definition pairs (Y C : tree bdata) (ks : list string) (y c : bdata) : Prop := leaf_at Y ks y /\ leaf_at C ks c.
