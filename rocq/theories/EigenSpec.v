(** What selecting eigenpairs should do, in terms of positions in the list of
    eigenvalues. *)
From Coq Require Import Reals Permutation.
From Verif Require Import Base TreeUtil TreeSpec NonSeqSpec SerialSpec Eigen.
Local Open Scope string_scope.
Local Open Scope list_scope.
Local Open Scope nat_scope.

(** The documented options; [true]: by value, [false]: by magnitude. *)
Definition documented : list (string * (pick * bool)) :=
  [("SA", (Smallest, true)); ("SM", (Smallest, false)); ("LA", (Largest, true)); ("LM", (Largest, false));
   ("EA", (Exterior, true)); ("EM", (Exterior, false)); ("IA", (Interior, true)); ("IM", (Interior, false));
   ("sa", (Smallest, true)); ("sm", (Smallest, false)); ("la", (Largest, true)); ("lm", (Largest, false));
   ("ea", (Exterior, true)); ("em", (Exterior, false)); ("ia", (Interior, true)); ("im", (Interior, false))].

Section Key.
Context (key : nat -> R) (n : nat).
Definition below_all (I J : list nat) : Prop := forall i j, In i I -> In j J -> (key i <= key j)%R.
(** [k] different positions in ascending order of the key. *)
Definition ascending (I : list nat) : Prop := forall a b, a <= b -> b < length I -> (key (nth a I 0%nat) <= key (nth b I 0%nat))%R.
Definition chosen (p : pick) (k : nat) (I : list nat) : Prop :=
  length I = k /\ ascending I /\
  match p with
  | Smallest => exists rest, Permutation (I ++ rest) (seq 0 n) /\ below_all I rest
  | Largest => exists rest, Permutation (I ++ rest) (seq 0 n) /\ below_all rest I
  (* the lower half of the selection is below, the upper half above all others *)
  | Exterior => exists A B rest, I = A ++ B /\ length A = k / 2 /\ Permutation (I ++ rest) (seq 0 n) /\ below_all A rest /\ below_all rest B
  (* equally many (up to one) are left out below and above *)
  | Interior => exists lo hi, Permutation (I ++ lo ++ hi) (seq 0 n) /\ below_all lo I /\ below_all I hi /\
                  length lo = n / 2 - k / 2 /\ length lo <= length hi + 1 /\ length hi <= length lo + 1
  end.
End Key.
Definition key_of (algebraic : bool) (E : list R) (i : nat) : R := let v := nth i E 0%R in if algebraic then v else Rabs v.

(** Shapes of samples. *)
Definition has_shape1 {A} (s : list nat) (x : list A) : Prop := s = [length x].
Definition has_shape2 {A} (s : list nat) (x : list (list A)) : Prop := exists c, s = [length x; c] /\ forall r, In r x -> length r = c.
Definition square_of {M} (s : list nat) (x : @mats M) : Prop := s = [msize x; msize x].
Definition eigh_ok {M B} (eigh : nat -> M -> list R * list (list B)) : Prop :=
  forall n m, length (fst (eigh n m)) = n /\ length (snd (eigh n m)) = n /\ forall r, In r (snd (eigh n m)) -> length r = n.
Definition each {A} (P : A -> Prop) (l : list A) : Prop := forall x, In x l -> P x.
(** The leaf has one result per sample. *)
Definition samples_of {A} (P : A -> Prop) (n : nat) (l : list A) : Prop := length l = n /\ each P l.
