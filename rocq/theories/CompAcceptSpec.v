(** Which arguments of the composite modules fit data of [d] features, stated
    without reference to how the modules are built. *)
From Verif Require Import Base TreeUtil Serial Modules Composite.
Local Open Scope string_scope.
Local Open Scope list_scope.
Local Open Scope nat_scope.

(** Upper and lower case do not matter. *)
Definition same_letter (c k : ascii) : Prop :=
  c = k \/ (65 <= nat_of_ascii c <= 90 /\ nat_of_ascii k = nat_of_ascii c + 32).
Definition any_case (w r : string) : Prop := Forall2 same_letter (list_ascii_of_string w) (list_ascii_of_string r).
Definition rule_name (w : string) : Prop := exists r, In r ["sa"; "la"; "sm"; "lm"; "ea"; "em"; "ia"; "im"] /\ any_case w r.

(** Number of eigenvalues or eigenvectors of matrices of size [n]. *)
Definition count_fits (k : option nat) (n : nat) : Prop := forall k', k = Some k' -> 1 <= k' <= n.
(** The size is given or, where allowed, that of the matrices; the matrices are
    Hermitian, one per feature and one more with the bias term. *)
Definition size_fits (inferred : bool) (size : msize) (Ms : option arr) (n : nat) : Prop :=
  match size with SInt k => k = n /\ 1 <= k | SNone => inferred = true /\ Ms <> None | SMods _ => False end.
Definition matrices_fit (herm : arr -> bool) (Ms : option arr) (bias : bool) (d n : nat) : Prop :=
  forall m, Ms = Some m -> a_shape m = [if bias then S d else d; n; n] /\ herm m = true.
(** Observables: for each output size and secondary, of the size of the matrices;
    without observables both numbers are given. *)
Definition observables_fit (herm : arr -> bool) (Ds : option arr) (l q : option nat) (n : nat) : Prop :=
  match Ds with
  | None => l <> None /\ q <> None
  | Some m => herm m = true /\ exists q' l', a_shape m = [q'; l'; n; n] /\ (forall x, l = Some x -> x = l') /\ (forall x, q = Some x -> x = q')
  end.
Definition suits (herm : arr -> bool) (a : pmm_args) (d : nat) : Prop :=
  match a with
  | AEig a => exists n, size_fits false (e_size a) (e_Ms a) n /\ matrices_fit herm (e_Ms a) (e_bias a) d n /\
                count_fits (e_num a) n /\ rule_name (e_which a)
  | AObs a => exists n, size_fits true (o_size a) (o_Ms a) n /\ matrices_fit herm (o_Ms a) (o_affine_bias a) d n /\
                count_fits (o_num a) n /\ (forall w, o_which a = Some w -> rule_name w) /\
                observables_fit herm (o_Ds a) (o_secondaries a) (o_out a) n
  end.
