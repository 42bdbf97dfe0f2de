(** What the user may expect of a compiled composite module: the documented
    pipeline, with the supplied arrays in it. *)
From Verif Require Import Base TreeUtil Serial Modules Eigen Composite.
Local Open Scope list_scope. Local Open Scope string_scope.

Definition given {A} (o : option A) (x : A) : Prop := forall a, o = Some a -> x = a.
Definition given_size (s : msize) (n : nat) : Prop := forall k, s = SInt k -> n = k.
Definition zero_if_none (s : option nat) : nat := match s with Some x => x | None => 1 end.

(** Which eigenvectors: as asked, by default the ones of largest magnitude
    without smoothing (0.0 is 1) and the lowest ones with it. *)
Definition rule (a : obs_args) (w : string) : Prop :=
  given (o_which a) w /\
  (o_which a = None -> o_smooth a = None \/ o_smooth a = Some 1 -> w = "LM") /\
  (o_which a = None -> forall x, o_smooth a = Some x -> x <> 1 -> w = "SA").

(** The pipeline of the two classes (docstrings, affineobservablepmm.py
    L22-110, affineeigenvaluepmm.py L21-62), with the supplied matrices [Ms]
    and [Ds]; [last] is what follows them. *)
Inductive pipeline : pmm_args -> list child -> list child -> Prop :=
| pl_obs a n Ms w l q Ds last :
    rule a w -> given_size (o_size a) n -> given (o_Ms a) Ms ->
    given (o_secondaries a) l -> given (o_out a) q -> given (o_Ds a) Ds ->
    pipeline (AObs a)
      (CMat (ahm_obj (Some n) (zero_if_none (o_smooth a)) (o_affine_bias a) (Some Ms) (o_mag a) true) ::
       CVec (o_num a) (lower w) ::
       CSum (o_expect a) (evs_obj (Some l) (Some q) (Some Ds) (o_mag a) (o_centered a) true) :: last) last
| pl_eig a n Ms :
    given_size (e_size a) n -> given (e_Ms a) Ms ->
    pipeline (AEig a)
      [CMat (ahm_obj (Some n) (zero_if_none (e_smooth a)) (e_bias a) (Some Ms) (e_mag a) true);
       CVal (e_num a) (lower (e_which a))] [].

(** The bias term: absent when switched off, otherwise a real bias. *)
Definition bias_part (a : pmm_args) (last : list child) : Prop :=
  match a with
  | AEig _ => last = []
  | AObs a => if o_bias a then exists v, v <> VNone /\ last = [CBias (bias_obj v (o_mag a) true false true)] else last = []
  end.
(** ... and it is the supplied one. *)
Definition bias_honoured (a : pmm_args) (last : list child) : Prop :=
  match a with
  | AEig _ => True
  | AObs a => forall b, o_bias a = true -> o_b a = Some b ->
                        last = [CBias (bias_obj (VArr b) (o_mag a) true false true)]
  end.

(** Replacing the supplied bias. *)
Definition with_b (b : option arr) (a : pmm_args) : pmm_args :=
  match a with
  | AObs a => AObs (mk_obs (o_size a) (o_num a) (o_which a) (o_smooth a) (o_affine_bias a) (o_secondaries a) (o_out a)
                           (o_centered a) (o_bias a) (o_expect a) (o_Ms a) (o_Ds a) b (o_mag a))
  | AEig a => AEig a
  end.
