(** C38: setting the precision of parameters and states. *)
From Coq Require Import ZArith Permutation.
From Verif Require Import Base TreeUtil TreeSpec NonSeqSpec SerialSpec Precision PrecisionSpec PrecisionProofs.
Local Open Scope string_scope.
Local Open Scope list_scope.
Local Open Scope nat_scope.

(** A conversion for the examples: it keeps the contents. *)
Definition ex_astype (a : arr nat) (d : dtype) : arr nat := mk_arr d (a_val a).
Example ex_astype_ok : (forall a d, a_dt (ex_astype a d) = d) /\ (forall a, ex_astype a (a_dt a) = a).
Proof. split; intros []; reflexivity. Qed.
Definition ex_net : pmdl nat :=
  PNet true (Dict [("b", Leaf (PAtom (mk_pmod true (Dict [("w", Leaf (mk_arr (DFloat 64) 3)); ("c", Leaf (mk_arr (DComplex 64) 4))]) (Tup []))));
                   ("a", Leaf (PNet true (Lst [Leaf (PAtom (mk_pmod true (Leaf (mk_arr (DComplex 128) 5)) (Leaf (mk_arr (DFloat 32) 6))))])))]).
Example ex_net_ready : all_ready ex_net.
Proof.
  constructor. intros m Hm. inversion Hm as [|? ? t ? Hin Hl| |]; subst. destruct Hin as [[= <- <-]|[[= <- <-]|[]]].
  - inversion Hl; subst. constructor. reflexivity.
  - inversion Hl; subst. constructor. intros m Hm'. inversion Hm' as [| |? ? ? Hin' Hl'|]; subst. destruct Hin' as [<-|[]].
    inversion Hl'; subst. constructor. reflexivity.
Qed.

(** On a ready model: success exactly for the documented spellings (double
    precision only if enabled), otherwise ValueError. *)
Theorem C38_spellings : forall V (astype : arr V -> dtype -> arr V),
  (forall a d, a_dt (astype a d) = d) -> (forall a, astype a (a_dt a) = a) ->
  forall (x64 : bool) m p, all_ready m ->
  ((exists m', set_precision astype x64 p m = Ok m') <-> single_spelling p \/ (double_spelling p /\ x64 = true)) /\
  ((forall m', set_precision astype x64 p m <> Ok m') -> set_precision astype x64 p m = Err ValueError).
Proof. exact (fun V => @set_precision_iff V). Qed.

(** Every array of every module at every depth is converted: complex ones to
    the complex type, all others to the real type of that width. *)
Theorem C38_converts : forall V (astype : arr V -> dtype -> arr V),
  (forall a d, a_dt (astype a d) = d) -> (forall a, astype a (a_dt a) = a) ->
  forall (x64 : bool) m p m', all_ready m -> set_precision astype x64 p m = Ok m' ->
  exists w, (single_spelling p /\ w = 32 \/ double_spelling p /\ w = 64) /\ mconv astype w m m'.
Proof. exact (fun V => @set_precision_result V). Qed.
Example C38_converts_ex : set_precision ex_astype true (PStr "f32") ex_net =
  Ok (PNet true (Dict [("b", Leaf (PAtom (mk_pmod true (Dict [("c", Leaf (mk_arr (DComplex 64) 4)); ("w", Leaf (mk_arr (DFloat 32) 3))]) (Tup []))));
                   ("a", Leaf (PNet true (Lst [Leaf (PAtom (mk_pmod true (Leaf (mk_arr (DComplex 64) 5)) (Leaf (mk_arr (DFloat 32) 6))))])))])).
Proof. vm_compute. reflexivity. Qed.

(** Repeating it with any spelling of the same width changes nothing. *)
Theorem C38_idempotent : forall V (astype : arr V -> dtype -> arr V),
  (forall a d, a_dt (astype a d) = d) -> (forall a, astype a (a_dt a) = a) ->
  forall (x64 : bool) m p m' p', all_ready m -> set_precision astype x64 p m = Ok m' ->
  (single_spelling p /\ single_spelling p' \/ double_spelling p /\ double_spelling p') ->
  set_precision astype x64 p' m' = Ok m'.
Proof. exact (fun V => @set_precision_idem V). Qed.

(** Real stays real and complex stays complex. *)
Theorem C38_kind_partial : forall V (astype : arr V -> dtype -> arr V),
  (forall a d, a_dt (astype a d) = d) ->
  forall w a a', converted astype w a a' -> floating (a_dt a) = true -> same_kind (a_dt a) (a_dt a').
Proof. exact (fun V => @converted_kind V). Qed.

(** Integer (and boolean) parameters or states, for example counters, become
    floating-point numbers. *)
Theorem C38_integer_refuted : exists (m m' : pmdl nat) a a', all_ready m /\
  set_precision ex_astype true (PNum 32) m = Ok m' /\
  m = PAtom (mk_pmod true (Tup []) (Leaf a)) /\ m' = PAtom (mk_pmod true (Tup []) (Leaf a')) /\
  a_dt a = DInt 32 /\ a_dt a' = DFloat 32.
Proof.
  exists (PAtom (mk_pmod true (Tup []) (Leaf (mk_arr (DInt 32) 7)))).
  exists (PAtom (mk_pmod true (Tup []) (Leaf (mk_arr (DFloat 32) 7)))).
  exists (mk_arr (DInt 32) 7), (mk_arr (DFloat 32) 7).
  repeat split. constructor. reflexivity.
Qed.

(** A graph model is ready although a module that is not connected is not;
    setting its precision then fails. *)
Theorem C38_unused_module_refuted : exists ms, forall (x64 : bool),
  set_precision ex_astype x64 (PNum 32) (PNet true ms) = Err RuntimeError.
Proof.
  exists (Dict [("a", Leaf (PAtom (mk_pmod true (Leaf (mk_arr (DFloat 32) 1)) (Tup []))));
                ("unused", Leaf (PAtom (mk_pmod false NoneT (Tup []))))]).
  intros []; vm_compute; reflexivity.
Qed.

(** Casting input data: refused exactly when a complex array would become
    real; otherwise every array is cast. *)
Theorem C38_safecast : forall V (astype : arr V -> dtype -> arr V) t d,
  ((exists u, safecast astype t d = Ok u) <->
   (forall a, has_leaf t a -> is_complex (a_dt a) = true -> is_complex d = true)) /\
  (forall u, safecast astype t d = Ok u -> trel (fun a a' => a' = astype a d) t u).
Proof. exact (fun V ast t d => conj (@safecast_iff V ast t d) (@safecast_dt V ast t d)). Qed.
Example C38_safecast_ex :
  safecast ex_astype (Lst [Leaf (mk_arr (DFloat 32) 1); Leaf (mk_arr (DComplex 64) 2)]) (DFloat 64) = Err ValueError /\
  safecast ex_astype (Lst [Leaf (mk_arr (DFloat 32) 1); Leaf (mk_arr (DInt 32) 2)]) (DFloat 64) =
  Ok (Lst [Leaf (mk_arr (DFloat 64) 1); Leaf (mk_arr (DFloat 64) 2)]).
Proof. split; reflexivity. Qed.

Print Assumptions C38_spellings.
Print Assumptions C38_converts.
Print Assumptions C38_idempotent.
Print Assumptions C38_safecast.
