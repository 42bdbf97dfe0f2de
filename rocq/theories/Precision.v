(** Setting the precision of modules and models (modules/basemodule.py
    L610-694, model.py L957-1020) and casting data (tree_util.py L1299-1342).

    Simplifications: arrays are pairs of a data type and opaque contents; the
    conversion of contents ([astype]) is an argument; [set_params] and
    [set_state] store what they are given (their shape checks do not depend on
    the data type); whether a module or model is ready is a stored flag. *)
From Coq Require Import ZArith.
From Verif Require Import Base TreeUtil Serial.
Local Open Scope string_scope.
Local Open Scope list_scope.
Local Open Scope nat_scope.

Inductive dtype := DBool | DInt (w : nat) | DFloat (w : nat) | DComplex (w : nat).
(** Width of a complex type: both parts together (complex64 is 2 x float32). *)
Definition is_complex (d : dtype) : bool := match d with DComplex _ => true | _ => false end.

(** The argument [prec]: a numpy type, a string, an integer or anything else. *)
Inductive prec := PType (d : dtype) | PStr (s : string) | PNum (z : Z) | POther (n : nat).

Definition dtype_eqb (a b : dtype) : bool :=
  match a, b with
  | DBool, DBool => true
  | DInt v, DInt w | DFloat v, DFloat w | DComplex v, DComplex w => v =? w
  | _, _ => false
  end.
Definition prec_eqb (a b : prec) : bool :=
  match a, b with
  | PType d, PType e => dtype_eqb d e
  | PStr s, PStr t => String.eqb s t
  | PNum x, PNum y => (x =? y)%Z
  | _, _ => false
  end.

(** basemodule.py L646-674, model.py L982-1009: 32 or 64 bits. *)
Definition bits_of (p : prec) : result bool (* true: 64 *) :=
  if existsb (prec_eqb p) [PType (DFloat 32); PType (DComplex 64); PStr "float32"; PStr "complex64";
                           PStr "single"; PStr "f32"; PStr "c64"; PNum 32] then Ok false
  else if existsb (prec_eqb p) [PType (DFloat 64); PType (DComplex 128); PStr "float64"; PStr "complex128";
                                PStr "double"; PStr "f64"; PStr "c128"; PNum 64] then Ok true
  else Err ValueError.

Section Cast.
Context {V : Type}.
Record arr := mk_arr { a_dt : dtype; a_val : V }.
Context (astype : arr -> dtype -> arr).
Context (x64 : bool).       (* jax_enable_x64 *)

(** L683-691 [set_param_prec]. *)
Definition set_param_prec (b : bool) (a : arr) : arr :=
  if is_complex (a_dt a) then astype a (if b then DComplex 128 else DComplex 64)
  else astype a (if b then DFloat 64 else DFloat 32).

Record pmod := mk_pmod { m_ready : bool; m_params : tree arr; m_state : tree arr }.
Inductive pmdl := PAtom (m : pmod) | PNet (ready : bool) (ms : tree pmdl).

Definition check (p : prec) (ready : bool) : result bool :=
  if ready then
    let* b := bits_of p in
    if negb x64 && b then Err ValueError else Ok b
  else Err RuntimeError.

(** BaseModule.set_precision L641-694. *)
Definition mod_set_precision (p : prec) (m : pmod) : result pmod :=
  let* b := check p (m_ready m) in
  let* ps := jmapM (fun a => Ok (set_param_prec b a)) (m_params m) in
  let* st := jmapM (fun a => Ok (set_param_prec b a)) (m_state m) in
  Ok (mk_pmod (m_ready m) ps st).

(** Model.set_precision L974-1020. The tree.map of L1020 updates the modules in
    place, so [self.modules] keeps its dictionary order. *)
Section InPlace.
Context {X : Type} (f : X -> result X).
Fixpoint tmap_in_place (t : tree X) : result (tree X) :=
  match t with
  | Leaf x => let* y := f x in Ok (Leaf y)
  | NoneT => Ok NoneT
  | Dict d =>
      let* e := (fix go d := match d with
                             | [] => Ok []
                             | (k, x) :: d' => let* y := tmap_in_place x in let* e := go d' in Ok ((k, y) :: e)
                             end) d in
      Ok (Dict e)
  | Lst l =>
      let* m := (fix go l := match l with
                             | [] => Ok []
                             | x :: l' => let* y := tmap_in_place x in let* m := go l' in Ok (y :: m)
                             end) l in
      Ok (Lst m)
  | Tup l =>
      let* m := (fix go l := match l with
                             | [] => Ok []
                             | x :: l' => let* y := tmap_in_place x in let* m := go l' in Ok (y :: m)
                             end) l in
      Ok (Tup m)
  end.
End InPlace.
Fixpoint set_precision (p : prec) (m : pmdl) {struct m} : result pmdl :=
  match m with
  | PAtom a => let* a' := mod_set_precision p a in Ok (PAtom a')
  | PNet r ms =>
      let* b := check p r in
      let* ms' := tmap_in_place (set_precision (PNum (if b then 64 else 32))) ms in
      Ok (PNet r ms')
  end.

(** tree_util.py L1315-1328; the warning of L1331-1340 is dropped. *)
Definition safecast (X : tree arr) (d : dtype) : result (tree arr) :=
  jmapM (fun a => if is_complex (a_dt a) && negb (is_complex d) then Err ValueError else Ok (astype a d)) X.
End Cast.
Arguments arr V : clear implicits.
Arguments pmod V : clear implicits.
Arguments pmdl V : clear implicits.
