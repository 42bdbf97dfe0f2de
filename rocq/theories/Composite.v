(** The composite modules AffineObservablePMM and AffineEigenvaluePMM
    (parametricmatrixmodels/modules/affineobservablepmm.py,
    affineeigenvaluepmm.py): sequential models that build their own list of
    modules when they are compiled.

    Simplifications:
    - the modules are the objects of Modules.v; arrays are opaque identities
      with a shape, floats are opaque identities (1 is 0.0);
    - [jax.random.normal] is an argument [draw] that gets the position of the
      module and the shape;
    - a module the user adds ([CUser]) has no parameters and keeps shapes, like
      an activation;
    - the tuple L299 and the list L255 are both lists here; warnings, printing
      and the random key are dropped. *)
From Coq Require Import ZArith.
From Verif Require Import Base TreeUtil Serial Modules Eigen.
Local Open Scope string_scope.
Local Open Scope list_scope.
Local Open Scope nat_scope.

Inductive child :=
| CMat (o : obj)                                (* AffineHermitianMatrix *)
| CVec (num_eig : option nat) (which : string)  (* Eigenvectors *)
| CVal (num_eig : option nat) (which : string)  (* Eigenvalues *)
| CSum (expectation : bool) (o : obj)           (* ExpectationValueSum, TransitionAmplitudeSum *)
| CBias (o : obj)                               (* Bias *)
| CUser (n : nat).

(** What is passed for [matrix_size]: None, an int, or (by [__add__]) the
    modules of another model. *)
Inductive msize := SNone | SInt (n : nat) | SMods (l : list child).

Record obs_args := mk_obs {
  o_size : msize; o_num : option nat; o_which : option string; o_smooth : option nat;
  o_affine_bias : bool; o_secondaries : option nat; o_out : option nat; o_centered : bool;
  o_bias : bool; o_expect : bool; o_Ms : option arr; o_Ds : option arr; o_b : option arr; o_mag : nat }.
Record eig_args := mk_eig {
  e_size : msize; e_num : option nat; e_which : string; e_smooth : option nat;
  e_Ms : option arr; e_mag : nat; e_bias : bool }.
Inductive pmm_args := AObs (a : obs_args) | AEig (a : eig_args).

(** affineobservablepmm.py L208-212. *)
Definition which_of (a : obs_args) : string :=
  match o_which a with
  | Some w => w
  | None => match o_smooth a with None | Some 1 => "LM" | Some _ => "SA" end
  end.

(** The instance: constructor arguments, [modules], [input_shape],
    [output_shape]. *)
Record comp := mk_comp {
  c_args : pmm_args; c_mods : list child;
  c_in : option (tree (list nat)); c_out : option (tree (list nat)) }.

(** The constructors L208-228 and L131-141: [super().__init__()] sets [modules]
    to [] (model.py L125), which is not None, also after L139. *)
Definition new (a : pmm_args) : comp := mk_comp a [] None None.

Section Run.
Context (herm : arr -> bool).

(** AffineHermitianMatrix(...): comparing a list or tuple with 0
    (affinehermitianmatrix.py L95) is a TypeError. *)
Definition mat_init (n : msize) (smooth : option nat) (Ms : option arr) (mag : nat) (bias : bool) : result child :=
  let sm := match smooth with Some x => x | None => 1 end in
  match n with
  | SMods _ => Err TypeError
  | SInt n => let* o := ahm_init herm (Some n) sm Ms mag bias in Ok (CMat o)
  | SNone => let* o := ahm_init herm None sm Ms mag bias in Ok (CMat o)
  end.
(** eigenvectors.py L79-101, eigenvalues.py L74-96. *)
Definition eig_ok (num_eig : option nat) (which : string) : bool :=
  match num_eig with Some 0 => false | _ => true end &&
  existsb (String.eqb (lower which)) ["sa"; "la"; "sm"; "lm"; "ea"; "em"; "ia"; "im"].
Definition vec_init (num_eig : option nat) (which : string) : result child :=
  if eig_ok num_eig which then Ok (CVec num_eig (lower which)) else Err ValueError.
Definition val_init (num_eig : option nat) (which : string) : result child :=
  if eig_ok num_eig which then Ok (CVal num_eig (lower which)) else Err ValueError.
Definition sum_init (a : obs_args) : result child :=
  let* o := evs_init herm (o_secondaries a) (o_out a) (o_Ds a) (o_mag a) (o_centered a) in
  Ok (CSum (o_expect a) o).

(** L255-299: the list starts with two modules and is then appended to, so a
    failing constructor leaves the modules so far; L168-183. *)
Definition build (a : pmm_args) (old : list child) : list child * result unit :=
  match a with
  | AObs a =>
      match (let* m := mat_init (o_size a) (o_smooth a) (o_Ms a) (o_mag a) (o_affine_bias a) in
             let* v := vec_init (o_num a) (which_of a) in Ok [m; v]) with
      | Err e => (old, Err e)
      | Ok l =>
          match sum_init a with
          | Err e => (l, Err e)
          | Ok s => (l ++ [s] ++ (if o_bias a then [CBias (bias_obj VNone (o_mag a) true false true)] else []), Ok tt)
          end
      end
  | AEig a =>
      match (let* m := mat_init (e_size a) (e_smooth a) (e_Ms a) (e_mag a) (e_bias a) in
             let* v := val_init (e_num a) (e_which a) in Ok [m; v]) with
      | Err e => (old, Err e)
      | Ok l => (l, Ok tt)
      end
  end.

(** tree_util.py L102-151 on shapes. *)
Definition single_leaf (t : tree (list nat)) : option (list nat) :=
  match leaves t with [s] => Some s | _ => None end.
(** [jax.tree.map(lambda x: s, t)]. *)
Definition same_shape (s : list nat) (t : tree (list nat)) : result (tree (list nat)) := jmapM (fun _ => Ok s) t.

(** A tree of arrays as a parameter value. *)
Fixpoint pv_tree (t : tree arr) : pv :=
  match t with
  | Leaf a => VArr a
  | NoneT => VNone
  | Dict d => VDict (map (fun kv => (fst kv, pv_tree (snd kv))) d)
  | Lst l => VList (map pv_tree l)
  | Tup l => VTup (map pv_tree l)
  end.
Definition any_shape_differs (s : list nat) (t : tree (list nat)) : bool :=
  existsb (fun s' => negb (str_list_eqb s' s)) (leaves t).
(** Bias.compile (bias.py L149-248) for real, not scalar biases. *)
Definition bias_compile (draw : list nat -> arr) (o : obj) (t : tree (list nat)) : result obj :=
  let* b := attr o "bias" in
  match b with
  | VNone => let* v := jmapM (fun s => Ok (draw s)) t in Ok (setattr o "bias" (pv_tree v))
  | VArr a =>
      if str_list_eqb (a_shape a) [1] || str_list_eqb (a_shape a) [] then Ok o
      else if any_shape_differs (a_shape a) t then Err ValueError else Ok o
  | _ => (* L188-202 *)
      let* v := jmapM (fun s => Ok (mk_arr 0 s true)) t in
      if same_struct b (pv_tree v) &&
         forallb (fun p => match p with (VArr x, VArr y) => str_list_eqb (a_shape x) (a_shape y) | _ => false end)
                 (combine (pleaves b) (pleaves (pv_tree v)))
      then Ok o else Err ValueError
  end.

(** [module.compile] and [module.get_output_shape]. *)
Definition compile_child (draw : list nat -> arr) (c : child) (t : tree (list nat)) : result child :=
  match c with
  | CMat o => match single_leaf t with
              | Some [d] => let* o' := ahm_compile draw o d in Ok (CMat o')
              | _ => Err ValueError
              end
  | CVec k w | CVal k w => let* _ := validate k t in Ok c
  | CSum b o => match single_leaf t with
                | Some [n; _] => let* o' := evs_compile draw o n in Ok (CSum b o')
                | _ => Err ValueError
                end
  | CBias o => let* o' := bias_compile draw o t in Ok (CBias o')
  | CUser _ => Ok c
  end.
Definition out_of (c : child) (t : tree (list nat)) : result (tree (list nat)) :=
  match c with
  | CMat o => match single_leaf t with
              | Some [_] => let* n := attr o "matrix_size" in
                            match nat_of_v n with Some n => same_shape [n; n] t | None => Err TypeError end
              | _ => Err ValueError
              end
  | CVec k _ => eigenvectors_shape k t
  | CVal k _ => eigenvalues_shape k t
  | CSum _ o => match single_leaf t with
                | Some [_; _] => let* q := attr o "output_size" in
                                 match nat_of_v q with Some q => same_shape [q] t | None => Err TypeError end
                | _ => Err ValueError
                end
  | CBias _ | CUser _ => Ok t
  end.

(** SequentialModel.compile L134-147; errors of [module.compile] become
    RuntimeError, those of [get_output_shape] do not. Modules before a failing
    one stay compiled. *)
Fixpoint compile_mods (draw : nat -> list nat -> arr) (i : nat) (l : list child) (t : tree (list nat))
  : list child * result (tree (list nat)) :=
  match l with
  | [] => ([], Ok t)
  | c :: l' =>
      match compile_child (draw i) c t with
      | Err _ => (l, Err RuntimeError)
      | Ok c' =>
          match out_of c' t with
          | Err e => (c' :: l', Err e)
          | Ok t' => let (r, o) := compile_mods draw (S i) l' t' in (c' :: r, o)
          end
      end
  end.
(** [len(output_shape) < 1] L151. *)
Definition no_axis (t : tree (list nat)) : bool :=
  match t with Leaf [] | Dict [] | Lst [] | Tup [] => true | _ => false end.
(** SequentialModel.compile L132-155. *)
Definition seq_compile (draw : nat -> list nat -> arr) (m : comp) (t : tree (list nat)) : comp * result unit :=
  let (l, r) := compile_mods draw 0 (c_mods m) t in
  match r with
  | Err e => (mk_comp (c_args m) l (Some t) (c_out m), Err e)
  | Ok t' => (mk_comp (c_args m) l (Some t) (Some t'), if no_axis t' then Err ValueError else Ok tt)
  end.

Definition shape_eqb (s t : tree (list nat)) : bool := tree_eqb str_list_eqb s t.
Definition is_obs (a : pmm_args) : bool := match a with AObs _ => true | AEig _ => false end.
Definition has_size (a : pmm_args) : bool :=
  match a with AEig a => match e_size a with SNone => false | _ => true end | AObs _ => true end.

(** affineobservablepmm.py L236-301, affineeigenvaluepmm.py L149-186. *)
Definition compile (draw : nat -> list nat -> arr) (m : comp) (t : tree (list nat)) : comp * result unit :=
  match single_leaf t with
  | None => (m, Err ValueError)
  | Some _ =>
      if negb (has_size (c_args m)) then (m, Err ValueError)
      else if match c_in m with Some t' => shape_eqb t t' | None => false end
      then seq_compile draw m t
      else let (l, r) := build (c_args m) (c_mods m) in
           let m' := mk_comp (c_args m) l (c_in m) (c_out m) in
           match r with Err e => (m', Err e) | Ok _ => seq_compile draw m' t end
  end.

(** affineobservablepmm.py L303-316, affineeigenvaluepmm.py L188-196; a size
    that is None is announced as None. *)
Definition get_output_shape (a : pmm_args) (t : tree (list nat)) : result (tree (list (option nat))) :=
  match a with
  | AObs a => match o_out a with
              | None => Err ValueError
              | Some q => match single_leaf t with None => Err ValueError | Some _ => jmapM (fun _ => Ok [Some q]) t end
              end
  | AEig a => match single_leaf t with None => Err ValueError | Some _ => jmapM (fun _ => Ok [e_num a]) t end
  end.

(** Model.append_module: reset (model.py L192-207) and insert at the end
    (L1362-1375, L1402-1406). *)
Definition append (m : comp) (c : child) : comp := mk_comp (c_args m) (c_mods m ++ [c]) None None.
(** Model.__add__ L1517-1519: [self.__class__(self.modules)] passes the modules
    as the first constructor argument, [matrix_size]; all others keep their
    defaults. Magnitude 0 is 0.01. *)
Definition default_args (k : pmm_args) (n : msize) : pmm_args :=
  match k with
  | AObs _ => AObs (mk_obs n None None None true (Some 1) None true true false None None None 0)
  | AEig _ => AEig (mk_eig n (Some 1) "SA" None None 0 true)
  end.
Definition add (m : comp) (c : child) : comp := append (new (default_args (c_args m) (SMods (c_mods m)))) c.

(** Successive calls of [compile]; the exceptions are caught by the caller. *)
Definition compiles (m : comp) (h : list ((nat -> list nat -> arr) * tree (list nat))) : comp :=
  fold_left (fun m dt => fst (compile (fst dt) m (snd dt))) h m.
End Run.
