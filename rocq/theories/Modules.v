(** Serialising, deserialising and copying module objects
    (parametricmatrixmodels/modules/basemodule.py L735-929) and, class by
    class, the attributes, hyper-parameters and parameters of the built-in
    modules.

    Simplifications:
    - a module object is the dictionary of its attributes plus its [trainable]
      flag (a property with a private attribute, basemodule.py L46-83);
    - arrays carry an opaque identity, their shape and whether they are real;
      floats and complex numbers are opaque identities;
    - package and module versions agree (L858-874 then do nothing);
    - no built-in module overrides [get_state]/[set_state] in a way that has an
      effect (basemodule.py L566-607, comment.py L66-67), so the state is ();
    - warnings are dropped. *)
From Coq Require Import ZArith.
From Verif Require Import Base.
Local Open Scope string_scope.
Local Open Scope list_scope.
Local Open Scope nat_scope.

Record arr := mk_arr { a_id : nat; a_shape : list nat; a_real : bool }.

(** Python values that occur as attributes. *)
Inductive pv :=
| VNone | VBool (b : bool) | VInt (z : Z) | VFloat (x : nat) | VCplx (x : nat)
| VStr (s : string) | VArr (a : arr) | VObj (n : nat)
| VList (l : list pv) | VTup (l : list pv) | VDict (d : list (string * pv)).

(** [jax.tree.leaves(v)]; only used under [all], so the (sorted) order of
    dictionary keys is not modelled here. None is not a leaf. *)
Fixpoint pleaves (v : pv) : list pv :=
  match v with
  | VNone => []
  | VList l | VTup l => flat_map pleaves l
  | VDict d => flat_map (fun kv => pleaves (snd kv)) d
  | _ => [v]
  end.

Definition is_bool (v : pv) := match v with VBool _ => true | _ => false end.
(** [isinstance(True, int)] holds in Python. *)
Definition is_int (v : pv) := match v with VInt _ | VBool _ => true | _ => false end.
Definition is_str (v : pv) := match v with VStr _ => true | _ => false end.
Definition is_arr (v : pv) := match v with VArr _ => true | _ => false end.
Definition is_cont (v : pv) := match v with VList _ | VTup _ | VDict _ => true | _ => false end.
(** [tower] says whether the run-time type checker lets an int pass for a float
    and a float for a complex number; typing.py does not say, so it is left
    open. *)
Definition is_float (tower : bool) (v : pv) :=
  match v with VFloat _ => true | _ => tower && is_int v end.
Definition is_cplx (tower : bool) (v : pv) :=
  match v with VCplx _ => true | _ => tower && is_float tower v end.

(** typing.py L187-195 [Serializable] and basemodule.py L757-783
    [is_serializable]. A tree without leaves is an instance of every PyTree
    type, also of [NonSerializable], and is caught by L769-780. Random keys
    ([NonSerializable]) are [VObj] here. *)
Definition serializable (tower : bool) (v : pv) : bool :=
  match v with
  | VNone => true
  | _ =>
      let ls := pleaves v in
      forallb is_int ls || forallb (is_float tower) ls || forallb is_bool ls ||
      forallb is_str ls || forallb (is_cplx tower) ls || forallb is_arr ls
  end.

Record obj := mk_obj { attrs : dict pv; trn : bool }.

(** [self.k], [self.k = v]. *)
Definition attr (o : obj) (k : string) : result pv :=
  match dget (attrs o) k with Some v => Ok v | None => Err AttributeError end.
Definition setattr (o : obj) (k : string) (v : pv) : obj :=
  mk_obj (dset (attrs o) k v) (trn o).
Definition set_trainable (o : obj) (b : bool) : obj := mk_obj (attrs o) b.

(** What a class contributes to copying. [fresh] is [self.__class__()]. *)
Record cls := mk_cls {
  fresh : obj;
  get_hyper : obj -> result (dict pv);
  set_hyper : obj -> dict pv -> result obj;
  get_par : obj -> result pv;
  set_par : obj -> pv -> result obj }.

(** The dictionary L816-824 without the version strings and the name. *)
Record sdata := mk_sdata { s_hyper : dict pv; s_params : pv; s_trainable : bool }.

(** BaseModule.serialize L755-824. *)
Definition serialize (tower : bool) (c : cls) (o : obj) : result sdata :=
  let* h := get_hyper c o in
  let* p := get_par c o in
  Ok (mk_sdata (filter (fun kv => serializable tower (snd kv)) h) p (trn o)).

(** BaseModule.deserialize L877-892; [set_state] has no effect. *)
Definition deserialize (c : cls) (o : obj) (d : sdata) : result obj :=
  let* o1 := set_hyper c o (s_hyper d) in
  let* o2 := match s_params d with VNone => Ok o1 | p => set_par c o1 p end in
  Ok (set_trainable o2 (s_trainable d)).

(** BaseModule.copy L917-929. *)
Definition copy (tower : bool) (c : cls) (o : obj) : result obj :=
  let* d := serialize tower c o in
  deserialize c (fresh c) d.

(* ------------------------------------------------------------------ *)
(** * Pieces shared by the classes *)

(** [{k: self.k for k in ks}]. *)
Definition hyper_of (ks : list string) (o : obj) : result (dict pv) :=
  rmapM (fun k => let* v := attr o k in Ok (k, v)) ks.

(** basemodule.py L511-512. *)
Definition set_all (o : obj) (h : dict pv) : result obj :=
  Ok (fold_left (fun o kv => setattr o (fst kv) (snd kv)) h o).

(** "Cannot set hyperparameters after the module has parameters". *)
Definition set_all_unless (k : string) (o : obj) (h : dict pv) : result obj :=
  let* v := attr o k in
  match v with VNone => set_all o h | _ => Err ValueError end.

(** [get_params] returning (), [set_params] doing nothing. *)
Definition no_par (_ : obj) : result pv := Ok (VTup []).
Definition ignore_par (o : obj) (_ : pv) : result obj := Ok o.

Definition str_list_eqb (a b : list nat) : bool := if list_eq_dec Nat.eq_dec a b then true else false.

Definition nat_of_v (v : pv) : option nat :=
  match v with VInt z => if (0 <=? z)%Z then Some (Z.to_nat z) else None | _ => None end.

(** [real_obj]: [np.isrealobj]; arrays, floats, ints and booleans. *)
Definition real_leaf (v : pv) : bool :=
  match v with VArr a => a_real a | VCplx _ => false | _ => true end.

(* ------------------------------------------------------------------ *)
(** * Classes without parameters *)

(** eigenvalues.py L45-95, L160-173; eigenvectors.py L49-101, L165-178;
    eigensystem.py L49-98, L214-227: all three have the attributes num_eig and
    which (stored in lower case; default "SA" stored as "sa"). *)
Definition eigen_cls : cls :=
  mk_cls (mk_obj [("num_eig", VInt 1); ("which", VStr "sa")] true)
         (hyper_of ["num_eig"; "which"]) set_all no_par ignore_par.
Definition eigen_obj (num_eig : option positive) (which : string) (t : bool) : obj :=
  mk_obj [("num_eig", match num_eig with Some p => VInt (Zpos p) | None => VNone end);
          ("which", VStr which)] t.

(** reshape.py L30-87, L225-234 and flatten.py L19-22 (Flatten inherits and
    sets the shape when compiled, L28-49). *)
Definition reshape_cls : cls :=
  mk_cls (mk_obj [("shape", VNone)] true) (hyper_of ["shape"]) set_all no_par ignore_par.
Definition reshape_obj (shape : pv) (t : bool) : obj := mk_obj [("shape", shape)] t.

(** treeflatten.py L26-59: no attribute at all. *)
Definition treeflatten_cls : cls :=
  mk_cls (mk_obj [] true) (hyper_of []) set_all no_par ignore_par.

(** treekey.py L29-62, L137-147. *)
Definition treekey_cls : cls :=
  mk_cls (mk_obj [("keypaths", VNone); ("separator", VStr ".")] true)
         (hyper_of ["keypaths"; "separator"]) set_all no_par ignore_par.
Definition treekey_obj (keypaths : pv) (separator : string) (t : bool) : obj :=
  mk_obj [("keypaths", keypaths); ("separator", VStr separator)] t.

(** comment.py L20-31, L57-67. *)
Definition comment_cls : cls :=
  mk_cls (mk_obj [("comment", VNone)] true) (hyper_of ["comment"]) set_all no_par ignore_par.
Definition comment_obj (comment : option string) (t : bool) : obj :=
  mk_obj [("comment", match comment with Some s => VStr s | None => VNone end)] t.

(** activationbase.py L30-43, L151-175 (and every class of
    _autogenerated_activationfuncs.py, whose constructors store the same two
    attributes). *)
Definition activation_cls : cls :=
  mk_cls (mk_obj [("args", VTup []); ("kwargs", VDict [])] true)
         (hyper_of ["args"; "kwargs"]) set_all no_par ignore_par.
Definition activation_obj (args : list pv) (kwargs : dict pv) (t : bool) : obj :=
  mk_obj [("args", VTup args); ("kwargs", VDict kwargs)] t.

(** concatenateleaves.py L29-60, L176-185: path_order and separator are not
    among the hyper-parameters. *)
Definition concat_cls : cls :=
  mk_cls (mk_obj [("axis", VNone); ("path_order", VNone); ("separator", VStr ".")] true)
         (hyper_of ["axis"]) set_all no_par ignore_par.
Definition concat_obj (axis : option Z) (path_order : pv) (separator : string) (t : bool) : obj :=
  mk_obj [("axis", match axis with Some z => VInt z | None => VNone end);
          ("path_order", path_order); ("separator", VStr separator)] t.

(* ------------------------------------------------------------------ *)
(** * Classes with parameters *)

(** bias.py L34-99, L253-299. [set_params]: L267-275 compares tree structures
    with existing parameters (not needed on a fresh module, whose bias is
    None, but modelled), L277-280, L282-288, L291-297, L299. *)
Fixpoint same_struct (a b : pv) {struct a} : bool :=
  match a, b with
  | VNone, VNone => true
  | VList l, VList m | VTup l, VTup m =>
      (fix go l m := match l, m with
                     | [], [] => true
                     | x :: l', y :: m' => same_struct x y && go l' m'
                     | _, _ => false
                     end) l m
  | VDict d, VDict e =>
      (length d =? length e) &&
      forallb (fun kv => match dget e (fst kv) with
                         | Some w => same_struct (snd kv) w | None => false end) d
  | VNone, _ | VList _, _ | VTup _, _ | VDict _, _ => false
  | _, VNone | _, VList _ | _, VTup _ | _, VDict _ => false
  | _, _ => true
  end.

Definition truthy (v : pv) : bool :=
  match v with
  | VNone => false | VBool b => b | VInt z => negb (z =? 0)%Z
  | VStr s => negb (String.eqb s "") | VList l | VTup l => negb (length l =? 0)
  | VDict d => negb (length d =? 0) | _ => true
  end.

Definition bias_check (scalar real : bool) (p : pv) : result unit :=
  if negb (forallb is_arr (pleaves p)) then Err ValueError
  else if scalar && negb (match p with VArr a => str_list_eqb (a_shape a) [1] | _ => false end)
  then Err ValueError
  else if real && negb (forallb real_leaf (pleaves p)) then Err ValueError
  else if negb real && forallb real_leaf (pleaves p) then Err ValueError
  else Ok tt.

Definition bias_set_par (o : obj) (p : pv) : result obj :=
  let* cur := attr o "bias" in
  let* scalar := attr o "scalar" in
  let* real := attr o "real" in
  let* _ := match cur with
            | VNone => Ok tt
            | b => if same_struct p b then Ok tt else Err ValueError
            end in
  let* _ := bias_check (truthy scalar) (truthy real) p in
  Ok (setattr o "bias" p).

Definition bias_cls : cls :=
  mk_cls (mk_obj [("bias", VNone); ("init_magnitude", VFloat 0); ("real", VBool true); ("scalar", VBool false)] true)
         (hyper_of ["init_magnitude"; "real"; "scalar"]) set_all
         (fun o => attr o "bias") bias_set_par.
Definition bias_obj (bias : pv) (mag : nat) (real scalar t : bool) : obj :=
  mk_obj [("bias", bias); ("init_magnitude", VFloat mag); ("real", VBool real); ("scalar", VBool scalar)] t.

(** bias.py L67-99 ([asarray] is [np.array(self.bias).reshape((1,))]) and the
    two outcomes of compile L204-248: one array, or a tree of arrays. "First
    leaf" of L80 is the first in dictionary-key order, which only matters when
    some but not all leaves are arrays. *)
Definition is_scalar (v : pv) : bool :=
  match v with VInt _ | VFloat _ | VBool _ | VCplx _ => true | VArr a => length (a_shape a) =? 0 | _ => false end.
Definition bias_init (asarray : pv -> nat) (bias : pv) (mag : nat) (real scalar t : bool) : result obj :=
  match bias with
  | VNone => Ok (bias_obj VNone mag real scalar t)
  | _ =>
      if scalar && negb (is_scalar bias) then Err ValueError
      else let* _ := if scalar then Ok tt
                     else match pleaves bias with
                          | [] => Err IndexError
                          | v :: _ => if is_arr v then Ok tt else Err ValueError
                          end in
           if real && negb (forallb real_leaf (pleaves bias)) then Err ValueError
           else if negb real && forallb real_leaf (pleaves bias) then Err ValueError
           else Ok (bias_obj (if scalar then VArr (mk_arr (asarray bias) [1] (forallb real_leaf (pleaves bias))) else bias)
                             mag real scalar t)
  end.
Inductive bias_drawn (real scalar : bool) : pv -> Prop :=
| bd_one (a : arr) : a_real a = real -> (scalar = true -> a_shape a = [1]) -> bias_drawn real scalar (VArr a)
| bd_tree (p : pv) : scalar = false -> pleaves p <> [] ->
    (forall v, In v (pleaves p) -> exists a, v = VArr a /\ a_real a = real) -> bias_drawn real scalar p.
Definition bias_compiled (o o' : obj) : Prop :=
  exists real scalar p,
    attr o "real" = Ok (VBool real) /\ attr o "scalar" = Ok (VBool scalar) /\
    ((attr o "bias" <> Ok VNone /\ o' = o) \/
     (attr o "bias" = Ok VNone /\ bias_drawn real scalar p /\ o' = setattr o "bias" p)).

(** constant.py L30-114 (defaults), L229-244. *)
Definition constant_cls : cls :=
  mk_cls (mk_obj [("constant", VNone); ("shape", VNone); ("init_magnitude", VFloat 0);
                  ("real", VNone); ("_name", VStr "Constant")] false)
         (hyper_of ["shape"; "init_magnitude"; "real"; "_name"]) set_all
         (fun o => attr o "constant") (fun o p => Ok (setattr o "constant" p)).
Definition constant_obj (constant shape : pv) (mag : nat) (real : pv) (name : string) (t : bool) : obj :=
  mk_obj [("constant", constant); ("shape", shape); ("init_magnitude", VFloat mag);
          ("real", real); ("_name", VStr name)] t.

Section Herm.
(** [np.allclose(M, M.conj().transpose(...))] on an array. *)
Context (herm : arr -> bool).

Definition int_list (vs : list pv) : option (list nat) :=
  fold_right (fun v acc => match nat_of_v v, acc with Some n, Some l => Some (n :: l) | _, _ => None end) (Some []) vs.

(** affinehermitianmatrix.py L289-311. *)
Definition ahm_set_par (o : obj) (p : pv) : result obj :=
  match p with
  | VArr m =>
      let* cur := attr o "Ms" in
      let* n := attr o "matrix_size" in
      match a_shape m, nat_of_v n with
      | d :: _, Some n =>
          let d := match cur with VArr c => hd 0 (a_shape c) | _ => d end in
          if negb (str_list_eqb (a_shape m) [d; n; n]) then Err ValueError
          else if negb (herm m) then Err ValueError
          else Ok (setattr o "Ms" p)
      | [], _ => Err IndexError
      | _, None => Err ValueError (* a size None never equals an array dimension *)
      end
  | _ => Err ValueError
  end.
Definition opt_nat (n : option nat) : pv := match n with Some p => VInt (Z.of_nat p) | None => VNone end.
(** affinehermitianmatrix.py L62-116, L270-287. *)
Definition ahm_cls : cls :=
  mk_cls (mk_obj [("matrix_size", VNone); ("smoothing", VFloat 1); ("bias_term", VBool true);
                  ("Ms", VNone); ("init_magnitude", VFloat 0)] true)
         (hyper_of ["matrix_size"; "smoothing"; "init_magnitude"; "bias_term"])
         (set_all_unless "Ms") (fun o => attr o "Ms") ahm_set_par.
Definition ahm_obj (n : option nat) (smoothing : nat) (bias_term : bool) (Ms : option arr) (mag : nat) (t : bool) : obj :=
  mk_obj [("matrix_size", opt_nat n); ("smoothing", VFloat smoothing); ("bias_term", VBool bias_term);
          ("Ms", match Ms with Some m => VArr m | None => VNone end); ("init_magnitude", VFloat mag)] t.

(** The constructor L94-116 (the size is an int, so L95-97 reject 0) and
    compile L212-253 on a single-leaf shape of one axis of length [d] ([draw]
    is the whole of L237-253). *)
Definition ahm_init (n : option nat) (smoothing : nat) (Ms : option arr) (mag : nat) (bias_term : bool) : result obj :=
  match n with
  | Some 0 => Err ValueError
  | _ =>
      match Ms with
      | None => Ok (ahm_obj n smoothing bias_term None mag true)
      | Some m =>
          match a_shape m with
          | a :: b :: _ =>
              let n := match n with Some n => n | None => b end in
              if negb (str_list_eqb (a_shape m) [a; n; n]) then Err ValueError
              else if negb (herm m) then Err ValueError
              else Ok (ahm_obj (Some n) smoothing bias_term Ms mag true)
          | _ => Err IndexError
          end
      end
  end.
Definition ahm_compile (draw : list nat -> arr) (o : obj) (d : nat) : result obj :=
  let* bias := attr o "bias_term" in
  let* cur := attr o "Ms" in
  let* n := attr o "matrix_size" in
  let p := if truthy bias then S d else d in
  match cur with
  | VArr m => if hd 0 (a_shape m) =? p then Ok o else Err ValueError
  | _ => match nat_of_v n with
         | Some n => Ok (setattr o "Ms" (VArr (draw [p; n; n])))
         | None => Err TypeError
         end
  end.

(** affinetensor.py L245-262. *)
Definition at_set_par (o : obj) (p : pv) : result obj :=
  match p with
  | VArr m =>
      let* cur := attr o "Ms" in
      let* sh := attr o "tensor_shape" in
      match a_shape m, sh with
      | d :: _, VTup l =>
          let d := match cur with VArr c => hd 0 (a_shape c) | _ => d end in
          match int_list l with
          | Some l => if str_list_eqb (a_shape m) (d :: l) then Ok (setattr o "Ms" p) else Err ValueError
          | None => Err ValueError
          end
      | [], _ => Err IndexError
      | _, _ => Err TypeError
      end
  | _ => Err ValueError
  end.
(** affinetensor.py L43-96, L226-243. *)
Definition at_cls : cls :=
  mk_cls (mk_obj [("tensor_shape", VNone); ("bias_term", VBool true); ("Ms", VNone);
                  ("init_magnitude", VFloat 0); ("real", VBool true)] true)
         (hyper_of ["tensor_shape"; "init_magnitude"; "bias_term"; "real"])
         (set_all_unless "Ms") (fun o => attr o "Ms") at_set_par.
Definition shape_v (l : list nat) : pv := VTup (map (fun n => VInt (Z.of_nat n)) l).
Definition at_obj (sh : option (list nat)) (bias_term : bool) (Ms : option arr) (mag : nat) (real t : bool) : obj :=
  mk_obj [("tensor_shape", match sh with Some l => shape_v l | None => VNone end); ("bias_term", VBool bias_term);
          ("Ms", match Ms with Some m => VArr m | None => VNone end);
          ("init_magnitude", VFloat mag); ("real", VBool real)] t.

(** affinetensor.py L75-96 and L166-209. [tensor_shape or Ms.shape[1:]] takes
    the second for the empty tuple. *)
Definition at_init (sh : option (list nat)) (Ms : option arr) (mag : nat) (bias_term real : bool) : result obj :=
  if match sh with Some l => existsb (Nat.eqb 0) l | None => false end then Err ValueError
  else match Ms with
       | None => Ok (at_obj sh bias_term None mag real true)
       | Some m =>
           match a_shape m with
           | a :: r =>
               let l := match sh with Some (x :: l) => x :: l | _ => r end in
               if str_list_eqb (a_shape m) (a :: l) then Ok (at_obj (Some l) bias_term Ms mag real true)
               else Err ValueError
           | [] => Err IndexError
           end
       end.
Definition at_compile (draw : list nat -> arr) (o : obj) (d : nat) : result obj :=
  let* bias := attr o "bias_term" in
  let* cur := attr o "Ms" in
  let* sh := attr o "tensor_shape" in
  let p := if truthy bias then S d else d in
  match cur with
  | VArr m => if hd 0 (a_shape m) =? p then Ok o else Err ValueError
  | _ => match sh with
         | VTup l => match int_list l with
                     | Some l => Ok (setattr o "Ms" (VArr (draw (p :: l))))
                     | None => Err TypeError
                     end
         | _ => Err TypeError
         end
  end.

(** expectationvaluesum.py L310-337, transitionamplitudesum.py L311-338. *)
Definition evs_set_par (o : obj) (p : pv) : result obj :=
  match p with
  | VArr m =>
      let* q := attr o "output_size" in
      let* l := attr o "num_observables" in
      match a_shape m with
      | [a; b; c; d] =>
          match nat_of_v q, nat_of_v l with
          | Some q, Some l =>
              if negb (str_list_eqb [a; b; c; d] [q; l; c; c]) then Err ValueError
              else if negb (herm m) then Err ValueError
              else Ok (setattr o "Ds" p)
          | _, _ => Err ValueError
          end
      | _ => Err ValueError
      end
  | _ => Err ValueError
  end.
(** expectationvaluesum.py L81-145, L291-308; the other class alike. *)
Definition evs_cls : cls :=
  mk_cls (mk_obj [("num_observables", VNone); ("output_size", VNone); ("Ds", VNone);
                  ("init_magnitude", VFloat 0); ("centered", VBool true)] true)
         (hyper_of ["num_observables"; "output_size"; "init_magnitude"; "centered"])
         (set_all_unless "Ds") (fun o => attr o "Ds") evs_set_par.
Definition evs_obj (l q : option nat) (Ds : option arr) (mag : nat) (centered t : bool) : obj :=
  mk_obj [("num_observables", opt_nat l); ("output_size", opt_nat q);
          ("Ds", match Ds with Some m => VArr m | None => VNone end);
          ("init_magnitude", VFloat mag); ("centered", VBool centered)] t.

(** expectationvaluesum.py L111-145 and L210-273 on a single-leaf shape of two
    axes, the first of length [n]; the other class alike (L111-145, L211-274). *)
Definition opt_is (o : option nat) (n : nat) : bool := match o with Some m => m =? n | None => true end.
Definition evs_init (l q : option nat) (Ds : option arr) (mag : nat) (centered : bool) : result obj :=
  match Ds with
  | None => Ok (evs_obj l q None mag centered true)
  | Some m =>
      match a_shape m with
      | [a; b; c; d] =>
          if negb (c =? d) then Err ValueError
          else if negb (herm m) then Err ValueError
          else if negb (opt_is l b) then Err ValueError
          else if negb (opt_is q a) then Err ValueError
          else Ok (evs_obj (Some b) (Some a) Ds mag centered true)
      | _ => Err ValueError
      end
  end.
Definition evs_compile (draw : list nat -> arr) (o : obj) (n : nat) : result obj :=
  let* l := attr o "num_observables" in
  let* q := attr o "output_size" in
  let* cur := attr o "Ds" in
  match nat_of_v l, nat_of_v q with
  | Some l, Some q =>
      match cur with
      | VArr m => match a_shape m with
                  | [_; _; c; d] => if (c =? n) && (d =? n) then Ok o else Err ValueError
                  | _ => Err IndexError
                  end
      | _ => Ok (setattr o "Ds" (VArr (draw [q; l; n; n])))
      end
  | _, _ => Err ValueError
  end.

(** lowrankaffinehermitianmatrix.py L64-113, L276-332: matrix_rank is not among
    the hyper-parameters, and the parameters are the pair (ls, us). *)
Definition lr_set_par (o : obj) (p : pv) : result obj :=
  match p with
  | VTup [VArr ls; VArr us] =>
      let* n := attr o "matrix_size" in
      let* r := attr o "matrix_rank" in
      let* cus := attr o "us" in
      let* cls_ := attr o "ls" in
      match a_shape us, a_shape ls with
      | du :: _, dl :: _ =>
          let du := match cus with VArr c => hd 0 (a_shape c) | _ => du end in
          let dl := match cls_ with VArr c => hd 0 (a_shape c) | _ => dl end in
          match nat_of_v n, nat_of_v r with
          | Some n, Some r =>
              if negb (str_list_eqb (a_shape us) [du; n; r]) then Err ValueError
              else if negb (str_list_eqb (a_shape ls) [dl; r]) then Err ValueError
              else Ok (setattr (setattr o "ls" (VArr ls)) "us" (VArr us))
          | _, _ => Err ValueError
          end
      | _, _ => Err IndexError
      end
  | _ => Err ValueError
  end.
Definition lr_cls : cls :=
  mk_cls (mk_obj [("matrix_size", VNone); ("matrix_rank", VNone); ("smoothing", VFloat 1); ("bias_term", VBool true);
                  ("us", VNone); ("ls", VNone); ("init_magnitude", VFloat 0)] true)
         (hyper_of ["matrix_size"; "smoothing"; "init_magnitude"; "bias_term"])
         (fun o h => let* u := attr o "us" in let* l := attr o "ls" in
                     match u, l with VNone, VNone => set_all o h | _, _ => Err ValueError end)
         (fun o => let* l := attr o "ls" in let* u := attr o "us" in Ok (VTup [l; u])) lr_set_par.
Definition lr_obj (n r : option nat) (smoothing : nat) (bias_term : bool) (par : option (arr * arr)) (mag : nat) (t : bool) : obj :=
  mk_obj [("matrix_size", opt_nat n); ("matrix_rank", opt_nat r); ("smoothing", VFloat smoothing); ("bias_term", VBool bias_term);
          ("us", match par with Some (_, u) => VArr u | None => VNone end);
          ("ls", match par with Some (l, _) => VArr l | None => VNone end); ("init_magnitude", VFloat mag)] t.
End Herm.

(** prelu.py L48-81, L196-252. The check L217-250 only runs when the module is
    ready; it is an argument here. *)
Definition prelu_cls (check : obj -> pv -> result unit) : cls :=
  mk_cls (mk_obj [("single_parameter", VBool true); ("init_magnitude", VFloat 2); ("real", VBool true);
                  ("a", VNone); ("input_shape", VNone)] true)
         (hyper_of ["single_parameter"; "init_magnitude"; "input_shape"; "real"])
         (set_all_unless "a") (fun o => attr o "a")
         (fun o p => let* a := attr o "a" in let* i := attr o "input_shape" in
                     let* _ := match a, i with VNone, _ | _, VNone => Ok tt | _, _ => check o p end in
                     Ok (setattr o "a" p)).
Definition prelu_obj (single : bool) (mag : nat) (real : bool) (a input_shape : pv) (t : bool) : obj :=
  mk_obj [("single_parameter", VBool single); ("init_magnitude", VFloat mag); ("real", VBool real);
          ("a", a); ("input_shape", input_shape)] t.

(** einsum.py L109-180, L789-820. *)
Definition in_hyper (o : obj) (h : dict pv) (k : string) : obj :=
  match dget h k with Some v => setattr o k v | None => o end.
Definition einsum_hyper (o : obj) : result (dict pv) :=
  hyper_of (["einsum_str"; "dim_map"] ++ (if trn o then [] else ["params"]) ++
            ["init_magnitude"; "real"; "input_shape"]) o.
Definition einsum_set_hyper (o : obj) (h : dict pv) : obj :=
  let o := in_hyper o h "input_shape" in
  let o := in_hyper o h "einsum_str" in
  let o := in_hyper o h "dim_map" in
  let o := if trn o then o else in_hyper o h "params" in
  let o := in_hyper o h "init_magnitude" in
  in_hyper o h "real".
Definition einsum_cls : cls :=
  mk_cls (mk_obj [("einsum_str", VNone); ("params", VNone); ("dim_map", VNone);
                  ("init_magnitude", VFloat 0); ("real", VBool true); ("input_shape", VNone)] false)
         einsum_hyper (fun o h => Ok (einsum_set_hyper o h))
         (fun o => attr o "params") (fun o p => Ok (setattr o "params" p)).
Definition einsum_obj (str params dim_map : pv) (mag : nat) (real : bool) (input_shape : pv) (t : bool) : obj :=
  mk_obj [("einsum_str", str); ("params", params); ("dim_map", dim_map);
          ("init_magnitude", VFloat mag); ("real", VBool real); ("input_shape", input_shape)] t.

(** matmul.py L62-131. *)
Definition matmul_obj (params output_shape path_order : pv) (mag : pv) (real : pv) (separator : pv)
    (str dim_map input_shape : pv) (t : bool) : obj :=
  mk_obj [("params", params); ("output_shape", output_shape); ("path_order", path_order);
          ("init_magnitude", mag); ("real", real); ("separator", separator);
          ("einsum_str", str); ("dim_map", dim_map); ("input_shape", input_shape)] t.
(** matmul.py L392-402: [{**super().get_hyperparameters(), **matmul_hypers}]. *)
Definition matmul_hyper (o : obj) : result (dict pv) :=
  let* e := einsum_hyper o in
  let* m := hyper_of ((if trn o then [] else ["params"]) ++
                      ["output_shape"; "path_order"; "init_magnitude"; "real"; "separator"]) o in
  Ok (fold_left (fun d kv => dset d (fst kv) (snd kv)) m e).
(** matmul.py L404-426: the constructor call L417-424 leaves out the separator
    and sets einsum_str, dim_map (L124-131) and input_shape (einsum.py L180) to
    None. *)
Definition get_or (h : dict pv) (k : string) (o : obj) : result pv :=
  match dget h k with Some v => Ok v | None => attr o k end.
Definition matmul_set_hyper (o : obj) (h : dict pv) : result obj :=
  let o := einsum_set_hyper o h in
  let* params := if trn o then attr o "params" else get_or h "params" o in
  let* output_shape := get_or h "output_shape" o in
  let* path_order := get_or h "path_order" o in
  let* mag := get_or h "init_magnitude" o in
  let* real := get_or h "real" o in
  let o := matmul_obj params output_shape path_order mag real (VStr ".") VNone VNone VNone (trn o) in
  Ok (einsum_set_hyper o h).
Definition matmul_cls : cls :=
  mk_cls (matmul_obj VNone VNone VNone (VFloat 0) (VBool true) (VStr ".") VNone VNone VNone false)
         matmul_hyper matmul_set_hyper
         (fun o => attr o "params") (fun o p => Ok (setattr o "params" p)).

(* ------------------------------------------------------------------ *)
(** * Composite modules before compilation *)

(** affineeigenvaluepmm.py L65-141, L198-216: the attributes of an uncompiled
    object ([modules] is the empty list, model.py L125; the remaining Model
    attributes are omitted, as is [trainable], which for a model is computed
    from its modules). Ms is not among the hyper-parameters. *)
Definition aepmm_cls : cls :=
  mk_cls (mk_obj [("matrix_size", VNone); ("num_eig", VInt 1); ("which", VStr "SA"); ("smoothing", VNone);
                  ("Ms", VNone); ("init_magnitude", VFloat 0); ("bias_term", VBool true)] true)
         (hyper_of ["matrix_size"; "num_eig"; "which"; "smoothing"; "init_magnitude"; "bias_term"])
         set_all (fun _ => Ok (VList [])) ignore_par.
Definition aepmm_obj (n k : pv) (which : string) (smoothing Ms : pv) (mag : nat) (bias t : bool) : obj :=
  mk_obj [("matrix_size", n); ("num_eig", k); ("which", VStr which); ("smoothing", smoothing);
          ("Ms", Ms); ("init_magnitude", VFloat mag); ("bias_term", VBool bias)] t.

(** linearnn.py L32-56, L142-178 before compilation: the activation is a module
    object, which is not serialisable; deserialize L197-212 then sees no
    modules (the empty list, not None), so L204-212 set the activation to None;
    this last step is attached to [set_par] here, which runs last. *)
Definition lnn_cls : cls :=
  mk_cls (mk_obj [("out_features", VNone); ("bias", VBool true); ("activation", VNone);
                  ("init_magnitude", VFloat 0); ("real", VBool true)] true)
         (hyper_of ["out_features"; "bias"; "activation"; "init_magnitude"; "real"])
         set_all (fun _ => Ok (VList [])) (fun o _ => Ok (setattr o "activation" VNone)).
Definition lnn_obj (out : pv) (bias : bool) (activation : pv) (mag : nat) (real t : bool) : obj :=
  mk_obj [("out_features", out); ("bias", VBool bias); ("activation", activation);
          ("init_magnitude", VFloat mag); ("real", VBool real)] t.
