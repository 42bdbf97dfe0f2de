(** Model of the small layers working on trees of arrays:
    modules/activationbase.py with _autogenerated_activationfuncs.py,
    modules/bias.py, modules/constant.py and modules/prelu.py.

    Simplifications.  The numbers are an arbitrary type [V] with the operations
    used; random initial parameters come from a function [draw] of the shape
    (the key handling does not influence shapes or structure; every leaf gets
    its own key, so [draw] may also be given the position of the leaf, which we
    leave out).  Rounding is not modelled. *)
From Coq Require Import Arith.
From Verif Require Import Base TreeUtil NdArray Serial Scaler TrainArgs.
Local Open Scope list_scope.
Local Open Scope nat_scope.

Definition same_shape (s t : list nat) : bool := if list_eq_dec Nat.eq_dec s t then true else false.
Section Layers.
Context {V : Type} (zero : V).

(* ------------------------------------------------------------------ *)
(** ** Activations *)

(** The run-time type check of a callable — typing.py [Data]:
    [PyTree[Inexact[Array, "batch_size ..."]]] for the argument and for the
    result with one [batch_size] per call ([@jaxtyped] on the callable,
    activationbase.py L110-117): every leaf has a leading axis, all of the same
    length.  (That the leaves are inexact is not modelled.) *)
Definition leading (a : arr V) : option nat := match shp a with [] => None | n :: _ => Some n end.
Definition check_batch (ins outs : tree (arr V)) : result unit :=
  match leaves ins ++ leaves outs with
  | [] => Ok tt
  | a :: l => match leading a with
              | None => Err TypeError
              | Some n => if forallb (fun b => match leading b with Some m => m =? n | None => false end) l then Ok tt else Err TypeError
              end
  end.

(** activationbase.py L100-120: [jax.tree.map(self.func, data)]. *)
Definition act_call (func : arr V -> result (arr V)) (data : tree (arr V)) : result (tree (arr V)) :=
  let* out := jmapM func data in
  let* _ := check_batch data out in
  Ok out.
(** activationbase.py L136-149. *)
Definition act_shape (input_shape : tree (list nat)) : tree (list nat) := input_shape.

(** The functions of _autogenerated_activationfuncs.py: most are applied entry
    by entry ([jax.nn.relu] L24, [jax.numpy.tanh] L1791, ...). *)
Definition entrywise (g : V -> V) (a : arr V) : result (arr V) := Ok (amap g a).

(** The rows along the last axis. *)
Definition row (n k : nat) (l : list V) : list V := firstn n (skipn (k * n) l).
Definition along_last (m : nat) (g : list V -> list V) (s : list nat) (n : nat) (l : list V) : arr V :=
  mk_arr (s ++ [m]) (concat (map (fun k => g (row n k l)) (seq 0 (prod s)))).
(** [jax.nn.softmax] (L461), [log_softmax] (L480) and [standardize] (L518) with
    their default [axis=-1]: a function of the rows along the last axis that
    keeps their length; an array without axes is refused by jax (ValueError). *)
Definition rowwise (g : list V -> list V) (a : arr V) : result (arr V) :=
  match rev (shp a) with
  | [] => Err ValueError
  | n :: s' => Ok (along_last n g (rev s') n (dat a))
  end.
(** [jax.nn.glu] (L385) with its default [axis=-1]: the last axis must have an
    even length (AssertionError) and is halved, [x1 * sigmoid(x2)]. *)
Fixpoint glu_row (mul : V -> V -> V) (sigmoid : V -> V) (x1 x2 : list V) : list V :=
  match x1, x2 with a :: x1', b :: x2' => mul a (sigmoid b) :: glu_row mul sigmoid x1' x2' | _, _ => [] end.
Definition glu (mul : V -> V -> V) (sigmoid : V -> V) (a : arr V) : result (arr V) :=
  match rev (shp a) with
  | [] => Err AssertionError
  | n :: s' =>
      if Nat.even n
      then Ok (along_last (n / 2) (fun r => glu_row mul sigmoid (firstn (n / 2) r) (skipn (n / 2) r)) (rev s') n (dat a))
      else Err AssertionError
  end.
(** [jax.numpy.amax] (L632), [amin] (L651) and [jax.nn.logsumexp] (L499) with
    their default [axis=None]: one number for the whole array; [op] may refuse
    an empty array. *)
Definition reduce_all (op : list V -> result V) (a : arr V) : result (arr V) :=
  let* v := op (dat a) in Ok (mk_arr [] [v]).

(* ------------------------------------------------------------------ *)
(** ** Bias *)
Context (add mul : V -> V -> V) (nonneg : V -> bool) (isreal : V -> bool) (isrealobj : arr V -> bool).

(** bias.py L67-71 (the fields used later). *)
Record bias := mk_bias { b_val : option (tree (arr V)); b_real : bool; b_scalar : bool }.
(** the argument [bias] of the constructor *)
Inductive given := GNone | GNum (v : V) | GTree (t : tree (arr V)).

Definition all_real (t : tree (arr V)) : bool := forallb isrealobj (leaves t).
(** bias.py L86-96 and L291-297 *)
Definition check_real (real all : bool) : result unit :=
  if real && negb all then Err ValueError else if negb real && all then Err ValueError else Ok tt.

(** [Bias.__init__] — bias.py L73-99. *)
Definition bias_new (g : given) (real scalar : bool) : result bias :=
  match g with
  | GNone => Ok (mk_bias None real scalar)
  | GNum v =>
      if scalar then let* _ := check_real real (isreal v) in Ok (mk_bias (Some (Leaf (mk_arr [1] [v]))) real scalar)
      else Err ValueError                                                     (* L79-85 *)
  | GTree t =>
      if scalar then Err ValueError                                           (* L75-78 *)
      else match leaves t with
           | [] => Err IndexError                                             (* L80 *)
           | _ => let* _ := check_real real (all_real t) in Ok (mk_bias (Some t) real scalar)
           end
  end.

(** [Bias.compile] — bias.py L149-248. *)
Definition check_shape (x : arr V) (s : list nat) : result unit := if same_shape (shp x) s then Ok tt else Err ValueError.
Definition one_number (s : list nat) : bool := match s with [] => true | [n] => n =? 1 | _ => false end.
Definition bias_compile (draw : list nat -> arr V) (m : bias) (input_shape : tree (list nat)) : result bias :=
  match b_val m with
  | Some (Leaf a) =>
      if one_number (shp a) then Ok m                                         (* L184-187 *)
      else match input_shape with
           | Leaf s => if same_shape (shp a) s then Ok m else Err ValueError  (* L158-166 *)
           | _ => if existsb (fun s => negb (same_shape s (shp a))) (leaves input_shape)
                  then Err ValueError else Ok m                               (* L169-183 *)
           end
  | Some t => let* _ := jzipM check_shape t input_shape in Ok m               (* L190-202 *)
  | None =>
      let shape := if b_scalar m then Leaf [1] else input_shape in            (* L205 *)
      let* t := jmapM (fun s => Ok (draw s)) shape in                         (* L208-248 *)
      Ok (mk_bias (Some t) (b_real m) (b_scalar m))
  end.

(** [Bias._get_callable] — bias.py L108-147: the kind of function is decided by
    [self.bias], the numbers are those of [params]; a single array is added to
    every leaf.  [x + tree] fails with TypeError. *)
Definition bias_call (m : bias) (params : tree (arr V)) (data : tree (arr V)) : result (tree (arr V)) :=
  let* out := match b_val m with
              | Some (Leaf _) => jmapM (fun x => match params with Leaf p => abin zero zero add x p | _ => Err TypeError end) data
              | _ => jzipM (fun x p => abin zero zero add x p) data params
              end in
  let* _ := check_batch data out in
  Ok out.
(** bias.py L250-251. *)
Definition bias_shape (input_shape : tree (list nat)) : tree (list nat) := input_shape.
(** [Bias.set_params] — bias.py L266-299 ([same_struct] compares
    [jax.tree.structure]s; the leaves of [params] are arrays, L277-280). *)
Definition bias_set_params (m : bias) (params : tree (arr V)) : result bias :=
  let* _ := match b_val m with
            | Some t => if same_struct params t then Ok tt else Err ValueError
            | None => Ok tt
            end in
  let* _ := if b_scalar m
            then match params with Leaf p => if same_shape (shp p) [1] then Ok tt else Err ValueError | _ => Err ValueError end
            else Ok tt in
  let* _ := check_real (b_real m) (all_real params) in
  Ok (mk_bias (Some params) (b_real m) (b_scalar m)).

(* ------------------------------------------------------------------ *)
(** ** Constant *)
(** the argument [real]: None, a bool or a tree *)
Inductive rflag := RNone | RBool (b : bool) | RTree (t : tree bool).
Record constant := mk_constant { k_val : option (tree (arr V)); k_train : bool; k_shape : option (tree (list nat)); k_real : rflag }.

(** [Constant.__init__] — constant.py L70-114. *)
Definition constant_new (g : given) (trainable : bool) (shape : option (tree (list nat))) (real : rflag) : result constant :=
  match g with
  | GNone =>
      match shape with
      | None => if trainable then Err ValueError else Ok (mk_constant None trainable shape real)          (* L73-77 *)
      | Some s =>
          let* real := match real with
                       | RNone => if trainable then let* t := jmapM (fun _ => Ok true) s in Ok (RTree t) else Ok RNone  (* L79-80 *)
                       | r => Ok r
                       end in
          Ok (mk_constant None trainable shape real)
      end
  | _ =>
      let c := match g with GNum v => Leaf (mk_arr [] [v]) | GTree t => t | GNone => NoneT end in         (* L70-71 *)
      let* expected := jmapM (fun x => Ok (shp x)) c in
      let* shape := match shape with
                    | Some s => if tree_eqb same_shape expected s then Ok s else Err ValueError           (* L84-90 *)
                    | None => Ok expected                                                                 (* L92 *)
                    end in
      let* real := match real with
                   | RNone => jmapM (fun x => Ok (isrealobj x)) c                                         (* L95 *)
                   | RBool b => jmapM (fun _ => Ok b) c                                                   (* L97 *)
                   | RTree t => Ok t
                   end in
      let* _ := jzipM (fun x r => if r && negb (isrealobj x) then Err ValueError else Ok tt) c real in    (* L100-107 *)
      Ok (mk_constant (Some c) trainable (Some shape) (RTree real))
  end.

(** [Constant.compile] — constant.py L155-224; [draw s r] is a random array of
    shape [s], real if [r]. *)
Definition constant_compile (draw : list nat -> bool -> arr V) (m : constant) (input_shape : tree (list nat)) : result constant :=
  match k_val m with
  | Some _ => Ok m
  | None =>
      if negb (k_train m) then Err ValueError                                                             (* L156-161 *)
      else match k_shape m with
           | None => Err TypeError                                                                        (* not reachable from the constructor, L73-77 *)
           | Some s =>
               let* real := match k_real m with
                            | RNone => Err ValueError                                                     (* L164-168 *)
                            | RBool b => jmapM (fun _ => Ok b) s                                          (* L170-173 *)
                            | RTree t => Ok t
                            end in
               let* c := jzipM (fun s r => Ok (draw s r)) s real in                                       (* L209-224 *)
               Ok (mk_constant (Some c) (k_train m) (k_shape m) (RTree real))
           end
  end.

(** [np.broadcast_to(c, (batch_size,) + c.shape)] *)
Definition repeated (n : nat) (c : arr V) : arr V :=
  mk_arr (n :: shp c) (map (fun k => nth (k mod prod (shp c)) (dat c) zero) (seq 0 (n * prod (shp c)))).
(** [Constant._get_callable] — constant.py L126-153. *)
Definition constant_call (params data : tree (arr V)) : result (tree (arr V)) :=
  match leaves data with
  | [] => Err IndexError                                                                                  (* L139 *)
  | x :: _ => match shp x with
              | [] => Err IndexError                                                                      (* L140 *)
              | n :: _ => let* out := jmapM (fun c => Ok (repeated n c)) params in
                          let* _ := check_batch data out in
                          Ok out
              end
  end.
(** constant.py L226-227. *)
Definition constant_shape (m : constant) (input_shape : tree (list nat)) : option (tree (list nat)) := k_shape m.
(** constant.py L243-244. *)
Definition constant_set_params (m : constant) (params : tree (arr V)) : constant :=
  mk_constant (Some params) (k_train m) (k_shape m) (k_real m).

(* ------------------------------------------------------------------ *)
(** ** PReLU *)
Record prelu := mk_prelu { p_single : bool; p_a : option (tree (arr V)); p_in : option (tree (list nat)) }.
(** prelu.py L48-81. *)
Definition prelu_new (single : bool) : prelu := mk_prelu single None None.
(** prelu.py L87-88: [is_ready], with the two values. *)
Definition prelu_ready (m : prelu) : option (tree (arr V) * tree (list nat)) :=
  match p_a m, p_in m with Some a, Some s => Some (a, s) | _, _ => None end.

(** [jax.nn.leaky_relu(arr, negative_slope=a)]: [where(x >= 0, x, a * x)]. *)
Definition leaky (x a : arr V) : result (arr V) :=
  abin zero zero (fun x a => if nonneg x then x else mul a x) x a.
Definition squeeze (a : arr V) : arr V := mk_arr (filter (fun n => negb (n =? 1)) (shp a)) (dat a).
(** [params[0]] for a tuple or list of arrays, and for one array *)
Definition first_of (params : tree (arr V)) : result (arr V) :=
  match params with
  | Lst (Leaf a :: _) | Tup (Leaf a :: _) => Ok a
  | Lst [] | Tup [] => Err IndexError
  | Lst _ | Tup _ => Err AttributeError
  | Leaf a => match shp a with
              | [] => Err IndexError
              | 0 :: _ => Err IndexError
              | S _ :: s => Ok (mk_arr s (firstn (prod s) (dat a)))
              end
  | Dict _ => Err KeyError
  | NoneT => Err TypeError
  end.
(** [len(params)] *)
Definition len_of (params : tree (arr V)) : result nat :=
  match params with
  | Lst l | Tup l => Ok (length l)
  | Dict d => Ok (length d)
  | Leaf a => match shp a with [] => Err TypeError | n :: _ => Ok n end
  | NoneT => Err TypeError
  end.

(** [PReLU._get_callable] — prelu.py L90-134. *)
Definition prelu_call (m : prelu) (params data : tree (arr V)) : result (tree (arr V)) :=
  if p_single m
  then let* a := first_of params in jmapM (fun x => leaky x (squeeze a)) data                             (* L110-114 *)
  else jzipM leaky data params.                                                                           (* L125-132 *)
(** [PReLU.compile] — prelu.py L136-191. *)
Definition prelu_compile (draw : list nat -> arr V) (m : prelu) (input_shape : tree (list nat)) : result prelu :=
  match prelu_ready m with
  | Some (_, s) => if tree_eqb same_shape s input_shape then Ok m else Err ValueError                     (* L139-145 *)
  | None =>
      let* a := if p_single m then Ok (Tup [Leaf (draw [1])])                                             (* L171 *)
                else jmapM (fun s => Ok (draw s)) input_shape in                                          (* L173-191 *)
      Ok (mk_prelu (p_single m) (Some a) (Some input_shape))
  end.
(** prelu.py L193-194. *)
Definition prelu_shape (input_shape : tree (list nat)) : tree (list nat) := input_shape.
(** [PReLU.set_params] — prelu.py L215-252. *)
Definition prelu_set_params (m : prelu) (params : tree (arr V)) : result prelu :=
  let* _ := match prelu_ready m with
            | None => Ok tt
            | Some (_, s) =>
                if p_single m
                then let* n := len_of params in                                                           (* L218-224 *)
                     if negb (n =? 1) then Err ValueError
                     else let* a := first_of params in if same_shape (shp a) [1] then Ok tt else Err ValueError
                else if negb (same_struct params s) then Err ValueError                                (* L227-239 *)
                     else let* _ := jzipM check_shape params s in Ok tt                                   (* L241-250 *)
            end in
  Ok (mk_prelu (p_single m) (Some params) (p_in m)).
End Layers.
