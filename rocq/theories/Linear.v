(** LinearNN (parametricmatrixmodels/modules/linearnn.py): a sequential model that
    builds Flatten, MatMul, Bias and an activation for itself when it is compiled.

    Simplifications:
    - the four kinds of modules are those of Reshape.v, MatMul.v and Layers.v;
    - [jax.random.normal] times the magnitude is a function [normal] of the
      position of the module and the shape; the flag [real] and printing are left out;
    - an announced shape with a float (Flatten of scalars, see Reshape.v) is a
      TypeError in the next module (jax refuses it as the shape of parameters). *)
From Coq Require Import ZArith.
From Verif Require Import Base TreeUtil NdArray Serial Seq TrainArgs OneHot Reshape Einsum MatMul Layers.
Local Open Scope string_scope.
Local Open Scope list_scope.
Local Open Scope nat_scope.

Section Linear.
Context {V : Type} (zero one : V) (add mul : V -> V -> V).
Variable isrealobj : arr V -> bool.
Variable normal : nat -> list nat -> arr V.

(** The modules with what compiling them stores: the target of Flatten, the
    subscripts and parameters of MatMul, the array of Bias. *)
Inductive layer :=
| LFlat (t : option target)
| LMat (m : matmul V) (subs : option string)
| LBias (m : @bias V)
| LAct (f : arr V -> result (arr V)).

(** A shape in integers. *)
Definition int_dim (d : dim) : result nat := match d with DInt z => if (0 <=? z)%Z then Ok (Z.to_nat z) else Err TypeError | _ => Err TypeError end.
Definition int_shape (s : ashape) : result (list nat) := match s with Some l => rmapM int_dim l | None => Err TypeError end.

(** [module.compile(rng, shape)] *)
Definition with_par (m : matmul V) (p : option (arr V)) : matmul V := mk_matmul p (mm_train m) (mm_out m) (mm_order m) (mm_sep m).
Definition layer_compile (i : nat) (l : layer) (s : tree (list nat)) : result layer :=
  match l with
  | LFlat _ => Ok (LFlat (Some (flatten_target s)))                                    (* flatten.py L28-49 *)
  | LMat m _ => let* fp := matmul_compile m (normal i) s in
                Ok (LMat (with_par m (match snd fp with OnePar a => Some a | _ => mm_par m end)) (Some (fst fp)))
  | LBias m => let* m' := bias_compile (normal i) m s in Ok (LBias m')
  | LAct f => Ok (LAct f)
  end.
(** [module.get_output_shape(shape)] *)
Definition layer_shape (l : layer) (s : tree (list nat)) : result (tree (list nat)) :=
  match l with
  | LFlat _ => let* A := flatten_shape s in jmapM int_shape A
  | LMat m _ => let* r := matmul_shape m s in Ok (Leaf r)
  | LBias _ => Ok (bias_shape s)
  | LAct _ => Ok (act_shape s)
  end.
(** the module's callable with its parameters *)
Definition layer_call (l : layer) (data : tree (arr V)) : result (tree (arr V)) :=
  match l with
  | LFlat t => match t with Some _ => reshape_call t data | None => Err RuntimeError end
  | LMat m (Some full) => let* io := parse full in
                          let* r := np_einsum zero one add mul (fst io) (snd io) (par_list (pars_of (mm_par m)) ++ leaves data) in
                          Ok (Leaf r)
  | LMat _ None => Err RuntimeError
  | LBias m => match b_val m with Some p => bias_call zero add m p data | None => Err RuntimeError end
  | LAct f => act_call f data
  end.

(** linearnn.py L50-56 *)
Record linear := mk_linear {
  n_out : option nat; n_bias : bool; n_act : option (arr V -> result (arr V));
  n_in : option (tree (list nat)); n_outsh : option (tree (list nat)); n_mods : list layer }.
Definition linear_new (out : option nat) (bias : bool) (act : option (arr V -> result (arr V))) : linear := mk_linear out bias act None None [].

(** L93-114 *)
Definition build (o : nat) (bias : bool) (act : option (arr V -> result (arr V))) : list layer :=
  [LFlat None; LMat (mk_matmul None true (Some (OInt o)) None "."%char) None]
  ++ (if bias then [LBias (mk_bias None true false)] else [])
  ++ match act with Some f => [LAct f] | None => [] end.

(** sequentialmodel.py L129-145: an error while compiling is a RuntimeError. *)
Fixpoint compile_layers (i : nat) (ls : list layer) (s : tree (list nat)) : result (list layer * tree (list nat)) :=
  match ls with
  | [] => Ok ([], s)
  | l :: ls' =>
      let* l' := match layer_compile i l s with Ok l' => Ok l' | Err _ => Err RuntimeError end in
      let* s' := layer_shape l' s in
      let* r := compile_layers (S i) ls' s' in
      Ok (l' :: fst r, snd r)
  end.
Definition shape_tree_eqb (s t : tree (list nat)) : bool := tree_eqb same_shape s t.
(** L81-118; sequentialmodel.py L149-153 *)
Definition no_dims (s : tree (list nat)) : bool := match s with Leaf [] | Lst [] | Tup [] | Dict [] => true | _ => false end.
Definition linear_compile (L : linear) (s : tree (list nat)) : result linear :=
  match n_out L with
  | None => Err ValueError
  | Some o =>
      if length (leaves s) =? 1 then
        let old := match n_in L with Some t => shape_tree_eqb s t | None => false end in
        let mods := if old then n_mods L else build o (n_bias L) (n_act L) in
        let* r := compile_layers 0 mods s in
        if no_dims (snd r) then Err ValueError
        else Ok (mk_linear (n_out L) (n_bias L) (n_act L) (Some s) (Some (snd r)) (fst r))
      else Err ValueError
  end.
(** L120-140 *)
Definition linear_shape (L : linear) : result (list nat) := match n_out L with Some o => Ok [o] | None => Err ValueError end.
(** sequentialmodel.py L247-313 *)
Definition linear_call (L : linear) (data : tree (arr V)) : result (tree (arr V)) := rfold (fun d l => layer_call l d) (n_mods L) data.

(** model.py L304-334 for this list of modules: one entry per module; einsum.py
    L819-820, Layers.v for Bias, nothing for the others. *)
Definition layer_set (l : layer) (p : tree (arr V)) : result layer :=
  match l, p with
  | LMat m s, Leaf a => Ok (LMat (with_par m (Some a)) s)
  | LMat _ _, _ => Err TypeError
  | LBias m, _ => let* m' := bias_set_params isrealobj m p in Ok (LBias m')
  | _, _ => Ok l
  end.
Fixpoint layers_set (ls : list layer) (ps : list (tree (arr V))) : result (list layer) :=
  match ls, ps with
  | [], [] => Ok []
  | l :: ls', p :: ps' => let* l' := layer_set l p in let* r := layers_set ls' ps' in Ok (l' :: r)
  | _, _ => Err ValueError
  end.
Definition linear_set_params (L : linear) (ps : list (tree (arr V))) : result linear :=
  let* ls := layers_set (n_mods L) ps in
  Ok (mk_linear (n_out L) (n_bias L) (n_act L) (n_in L) (n_outsh L) ls).

(** L180-212: the activation found again after loading *)
Definition recovered (bias : bool) (mods : list layer) : option layer :=
  if length mods =? 2 then None
  else if (length mods =? 3) && negb bias then nth_error mods 2
  else if (length mods =? 4) && bias then nth_error mods 3
  else None.
End Linear.
Arguments linear : clear implicits.
Arguments layer : clear implicits.
