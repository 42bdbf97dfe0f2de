(** Model of the argument handling of training: [train],
    /repo/parametricmatrixmodels/training.py L1132-1738 up to the call of
    [_train], and the loss functions handed over by [Model.train],
    /repo/parametricmatrixmodels/model.py L1094-1180.
    Warnings, the callback default, random keys and the optimizer are left out. *)
From Coq Require Import ZArith.
From Verif Require Import Base TreeUtil.
Local Open Scope list_scope.

(** the structure of a tree *)
Fixpoint tmapU {B} (t : tree B) : tree unit :=
  match t with
  | Leaf _ => Leaf tt
  | NoneT => NoneT
  | Dict d => Dict (map (fun kv => (fst kv, tmapU (snd kv))) d)
  | Lst l => Lst (map tmapU l)
  | Tup l => Tup (map tmapU l)
  end.

Section TrainArgs.
(** arrays with their shapes *)
Context {A : Type}.
Variable shape : A -> list nat.

(** [jax.tree.structure(t) == jax.tree.structure(u)] *)
Definition same_struct {B C} (t : tree B) (u : tree C) : bool :=
  tree_eqb (fun _ _ => true) (tmapU t) (tmapU u).

Fixpoint zip_all {B} (f : B -> B -> bool) (l m : list B) : bool :=
  match l, m with
  | a :: l', b :: m' => f a b && zip_all f l' m'
  | _, _ => true
  end.
Definition list_eqb (l m : list nat) : bool := if list_eq_dec Nat.eq_dec l m then true else false.

(** tree_util.shapes_equal, tree_util.py L1067-1115, with [axis=None] and with
    [axis=slice(1, None)] *)
Definition shapes_equal (t u : tree A) : bool :=
  same_struct t u && zip_all (fun a b => list_eqb (shape a) (shape b)) (leaves t) (leaves u).
Definition shapes_equal_1 (t u : tree A) : bool :=
  same_struct t u && zip_all (fun a b => list_eqb (tl (shape a)) (tl (shape b))) (leaves t) (leaves u).

(** [shape[0]] *)
Definition dim0 (a : A) : result nat := match shape a with n :: _ => Ok n | [] => Err IndexError end.
(** tree_util.has_uniform_leaf_shapes, L973-1015, with [axis=0] *)
Definition has_uniform_0 (t : tree A) : result bool :=
  match leaves t with
  | [] => Ok true
  | a :: l =>
      rfold (fun (acc : bool) b => if acc then let* m := dim0 b in let* n := dim0 a in Ok (m =? n) else Ok false) l true
  end.
(** tree_util.uniform_leaf_shapes_equal, L1019-1063, with [axis=0] *)
Definition uniform_equal_0 (t u : tree A) : result bool :=
  let* a := has_uniform_0 t in
  if a then
    let* b := has_uniform_0 u in
    if b then
      match leaves t, leaves u with
      | x :: _, y :: _ => let* m := dim0 x in let* n := dim0 y in Ok (m =? n)
      | _, _ => Err IndexError
      end
    else Ok false
  else Ok false.

Record targs := mk_targs {
  a_X : tree A; a_Y : option (tree A); a_Y_unc : option (tree A);
  a_X_val : option (tree A); a_Y_val : option (tree A); a_Y_val_unc : option (tree A);
  a_batch : Z; a_val_batch : Z;
  a_resume : bool; a_adam : option (tree unit); a_params : option (tree unit); a_flags : tree unit }.

(** *** the annotations of the data arguments, L1221-1250, checked at run time by
    jaxtyping/beartype: arrays of at least two axes, one number of samples for
    [X, Y, Y_unc], one for the validation data; [X] and [X_val] have the same
    structure and the same sizes of the other axes, and so have the targets. *)
Definition opt_list {B} (o : option B) : list B := match o with Some b => [b] | None => [] end.
Definition one_count (ts : list (tree A)) : bool :=
  let all := concat (map leaves ts) in
  match all with
  | [] => true
  | a :: _ => forallb (fun b => match shape b with m :: _ :: _ => m =? hd 0 (shape a) | _ => false end) all
  end.
Definition one_kind (ts : list (tree A)) : bool :=
  match ts with
  | [] => true
  | t :: us => forallb (fun u => shapes_equal_1 t u) us
  end.
Definition annotated (a : targs) : bool :=
  one_count (a_X a :: opt_list (a_Y a) ++ opt_list (a_Y_unc a)) &&
  one_count (opt_list (a_X_val a) ++ opt_list (a_Y_val a) ++ opt_list (a_Y_val_unc a)) &&
  one_kind (a_X a :: opt_list (a_X_val a)) &&
  one_kind (opt_list (a_Y a) ++ opt_list (a_Y_unc a) ++ opt_list (a_Y_val a) ++ opt_list (a_Y_val_unc a)).

Definition given {B} (o : option B) : bool := match o with Some _ => true | None => false end.
Definition require (b : bool) (e : err) : result unit := if b then Ok tt else Err e.

(** what is passed on to [_train] *)
Record tdata := mk_tdata {
  d_X : tree A; d_Y : option (tree A); d_Y_unc : option (tree A);
  d_X_val : tree A; d_Y_val : option (tree A); d_Y_val_unc : option (tree A);
  d_batch : Z; d_val_batch : Z }.

Definition num_samples (t : tree A) : result nat :=
  match leaves t with [] => Err IndexError | x :: _ => dim0 x end.

(** the tree arguments of shapes_equal(Y, Y_val): None is the empty tree *)
Definition or_none (o : option (tree A)) : tree A := match o with Some t => t | None => NoneT end.

Definition train_args (a : targs) : result tdata :=
  let* _ := require (annotated a) TypeError in
  let* _ := require (negb (a_resume a && negb (given (a_adam a)))) ValueError in          (* L1267-1271 *)
  let* _ := require (a_resume a || given (a_params a)) ValueError in                      (* L1272-1276 *)
  let* n := num_samples (a_X a) in                                                        (* L1384 *)
  let batch := if (Z.of_nat n <? a_batch a)%Z then Z.of_nat n else a_batch a in           (* L1386-1391 *)
  let* _ := require (negb (negb (given (a_Y a)) && given (a_Y_val a))) ValueError in      (* L1393-1397 *)
  let* _ := require (negb (given (a_Y_unc a) && negb (given (a_Y a)))) ValueError in      (* L1398-1402 *)
  let* _ := require (negb (given (a_Y_val_unc a) && negb (given (a_Y_val a)))) ValueError in (* L1403-1407 *)
  let* _ := require (negb (given (a_Y_unc a) && given (a_Y_val a) && negb (given (a_Y_val_unc a)))) ValueError in (* L1408-1412 *)
  let Y_val_unc := if negb (given (a_Y_unc a)) && given (a_Y_val a) then None else a_Y_val_unc a in (* L1414-1415 *)
  let '(X_val, Y_val, Y_val_unc) :=                                                       (* L1417-1422 *)
    match a_X_val a with
    | Some x => (x, a_Y_val a, Y_val_unc)
    | None => (a_X a, a_Y a, a_Y_unc a)
    end in
  let* _ := match a_Y a with                                                              (* L1498-1501 *)
            | Some y => let* b := uniform_equal_0 (a_X a) y in require b ValueError
            | None => Ok tt end in
  let* _ := match a_Y a, a_Y_unc a with                                                   (* L1502-1503 *)
            | Some y, Some u => require (shapes_equal y u) ValueError
            | _, _ => Ok tt end in
  let* _ := match Y_val with                                                              (* L1504-1512 *)
            | Some y => let* b := uniform_equal_0 X_val y in require b ValueError
            | None => Ok tt end in
  let* _ := match Y_val, Y_val_unc with                                                   (* L1513-1518 *)
            | Some y, Some u => require (shapes_equal y u) ValueError
            | _, _ => Ok tt end in
  let* _ := require (shapes_equal_1 (a_X a) X_val) ValueError in                          (* L1519-1523 *)
  let* _ := match a_Y a with                                                              (* L1524-1528 *)
            | Some y => require (shapes_equal_1 y (or_none Y_val)) ValueError
            | None => Ok tt end in
  let* _ := match a_params a with                                                         (* L1544-1551 *)
            | Some p => require (same_struct p (a_flags a)) ValueError
            | None => Ok tt end in
  let* _ := match a_adam a with                                                           (* L1553-1562 *)
            | Some s => require (negb (a_resume a) || same_struct s (a_flags a)) ValueError
            | None => Ok tt end in
  let* m := num_samples X_val in                                                          (* L1669 *)
  let val := if (a_val_batch a <=? 0)%Z then Z.of_nat m                                   (* L1670-1679 *)
             else if (Z.of_nat m <? a_val_batch a)%Z then Z.of_nat m else a_val_batch a in
  Ok (mk_tdata (a_X a) (a_Y a) (a_Y_unc a) X_val Y_val Y_val_unc batch val).

(** *** numbers of arguments of the loss functions *)
(** the loss of [Model.train]: a name gives a function of 6, 7 or 8 arguments
    (make_loss_fn, training.py L1741-1971: unsupervised, with targets, with
    uncertainties); a user function is wrapped in a function of 6, 7 or 8
    arguments according to what is provided and called with 3, 4 or 5 *)
Inductive user_loss := Named (arity : nat) | Custom (arity : nat).
(** clean_loss_fn, model.py L1115-1167: number of arguments of the result, and
    with how many a custom function is called *)
Definition model_clean (l : user_loss) (Y U : bool) : result (nat * user_loss) :=
  match l with
  | Named k => Ok (k, l)
  | Custom k =>
      if Y && U then Ok (8, l)
      else if Y && negb U then Ok (7, l)
      else if negb Y && negb U then Ok (6, l)
      else Err ValueError
  end.
Definition inner_args (wrapper : nat) : nat := wrapper - 3.
(** clean_loss_fn, training.py L1424-1489: the number of arguments with which
    the given function is called *)
Definition train_calls (Y U : bool) : nat := if U then (if Y then 8 else 7) else if Y then 7 else 6.
(** calling succeeds when the number of arguments is right, all the way down *)
Definition call_ok (f : nat * user_loss) (n : nat) : bool :=
  (fst f =? n) && match snd f with Named _ => true | Custom k => k =? inner_args n end.

(** the functions that [_train] will call: training loss and validation loss,
    L1171-1187 of model.py followed by L1491-1495 of training.py *)
Definition losses (a : targs) (loss : user_loss) (val_loss : option user_loss) (d : tdata) : result (bool * bool) :=
  let* f := model_clean loss (given (a_Y a)) (given (a_Y_unc a)) in
  let* g := match val_loss with
            | Some l => model_clean l (given (a_Y_val a)) (given (a_Y_val_unc a))
            | None => Ok f end in
  Ok (call_ok f (train_calls (given (d_Y d)) (given (d_Y_unc d))),
      call_ok g (train_calls (given (d_Y_val d)) (given (d_Y_val_unc d)))).
End TrainArgs.
