(** C37: copying (serialise, fresh instance, deserialise) a built-in module
    gives a module with the same attributes and trainability. *)
From Coq Require Import ZArith.
From Verif Require Import Base Modules ModulesSpec ModulesProofs.
Local Open Scope string_scope.
Local Open Scope list_scope.
Local Open Scope nat_scope.

(** Eigenvalues, Eigenvectors, Eigensystem with any settings. *)
Theorem C37_eigen : forall (tower : bool) num_eig which t, copies tower eigen_cls (eigen_obj num_eig which t).
Proof. exact copy_eigen. Qed.

Theorem C37_reshape : forall (tower : bool) shape t,
  leaves_are is_int shape -> copies tower reshape_cls (reshape_obj shape t).
Proof. exact copy_reshape. Qed.
Example C37_reshape_ex : leaves_are is_int (VDict [("a", VTup [VInt 2; VInt (-1)]); ("b", VNone)]).
Proof. intros x [<- | [<- | []]]; reflexivity. Qed.

Theorem C37_treeflatten : forall (tower : bool) t, copies tower treeflatten_cls (mk_obj [] t).
Proof. exact copy_treeflatten. Qed.

Theorem C37_treekey : forall (tower : bool) keypaths separator t,
  leaves_are is_str keypaths -> copies tower treekey_cls (treekey_obj keypaths separator t).
Proof. exact copy_treekey. Qed.
Example C37_treekey_ex : leaves_are is_str (VList [VStr "a/b"; VDict [("x", VStr "c")]]).
Proof. intros x [<- | [<- | []]]; reflexivity. Qed.

Theorem C37_comment : forall (tower : bool) comment t, copies tower comment_cls (comment_obj comment t).
Proof. exact copy_comment. Qed.

Theorem C37_constant : forall (tower : bool) constant shape mag real name t,
  leaves_are is_int shape -> leaves_are is_bool real ->
  copies tower constant_cls (constant_obj constant shape mag real name t).
Proof. exact copy_constant. Qed.
Example C37_constant_ex : leaves_are is_int (VTup [VInt 2; VInt 3]) /\ leaves_are is_bool (VBool true).
Proof. split; [intros x [<- | [<- | []]]; reflexivity | intros x [<- | []]; reflexivity]. Qed.

Theorem C37_prelu : forall (tower : bool) check single mag real a input_shape t,
  leaves_are is_int input_shape ->
  copies tower (prelu_cls check) (prelu_obj single mag real a input_shape t).
Proof. exact copy_prelu. Qed.

Theorem C37_einsum : forall (tower : bool) einsum_str params dim_map mag real input_shape t,
  leaves_are is_str einsum_str -> leaves_are is_int dim_map -> leaves_are is_int input_shape ->
  copies tower einsum_cls (einsum_obj einsum_str params dim_map mag real input_shape t).
Proof. exact copy_einsum. Qed.
Example C37_einsum_ex : leaves_are is_str (VTup [VStr "ij"; VList [VStr "jk"]; VStr "ik"]) /\
  leaves_are is_int (VDict [("i", VInt 4)]) /\ leaves_are is_int (VList [VTup [VInt 2; VInt 3]]).
Proof.
  repeat split; intros x Hx; cbn in Hx; repeat (destruct Hx as [<- | Hx]; [reflexivity|]); contradiction.
Qed.

(** Bias, from any constructor call with an all-array (or scalar) bias, after
    any compilations, parameter and trainability settings. *)
Theorem C37_bias : forall (tower : bool) asarray o,
  reach (fun o => exists b mag real scalar t,
           (scalar = false -> leaves_are is_arr b) /\ bias_init asarray b mag real scalar t = Ok o)
        bias_compiled bias_set_par o ->
  copies tower bias_cls o.
Proof. exact (fun tw f o H => copy_bias tw o (bias_reach_inv f o H)). Qed.
Example C37_bias_ex : bias_init (fun _ => 7) (VFloat 3) 0 true true true =
  Ok (bias_obj (VArr (mk_arr 7 [1] true)) 0 true true true).
Proof. reflexivity. Qed.

(** The constructor only looks at the first leaf: it accepts a bias that
    cannot be copied. *)
Theorem C37_bias_refuted : exists bias o,
  bias_init (fun _ => 0) bias 0 true false true = Ok o /\
  forall tower, copy tower bias_cls o = Err ValueError.
Proof.
  exists (VDict [("a", VArr (mk_arr 1 [2] true)); ("b", VFloat 5)]).
  eexists. split; [reflexivity|]. intros []; reflexivity.
Qed.

(** AffineHermitianMatrix, AffineTensor, ExpectationValueSum and
    TransitionAmplitudeSum. [draw] is the random initialisation, [herm] the
    numerical Hermiticity test. *)
Theorem C37_affine_hermitian : forall (tower : bool) (herm : arr -> bool) (draw : list nat -> arr),
  (forall s, a_shape (draw s) = s) -> (forall s, herm (draw s) = true) ->
  forall o,
  reach (fun o => exists n smoothing Ms mag bias_term, ahm_init herm n smoothing Ms mag bias_term = Ok o)
        (fun o o' => exists d, ahm_compile draw o d = Ok o') (ahm_set_par herm) o ->
  copies tower (ahm_cls herm) o.
Proof. exact (fun tw h d H1 H2 o H => copy_ahm tw h o (ahm_reach_inv h d H1 H2 o H)). Qed.
Example C37_affine_hermitian_ex :
  let draw := fun s => mk_arr 3 s false in
  exists o o', ahm_init (fun _ => true) (Some 5) 0 None 0 true = Ok o /\ ahm_compile draw o 2 = Ok o' /\
    attr o' "Ms" = Ok (VArr (mk_arr 3 [3; 5; 5] false)).
Proof. do 2 eexists. split; [reflexivity|]. split; reflexivity. Qed.

Theorem C37_affine_tensor : forall (tower : bool) (draw : list nat -> arr),
  (forall s, a_shape (draw s) = s) ->
  forall o,
  reach (fun o => exists sh Ms mag bias_term real, at_init sh Ms mag bias_term real = Ok o)
        (fun o o' => exists d, at_compile draw o d = Ok o') at_set_par o ->
  copies tower at_cls o.
Proof. exact (fun tw d H1 o H => copy_at tw o (at_reach_inv d H1 o H)). Qed.
Example C37_affine_tensor_ex :
  exists o, at_init None (Some (mk_arr 1 [4; 2; 3] true)) 0 true true = Ok o /\
    attr o "tensor_shape" = Ok (shape_v [2; 3]).
Proof. eexists. split; reflexivity. Qed.

Theorem C37_expectation : forall (tower : bool) (herm : arr -> bool) (draw : list nat -> arr),
  (forall s, a_shape (draw s) = s) -> (forall s, herm (draw s) = true) ->
  forall o,
  reach (fun o => exists l q Ds mag centered, evs_init herm l q Ds mag centered = Ok o)
        (fun o o' => exists n, evs_compile draw o n = Ok o') (evs_set_par herm) o ->
  copies tower (evs_cls herm) o.
Proof. exact (fun tw h d H1 H2 o H => copy_evs tw h o (evs_reach_inv h d H1 H2 o H)). Qed.
Example C37_expectation_ex :
  exists o, evs_init (fun _ => true) (Some 2) None (Some (mk_arr 1 [1; 2; 3; 3] false)) 0 true = Ok o /\
    attr o "output_size" = Ok (VInt 1).
Proof. eexists. split; reflexivity. Qed.

(** The classes where copying is lossy: exact conditions, then witnesses. *)
Theorem C37_activation_partial : forall (tower : bool) args kwargs t,
  copies tower activation_cls (activation_obj args kwargs t) <->
  serializable tower (VTup args) = true /\ serializable tower (VDict kwargs) = true.
Proof. exact copy_activation_iff. Qed.
Example C37_activation_ex : serializable false (VTup [VFloat 3; VFloat 4]) = true /\ serializable false (VDict []) = true.
Proof. split; reflexivity. Qed.
(** Positional arguments of different types are silently dropped. *)
Theorem C37_activation_refuted : exists args, forall tower t,
  copy tower activation_cls (activation_obj args [] t) = Ok (activation_obj [] [] t) /\ args <> [].
Proof.
  exists [VFloat 3; VStr "same"]. intros tower t. split; [|discriminate].
  destruct tower; reflexivity.
Qed.

Theorem C37_concatenate_partial : forall (tower : bool) axis path_order separator t,
  copies tower concat_cls (concat_obj axis path_order separator t) <-> path_order = VNone /\ separator = ".".
Proof. exact copy_concat_iff. Qed.
Theorem C37_concatenate_refuted : exists path_order, forall tower,
  copy tower concat_cls (concat_obj (Some 0%Z) path_order "." true) = Ok (concat_obj (Some 0%Z) VNone "." true) /\
  path_order <> VNone.
Proof.
  exists (VList [VStr "b"; VStr "a"]). intros []; (split; [reflexivity | discriminate]).
Qed.

Theorem C37_matmul_partial : forall (tower : bool) params output_shape path_order mag real separator einsum_str dim_map input_shape t,
  leaves_are is_int output_shape -> leaves_are is_str path_order -> leaves_are is_str einsum_str ->
  leaves_are is_int dim_map -> leaves_are is_int input_shape ->
  copies tower matmul_cls
    (matmul_obj params output_shape path_order (VFloat mag) (VBool real) (VStr separator) einsum_str dim_map input_shape t) <->
  separator = ".".
Proof. exact copy_matmul_iff. Qed.
Theorem C37_matmul_refuted : exists path_order separator, forall tower t,
  exists o', copy tower matmul_cls
    (matmul_obj VNone VNone path_order (VFloat 0) (VBool true) (VStr separator) VNone VNone VNone t) = Ok o' /\
  attr o' "path_order" = Ok path_order /\ attr o' "separator" = Ok (VStr ".") /\ separator <> ".".
Proof.
  exists (VList [VStr "x/1"; VStr "x/0"]), "/". intros tower t.
  exists (matmul_obj VNone VNone (VList [VStr "x/1"; VStr "x/0"]) (VFloat 0) (VBool true) (VStr ".") VNone VNone VNone t).
  split; [destruct tower, t; vm_compute; reflexivity|]. split; [reflexivity|]. split; [reflexivity | discriminate].
Qed.

(** LowRankAffineHermitianMatrix can never be copied, with or without
    parameters: the rank is not saved. *)
Theorem C37_lowrank_always : forall (tower : bool) n r smoothing bias_term par mag t,
  ~ copies tower lr_cls (lr_obj n r smoothing bias_term par mag t).
Proof. exact copy_lr_never. Qed.
Theorem C37_lowrank_refuted : exists n r par, forall tower,
  copy tower lr_cls (lr_obj (Some n) (Some r) 0 true (Some par) 0 true) = Err ValueError /\
  lr_set_par (lr_obj (Some n) (Some r) 0 true None 0 true) (VTup [VArr (fst par); VArr (snd par)]) =
  Ok (lr_obj (Some n) (Some r) 0 true (Some par) 0 true).
Proof.
  exists 4, 2, (mk_arr 1 [3; 2] true, mk_arr 2 [3; 4; 2] false). intros []; split; reflexivity.
Qed.

(** Composite modules before compilation: user-supplied matrices and the
    activation module are lost. *)
Theorem C37_eigenvalue_pmm_partial : forall (tower : bool) matrix_size num_eig which smoothing Ms mag bias_term t,
  leaves_are is_int matrix_size -> leaves_are is_int num_eig -> serializable tower smoothing = true ->
  copies tower aepmm_cls (aepmm_obj matrix_size num_eig which smoothing Ms mag bias_term t) <-> Ms = VNone.
Proof. exact copy_aepmm_iff. Qed.
Theorem C37_eigenvalue_pmm_refuted : exists Ms, forall tower,
  copy tower aepmm_cls (aepmm_obj (VInt 3) (VInt 1) "SA" VNone Ms 0 true true) =
  Ok (aepmm_obj (VInt 3) (VInt 1) "SA" VNone VNone 0 true true) /\ Ms <> VNone.
Proof. exists (VArr (mk_arr 1 [2; 3; 3] false)). intros []; (split; [reflexivity | discriminate]). Qed.
Theorem C37_linearnn_partial : forall (tower : bool) out bias activation mag real t,
  leaves_are is_int out ->
  copies tower lnn_cls (lnn_obj out bias activation mag real t) <-> activation = VNone.
Proof. exact copy_lnn_iff. Qed.
Theorem C37_linearnn_refuted : exists activation, forall tower,
  copy tower lnn_cls (lnn_obj (VInt 4) true activation 0 true true) =
  Ok (lnn_obj (VInt 4) true VNone 0 true true) /\ activation <> VNone.
Proof. exists (VObj 1). intros []; (split; [reflexivity | discriminate]). Qed.

Print Assumptions C37_bias.
Print Assumptions C37_affine_hermitian.
Print Assumptions C37_matmul_partial.
Print Assumptions C37_lowrank_always.
