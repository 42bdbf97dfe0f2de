(** Properties of LinearNN: C88, C89. *)
From Coq Require Import ZArith Lia.
From Verif Require Import Base BaseLemmas TreeUtil TreeSpec NonSeqSpec NdArray Serial SerialSpec Reshape ReshapeSpec Einsum MatMul MatMulSpec Layers Linear LinearSpec LinearProofs.
Local Open Scope string_scope.
Local Open Scope list_scope.
Local Open Scope nat_scope.

(** the arrays of a compiled LinearNN, as get_params gives them *)
Definition weights {V} (L : linear V) (W : arr V) (c : option (arr V)) : Prop :=
  (exists m f, nth_error (n_mods L) 1 = Some (LMat m f) /\ mm_par m = Some W) /\
  match c with Some c => exists m, nth_error (n_mods L) 2 = Some (LBias m) /\ b_val m = Some (Leaf c) | None => n_bias L = false end.

(** * C88 *)
(** A new LinearNN compiles for data of one array with at least one axis, whatever
    tree it comes in, with a matrix of one row per output and one column per number
    of a sample; it computes [act (W x + c)] for every batch, with the initial
    parameters [W], [c] ... *)
Theorem C88_affine : forall V (zero one : V) add mul (normal : nat -> list nat -> arr V) o bias act s sh,
  (forall v, mul v one = v) -> (forall i q, shp (normal i q) = q) -> wf_tree sh -> solid sh -> leaves sh = [s] -> s <> [] ->
  exists L W c, linear_compile normal (linear_new (Some o) bias act) sh = Ok L /\ weights L W c /\ shp W = [o; NdArray.prod s] /\ (bias = true -> exists a, c = Some a /\ shp a = [o]) /\ (bias = false -> c = None) /\
  forall b data, 1 <= b -> trel (batch_of b) sh data ->
    exists x y, leaves data = [x] /\ affine_image zero add mul b o (NdArray.prod s) W c x y /\
      linear_call zero one add mul L data = match act with Some f => act_call f (Leaf y) | None => Ok (Leaf y) end.
Proof.
  intros V zero one add mul normal o bias act s sh M N W S HL Hs.
  pose (W0 := normal 1 [o; NdArray.prod s]). pose (c0 := if bias then Some (normal 2 [o]) else None).
  exists (mk_linear (Some o) bias act (Some sh) (Some (Leaf [o])) (ready sh o W0 c0 act)), W0, c0. split.
  - unfold linear_compile. cbn [n_out linear_new n_in n_bias n_act n_mods]. rewrite HL. cbn [length Nat.eqb]. rewrite (fresh_compile normal o bias act s sh N W S HL Hs). reflexivity.
  - split; [|split; [apply N|]].
    + split; [do 2 eexists; split; reflexivity|]. unfold c0. destruct bias; [|reflexivity]. eexists; split; reflexivity.
    + split; [intros ->; eexists; split; [reflexivity|apply N]|]. split; [intros ->; reflexivity|].
      intros b data Hb T. unfold linear_call. cbn [n_mods]. apply ready_call; auto; [apply N|]. intros a E. unfold c0 in E. destruct bias; [|discriminate]. injection E as <-. apply N.
Qed.
(** ... and with any parameters of these shapes that are set afterwards; compiling
    again for the same data keeps them. *)
Theorem C88_parameters : forall V (zero one : V) add mul isrealobj (normal : nat -> list nat -> arr V) o bias act s sh L W c,
  (forall v, mul v one = v) -> (forall i q, shp (normal i q) = q) -> wf_tree sh -> solid sh -> leaves sh = [s] -> s <> [] -> shape_tree_eqb sh sh = true ->
  linear_compile normal (linear_new (Some o) bias act) sh = Ok L -> shp W = [o; NdArray.prod s] -> shp c = [o] -> isrealobj c = true ->
  exists L', linear_set_params isrealobj L ([Tup []; Leaf W] ++ (if bias then [Leaf c] else []) ++ match act with Some _ => [Tup []] | None => [] end) = Ok L' /\
    weights L' W (if bias then Some c else None) /\ linear_compile normal L' sh = Ok L' /\
    forall b data, 1 <= b -> trel (batch_of b) sh data ->
      exists x y, leaves data = [x] /\ affine_image zero add mul b o (NdArray.prod s) W (if bias then Some c else None) x y /\
        linear_call zero one add mul L' data = match act with Some f => act_call f (Leaf y) | None => Ok (Leaf y) end.
Proof.
  intros V zero one add mul isrealobj normal o bias act s sh L W c M N Ws S HL Hs HE HC HW Hc HR.
  unfold linear_compile in HC. cbn [n_out linear_new n_in n_bias n_act n_mods] in HC. rewrite HL in HC. cbn [length Nat.eqb] in HC. rewrite (fresh_compile normal o bias act s sh N Ws S HL Hs) in HC. cbn [rbind fst snd no_dims] in HC. injection HC as <-.
  pose (c' := if bias then Some c else None). assert (Hc' : forall a, c' = Some a -> shp a = [o]) by (unfold c'; destruct bias; [intros a [= <-]; exact Hc|discriminate]).
  exists (mk_linear (Some o) bias act (Some sh) (Some (Leaf [o])) (ready sh o W c' act)). split; [|split; [|split]].
  - unfold linear_set_params. cbn [n_mods n_out n_bias n_act n_in n_outsh].
    pose proof (ready_set isrealobj sh o (normal 1 [o; NdArray.prod s]) (if bias then Some (normal 2 [o]) else None) act W c') as R.
    replace (match c' with Some c'0 => [Leaf c'0] | None => [] end) with (if bias then [Leaf c] else []) in R by (unfold c'; destruct bias; reflexivity).
    rewrite R; [reflexivity| |].
    + unfold c'. destruct bias; [intros a [= <-]; exact HR|discriminate].
    + unfold c'. destruct bias; split; congruence.
  - split; [do 2 eexists; split; reflexivity|]. unfold c'. destruct bias; [|reflexivity]. eexists; split; reflexivity.
  - unfold linear_compile. cbn [n_out n_in n_bias n_act n_mods]. rewrite HL, HE. cbn [length Nat.eqb]. rewrite (again_compile normal o W c' act s sh N Ws S HL Hs HW Hc'). reflexivity.
  - intros b data Hb T. unfold linear_call. cbn [n_mods]. apply ready_call; auto.
Qed.
(** loading finds the activation among the modules it was built with *)
Theorem C88_activation_found : forall V (normal : nat -> list nat -> arr V) o bias act s sh L,
  (forall i q, shp (normal i q) = q) -> wf_tree sh -> solid sh -> leaves sh = [s] -> s <> [] ->
  linear_compile normal (linear_new (Some o) bias act) sh = Ok L -> recovered (n_bias L) (n_mods L) = option_map LAct act.
Proof.
  intros V normal o bias act s sh L N Ws S HL Hs HC.
  unfold linear_compile in HC. cbn [n_out linear_new n_in n_bias n_act n_mods] in HC. rewrite HL in HC. cbn [length Nat.eqb] in HC. rewrite (fresh_compile normal o bias act s sh N Ws S HL Hs) in HC. cbn [rbind fst snd no_dims] in HC. injection HC as <-.
  destruct bias, act; reflexivity.
Qed.
(** several arrays, or none, are refused *)
Theorem C88_one_array : forall V (normal : nat -> list nat -> arr V) L sh, n_out L <> None -> length (leaves sh) <> 1 -> linear_compile normal L sh = Err ValueError.
Proof.
  intros V normal L sh H1 H2. unfold linear_compile. destruct (n_out L); [|congruence]. destruct (length (leaves sh) =? 1) eqn:E; [apply Nat.eqb_eq in E; congruence|reflexivity].
Qed.

(** * C89: the announced shape *)
(** correct if the activation keeps the shape of every batch *)
Theorem C89_announced : forall V (zero one : V) add mul (normal : nat -> list nat -> arr V) o bias act s sh L b data,
  (forall v, mul v one = v) -> (forall i q, shp (normal i q) = q) -> wf_tree sh -> solid sh -> leaves sh = [s] -> s <> [] ->
  (forall f y, act = Some f -> shp y = [b; o] -> exists z, f y = Ok z /\ shp z = shp y) ->
  linear_compile normal (linear_new (Some o) bias act) sh = Ok L -> 1 <= b -> trel (batch_of b) sh data ->
  exists y l, linear_call zero one add mul L data = Ok (Leaf y) /\ linear_shape L = Ok l /\ n_outsh L = Some (Leaf l) /\ shp y = b :: l.
Proof.
  intros V zero one add mul normal o bias act s sh L b data M N Ws S HL Hs HA HC Hb T.
  destruct (C88_affine V zero one add mul normal o bias act s sh M N Ws S HL Hs) as (L1 & W & c & HC1 & _ & _ & _ & _ & HX). rewrite HC in HC1. injection HC1 as <-.
  destruct (HX b data Hb T) as (x & y & _ & [HY _] & HE).
  assert (E : n_out L = Some o /\ n_outsh L = Some (Leaf [o])).
  { unfold linear_compile in HC. cbn [n_out linear_new n_in n_bias n_act n_mods] in HC. rewrite HL in HC. cbn [length Nat.eqb] in HC. rewrite (fresh_compile normal o bias act s sh N Ws S HL Hs) in HC. cbn [rbind fst snd no_dims] in HC. injection HC as <-. split; reflexivity. }
  destruct E as [E1 E2]. destruct act as [f|].
  - destruct (HA f y eq_refl HY) as (z & Hz & Sz). exists z, [o]. split.
    + rewrite HE. unfold act_call. cbn [jmapM]. rewrite Hz. cbn [rbind].
      assert (CB : check_batch (Leaf y) (Leaf z) = Ok tt). { unfold check_batch. cbn [leaves app]. unfold leading. cbn [forallb]. rewrite Sz, HY. cbn [andb]. rewrite Nat.eqb_refl. reflexivity. }
      rewrite CB. reflexivity.
    + split; [unfold linear_shape; rewrite E1; reflexivity|]. split; [exact E2|congruence].
  - exists y, [o]. split; [exact HE|]. split; [unfold linear_shape; rewrite E1; reflexivity|]. split; [exact E2|exact HY].
Qed.

(** ** Examples *)
Definition lx_normal (i : nat) (s : list nat) : arr Z := mk_arr s (map (fun n => (Z.of_nat i + Z.of_nat n)%Z) (seq 0 (NdArray.prod s))).
Definition lx_sh : tree (list nat) := Dict [("x", Leaf [2; 2])].
Definition lx_data : tree (arr Z) := Dict [("x", Leaf (mk_arr [2; 2; 2] [1; 0; 0; 0; 1; 1; 1; 1]%Z))].
Definition lx_relu : arr Z -> result (arr Z) := entrywise (Z.max 0).
Definition lx_run (L : result (linear Z)) : result (tree (arr Z)) := let* L := L in linear_call 0%Z 1%Z Z.add Z.mul L lx_data.
Definition lx_new act : result (linear Z) := linear_compile lx_normal (linear_new (Some 2) true act) lx_sh.
Example C88_ex_hyp : (forall v, v * 1 = v)%Z /\ (forall i q, shp (lx_normal i q) = q) /\ wf_tree lx_sh /\ solid lx_sh /\ leaves lx_sh = [[2; 2]] /\ trel (batch_of 2) lx_sh lx_data /\ shape_tree_eqb lx_sh lx_sh = true.
Proof.
  split; [intros; lia|]. split; [reflexivity|]. split; [repeat constructor; cbn; tauto|]. split; [constructor; intros k t [[= <- <-]|[]]; constructor|]. split; [reflexivity|]. split; [|reflexivity].
  econstructor; [reflexivity|]. repeat constructor.
Qed.
(** W = [[1 2 3 4]; [5 6 7 8]], c = [2 3] *)
Example C88_ex_run : lx_run (lx_new None) = Ok (Leaf (mk_arr [2; 2] [3; 8; 12; 29]%Z)).
Proof. vm_compute. reflexivity. Qed.
Example C88_ex_set : lx_run (let* L := lx_new (Some lx_relu) in linear_set_params (fun _ => true) L [Tup []; Leaf (mk_arr [2; 4] [1; 0; 0; -5; 1; 0; 0; 0]%Z); Leaf (mk_arr [2] [1; 7]%Z); Tup []]) = Ok (Leaf (mk_arr [2; 2] [2; 8; 0; 8]%Z)).
Proof. vm_compute. reflexivity. Qed.
Example C89_ex : linear_shape (linear_new (V := Z) (Some 2) true None) = Ok [2] /\ (forall y : arr Z, shp y = [2; 2] -> exists z, lx_relu y = Ok z /\ shp z = shp y).
Proof. split; [reflexivity|]. intros y _. exists (amap (Z.max 0) y). split; reflexivity. Qed.

(** with the gated activation [glu] the output has half the size announced *)
Theorem C89_glu_refuted : exists (act : arr Z -> result (arr Z)) L data y,
  linear_compile lx_normal (linear_new (Some 2) true (Some act)) lx_sh = Ok L /\ trel (batch_of 2) lx_sh data /\
  linear_call 0%Z 1%Z Z.add Z.mul L data = Ok (Leaf y) /\ linear_shape L = Ok [2] /\ n_outsh L = Some (Leaf [2]) /\ shp y = [2; 1].
Proof.
  exists (glu Z.mul (fun x => x)). eexists. exists lx_data. eexists. split; [vm_compute; reflexivity|]. split; [apply C88_ex_hyp|]. split; [vm_compute; reflexivity|]. repeat split; reflexivity.
Qed.
(** changing out_features and compiling again for the same data announces the new
    size and computes with the old one *)
Definition set_out {V} (L : linear V) (o : nat) : linear V := mk_linear (Some o) (n_bias L) (n_act L) (n_in L) (n_outsh L) (n_mods L).
Theorem C89_resized_refuted : exists L L' data y,
  linear_compile lx_normal (linear_new (Some 2) true None) lx_sh = Ok L /\ linear_compile lx_normal (set_out L 3) lx_sh = Ok L' /\ trel (batch_of 2) lx_sh data /\
  linear_call 0%Z 1%Z Z.add Z.mul L' data = Ok (Leaf y) /\ linear_shape L' = Ok [3] /\ shp y = [2; 2].
Proof.
  do 2 eexists. exists lx_data. eexists. split; [vm_compute; reflexivity|]. split; [vm_compute; reflexivity|]. split; [apply C88_ex_hyp|]. split; [vm_compute; reflexivity|]. split; reflexivity.
Qed.
(** samples without an axis are refused *)
Theorem C88_scalar_rejected : exists L : linear Z, n_out L = Some 2 /\ linear_compile lx_normal L (Leaf []) = Err TypeError.
Proof. exists (linear_new (Some 2) true None). split; [reflexivity|]. vm_compute. reflexivity. Qed.

Print Assumptions C88_affine. Print Assumptions C88_parameters. Print Assumptions C88_activation_found. Print Assumptions C88_one_array. Print Assumptions C89_announced.
Print Assumptions C89_glu_refuted. Print Assumptions C89_resized_refuted. Print Assumptions C88_scalar_rejected.
