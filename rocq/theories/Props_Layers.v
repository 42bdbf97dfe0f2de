(** Properties C69-C73: activations, Bias, Constant, PReLU. *)
From Coq Require Import Arith ZArith Reals Lra.
From Verif Require ConcatProofs.
From Verif Require Import Base BaseLemmas TreeUtil TreeSpec NonSeqSpec NdArray Serial SerialSpec SerialProofs Scaler ScalerProofs TrainArgsProofs EigenProofs Reshape ReshapeSpec Layers LayersSpec
  LayersProofs LayersMain LayersMore LayersRows.
Local Open Scope string_scope.
Local Open Scope list_scope.
Local Open Scope nat_scope.

(* ------------------------------------------------------------------ *)
(** * C69 — activations *)
Theorem C69_entrywise : forall (V : Type) (zero : V) (g : V -> V) n shapes (data : tree (arr V)),
  wf_tree shapes -> trel (batch_of n) shapes data -> (forall a, has_leaf data a -> wf_arr a) ->
  exists out, act_call (entrywise g) data = Ok out /\ trel (batch_of n) (act_shape shapes) out /\ pointwise zero data out (fun _ _ x y => y = g x).
Proof. exact (fun V zero => @entrywise_ok V zero (fun _ => true) (fun x _ => x) (fun _ => true)). Qed.

Theorem C69_rowwise : forall (V : Type) (zero : V) (g : list V -> list V) n shapes (data : tree (arr V)), (forall l, length (g l) = length l) ->
  wf_tree shapes -> (forall s, has_leaf shapes s -> s <> []) -> trel (batch_of n) shapes data -> (forall a, has_leaf data a -> wf_arr a) ->
  exists out, act_call (rowwise g) data = Ok out /\ trel (batch_of n) (act_shape shapes) out.
Proof. intros V zero g n shapes data G W NE T WA. destruct (rowwise_ok zero g n shapes data G W NE T WA) as (out & E & T' & _). eauto. Qed.

Theorem C69_rowwise_samples : forall (V : Type) (zero : V) (g : list V -> list V) n shapes i (d1 d2 : tree (arr V)) o1 o2, (forall l, length (g l) = length l) ->
  wf_tree shapes -> (forall s, has_leaf shapes s -> s <> []) -> trel (batch_of n) shapes d1 -> trel (batch_of n) shapes d2 ->
  (forall a, has_leaf d1 a \/ has_leaf d2 a -> wf_arr a) ->
  act_call (rowwise g) d1 = Ok o1 -> act_call (rowwise g) d2 = Ok o2 -> same_sample zero i d1 d2 -> same_sample zero i o1 o2.
Proof. exact (fun V => @rowwise_samples V). Qed.

(** Reductions over everything (amax, amin, logsumexp without arguments) can
    never be used: the run-time type check refuses their results. *)
Theorem C69_reductions_rejected : forall (V : Type) (op : list V -> result V) (data : tree (arr V)), (exists a, has_leaf data a) ->
  exists e, act_call (reduce_all op) data = Err e.
Proof.
  intros V op data (a & Ha). unfold act_call. destruct (jmapM (reduce_all op) data) as [out|e] eqn:E; [|exists e; reflexivity]. cbn [rbind].
  assert (T : trel (fun (x : arr V) y => shp y = []) data out).
  { destruct (jm_trel (fun x => match reduce_all op x with Ok y => Ok y | Err e => Ok (mk_arr [] []) end) eq (fun (x y : arr V) => shp y = []) data) with (u := data) as (v & E' & T').
    - intros x y _ <-. unfold reduce_all. destruct (op (dat x)); cbn; eauto.
    - apply trel_refl.
    - assert (v = out); [|subst; exact T'].
      enough (X : forall t u, jmapM (reduce_all op) t = Ok u -> jmapM (fun x => match reduce_all op x with Ok y => Ok y | Err e => Ok (mk_arr [] []) end) t = Ok u).
      { apply X in E. rewrite E in E'. injection E' as ->. reflexivity. }
      clear. intros t. induction t as [x| |d IH|l IH|l IH] using NonSeqProofs.tree_ind2; intros u E.
      + cbn [jmapM] in *. destruct (reduce_all op x); [exact E|discriminate].
      + exact E.
      + rewrite jmapM_dct in *. apply rbind_ok in E as (r & E & E2). injection E2 as <-.
        assert (Y : jm_dict (fun x => match reduce_all op x with Ok y => Ok y | Err e => Ok (mk_arr [] []) end) d = Ok r).
        { revert r E. induction IH as [|[k t] d Ht _ IHd]; intros r E; [exact E|]. cbn in *. apply rbind_ok in E as (y & E1 & E). apply rbind_ok in E as (r' & E3 & E). injection E as <-.
          rewrite (Ht _ E1). cbn. rewrite (IHd _ E3). reflexivity. }
        rewrite Y. reflexivity.
      + rewrite jmapM_lst in *. apply rbind_ok in E as (r & E & E2). injection E2 as <-.
        assert (Y : jm_list (fun x => match reduce_all op x with Ok y => Ok y | Err e => Ok (mk_arr [] []) end) l = Ok r).
        { revert r E. induction IH as [|t d Ht _ IHd]; intros r E; [exact E|]. cbn in *. apply rbind_ok in E as (y & E1 & E). apply rbind_ok in E as (r' & E3 & E). injection E as <-.
          rewrite (Ht _ E1). cbn. rewrite (IHd _ E3). reflexivity. }
        rewrite Y. reflexivity.
      + rewrite jmapM_tup in *. apply rbind_ok in E as (r & E & E2). injection E2 as <-.
        assert (Y : jm_list (fun x => match reduce_all op x with Ok y => Ok y | Err e => Ok (mk_arr [] []) end) l = Ok r).
        { revert r E. induction IH as [|t d Ht _ IHd]; intros r E; [exact E|]. cbn in *. apply rbind_ok in E as (y & E1 & E). apply rbind_ok in E as (r' & E3 & E). injection E as <-.
          rewrite (Ht _ E1). cbn. rewrite (IHd _ E3). reflexivity. }
        rewrite Y. reflexivity. }
  destruct (map_has_leaf _ _ _ T a Ha) as (y & Hy & Sy). unfold check_batch. apply leaves_has_leaf in Hy.
  assert (In y (leaves data ++ leaves out)) as Hin by (apply in_app_iff; auto). destruct (leaves data ++ leaves out) as [|b l]; [destruct Hin|].
  destruct Hin as [ -> |Hin].
  - unfold leading. rewrite Sy. exists TypeError. reflexivity.
  - destruct (leading b) as [n|]; [|exists TypeError; reflexivity]. destruct (forallb _ l) eqn:F; [|exists TypeError; reflexivity].
    rewrite forallb_forall in F. specialize (F y Hin). unfold leading in F. rewrite Sy in F. discriminate.
Qed.

(** GLU halves the last axis but announces the input shape. *)
Definition C69_glu_data : tree (arr Z) := Dict [("x", Leaf (mk_arr [2; 4] [1; 2; 3; 4; 5; 6; 7; 8]%Z))].
Theorem C69_shape_refuted : exists n shapes data out, trel (batch_of n) shapes data /\
  act_call (glu Z.mul (fun z => z)) data = Ok out /\ out = Dict [("x", Leaf (mk_arr [2; 2] [3; 8; 35; 48]%Z))] /\ ~ trel (batch_of n) (act_shape shapes) out.
Proof.
  exists 2, (Dict [("x", Leaf [4])]), C69_glu_data, (Dict [("x", Leaf (mk_arr [2; 2] [3; 8; 35; 48]%Z))]).
  split. { apply tr_dict with (e' := [("x", Leaf (mk_arr [2; 4] [1; 2; 3; 4; 5; 6; 7; 8]%Z))]); [reflexivity|]. constructor; [|constructor]. split; [reflexivity|]. constructor. reflexivity. }
  split; [vm_compute; reflexivity|]. split; [reflexivity|]. intros T. inversion T as [| | | |d e e' P F]; subst.
  apply Permutation.Permutation_sym, Permutation.Permutation_length_1_inv in P. subst e'. inversion F as [|? ? ? ? [_ H] _]; subst. inversion H as [s a B| | | |]; subst. discriminate.
Qed.

(** Its values: the first half of every row, gated by the second half. *)
Theorem C69_glu_value : forall (V : Type) (zero : V) (mul : V -> V -> V) (sigmoid : V -> V) s h l b, length l = prod s * (2 * h) ->
  glu mul sigmoid (mk_arr (s ++ [2 * h]) l) = Ok b ->
  shp b = s ++ [h] /\
  forall i j, i < prod s -> j < h -> nth (i * h + j) (dat b) zero = mul (nth (i * (2 * h) + j) l zero) (sigmoid (nth (i * (2 * h) + (h + j)) l zero)).
Proof.
  intros V zero mul sigmoid s h l b L E. unfold glu in E. cbn [shp dat] in E. rewrite rev_app_distr in E. cbn [rev app] in E. replace (2 * h / 2) with h in E by (rewrite Nat.mul_comm, Nat.div_mul; lia).
  destruct (Nat.even (2 * h)); [|discriminate]. assert (E' : b = along_last h (fun r => glu_row mul sigmoid (firstn h r) (skipn h r)) (rev (rev s)) (2 * h) l) by congruence. subst b. rewrite rev_involutive. unfold along_last. cbn [shp dat]. split; [reflexivity|]. intros i j Hi Hj.
  assert (G : forall x y, length x = length y -> length (glu_row mul sigmoid x y) = length x /\
    forall k, k < length x -> nth k (glu_row mul sigmoid x y) zero = mul (nth k x zero) (sigmoid (nth k y zero))).
  { induction x as [|x0 x IH]; intros [|y0 y] Hl; try discriminate; [split; [reflexivity|cbn; lia]|]. injection Hl as Hl. destruct (IH y Hl) as [G1 G2]. cbn [glu_row length]. split; [rewrite G1; reflexivity|].
    intros [|k] Hk; [reflexivity|]. cbn [nth]. apply G2. lia. }
  assert (RL : forall k, k < prod s -> length (row (2 * h) k l) = 2 * h) by (intros k Hk; unfold row; rewrite firstn_length, skipn_length, L; nia).
  assert (FL : forall k, k < prod s -> length (firstn h (row (2 * h) k l)) = h) by (intros k Hk; rewrite firstn_length, RL by exact Hk; lia).
  assert (SL : forall k, k < prod s -> length (skipn h (row (2 * h) k l)) = h) by (intros k Hk; rewrite skipn_length, RL by exact Hk; lia).
  rewrite (concat_nth zero (fun k => glu_row mul sigmoid (firstn h (row (2 * h) k l)) (skipn h (row (2 * h) k l))) h (prod s) 0); [|intros k Hk; cbn in Hk; destruct (G (firstn h (row (2 * h) k l)) (skipn h (row (2 * h) k l))) as [G1 _]; [rewrite FL, SL by exact Hk; reflexivity|rewrite G1; apply FL; exact Hk]|exact Hi|exact Hj].
  destruct (G (firstn h (row (2 * h) i l)) (skipn h (row (2 * h) i l))) as [_ G2]; [rewrite FL, SL by exact Hi; reflexivity|]. cbn [Nat.add]. rewrite G2 by (rewrite FL; assumption).
  assert (N : forall k, k < 2 * h -> nth k (row (2 * h) i l) zero = nth (i * (2 * h) + k) l zero) by (intros k Hk; unfold row; rewrite ConcatProofs.nth_firstn by exact Hk; apply ConcatProofs.nth_skipn).
  rewrite ConcatProofs.nth_firstn by exact Hj. rewrite ConcatProofs.nth_skipn. rewrite !N by lia. reflexivity.
Qed.
Example C69_glu_example : glu Z.mul (Z.add 1) (mk_arr ([2] ++ [2 * 2]) [1; 2; 3; 4; 5; 6; 7; 8]%Z) = Ok (mk_arr [2; 2] [4; 10; 40; 54]%Z).
Proof. vm_compute. reflexivity. Qed.

(** Softmax on one number per sample runs over the batch axis: the result for
    a sample depends on the other samples. *)
Definition softmax_row (l : list R) : list R := map (fun x => (exp x / fold_right Rplus 0 (map exp l))%R) l.
Theorem C69_samples_mixed_refuted : exists shapes (d1 d2 : tree (arr R)) o1 o2, trel (batch_of 2) shapes d1 /\ trel (batch_of 2) shapes d2 /\
  same_sample 0%R 0 d1 d2 /\ act_call (rowwise softmax_row) d1 = Ok o1 /\ act_call (rowwise softmax_row) d2 = Ok o2 /\ ~ same_sample 0%R 0 o1 o2.
Proof.
  exists (Leaf []), (Leaf (mk_arr [2] [0; 0]%R)), (Leaf (mk_arr [2] [0; 1]%R)).
  exists (Leaf (mk_arr [2] (softmax_row [0; 0]%R))), (Leaf (mk_arr [2] (softmax_row [0; 1]%R))).
  split; [constructor; reflexivity|]. split; [constructor; reflexivity|]. split.
  { intros ks a H. destruct ks as [|k ks]; [|discriminate]. unfold leaf_at in H. cbn in H. injection H as <-. eexists. split; [reflexivity|]. split; [reflexivity|].
    intros idx Hv. inversion Hv as [|? ? ? ? _ Hr]; subst. inversion Hr; subst. reflexivity. }
  split; [reflexivity|]. split; [reflexivity|]. intros S. destruct (S [] _ eq_refl) as (b & Hb & _ & E). unfold leaf_at in Hb. cbn in Hb. injection Hb as <-.
  specialize (E []). unfold entry in E. cbn in E. assert (L : valid [2] [0]) by (constructor; [lia|constructor]). specialize (E L).
  rewrite exp_0 in E. assert (P : (exp 0 < exp 1)%R) by (apply exp_increasing; lra). rewrite exp_0 in P.
  assert (H : (/ (1 + (exp 1 + 0)) < / (1 + (1 + 0)))%R) by (apply Rinv_lt_contravar; [nra|lra]).
  unfold Rdiv in E. rewrite !Rmult_1_l in E. lra.
Qed.

Example C69_entrywise_example : act_call (entrywise (Z.max 0)) (Dict [("x", Leaf (mk_arr [2; 2] [1; -2; -3; 4]%Z))]) = Ok (Dict [("x", Leaf (mk_arr [2; 2] [1; 0; 0; 4]%Z))]).
Proof. vm_compute. reflexivity. Qed.
Example C69_rowwise_example : act_call (rowwise (@rev Z)) (Leaf (mk_arr [2; 3] [1; 2; 3; 4; 5; 6]%Z)) = Ok (Leaf (mk_arr [2; 3] [3; 2; 1; 6; 5; 4]%Z)).
Proof. vm_compute. reflexivity. Qed.
Example C69_reductions_example : act_call (reduce_all (fun l => match l with [] => Err ValueError | x :: l => Ok (fold_right Z.max x l) end)) (Leaf (mk_arr [2; 3] [1; 2; 3; 4; 5; 6]%Z)) = Err TypeError.
Proof. vm_compute. reflexivity. Qed.

(* ------------------------------------------------------------------ *)
(** * C70 — Bias *)
Theorem C70_bias_adds : forall (V : Type) (zero : V) (add : V -> V -> V) (isreal : V -> bool) (isrealobj : arr V -> bool)
  draw g real scalar m m' m2 shapes n data p q,
  (forall t, g = GTree t -> wf_tree t) -> wf_tree shapes -> (forall s, shp (draw s) = s) ->
  bias_new isreal isrealobj g real scalar = Ok m -> bias_compile draw m shapes = Ok m' -> b_val m' = Some p ->
  trel (fun a b : arr V => shp b = shp a) p q -> (q = p /\ m2 = m' \/ bias_set_params isrealobj m' q = Ok m2) ->
  trel (batch_of n) shapes data ->
  match g with GNone => True | GNum v => p = Leaf (mk_arr [1] [v]) | GTree t => p = t end /\
  exists out, bias_call zero add m2 q data = Ok out /\ trel (batch_of n) (bias_shape shapes) out /\
    pointwise zero data out (fun ks idx x y => exists a, (q = Leaf a \/ leaf_at q ks a) /\ y = add x (everywhere zero a idx)).
Proof. exact (fun V zero add => @bias_adds V zero add). Qed.

Definition C70_draw (s : list nat) : arr Z := mk_arr s (map Z.of_nat (seq 0 (prod s))).
Definition C70_shapes : tree (list nat) := Dict [("u", Leaf [3]); ("v", Leaf [2; 2])].
Definition C70_data : tree (arr Z) := Dict [("v", Leaf (mk_arr [1; 2; 2] [1; 1; 1; 1]%Z)); ("u", Leaf (mk_arr [1; 3] [10; 20; 30]%Z))].
Example C70_example : exists m m' p, bias_new (fun _ => true) (fun _ => true) GNone true false = Ok m /\ bias_compile C70_draw m C70_shapes = Ok m' /\ b_val m' = Some p /\
  bias_call 0%Z Z.add m' p C70_data = Ok (Dict [("u", Leaf (mk_arr [1; 3] [10; 21; 32]%Z)); ("v", Leaf (mk_arr [1; 2; 2] [1; 2; 3; 4]%Z))]).
Proof. do 3 eexists. split; [reflexivity|]. split; [vm_compute; reflexivity|]. split; [reflexivity|]. vm_compute. reflexivity. Qed.
(** a single number is added everywhere *)
Example C70_scalar_example : exists m m' p, bias_new (fun _ => true) (fun _ => true) (GNum 5%Z) true true = Ok m /\ bias_compile C70_draw m C70_shapes = Ok m' /\ b_val m' = Some p /\
  bias_call 0%Z Z.add m' p C70_data = Ok (Dict [("u", Leaf (mk_arr [1; 3] [15; 25; 35]%Z)); ("v", Leaf (mk_arr [1; 2; 2] [6; 6; 6; 6]%Z))]).
Proof. do 3 eexists. split; [reflexivity|]. split; [vm_compute; reflexivity|]. split; [reflexivity|]. vm_compute. reflexivity. Qed.

(** Given biases and new parameters must be of the announced kind: all real for
    a real module, not all real for a complex one.  A complex module therefore
    refuses real numbers. *)
Theorem C70_kind : forall (V : Type) (isreal : V -> bool) (isrealobj : arr V -> bool) real scalar,
  (forall v m, bias_new isreal isrealobj (GNum v) real scalar = Ok m -> isreal v = real) /\
  (forall t m, bias_new isreal isrealobj (GTree t) real scalar = Ok m -> ((forall a, has_leaf t a -> isrealobj a = true) <-> real = true)) /\
  (forall m0 q m, b_real m0 = real -> bias_set_params isrealobj m0 q = Ok m -> ((forall a, has_leaf q a -> isrealobj a = true) <-> real = true)).
Proof.
  intros V isreal isrealobj real scalar.
  assert (C : forall b u, check_real real b = Ok u -> b = real) by (intros b u; unfold check_real; destruct real, b; cbn; congruence).
  assert (A : forall t, all_real isrealobj t = true <-> forall a, has_leaf t a -> isrealobj a = true).
  { intros t. unfold all_real. rewrite forallb_forall. split; intros H a Ha; apply H; apply leaves_has_leaf; exact Ha. }
  split; [|split].
  - intros v m. cbn [bias_new]. destruct scalar; [|discriminate]. intros E. apply rbind_ok in E as (u & E & _). exact (C _ _ E).
  - intros t m. cbn [bias_new]. destruct scalar; [discriminate|]. destruct (leaves t); [discriminate|]. intros E. apply rbind_ok in E as (u & E & _). apply C in E. rewrite <- E, <- A. reflexivity.
  - intros m0 q m Hr. unfold bias_set_params. rewrite Hr. intros E. apply rbind_ok in E as (u1 & _ & E). apply rbind_ok in E as (u2 & _ & E). apply rbind_ok in E as (u & E & _). apply C in E. rewrite <- E, <- A. reflexivity.
Qed.
Definition C70_gauss : Z * Z -> bool := fun z => (snd z =? 0)%Z.
Example C70_kind_example :
  bias_new C70_gauss (fun a => forallb C70_gauss (dat a)) (GNum (3, 1)%Z) true true = Err ValueError /\
  is_ok (bias_new C70_gauss (fun a => forallb C70_gauss (dat a)) (GNum (3, 1)%Z) false true) = true /\
  bias_new C70_gauss (fun a => forallb C70_gauss (dat a)) (GTree (Leaf (mk_arr [2] [(3, 0); (4, 0)]%Z))) false false = Err ValueError.
Proof. repeat split. Qed.

(** A scalar module never holds anything but one number, and the kind of a module
    never changes. *)
Inductive bias_life {V} (isreal : V -> bool) (isrealobj : arr V -> bool) (real scalar : bool) : bias -> Prop :=
| bl_new g m : bias_new isreal isrealobj g real scalar = Ok m -> bias_life isreal isrealobj real scalar m
| bl_compile draw m shapes m' : bias_life isreal isrealobj real scalar m -> (forall s, shp (draw s) = s) -> bias_compile draw m shapes = Ok m' -> bias_life isreal isrealobj real scalar m'
| bl_set m q m' : bias_life isreal isrealobj real scalar m -> bias_set_params isrealobj m q = Ok m' -> bias_life isreal isrealobj real scalar m'.
Theorem C70_scalar : forall (V : Type) (isreal : V -> bool) (isrealobj : arr V -> bool) real scalar m,
  bias_life isreal isrealobj real scalar m ->
  b_real m = real /\ b_scalar m = scalar /\ (scalar = true -> forall t, b_val m = Some t -> exists a, t = Leaf a /\ shp a = [1]).
Proof.
  intros V isreal isrealobj real scalar m H. induction H as [g m E|draw m shapes m' H (I1 & I2 & I3) D E|m q m' H (I1 & I2 & I3) E].
  - destruct g as [|v|t]; cbn [bias_new] in E.
    + injection E as <-. cbn. split; [reflexivity|]. split; [reflexivity|discriminate].
    + destruct scalar; [|discriminate]. apply rbind_ok in E as (u & _ & E). injection E as <-. cbn. split; [reflexivity|]. split; [reflexivity|]. intros _ t Ht. injection Ht as <-. eauto.
    + destruct scalar; [discriminate|]. destruct (leaves t); [discriminate|]. apply rbind_ok in E as (u & _ & E). injection E as <-. cbn. repeat split; discriminate.
  - unfold bias_compile in E. destruct (b_val m) as [t|] eqn:Ev.
    + assert (X : m' = m); [|subst m'; rewrite Ev; auto]. destruct t as [a| |d|l|l]; try (apply rbind_ok in E as (u & _ & E); congruence).
      destruct (one_number (shp a)); [congruence|]. destruct shapes; try (destruct (existsb _ _); congruence). destruct (same_shape _ _); congruence.
    + apply rbind_ok in E as (t & Et & E). injection E as <-. cbn. split; [exact I1|]. split; [exact I2|]. intros Hs t' Ht. injection Ht as <-. rewrite I2, Hs in Et. cbn in Et. injection Et as <-. eauto.
  - unfold bias_set_params in E. apply rbind_ok in E as (u1 & _ & E). apply rbind_ok in E as (u2 & E2 & E). apply rbind_ok in E as (u3 & _ & E). injection E as <-. cbn. split; [exact I1|]. split; [exact I2|].
    intros Hs t Ht. injection Ht as <-. rewrite I2, Hs in E2. destruct q as [p| |d|l|l]; try discriminate. destruct (same_shape (shp p) [1]) eqn:S; [|discriminate]. apply same_shape_eq in S. eauto.
Qed.
Example C70_scalar_life : bias_life (fun _ : Z => true) (fun _ => true) true true (mk_bias (Some (Leaf (mk_arr [1] [7]%Z))) true true) /\
  bias_set_params (fun _ => true) (mk_bias (Some (Leaf (mk_arr [1] [7]%Z))) true true) (Leaf (mk_arr [2] [7; 8]%Z)) = Err ValueError.
Proof.
  split; [|reflexivity]. apply bl_set with (m := mk_bias (Some (Leaf (mk_arr [1] [5]%Z))) true true) (q := Leaf (mk_arr [1] [7]%Z)); [|reflexivity].
  apply bl_new with (g := GNum 5%Z). reflexivity.
Qed.

(** [set_params] of a compiled module accepts arrays of any shape; the output
    then no longer has the announced shape, and with a parameter array that has
    the batch axis different samples get different biases. *)
Theorem C70_shapes_refuted : exists m m' m2 q data out shapes, wf_tree shapes /\
  bias_new (fun _ : Z => true) (fun _ => true) GNone true false = Ok m /\ bias_compile C70_draw m shapes = Ok m' /\
  bias_set_params (fun _ => true) m' q = Ok m2 /\ trel (batch_of 2) shapes data /\ bias_call 0%Z Z.add m2 q data = Ok out /\
  ~ trel (batch_of 2) (bias_shape shapes) out.
Proof.
  do 2 eexists. exists (mk_bias (Some (Leaf (mk_arr [3] [1; 2; 3]%Z))) true false), (Leaf (mk_arr [3] [1; 2; 3]%Z)), (Leaf (mk_arr [2; 1] [10; 20]%Z)), (Leaf (mk_arr [2; 3] [11; 12; 13; 21; 22; 23]%Z)), (Leaf [1]).
  split; [constructor|]. split; [reflexivity|]. split; [vm_compute; reflexivity|]. split; [vm_compute; reflexivity|]. split; [constructor; reflexivity|]. split; [vm_compute; reflexivity|].
  intros T. inversion T as [s a B| | | |]; subst. discriminate.
Qed.
Theorem C70_samples_refuted : exists m m' m2 q data, wf_tree (Leaf [2]) /\
  bias_new (fun _ : Z => true) (fun _ => true) GNone true false = Ok m /\ bias_compile C70_draw m (Leaf [2]) = Ok m' /\
  bias_set_params (fun _ => true) m' q = Ok m2 /\ trel (batch_of 2) (Leaf [2]) data /\
  data = Leaf (mk_arr [2; 2] [0; 0; 0; 0]%Z) /\ bias_call 0%Z Z.add m2 q data = Ok (Leaf (mk_arr [2; 2] [1; 2; 3; 4]%Z)).
Proof.
  do 2 eexists. exists (mk_bias (Some (Leaf (mk_arr [2; 2] [1; 2; 3; 4]%Z))) true false), (Leaf (mk_arr [2; 2] [1; 2; 3; 4]%Z)), (Leaf (mk_arr [2; 2] [0; 0; 0; 0]%Z)).
  split; [constructor|]. split; [reflexivity|]. split; [vm_compute; reflexivity|]. split; [vm_compute; reflexivity|]. split; [constructor; reflexivity|]. split; [reflexivity|]. vm_compute. reflexivity.
Qed.

(* ------------------------------------------------------------------ *)
(** * C71 — Constant *)
Theorem C71_constant_repeats : forall (V : Type) (zero : V) (isrealobj : arr V -> bool) draw g train shape real m m' shapes n (data : tree (arr V)),
  (forall t, g = GTree t -> wf_tree t) -> (forall s, shape = Some s -> wf_tree s) -> flag_wf real -> (forall s r, shp (draw s r) = s) ->
  constant_new isrealobj g train shape real = Ok m -> constant_compile draw m shapes = Ok m' ->
  (exists s, has_leaf shapes s) -> trel (batch_of n) shapes data ->
  exists c S out, k_val m' = Some c /\ given_value g c /\ constant_shape m' shapes = Some S /\
    constant_call zero c data = Ok out /\ trel (batch_of n) S out /\
    forall ks a, leaf_at c ks a -> exists y, leaf_at out ks y /\ shp y = n :: shp a /\
      forall i idx, valid (shp y) (i :: idx) -> entry zero y (i :: idx) = entry zero a idx.
Proof. exact (fun V => @constant_repeats V). Qed.
Example C71_example : exists m m' c, constant_new (fun _ : arr Z => true) (GTree (Lst [Leaf (mk_arr [2] [7; 8]%Z)])) false (Some (Lst [Leaf [2]])) RNone = Ok m /\
  constant_compile (fun s _ => C70_draw s) m (Leaf [1]) = Ok m' /\ k_val m' = Some c /\
  constant_call 0%Z c (Leaf (mk_arr [3; 1] [1; 2; 3]%Z)) = Ok (Lst [Leaf (mk_arr [3; 2] [7; 8; 7; 8; 7; 8]%Z)]).
Proof. do 3 eexists. split; [vm_compute; reflexivity|]. split; [vm_compute; reflexivity|]. split; [reflexivity|]. vm_compute. reflexivity. Qed.
(** [set_params] checks nothing. *)
Theorem C71_shapes_refuted : exists m m' q data out S, constant_new (fun _ : arr Z => true) (GTree (Leaf (mk_arr [2] [7; 8]%Z))) true None RNone = Ok m /\
  constant_compile (fun s _ => C70_draw s) m (Leaf [1]) = Ok m' /\ trel (batch_of 1) (Leaf [1]) data /\
  k_val (constant_set_params m' q) = Some q /\ constant_shape (constant_set_params m' q) (Leaf [1]) = Some S /\
  constant_call 0%Z q data = Ok out /\ ~ trel (batch_of 1) S out.
Proof.
  do 2 eexists. exists (Leaf (mk_arr [3] [1; 2; 3]%Z)), (Leaf (mk_arr [1; 1] [0]%Z)), (Leaf (mk_arr [1; 3] [1; 2; 3]%Z)), (Leaf [2]).
  split; [vm_compute; reflexivity|]. split; [vm_compute; reflexivity|]. split; [constructor; reflexivity|]. split; [reflexivity|]. split; [vm_compute; reflexivity|]. split; [vm_compute; reflexivity|].
  intros T. inversion T as [s a B| | | |]; subst. discriminate.
Qed.

(* ------------------------------------------------------------------ *)
(** * C72 — PReLU *)
Theorem C72_prelu : forall (V : Type) (zero : V) (mul : V -> V -> V) (nonneg : V -> bool) single ops s n (data : tree (arr V)), Forall sound_op ops ->
  let m := fold_left pstep ops (prelu_new single) in
  p_in m = Some s -> trel (batch_of n) s data ->
  exists p out, p_a m = Some p /\ prelu_call zero mul nonneg m p data = Ok out /\ trel (batch_of n) (prelu_shape s) out /\
    pointwise zero data out (fun ks idx x y => exists v, (if single then the_slope zero p v else exists a, leaf_at p ks a /\ v = entry zero a idx) /\
      y = if nonneg x then x else mul v x).
Proof. exact (fun V => @prelu_acts V). Qed.
Example C72_example : let m := fold_left pstep [PSet (Leaf (mk_arr [9] [])); PCompile C70_draw C70_shapes; PSet (Leaf (mk_arr [1] [])); PCompile C70_draw (Leaf [1])] (prelu_new false) in
  exists p, p_in m = Some C70_shapes /\ p_a m = Some p /\
  prelu_call 0%Z Z.mul (Z.leb 0) m p (Dict [("v", Leaf (mk_arr [1; 2; 2] [-1; 1; -1; -2]%Z)); ("u", Leaf (mk_arr [1; 3] [-10; -20; -30]%Z))]) =
    Ok (Dict [("u", Leaf (mk_arr [1; 3] [0; -20; -60]%Z)); ("v", Leaf (mk_arr [1; 2; 2] [0; 1; -2; -6]%Z))]).
Proof. eexists. split; [vm_compute; reflexivity|]. split; [vm_compute; reflexivity|]. vm_compute. reflexivity. Qed.
Example C72_single_example : let m := fold_left pstep [PCompile C70_draw (Leaf [2]); PSet (Lst [Leaf (mk_arr [1] [3]%Z)])] (prelu_new true) in
  exists p, p_in m = Some (Leaf [2]) /\ p_a m = Some p /\ prelu_call 0%Z Z.mul (Z.leb 0) m p (Leaf (mk_arr [1; 2] [-1; 1]%Z)) = Ok (Leaf (mk_arr [1; 2] [-3; 1]%Z)).
Proof. eexists. split; [vm_compute; reflexivity|]. split; [vm_compute; reflexivity|]. vm_compute. reflexivity. Qed.

(* ------------------------------------------------------------------ *)
(** * C73 — parameters given before compiling *)
Theorem C73_bias_kept : forall (V : Type) (isreal : V -> bool) (isrealobj : arr V -> bool) draw m m1 m2 q shapes,
  bias_set_params isrealobj m q = Ok m1 -> bias_compile draw m1 shapes = Ok m2 -> b_val m2 = Some q.
Proof.
  intros V isreal isrealobj draw m m1 m2 q shapes E C. unfold bias_set_params in E. apply rbind_ok in E as (? & _ & E). apply rbind_ok in E as (? & _ & E). apply rbind_ok in E as (? & _ & E).
  injection E as <-. unfold bias_compile in C. cbn [b_val] in C. destruct q as [a| |d|l|l].
  - destruct (one_number (shp a)); [injection C as <-; reflexivity|]. destruct shapes as [s| |d|l|l].
    + destruct (same_shape (shp a) s); [injection C as <-; reflexivity|discriminate].
    + destruct (existsb _ _); [discriminate|injection C as <-; reflexivity].
    + destruct (existsb _ _); [discriminate|injection C as <-; reflexivity].
    + destruct (existsb _ _); [discriminate|injection C as <-; reflexivity].
    + destruct (existsb _ _); [discriminate|injection C as <-; reflexivity].
  - apply rbind_ok in C as (? & _ & C). injection C as <-. reflexivity.
  - apply rbind_ok in C as (? & _ & C). injection C as <-. reflexivity.
  - apply rbind_ok in C as (? & _ & C). injection C as <-. reflexivity.
  - apply rbind_ok in C as (? & _ & C). injection C as <-. reflexivity.
Qed.
Theorem C73_constant_kept : forall (V : Type) draw (m m2 : @constant V) q shapes, constant_compile draw (constant_set_params m q) shapes = Ok m2 -> k_val m2 = Some q.
Proof. intros V draw m m2 q shapes C. cbn in C. injection C as <-. reflexivity. Qed.
Example C73_example : exists m1 m2, bias_set_params (fun _ => true) (mk_bias None true false) (Leaf (mk_arr [2] [1; 2]%Z)) = Ok m1 /\ bias_compile C70_draw m1 (Leaf [2]) = Ok m2.
Proof. do 2 eexists. split; vm_compute; reflexivity. Qed.
(** PReLU forgets them. *)
Theorem C73_prelu_refuted : exists m1 m2 q, prelu_set_params (prelu_new true) q = Ok m1 /\ p_a m1 = Some q /\ prelu_compile C70_draw m1 (Leaf [2]) = Ok m2 /\ p_a m2 <> Some q.
Proof. do 2 eexists. exists (Tup [Leaf (mk_arr [1] [3]%Z)]). split; [vm_compute; reflexivity|]. split; [reflexivity|]. split; [vm_compute; reflexivity|]. vm_compute. discriminate. Qed.

Print Assumptions C69_entrywise.
Print Assumptions C69_rowwise.
Print Assumptions C69_rowwise_samples.
Print Assumptions C69_reductions_rejected.
Print Assumptions C69_shape_refuted.
Print Assumptions C69_samples_mixed_refuted.
Print Assumptions C70_bias_adds.
Print Assumptions C70_shapes_refuted.
Print Assumptions C70_samples_refuted.
Print Assumptions C71_constant_repeats.
Print Assumptions C71_shapes_refuted.
Print Assumptions C72_prelu.
Print Assumptions C73_bias_kept.
Print Assumptions C73_constant_kept.
Print Assumptions C73_prelu_refuted.
Print Assumptions C69_glu_value.
Print Assumptions C70_kind.
Print Assumptions C70_scalar.
