(** C74: bias corrections of conformal models. *)
From Coq Require Import Reals Lra Lia.
From Verif Require Import Base TreeUtil TreeSpec NonSeqSpec Serial SerialSpec Scaler OneHot Conformal LayersSpec Strata StrataSpec StrataProofs StrataMain.
Local Open Scope R_scope.
Local Open Scope list_scope.

(** Stratified corrections with outputs of one number: after calibration the
    residuals of every stratum have median 0; later samples are moved exactly
    as the calibration samples of their stratum, and samples of an unseen
    stratum are left alone. *)
Theorem C74_strata_centred_partial :
  forall t X Y P n, wf_tree X -> wf_tree t -> wf_tree Y -> wf_tree P -> trel (fun _ _ => True) X t -> (exists x, has_leaf X x) ->
  (forall x, has_leaf X x -> batch n x) -> trel (fun y p => o_shape y = [1%nat] /\ o_shape p = [1%nat] /\ batch n y /\ batch n p) Y P ->
  exists b C, calibrate_bias (MStrata t) X Y P = Ok (b, C) /\ trel alike P C /\
    (forall ks y c, leaf_at Y ks y -> leaf_at C ks c -> forall i I, (i < n)%nat -> stratum t X n i I -> is_median (map (fun j => at_ y j 0 - at_ c j 0) I) 0) /\
    forall X' P' n', wf_tree X' -> wf_tree P' -> trel (fun x x' => o_shape x = o_shape x') X X' -> (forall x, has_leaf X' x -> batch n' x) ->
      trel (fun p p' => o_shape p' = [1%nat] /\ batch n' p') P P' ->
      exists C', apply_bias (MStrata t) b X' P' = Ok C' /\ trel alike P' C' /\
        forall ks p c p' c', leaf_at P ks p -> leaf_at C ks c -> leaf_at P' ks p' -> leaf_at C' ks c' -> forall i, (i < n')%nat ->
          (forall j, (j < n)%nat -> same_stratum t X X' j i -> at_ c' i 0 - at_ p' i 0 = at_ c j 0 - at_ p j 0) /\
          ((forall j, (j < n)%nat -> ~ same_stratum t X X' j i) -> at_ c' i 0 = at_ p' i 0).
Proof. exact strata_centred. Qed.

(** One correction for all samples: outputs of any shape. *)
Theorem C74_global_centred :
  forall X Y P n, wf_tree Y -> wf_tree P -> trel (fun y p => o_shape y = o_shape p /\ batch n y /\ batch n p) Y P ->
  exists b C, calibrate_bias MGlobal X Y P = Ok (b, C) /\ trel alike P C /\
    (forall ks y c, leaf_at Y ks y -> leaf_at C ks c -> forall j, (j < features y)%nat -> is_median (map (fun i => at_ y i j - at_ c i j) (seq 0 n)) 0) /\
    forall X' P' n', wf_tree P' -> trel (fun p p' => o_shape p = o_shape p' /\ batch n' p') P P' ->
      exists C', apply_bias MGlobal b X' P' = Ok C' /\ trel alike P' C' /\
        forall ks p c p' c', leaf_at P ks p -> leaf_at C ks c -> leaf_at P' ks p' -> leaf_at C' ks c' -> forall i i' j, (i < n)%nat -> (i' < n')%nat -> (j < features p)%nat ->
          at_ c' i' j - at_ p' i' j = at_ c i j - at_ p i j.
Proof. exact global_centred. Qed.

(** A continuous feature is never accepted as a stratum. *)
Theorem C74_continuous_refused :
  forall t cont c, wf_tree t -> wf_tree cont -> check_corrections (Some (CTree t)) true cont = Ok c -> forall ks, leaf_at t ks true -> ~ leaf_at cont ks true.
Proof. exact continuous_refused. Qed.

(** Outputs with more than one number per sample cannot be corrected by strata:
    calibration fails. *)
Theorem C74_two_outputs_refuted :
  exists t X Y P n, wf_tree X /\ wf_tree t /\ wf_tree Y /\ wf_tree P /\ trel (fun _ _ => True) X t /\ (exists x, has_leaf X x) /\
    (forall x, has_leaf X x -> batch n x) /\ trel (fun y p => o_shape y = [2%nat] /\ o_shape p = [2%nat] /\ batch n y /\ batch n p) Y P /\
    calibrate_bias (MStrata t) X Y P = Err ValueError.
Proof.
  exists (Leaf true), (Leaf (mk_odata [1%nat] [[0]])), (Leaf (mk_odata [2%nat] [[1; 2]])), (Leaf (mk_odata [2%nat] [[0; 0]])), 1%nat.
  repeat apply conj; try apply wf_leaf; try (constructor; exact Logic.I).
  - eexists. constructor.
  - intros x H. inversion H. split; [reflexivity|]. cbn. intros r [ <- | [] ]. reflexivity.
  - constructor. repeat apply conj; try reflexivity; cbn; intros r [ <- | [] ]; reflexivity.
Qed.

(** Three samples in two strata; the first stratum has residuals 1 and 3, the
    second 5. *)
Definition ex_X : tree bdata := Leaf (mk_odata [1%nat] [[0]; [0]; [1]]).
Definition ex_Y : tree bdata := Leaf (mk_odata [1%nat] [[1]; [3]; [5]]).
Definition ex_P : tree bdata := Leaf (mk_odata [1%nat] [[0]; [0]; [0]]).
Lemma ex_batch l : length l = 3%nat -> (forall r : list R, In r l -> length r = 1%nat) -> batch 3 (mk_odata [1%nat] l).
Proof. intros H1 H2. split; [exact H1|]. intros r Hr. rewrite (H2 r Hr). reflexivity. Qed.
Ltac three := apply ex_batch; [reflexivity|]; cbn; intros r [ <- | [ <- | [ <- | [] ] ] ]; reflexivity.
Example C74_example :
  exists b c, calibrate_bias (MStrata (Leaf true)) ex_X ex_Y ex_P = Ok (b, Leaf c) /\ at_ c 2 0 = 5 /\ is_median [1 - at_ c 0 0; 3 - at_ c 1 0] 0 /\
    exists c', apply_bias (MStrata (Leaf true)) b (Leaf (mk_odata [1%nat] [[1]; [7]; [1]])) ex_P = Ok (Leaf c') /\ at_ c' 0 0 = 5 /\ at_ c' 1 0 = 0.
Proof.
  destruct (C74_strata_centred_partial (Leaf true) ex_X ex_Y ex_P 3) as (b & C & E & T & M & L).
  1-4: constructor.
  - constructor. exact I.
  - eexists. constructor.
  - intros x H. inversion H. three.
  - constructor. split; [reflexivity|]. split; [reflexivity|]. split; three.
  - inversion T as [? c A| | | |]; subst.
    assert (SS : forall X' j i, same_stratum (Leaf true) ex_X (Leaf X') j i <-> nth j [[0]; [0]; [1]] [] = nth i (o_rows X') []).
    { intros X' j i. split.
      - intros H. apply (H [] (mk_odata [1%nat] [[0]; [0]; [1]]) X'); reflexivity.
      - intros H ks x x' H1 H2 H3. destruct ks; [|destruct s; discriminate H1]. cbn in H1, H2, H3. injection H2 as <-. injection H3 as <-. exact H. }
    assert (C5 : at_ c 2 0 = 5).
    { specialize (M [] _ c eq_refl eq_refl 2%nat [2%nat] ltac:(lia)). destruct M as [M1 M2].
      - split; [repeat constructor; intros []|]. intros j. unfold ex_X. rewrite SS. split.
        + intros [ <- | [] ]. split; [lia|reflexivity].
        + intros [H1 H2]. left. destruct j as [|[|[|]]]; cbn in H2; try lia; injection H2 as H2; lra.
      - unfold StrataSpec.upto, from in *. cbn in M1, M2. destruct (Rle_dec _ 0) in M1; cbn in M1; [|lia]. destruct (Rle_dec 0 _) in M2; cbn in M2; [|lia]. unfold at_ in *. cbn in *. lra. }
    exists b, c. split; [exact E|]. split; [exact C5|]. split.
    + apply (M [] _ c eq_refl eq_refl 0%nat [0; 1]%nat ltac:(lia)). split; [repeat constructor; cbn; intuition lia|]. intros j. unfold ex_X. rewrite SS. split.
      * intros [ <- | [ <- | [] ] ]; (split; [lia|reflexivity]).
      * intros [H1 H2]. destruct j as [|[|[|]]]; cbn in H2 |- *; try lia; auto. injection H2 as H2. lra.
    + destruct (L (Leaf (mk_odata [1%nat] [[1]; [7]; [1]])) ex_P 3%nat) as (C' & E' & T' & L').
      1-2: constructor.
      { constructor. reflexivity. }
      { intros x H. inversion H. three. }
      { constructor. split; [reflexivity|]. three. }
      inversion T' as [? c' A'| | | |]; subst. exists c'. split; [exact E'|]. specialize (L' [] _ c _ c' eq_refl eq_refl eq_refl eq_refl). split.
      * destruct (L' 0%nat ltac:(lia)) as [L1 _]. specialize (L1 2%nat ltac:(lia)). unfold ex_X in L1. rewrite SS in L1. specialize (L1 eq_refl). rewrite C5 in L1. unfold at_ in *. cbn in L1. cbn. lra.
      * destruct (L' 1%nat ltac:(lia)) as [_ L2]. rewrite L2; [reflexivity|]. intros j Hj. unfold ex_X. rewrite SS. cbn. intros H. destruct j as [|[|[|]]]; try lia; injection H as H; lra.
Qed.
Example C74_global_example : exists b C, calibrate_bias MGlobal ex_X (Leaf (mk_odata [2%nat] [[1; 2]; [3; 4]; [8; 0]])) (Leaf (mk_odata [2%nat] [[0; 1]; [0; 1]; [0; 1]])) = Ok (b, C).
Proof.
  destruct (C74_global_centred ex_X (Leaf (mk_odata [2%nat] [[1; 2]; [3; 4]; [8; 0]])) (Leaf (mk_odata [2%nat] [[0; 1]; [0; 1]; [0; 1]])) 3) as (b & C & E & _).
  1-2: constructor.
  - constructor. split; [reflexivity|]. split; (split; [reflexivity|]; cbn; intros r [ <- | [ <- | [ <- | [] ] ] ]; reflexivity).
  - exists b, C. exact E.
Qed.
Example C74_refused_example :
  check_corrections (Some (CTree (Lst [Leaf true; Leaf false]))) true (Lst [Leaf false; Leaf true]) = Ok (CTree (Lst [Leaf true; Leaf false])) /\
  check_corrections (Some (CTree (Lst [Leaf true; Leaf true]))) true (Lst [Leaf false; Leaf true]) = Err ValueError.
Proof. split; reflexivity. Qed.
(** Two targets and three predictions do not broadcast. *)
Example C74_length_example :
  calibrate_bias MGlobal ex_X (Leaf (mk_odata [1%nat] [[1]; [3]])) ex_P = Err TypeError.
Proof. reflexivity. Qed.
Print Assumptions C74_strata_centred_partial.
Print Assumptions C74_global_centred.
Print Assumptions C74_continuous_refused.
Print Assumptions C74_two_outputs_refuted.
