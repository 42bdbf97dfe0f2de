(** C39, C40: feature scalers. *)
From Coq Require Import Reals Lra.
From Verif Require Import Base TreeUtil TreeSpec NonSeqSpec SerialSpec Serial Scaler ScalerSpec ScalerProofs ScalerStats OneHot ScalerTyped ScalerTypedProofs.
Local Open Scope string_scope.
Local Open Scope R_scope.
Local Open Scope list_scope.

(* ------------------------------------------------------------------ *)
(** * C39 *)

(** Standard scaling: whatever the fitted numbers, as long as they are finite and
    the scales are not zero, on any tree of data with one number of samples: both
    directions succeed, the inverse gives back the data, and each feature is
    rescaled affinely. *)
Theorem C39_standard : forall n X s, wf_tree X -> sampled n X -> trel (std_usable (fun q => q <> 0)) X s ->
  exists Y Z, scaler_call (std_transform (Some s)) X = Ok Y /\ scaler_call (std_inverse (Some s)) Y = Ok Z /\ trel eq X Z /\ trel (rescaled (fun a => a <> 0)) X Y.
Proof.
  intros n X s W S T. destruct (std_round (fun q => q <> 0) X s) as (Y & Z & A & B & C & D); [auto|exact Rinv_neq_0_compat|exact W|exact T|].
  exists Y, Z. destruct (round_calls n _ _ X Y Z S (rescaled_count _ _ _ _ D S) A B C). auto.
Qed.
(** With positive scales, strictly increasing. *)
Theorem C39_standard_increasing : forall n X s, wf_tree X -> sampled n X -> trel (std_usable (fun q => 0 < q)) X s ->
  exists Y Z, scaler_call (std_transform (Some s)) X = Ok Y /\ scaler_call (std_inverse (Some s)) Y = Ok Z /\ trel eq X Z /\ trel (rescaled (fun a => 0 < a)) X Y.
Proof.
  intros n X s W S T. destruct (std_round (fun q => 0 < q) X s) as (Y & Z & A & B & C & D); [intros q Hq; lra|exact Rinv_0_lt_compat|exact W|exact T|].
  exists Y, Z. destruct (round_calls n _ _ X Y Z S (rescaled_count _ _ _ _ D S) A B C). auto.
Qed.

(** Min-max scaling, the range being one number for all or given per leaf (or
    absent, then nothing changes). *)
Theorem C39_minmax : forall n r X s lo hi, wf_tree r -> sampled n X -> (forall m, has_leaf r m -> mm_usable (fun p q => p <> q) m) ->
  trel (fun m x => l_x m = x) r X -> trel (fun m st => (l_min m, l_max m) = st) r s -> bound_is r l_lo lo -> bound_is r l_hi hi ->
  exists Y Z, scaler_call (mm_transform lo hi (Some s)) X = Ok Y /\ scaler_call (mm_inverse lo hi (Some s)) Y = Ok Z /\ trel eq X Z /\ trel (rescaled (fun a => a <> 0)) X Y.
Proof.
  intros n r X s lo hi W S U TX Ts BL BH.
  assert (H : exists Y Z, mm_transform lo hi (Some s) X = Ok Y /\ mm_inverse lo hi (Some s) Y = Ok Z /\ trel eq X Z /\ trel (rescaled (fun a => a <> 0)) X Y).
  { revert W U TX Ts BL BH. apply mm_round; auto; try lra. intros p q p' q' ? ?. apply Rmult_integral_contrapositive. split; [lra|]. apply Rinv_neq_0_compat. lra. }
  destruct H as (Y & Z & A & B & C & D). exists Y, Z. destruct (round_calls n _ _ X Y Z S (rescaled_count _ _ _ _ D S) A B C). auto.
Qed.
Theorem C39_minmax_increasing : forall n r X s lo hi, wf_tree r -> sampled n X -> (forall m, has_leaf r m -> mm_usable (fun p q => p < q) m) ->
  trel (fun m x => l_x m = x) r X -> trel (fun m st => (l_min m, l_max m) = st) r s -> bound_is r l_lo lo -> bound_is r l_hi hi ->
  exists Y Z, scaler_call (mm_transform lo hi (Some s)) X = Ok Y /\ scaler_call (mm_inverse lo hi (Some s)) Y = Ok Z /\ trel eq X Z /\ trel (rescaled (fun a => 0 < a)) X Y.
Proof.
  intros n r X s lo hi W S U TX Ts BL BH.
  assert (H : exists Y Z, mm_transform lo hi (Some s) X = Ok Y /\ mm_inverse lo hi (Some s) Y = Ok Z /\ trel eq X Z /\ trel (rescaled (fun a => 0 < a)) X Y).
  { revert W U TX Ts BL BH. apply mm_round; auto; try lra; [intros; lra|]. intros p q p' q' ? ?. apply Rmult_lt_0_compat; [lra|apply Rinv_0_lt_compat; lra]. }
  destruct H as (Y & Z & A & B & C & D). exists Y, Z. destruct (round_calls n _ _ X Y Z S (rescaled_count _ _ _ _ D S) A B C). auto.
Qed.

(** Robust scaling, for leaves without scaling or with at most one feature (then
    even a zero scale does no harm). *)
Theorem C39_robust_partial : forall n eps X s, 0 <= eps -> wf_tree X -> sampled n X -> trel rob_usable X s ->
  exists Y Z, scaler_call (rob_transform eps (Some s)) X = Ok Y /\ scaler_call (rob_inverse eps (Some s)) Y = Ok Z /\ trel eq X Z /\ trel (rescaled (fun a => a <> 0)) X Y.
Proof.
  intros n eps X s He W S T. destruct (rob_round eps X s He W T) as (Y & Z & A & B & C & D).
  exists Y, Z. destruct (round_calls n _ _ X Y Z S (rescaled_count _ _ _ _ D S) A B C). auto.
Qed.
(** Missing: with two or more features in a leaf and scaling switched on, the
    fitted scaler cannot transform even the data it was fitted to. *)
Theorem C39_robust_features : forall quant med ql qh ce x s, (2 <= width x)%nat ->
  rob_fit quant med (Leaf (Some ql)) (Leaf (Some qh)) (Leaf ce) (Leaf true) (Leaf x) = Ok s ->
  forall eps, scaler_call (rob_transform eps (Some s)) (Leaf x) = Err ValueError.
Proof. intros quant med ql qh ce x s L E eps. apply leaf_call. exact (rob_fit_multi quant med ql qh ce x s L E eps). Qed.
Definition C39_robust_always := forall quant med ql qh ce x s eps, finite_batch x ->
  rob_fit quant med (Leaf (Some ql)) (Leaf (Some qh)) (Leaf ce) (Leaf true) (Leaf x) = Ok s ->
  exists Y, scaler_call (rob_transform eps (Some s)) (Leaf x) = Ok Y.
Definition two_features : batch := mk_batch 2 [[Some 1; Some 5]; [Some 3; Some 9]].
Theorem C39_robust_refuted : exists x, finite_batch x /\
  forall quant med ql qh ce eps s, rob_fit quant med (Leaf (Some ql)) (Leaf (Some qh)) (Leaf ce) (Leaf true) (Leaf x) = Ok s ->
    scaler_call (rob_transform eps (Some s)) (Leaf x) = Err ValueError.
Proof.
  exists two_features. split; [|intros; eapply C39_robust_features; eauto; cbn; lia].
  repeat constructor; cbn; intros a [<-|[<-|[]]]; discriminate.
Qed.
Theorem C39_robust_always_refuted : ~ C39_robust_always.
Proof.
  intros H. destruct (H (fun _ _ => Some 1) (fun _ => Some 1) 0 1 true two_features) with (s := Leaf (RRow [Some 1; Some 1], RRow [Some (1 - 1); Some (1 - 1)])) (eps := 0) as (Y & E).
  - repeat constructor; cbn; intros a [<-|[<-|[]]]; discriminate.
  - reflexivity.
  - discriminate.
Qed.

(** A mixed scaler undoes itself if each of its scalers does so on its part. *)
Theorem C39_mixed : forall n t X, placed t X -> sampled n X ->
  exists Y Z, scaler_call (mixed_transform (Some t)) X = Ok Y /\ scaler_call (mixed_inverse (Some t)) Y = Ok Z /\ trel eq X Z.
Proof.
  intros n t X P S. destruct (mixed_round t X P) as (Y & Z & A & B & C & D). exists Y, Z.
  destruct (round_calls n (mixed_transform (Some t)) (mixed_inverse (Some t)) X Y Z S (D n S) A B C). auto.
Qed.
(** Data whose arrays have different numbers of samples are refused by every
    method, whatever it would do. *)
Theorem C39_samples : forall X, ~ (exists n, sampled n X) -> forall f, scaler_call f X = Err TypeError /\ forall S (g : tree batch -> result S), scaler_fit g X = Err TypeError.
Proof. intros X H f. split; [|intros S g]; [apply call_bad|apply call_fit_bad]; exact H. Qed.
Example C39_samples_ex : ~ (exists n, sampled n (Lst [Leaf (mk_batch 1 [[Some 1]]); Leaf (mk_batch 1 [])])).
Proof.
  intros (n & H). pose proof (H (mk_batch 1 [[Some 1]])) as A. pose proof (H (mk_batch 1 [])) as B. cbn in A, B.
  assert (1%nat = n) by (apply A; eapply hl_lst; [left; reflexivity|constructor]). assert (0%nat = n) by (apply B; eapply hl_lst; [right; left; reflexivity|constructor]). lia.
Qed.

(** Examples: two features, one of each leaf kind. *)
Definition ex_x : batch := mk_batch 2 [[Some 1; Some 5]; [Some 3; Some 9]].
Definition ex_s : list num * list num := ([Some 2; Some 7], [Some 1; Some (-2)]).
Example ex_x_finite : finite_batch ex_x.
Proof. repeat constructor; cbn; intros a [<-|[<-|[]]]; discriminate. Qed.
Example C39_sampled_ex : sampled 2 (Dict [("b", Leaf ex_x); ("a", Leaf ex_x)]).
Proof. intros x H. inversion H as [|? ? ? ? Hin Hl| |]; subst. destruct Hin as [[= <- <-]|[[= <- <-]|[]]]; inversion Hl; subst; reflexivity. Qed.
Example C39_standard_ex : wf_tree (Dict [("b", Leaf ex_x); ("a", Leaf ex_x)]) /\
  trel (std_usable (fun q => q <> 0)) (Dict [("b", Leaf ex_x); ("a", Leaf ex_x)]) (Dict [("a", Leaf ex_s); ("b", Leaf ex_s)]).
Proof.
  assert (U : std_usable (fun q => q <> 0) ex_x ex_s).
  { split; [exact ex_x_finite|]. split; [reflexivity|]. split; [reflexivity|]. cbn. intros [|[|j]] Hj; [exists 2, 1|exists 7, (-2)|lia]; repeat split; lra. }
  split.
  - constructor; [|repeat constructor]. repeat constructor; cbn; intuition discriminate.
  - apply tr_dict with (e' := [("b", Leaf ex_s); ("a", Leaf ex_s)]); [apply Permutation.perm_swap|].
    constructor; [split; [reflexivity|constructor; exact U]|constructor; [split; [reflexivity|constructor; exact U]|constructor]].
Qed.
Example C39_standard_value : scaler_call (std_transform (Some (Leaf ex_s))) (Leaf ex_x) =
  Ok (Leaf (mk_batch 2 [[Some ((1 - 2) / 1); Some ((5 - 7) / -2)]; [Some ((3 - 2) / 1); Some ((9 - 7) / -2)]])).
Proof.
  cbn. unfold with_stats. cbn. destruct (Req_EM_T 1 0); [lra|]. destruct (Req_EM_T (-2) 0); [lra|]. reflexivity.
Qed.
Definition ex_m : mmleaf := mk_mmleaf ex_x [Some 1; Some 5] [Some 3; Some 9] (Some [Some 0; Some 0]) (Some [Some 1; Some 1]).
Definition ex_n : mmleaf := mk_mmleaf ex_x [Some 1; Some 5] [Some 3; Some 9] None (Some [Some 1; Some 1]).
Example C39_minmax_ex : wf_tree (Lst [Leaf ex_m; Leaf ex_n]) /\ (forall m, has_leaf (Lst [Leaf ex_m; Leaf ex_n]) m -> mm_usable (fun p q => p < q) m) /\
  bound_is (Lst [Leaf ex_m; Leaf ex_n]) l_lo (BTree (Lst [Leaf (Some [Some 0; Some 0]); Leaf None])) /\ bound_is (Lst [Leaf ex_m; Leaf ex_n]) l_hi (BAll 1).
Proof.
  split; [repeat constructor|]. split; [|split].
  - intros m Hm. inversion Hm as [| |? ? ? Hin Hl|]; subst. destruct Hin as [<-|[<-|[]]]; inversion Hl; subst; (split; [exact ex_x_finite|cbn; auto]).
    split; (split; [reflexivity|split; [reflexivity|]]); cbn; intros [|[|j]] Hj; try lia.
    + exists 1, 3. repeat split; lra.
    + exists 5, 9. repeat split; lra.
    + exists 0, 1. repeat split; lra.
    + exists 0, 1. repeat split; lra.
  - constructor. repeat constructor.
  - constructor. intros m Hm. inversion Hm as [| |? ? ? Hin Hl|]; subst. destruct Hin as [<-|[<-|[]]]; inversion Hl; subst; reflexivity.
Qed.
Example C39_robust_ex : trel rob_usable (Leaf (mk_batch 1 [[Some 1]; [Some 4]])) (Leaf (RNum 0, RRow [Some 0])).
Proof.
  constructor. split; [repeat constructor; cbn; intros a [<-|[]]; discriminate|]. split; [exact I|]. cbn. split; [|lia]. split; [reflexivity|].
  intros a [<-|[]]; discriminate.
Qed.
Example C39_mixed_ex : let s := mk_scaler (scaler_call (std_transform (Some (Leaf ex_s)))) (scaler_call (std_inverse (Some (Leaf ex_s)))) in
  placed (Dict [("b", Leaf s); ("a", NoneT)]) (Dict [("a", Lst [Leaf ex_x]); ("b", Leaf ex_x)]) /\ sampled 2 (Dict [("a", Lst [Leaf ex_x]); ("b", Leaf ex_x)]).
Proof.
  intros s. split.
  2:{ intros x H. inversion H as [|? ? ? ? Hin Hl| |]; subst. destruct Hin as [[= <- <-]|[[= <- <-]|[]]]; inversion Hl as [|? ? ? ? Hin2 Hl2|? ? ? Hin2 Hl2|]; subst; [|reflexivity].
      destruct Hin2 as [<-|[]]. inversion Hl2; subst. reflexivity. }
  constructor; try (repeat constructor; cbn; intuition discriminate).
  - repeat constructor; [|exists (Lst [Leaf ex_x]); split; [reflexivity|constructor]].
    exists (Leaf ex_x). split; [reflexivity|]. constructor. unfold undone. cbn [s_tr s_inv s].
    destruct (C39_standard 2 (Leaf ex_x) (Leaf ex_s)) as (Y & Z & A & B & C & D).
    + constructor.
    + intros y Hy. inversion Hy; reflexivity.
    + constructor. split; [exact ex_x_finite|]. split; [reflexivity|]. split; [reflexivity|]. cbn. intros [|[|j]] Hj; [exists 2, 1|exists 7, (-2)|lia]; repeat split; lra.
    + exists Y, Z. split; [exact A|]. split; [exact B|]. split; [exact C|]. intros n. apply (rescaled_count _ _ _ _ D).
Qed.

(* ------------------------------------------------------------------ *)
(** * C40 *)

(** Fitting a standard scaler to data without constant features and transforming
    those data: mean zero and variance one in every feature of every leaf, order
    kept, and it can be undone. *)
Theorem C40_standard : forall n X, wf_tree X -> sampled n X -> (forall x, has_leaf X x -> varied x) ->
  exists s Y Z, scaler_fit std_fit X = Ok s /\ scaler_call (std_transform (Some s)) X = Ok Y /\ trel (fun x y => standard y /\ rescaled (fun a => 0 < a) x y) X Y /\
    scaler_call (std_inverse (Some s)) Y = Ok Z /\ trel eq X Z.
Proof.
  intros n X W S V. destruct (std_normal X W V) as (s & Y & Z & A & B & C & D & E). exists s, Y, Z.
  assert (SY : sampled n Y) by (apply (rescaled_count (fun a => 0 < a) n X Y); [eapply trel_impl; [|exact C]; cbn; intuition|exact S]).
  destruct (round_calls n _ _ X Y Z S SY B D E). split; [|auto]. unfold scaler_fit. rewrite (call_fit_ok nrows _ X n S). exact A.
Qed.

(** A constant feature is lost completely: nothing but non-numbers comes out. *)
Theorem C40_constant_lost : forall x j l, finite_batch x -> (j < width x)%nat -> values x j l -> l <> [] -> constant l ->
  exists s y, scaler_fit std_fit (Leaf x) = Ok (Leaf s) /\ scaler_call (std_transform (Some (Leaf s))) (Leaf x) = Ok (Leaf y) /\ forall i, entry y i j = None.
Proof.
  intros x j l F Hj V N C. destruct (std_constant x j l F Hj V N C) as (s & y & A & B & D). exists s, y. split; [exact A|]. split; [|exact D].
  apply (call_ok nrows nrows _ _ _ (nrows x)); [intros z Hz; inversion Hz; reflexivity| |exact B]. intros z Hz. inversion Hz; subst.
  unfold std_transform, jzipM, with_stats in B. cbn [tzipM] in B. destruct (_ && _); [|discriminate B]. cbn [rbind] in B. unfold jmapM in B. cbn in B. inversion B; subst. unfold nrows. cbn. apply map_length.
Qed.

(** Min-max scaling maps each feature into its range and onto both ends. *)
Theorem C40_minmax : forall n r X lo hi, wf_tree r -> sampled n X -> trel (fun m x => l_x m = x) r X -> bound_is r l_lo lo -> bound_is r l_hi hi ->
  (forall m, has_leaf r m -> varied (l_x m) /\ l_min m = per_feature min1 (l_x m) /\ l_max m = per_feature max1 (l_x m) /\
     match l_lo m, l_hi m with Some a, Some b => stat_rows (fun p q => p < q) (width (l_x m)) a b | _, _ => True end) ->
  exists s Y Z, scaler_fit mm_fit X = Ok s /\ scaler_call (mm_transform lo hi (Some s)) X = Ok Y /\
    trel (fun m y => match l_lo m, l_hi m with Some a, Some b => spans a b y | _, _ => y = l_x m end) r Y /\
    scaler_call (mm_inverse lo hi (Some s)) Y = Ok Z /\ trel eq X Z /\ trel (rescaled (fun k => 0 < k)) X Y.
Proof.
  intros n r X lo hi W S TX BL BH H. destruct (mm_normal r X lo hi W TX BL BH H) as (s & Y & Z & A & B & C & D & E & F). exists s, Y, Z.
  destruct (round_calls n _ _ X Y Z S (rescaled_count _ _ _ _ F S) B D E). split; [|auto]. unfold scaler_fit. rewrite (call_fit_ok nrows _ X n S). exact A.
Qed.

Example ex_x_varied : varied ex_x.
Proof.
  split; [exact ex_x_finite|]. split; [discriminate|]. intros [|[|j]] l Hj V C; cbn in Hj; try lia; unfold values, col in V; cbn in V;
    destruct l as [|a [|b [|]]]; try discriminate; inversion V; subst.
  - pose proof (C 1 3). cbn in H. lra.
  - pose proof (C 5 9). cbn in H. lra.
Qed.
Example C40_standard_ex : forall x, has_leaf (Dict [("b", Leaf ex_x); ("a", Leaf ex_x)]) x -> varied x.
Proof. intros x H. inversion H as [|? ? ? ? Hin Hl| |]; subst. destruct Hin as [[= <- <-]|[[= <- <-]|[]]]; inversion Hl; subst; exact ex_x_varied. Qed.
Example C40_minmax_ex : let m := mk_mmleaf ex_x (per_feature min1 ex_x) (per_feature max1 ex_x) (Some [Some 0; Some 0]) (Some [Some 1; Some 1]) in
  varied (l_x m) /\ stat_rows (fun p q => p < q) (width (l_x m)) [Some 0; Some 0] [Some 1; Some 1] /\ bound_is (Leaf m) l_lo (BAll 0) /\ bound_is (Leaf m) l_hi (BAll 1).
Proof.
  intros m. split; [exact ex_x_varied|]. split; [|split].
  - split; [reflexivity|]. split; [reflexivity|]. cbn. intros [|[|j]] Hj; try lia; exists 0, 1; repeat split; lra.
  - constructor. intros n Hn. inversion Hn; subst. reflexivity.
  - constructor. intros n Hn. inversion Hn; subst. reflexivity.
Qed.
Example C40_constant_ex : values (mk_batch 1 [[Some 4]; [Some 4]]) 0 [4; 4] /\ constant [4; 4].
Proof. split; [reflexivity|]. intros a b [<-|[<-|[]]] [<-|[<-|[]]]; reflexivity. Qed.

Print Assumptions C39_standard.
Print Assumptions C39_minmax.
Print Assumptions C39_robust_partial.
Print Assumptions C39_robust_refuted.
Print Assumptions C39_mixed.
Print Assumptions C39_samples.
Print Assumptions C40_standard.
Print Assumptions C40_minmax.
