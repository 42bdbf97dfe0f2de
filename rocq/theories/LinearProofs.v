(** Lemmas about LinearNN. *)
From Coq Require Import ZArith Lia.
From Verif Require Import Base BaseLemmas TreeUtil TreeSpec NonSeqSpec NdArray Serial SerialSpec Seq TrainArgs OneHot Reshape ReshapeSpec Einsum MatMul MatMulSpec Layers Linear LinearSpec.
From Verif Require Import Scaler ScalerProofs ReshapeProofs ReshapeMain LayersProofs.
From Verif Require TrainArgsProofs.
Local Open Scope string_scope.
Local Open Scope list_scope.
Local Open Scope nat_scope.

Section Lin.
Context {V : Type} (zero one : V) (add mul : V -> V -> V).
Notation a_ := "a"%char. Notation b_ := "b"%char.

Lemma lin_subs (p : option (arr V)) o k sh sep : leaves sh = [[k]] -> (forall a, p = Some a -> shp a = [o; k]) ->
  matmul_subs (mk_matmul p true (Some (OInt o)) None sep) sh = Ok ("ab,b", [(a_, o); (b_, k)]).
Proof.
  intros L P. unfold matmul_subs, check_dims, slots. rewrite L. cbn [map length forallb filter Nat.eqb orb andb app mm_order mm_train mm_par require rbind Nat.leb].
  unfold param_slot, infer_shape. cbn [mm_par mm_train mm_out].
  destruct p as [a|].
  - cbn. rewrite (P a eq_refl). cbn. rewrite Nat.eqb_refl. reflexivity.
  - cbn. rewrite Nat.eqb_refl. reflexivity.
Qed.
Lemma lin_text hp k sh : leaves sh = [[k]] -> concrete_einsum_str hp (Leaf "ab,b") sh = Ok "ab,cb->ca".
Proof.
  intros L. unfold concrete_einsum_str.
  assert (C : classify (Leaf "ab,b") sh = Ok (None, Leaf "ab,b", None)) by (unfold classify; destruct (same_struct (Leaf "ab,b") sh); reflexivity).
  rewrite C. cbn [rbind]. rewrite L. vm_compute. destruct hp; reflexivity.
Qed.
Notation c_ := "c"%char.
Lemma lin_parse : parse "ab,cb->ca" = Ok ([[a_; b_]; [c_; b_]], [c_; a_]).
Proof. vm_compute. reflexivity. Qed.
Lemma lin_dims (p : pars V) o k sh : leaves sh = [[k]] -> match p with NoPars => True | OnePar a => shp a = [o; k] | ManyPars _ => False end ->
  dimension_map (Some [(a_, o); (b_, k)]) p "ab,cb->ca" sh = Ok [(a_, o); (b_, k)].
Proof.
  intros L P. unfold dimension_map. rewrite lin_parse. cbn [rbind]. rewrite L.
  cbn. rewrite Nat.eqb_refl. cbn. destruct p as [|a|l]; [reflexivity| |destruct P]. rewrite P. cbn. rewrite !Nat.eqb_refl. cbn. rewrite Nat.eqb_refl. reflexivity.
Qed.
Lemma lin_compile (p : option (arr V)) normal o k sh sep : leaves sh = [[k]] -> (forall a, p = Some a -> shp a = [o; k]) -> (forall s, shp (normal s) = s) ->
  matmul_compile (mk_matmul p true (Some (OInt o)) None sep) normal sh = Ok ("ab,cb->ca", OnePar (match p with Some a => a | None => normal [o; k] end)).
Proof.
  intros L P N. unfold matmul_compile. rewrite (lin_subs p o k sh sep L P). cbn [rbind fst snd mm_train mm_par]. unfold einsum_compile.
  rewrite (lin_text _ k sh L). cbn [rbind]. rewrite (lin_dims (pars_of p) o k sh L) by (destruct p as [a|]; cbn; auto). cbn [rbind]. rewrite lin_parse. cbn [rbind fst snd]. rewrite L.
  destruct p as [a|].
  - cbn. unfold list_eqb. rewrite (P a eq_refl). destruct (list_eq_dec Nat.eq_dec [o; k] [o; k]); [reflexivity|congruence].
  - cbn. unfold list_eqb. rewrite N. destruct (list_eq_dec Nat.eq_dec [o; k] [o; k]); [reflexivity|congruence].
Qed.
Lemma lin_shape (a : arr V) o k sh sep : leaves sh = [[k]] -> shp a = [o; k] -> matmul_shape (mk_matmul (Some a) true (Some (OInt o)) None sep) sh = Ok [o].
Proof.
  intros L P. unfold matmul_shape. rewrite (lin_subs (Some a) o k sh sep L) by (intros ? [= <-]; exact P). cbn [rbind fst snd mm_par]. unfold einsum_shape.
  rewrite (lin_text _ k sh L). cbn [rbind]. rewrite (lin_dims (pars_of (Some a)) o k sh L P). cbn [rbind]. rewrite lin_parse. cbn. reflexivity.
Qed.
Lemma vsum_total f : forall n s, vsum zero add (map f (seq s n)) = total zero add (fun i => f (s + i)) n.
Proof.
  assert (E : forall n f g, (forall i, f i = g i) -> total zero add f n = total zero add g n).
  { induction n as [|n IH]; intros g h H; cbn; [reflexivity|]. rewrite H. f_equal. apply IH. auto. }
  induction n as [|n IH]; intros s; cbn [seq map vsum total]; [reflexivity|]. rewrite Nat.add_0_r, IH. f_equal. apply E. intros i. f_equal. lia.
Qed.
Lemma total_ext n : forall f g, (forall i, i < n -> f i = g i) -> total zero add f n = total zero add g n.
Proof. induction n as [|n IH]; intros f g H; cbn; [reflexivity|]. rewrite (H 0) by lia. f_equal. apply IH. intros i Hi. apply H. lia. Qed.
Lemma lin_product (W x : arr V) b o k : (forall v, mul v one = v) -> shp W = [o; k] -> shp x = [b; k] ->
  exists y, np_einsum zero one add mul [[a_; b_]; [c_; b_]] [c_; a_] [W; x] = Ok y /\ affine_image zero add mul b o k W None x y.
Proof.
  intros M HW Hx. unfold np_einsum. cbn [length Nat.eqb map]. rewrite HW, Hx.
  assert (D : rfold bind_operand (combine [[a_; b_]; [c_; b_]] [[o; k]; [b; k]]) [] = Ok [(a_, o); (b_, k); (c_, b)]) by (cbn; rewrite Nat.eqb_refl; reflexivity).
  rewrite D. cbn [rbind].
  change (isort ascii_leb (nodup ascii_dec (concat [[a_; b_]; [c_; b_]]))) with [a_; b_; c_].
  change (forallb (fun c => mem_char c [a_; b_; c_]) [c_; a_] && (length (nodup ascii_dec [c_; a_]) =? length [c_; a_])) with true. cbv iota.
  change (filter (fun c => negb (mem_char c [c_; a_])) [a_; b_; c_]) with [b_].
  cbn [map]. change (index_in [(a_, o); (b_, k); (c_, b)] c_) with b. change (index_in [(a_, o); (b_, k); (c_, b)] a_) with o. change (index_in [(a_, o); (b_, k); (c_, b)] b_) with k.
  eexists. split; [reflexivity|]. split; [reflexivity|]. cbv zeta. intros i j Hi Hj. unfold cell at 1. cbn [shp dat].
  assert (VA : valid [b; o] [i; j]) by (repeat constructor; assumption). pose proof (ravel_bound _ _ VA) as RB.
  match goal with |- nth _ (map ?g _) _ = _ => rewrite (nth_indep _ zero (g 0)) by (rewrite map_length, seq_length; exact RB); rewrite (map_nth g) end.
  rewrite seq_nth by exact RB. rewrite Nat.add_0_l, (unravel_ravel _ _ VA). cbn [combine sum_over]. rewrite vsum_total. apply total_ext. intros l Hl. cbn [combine map vprod]. rewrite M.
  replace (Einsum.entry zero (snd ([a_; b_], W)) _) with (cell zero W [j; l]) by (unfold Einsum.entry, cell; cbn [fst snd]; rewrite HW; reflexivity). f_equal.
  unfold Einsum.entry. cbn [snd fst]. rewrite Hx. f_equal. cbn. lia.
Qed.

Lemma lin_flat {s : list nat} sh (data : tree (arr V)) b : 1 <= b -> wf_tree sh -> solid sh -> leaves sh = [s] -> s <> [] -> trel (batch_of b) sh data ->
  exists A sh' out x x', flatten_shape sh = Ok A /\ jmapM int_shape A = Ok sh' /\ leaves sh' = [[NdArray.prod s]] /\
    reshape_call (Some (flatten_target sh)) data = Ok out /\ leaves data = [x] /\ leaves out = [x'] /\ shp x' = [b; NdArray.prod s] /\ dat x' = dat x.
Proof.
  clear zero one add mul. intros Hb W S L Hs T.
  assert (HL : forall q, has_leaf sh q <-> q = s). { intros q. rewrite <- TrainArgsProofs.leaves_has_leaf, L. cbn. split; [intros [E|[]]; auto|auto]. }
  destruct (flatten_ok b sh data Hb W S) as (A & out & EA & EO & TA & TE & TS).
  - exists s. apply HL. reflexivity.
  - intros q Hq. apply HL in Hq. congruence.
  - exact T.
  - assert (T1 : trel (fun q (y : arr V) => shp y = [b; NdArray.prod q]) sh out).
    { eapply trel_comp; [|exact T|exact TS]. cbn. intros q x y B E. unfold batch_of in B. rewrite B in E. exact E. }
    assert (T2 : trel (fun q a => a = Some [DInt (Z.of_nat (NdArray.prod q))]) sh A).
    { eapply trel_comp; [|exact T1|apply trel_flip; exact TA]. cbn. intros q y a E (l & -> & E2). rewrite E in E2. injection E2 as <-. reflexivity. }
    destruct (jm_trel int_shape (fun q a => a = Some [DInt (Z.of_nat (NdArray.prod q))]) (fun q z => z = [NdArray.prod q]) sh) with (u := A) as (sh' & ES & T3); [|exact T2|].
    { intros q a _ ->. exists [NdArray.prod q]. split; [|reflexivity]. unfold int_shape. cbn [rmapM int_dim]. destruct (0 <=? Z.of_nat (NdArray.prod q))%Z eqn:E; [|apply Z.leb_gt in E; lia]. cbn. rewrite Nat2Z.id. reflexivity. }
    assert (Wd : wf_tree data) by (eapply trel_wf; [exact T|exact W]).
    pose proof (leaves_trel _ _ W _ T3) as F3. pose proof (leaves_trel _ _ W _ T1) as F1. pose proof (leaves_trel _ _ W _ T) as F0. pose proof (leaves_trel _ _ Wd _ TE) as FE.
    rewrite L in F3, F1, F0. inversion F3 as [|q0 z0 l0 m0 Hz F3' E1 E2]; subst. inversion F3'; subst. inversion F1 as [|q1 z1 l1 m1 Hz1 F1' E3 E4]; subst. inversion F1'; subst.
    inversion F0 as [|q2 z2 l2 m2 Hz2 F0' E5 E6]; subst. inversion F0'; subst. rewrite <- E4, <- E6 in FE. inversion FE as [|q4 z4 l4 m4 Hz4 F4' E7 E8]; subst.
    exists A, sh', out, z2, z1. repeat (split; [first [assumption | congruence | symmetry; assumption]|]). unfold same_entries in Hz4. congruence.
Qed.

(** the modules after compiling, with parameters [W] and [c] *)
Definition ready (sh : tree (list nat)) (o : nat) (W : arr V) (c : option (arr V)) (act : option (arr V -> result (arr V))) : list (layer V) :=
  [LFlat (Some (flatten_target sh)); LMat (mk_matmul (Some W) true (Some (OInt o)) None "."%char) (Some "ab,cb->ca")]
  ++ match c with Some c => [LBias (mk_bias (Some (Leaf c)) true false)] | None => [] end
  ++ match act with Some f => [LAct f] | None => [] end.

Lemma ready_call sh o W c act s (data : tree (arr V)) b : (forall v, mul v one = v) -> 1 <= b -> wf_tree sh -> solid sh -> leaves sh = [s] -> s <> [] -> trel (batch_of b) sh data ->
  shp W = [o; NdArray.prod s] -> (forall a, c = Some a -> shp a = [o]) ->
  exists x y, leaves data = [x] /\ affine_image zero add mul b o (NdArray.prod s) W c x y /\
    rfold (fun d l => layer_call zero one add mul l d) (ready sh o W c act) data = match act with Some f => act_call f (Leaf y) | None => Ok (Leaf y) end.
Proof.
  intros M Hb Ws So L Hs T HW Hc. destruct (lin_flat sh data b Hb Ws So L Hs T) as (A & sh' & out & x & x' & _ & _ & _ & EO & EL & EL' & Sx & Dx).
  destruct (lin_product W x' b o (NdArray.prod s) M HW Sx) as (y0 & Ey & HY).
  assert (H2 : rfold (fun d l => layer_call zero one add mul l d) [LFlat (Some (flatten_target sh)); LMat (mk_matmul (Some W) true (Some (OInt o)) None "."%char) (Some "ab,cb->ca")] data = Ok (Leaf y0)).
  { cbn [rfold layer_call]. rewrite EO. cbn [rbind]. rewrite lin_parse. cbn [rbind fst snd mm_par pars_of par_list app]. rewrite EL'. cbn [app]. rewrite Ey. reflexivity. }
  assert (HF : forall ls, rfold (fun d l => layer_call zero one add mul l d) ([LFlat (Some (flatten_target sh)); LMat (mk_matmul (Some W) true (Some (OInt o)) None "."%char) (Some "ab,cb->ca")] ++ ls) data = rfold (fun d l => layer_call zero one add mul l d) ls (Leaf y0)).
  { intros ls. cbn [app]. cbn [rfold] in H2 |- *. destruct (layer_call zero one add mul (LFlat (Some (flatten_target sh))) data) as [d1|e]; [|discriminate H2]. cbn [rbind] in H2 |- *.
    destruct (layer_call zero one add mul (LMat (mk_matmul (Some W) true (Some (OInt o)) None "."%char) (Some "ab,cb->ca")) d1) as [d2|e]; [|discriminate H2]. cbn [rbind] in H2 |- *. injection H2 as ->. reflexivity. }
  assert (FA : forall y, rfold (fun d l => layer_call zero one add mul l d) (match act with Some f => [LAct f] | None => [] end) (Leaf y) = match act with Some f => act_call f (Leaf y) | None => Ok (Leaf y) end).
  { intros y. destruct act as [f|]; [|reflexivity]. cbn [rfold layer_call]. destruct (act_call f (Leaf y)); reflexivity. }
  unfold ready. rewrite HF. destruct HY as [SY HY]. destruct c as [c|].
  - destruct (abin_batch zero add b [o] y0 c SY (Hc c eq_refl)) as (y & EY & S2 & H3). exists x, y. split; [exact EL|]. split.
    + split; [exact S2|]. cbv zeta. intros i j Hi Hj. specialize (H3 i [j]). assert (VV : valid (b :: [o]) [i; j]) by (repeat constructor; assumption). specialize (H3 VV).
      unfold cell at 1. unfold ReshapeSpec.entry in H3. rewrite H3. f_equal. specialize (HY i j Hi Hj). cbv zeta in HY. unfold cell in HY at 1. rewrite HY. rewrite Dx. reflexivity.
    + cbn [app rfold layer_call b_val]. unfold bias_call. cbn [b_val jmapM]. rewrite EY. cbn [rbind].
      assert (CB : check_batch (Leaf y0) (Leaf y) = Ok tt). { unfold check_batch. cbn [leaves app]. unfold leading. cbn [forallb]. rewrite SY, S2. cbn [andb]. rewrite Nat.eqb_refl. reflexivity. }
      rewrite CB. cbn [rbind]. apply FA.
  - exists x, y0. split; [exact EL|]. split; [|apply FA]. split; [exact SY|]. cbv zeta in *. intros i j Hi Hj. rewrite (HY i j Hi Hj), Dx. reflexivity.
Qed.

Lemma compile_one (normal : nat -> list nat -> arr V) i l ls s l' s' r : layer_compile normal i l s = Ok l' -> layer_shape l' s = Ok s' -> compile_layers normal (S i) ls s' = Ok r ->
  compile_layers normal i (l :: ls) s = Ok (l' :: fst r, snd r).
Proof. intros H1 H2 H3. cbn [compile_layers]. rewrite H1. cbn [rbind]. rewrite H2. cbn [rbind]. rewrite H3. reflexivity. Qed.
Lemma compile_acts (normal : nat -> list nat -> arr V) i act s : compile_layers normal i (match act with Some f => [@LAct V f] | None => [] end) s = Ok (match act with Some f => [@LAct V f] | None => [] end, s).
Proof. destruct act; reflexivity. Qed.
Lemma flat_shape (s : list nat) sh : wf_tree sh -> solid sh -> leaves sh = [s] -> s <> [] ->
  exists sh', leaves sh' = [[NdArray.prod s]] /\ forall i (normal : nat -> list nat -> arr V), layer_compile normal i (@LFlat V None) sh = Ok (LFlat (Some (flatten_target sh))) /\ layer_shape (@LFlat V (Some (flatten_target sh))) sh = Ok sh'.
Proof.
  intros W S L Hs. destruct (lin_flat sh (tmap (fun q => mk_arr (1 :: q) []) sh) 1 (le_n 1) W S L Hs) as (A & sh' & out & x & x' & H1 & H2 & H3 & _).
  - eapply trel_impl; [|apply tmap_trel]. cbn. intros q y ->. reflexivity.
  - exists sh'. split; [exact H3|]. intros i normal. split; [reflexivity|]. unfold layer_shape. rewrite H1. exact H2.
Qed.
Lemma fresh_compile (normal : nat -> list nat -> arr V) o bias act s sh : (forall i q, shp (normal i q) = q) -> wf_tree sh -> solid sh -> leaves sh = [s] -> s <> [] ->
  compile_layers normal 0 (build o bias act) sh = Ok (ready sh o (normal 1 [o; NdArray.prod s]) (if bias then Some (normal 2 [o]) else None) act, Leaf [o]).
Proof.
  intros N W S L Hs. destruct (flat_shape s sh W S L Hs) as (sh' & L' & HF). unfold build, ready. cbn [app].
  rewrite (compile_one normal 0 _ _ sh _ sh' (LMat (mk_matmul (Some (normal 1 [o; NdArray.prod s])) true (Some (OInt o)) None "."%char) (Some "ab,cb->ca") :: (if bias then [LBias (mk_bias (Some (Leaf (normal 2 [o]))) true false)] else []) ++ match act with Some f => [LAct f] | None => [] end, Leaf [o]) (proj1 (HF 0 normal)) (proj2 (HF 0 normal))).
  - cbn [fst snd]. destruct bias; reflexivity.
  - eapply eq_trans; [eapply (compile_one normal 1 _ _ sh' _ (Leaf [o]))|].
    + cbn [layer_compile]. rewrite (lin_compile None (normal 1) o (NdArray.prod s) sh' "."%char L') by (discriminate || apply N). cbn [rbind fst snd]. reflexivity.
    + cbn [layer_shape]. unfold with_par. cbn [mm_train mm_out mm_order mm_sep]. rewrite (lin_shape _ o (NdArray.prod s) sh' _ L' (N 1 _)). reflexivity.
    + instantiate (1 := ((if bias then [LBias (mk_bias (Some (Leaf (normal 2 [o]))) true false)] else []) ++ match act with Some f => [LAct f] | None => [] end, Leaf [o])).
      destruct bias; cbn [app]; [|apply compile_acts]. eapply eq_trans; [eapply (compile_one normal 2 _ _ _ _ (Leaf [o]))|]; [reflexivity|reflexivity|apply compile_acts|reflexivity].
    + reflexivity.
Qed.
Lemma again_compile (normal : nat -> list nat -> arr V) o W c act s sh : (forall i q, shp (normal i q) = q) -> wf_tree sh -> solid sh -> leaves sh = [s] -> s <> [] -> shp W = [o; NdArray.prod s] -> (forall a, c = Some a -> shp a = [o]) ->
  compile_layers normal 0 (ready sh o W c act) sh = Ok (ready sh o W c act, Leaf [o]).
Proof.
  intros N Ws S L Hs HW Hc. destruct (flat_shape s sh Ws S L Hs) as (sh' & L' & HF). unfold ready. cbn [app].
  eapply eq_trans; [eapply (compile_one normal 0 _ _ sh _ sh'); [reflexivity|exact (proj2 (HF 0 normal))|]|].
  - eapply (compile_one normal 1 _ _ sh' _ (Leaf [o])).
    + cbn [layer_compile]. rewrite (lin_compile (Some W) (normal 1) o (NdArray.prod s) sh' "."%char L') by ((intros ? [= <-]; exact HW) || apply N). cbn [rbind fst snd]. reflexivity.
    + cbn [layer_shape]. unfold with_par. cbn [mm_train mm_out mm_order mm_sep]. rewrite (lin_shape _ o (NdArray.prod s) sh' _ L' HW). reflexivity.
    + instantiate (1 := (match c with Some c => [LBias (mk_bias (Some (Leaf c)) true false)] | None => [] end ++ match act with Some f => [LAct f] | None => [] end, Leaf [o])).
      destruct c as [c|]; cbn [app]; [|apply compile_acts]. eapply eq_trans; [eapply (compile_one normal 2 _ _ _ (LBias (mk_bias (Some (Leaf c)) true false)) (Leaf [o]))|]; [|reflexivity|apply compile_acts|reflexivity].
      cbn [layer_compile]. unfold bias_compile. cbn [b_val]. destruct (one_number (shp c)); [reflexivity|]. rewrite (Hc c eq_refl). unfold same_shape. destruct (list_eq_dec Nat.eq_dec [o] [o]); [reflexivity|congruence].
  - reflexivity.
Qed.
Lemma ready_set isrealobj sh o W c act W' c' : (forall a, c' = Some a -> isrealobj a = true) -> (c' = None <-> c = None) ->
  layers_set isrealobj (ready sh o W c act) ([Tup []; Leaf W'] ++ match c' with Some c' => [Leaf c'] | None => [] end ++ match act with Some _ => [Tup []] | None => [] end) = Ok (ready sh o W' c' act).
Proof.
  intros HR HC. destruct c as [c|], c' as [c'|]; try (destruct HC as [H1 H2]; (discriminate (H1 eq_refl) || discriminate (H2 eq_refl))).
  - unfold ready. cbn [app layers_set layer_set rbind]. unfold bias_set_params. cbn [b_val b_scalar b_real]. assert (E : same_struct (Leaf c') (Leaf c) = true) by reflexivity. rewrite E. cbn [rbind]. unfold all_real. cbn [leaves forallb]. rewrite (HR c' eq_refl).
    cbn. destruct act; reflexivity.
  - unfold ready. destruct act; reflexivity.
Qed.
End Lin.
