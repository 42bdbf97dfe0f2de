(** The uncertainty heuristic: the terms and their sum. *)
From Coq Require Import Reals Lra Lia Permutation Bool.
From Verif Require Import Base BaseLemmas TreeUtil TreeSpec NonSeqSpec NonSeqProofs TrainArgsProofs NdArray Serial SerialSpec SerialProofs Scaler ScalerProofs
  Conformal ReshapeProofs ReshapeMain EigenProofs BatchProofs ReshapeSpec LayersSpec LayersProofs StrataProofs StrataMain Uncertainty UncertaintySpec UncertaintyProofs.
Local Open Scope R_scope.
Local Open Scope list_scope.

Definition leaf_change (i : nat) (oi : list nat) (p : oarr * oarr) : R := change_leaf (fst p) (shp (snd p)) (fun k => val (ReshapeSpec.entry None (snd p) k)) i oi.

Lemma in_indices s k : In k (indices s) -> valid s k.
Proof. intros H. apply in_map_iff in H as (j & <- & Hj). apply in_seq in Hj. apply unravel_valid. lia. Qed.
Lemma total_F2 {X Y} (R0 : X -> Y -> Prop) (f : X -> R) (g : Y -> R) l m : Forall2 R0 l m -> (forall x y, R0 x y -> f x = g y) -> total f l = total g m.
Proof. induction 1 as [|x y l m H F IH]; intros E; [reflexivity|]. rewrite !total_cons, IH, (E _ _ H); auto. Qed.

Lemma sum_sq_ok i n o (r : tree (oarr * oarr)) df xs : wf_tree r -> (exists p, has_leaf r p) -> (i < n)%nat ->
  trel (fun p d => shp (fst p) = n :: o ++ shp (snd p) /\ d = slice i (finite (fst p))) r df -> trel (fun p x => x = finite (snd p)) r xs ->
  exists y, sum_sq df xs = Ok y /\ shp y = o /\ wf_arr y /\ forall oi, valid o oi -> ReshapeSpec.entry 0 y oi = total (leaf_change i oi) (leaves r).
Proof.
  intros W [p0 H0] Hi Td Tx. unfold sum_sq.
  destruct (jzip_from (abin 0 0 Rmult) _ _ (fun p d => shp d = o ++ shp (snd p) /\ wf_arr d /\ forall oi k, valid o oi -> valid (shp (snd p)) k ->
     ReshapeSpec.entry 0 d (oi ++ k) = val (ReshapeSpec.entry None (fst p) (i :: oi ++ k)) * val (ReshapeSpec.entry None (snd p) k)) r df xs W Td Tx) as (q & Eq & Tq).
  { intros p d x _ (Sp & ->) ->. destruct (abin_prefix 0 0 0 Rmult o (shp (snd p)) (slice i (finite (fst p))) (finite (snd p))) as (y & E & S & Wy & H).
    - unfold slice, finite, amap. cbn [shp]. rewrite Sp. reflexivity.
    - reflexivity.
    - exists y. split; [exact E|]. split; [exact S|]. split; [exact Wy|]. intros oi k Ho Hk. rewrite H by assumption.
      rewrite (slice_entry n (o ++ shp (snd p))); [|exact Sp|apply valid_app; assumption]. unfold finite. rewrite !(pad_entry fin None). reflexivity. }
  rewrite Eq. cbn [rbind].
  destruct (jzip_from (fun d x => sum_last (length (shp x)) (amap (fun v => Rabs v * Rabs v) d)) _ _ (fun p s => shp s = o /\ wf_arr s /\ forall oi, valid o oi -> ReshapeSpec.entry 0 s oi = leaf_change i oi p) r q xs W Tq Tx) as (s & Es & Ts).
  { intros p d x _ (Sd & Wd & Hd) ->. destruct (sum_last_ok o (shp (snd p)) (amap (fun v => Rabs v * Rabs v) d)) as (y & E & S & Wy & H).
    - exact Sd.
    - unfold wf_arr, amap in *. cbn [shp dat]. rewrite map_length. exact Wd.
    - exists y. split; [exact E|]. split; [exact S|]. split; [exact Wy|]. intros oi Ho. rewrite H by exact Ho. apply total_ext. intros k Hk. apply in_indices in Hk.
      replace 0 with (Rabs 0 * Rabs 0) at 1 by (rewrite Rabs_R0; lra). rewrite (pad_entry (fun v => Rabs v * Rabs v) 0). rewrite Hd by assumption.
      rewrite <- Rabs_mult. unfold Rsqr. apply Rabs_pos_eq. apply Rle_0_sqr. }
  rewrite Es. cbn [rbind]. unfold reduce_add. pose proof (leaves_trel _ _ W _ Ts) as F. apply leaves_has_leaf in H0.
  inversion F as [E|p s1 lp ls (S1 & W1 & H1) F' E1 E2]; [rewrite <- E in H0; destruct H0|].
  assert (HS : forall b, In b ls -> shp b = o). { clear - F'. induction F' as [|? ? ? ? H F IH]; intros b Hb; [destruct Hb|]. destruct Hb as [ <- |Hb]; [apply H|auto]. }
  destruct (add_all_ok o ls s1 S1 W1 HS) as (y & E & S & Wy & H). exists y. split; [exact E|]. split; [exact S|]. split; [exact Wy|]. intros oi Ho. rewrite H, H1 by exact Ho.
  rewrite total_cons. f_equal. symmetry. eapply total_F2; [exact F'|]. cbn. intros x y0 (_ & _ & Hx). symmetry. apply Hx. exact Ho.
Qed.

Lemma accumulate_ok n o (r : tree (oarr * oarr)) df xs : wf_tree r -> (exists p, has_leaf r p) -> (0 < n)%nat ->
  trel (fun p d => shp (fst p) = n :: o ++ shp (snd p) /\ d = finite (fst p)) r df -> trel (fun p x => x = finite (snd p)) r xs ->
  exists y, accumulate df xs = Ok y /\ shp y = n :: o /\ wf_arr y /\ forall i oi, (i < n)%nat -> valid o oi -> ReshapeSpec.entry 0 y (i :: oi) = total (leaf_change i oi) (leaves r).
Proof.
  intros W HL Hn Td Tx. unfold accumulate.
  assert (B : batch_size df = Ok n).
  { unfold batch_size. pose proof (leaves_trel _ _ W _ Td) as F. destruct HL as [p0 H0]. apply leaves_has_leaf in H0.
    inversion F as [E|p d lp ld (S1 & ->) F' E1 E2]; [rewrite <- E in H0; destruct H0|]. unfold leading. cbn [finite amap shp]. rewrite S1. cbn [hd_error].
    replace (forallb _ ld) with true; [reflexivity|]. symmetry. apply forallb_forall. intros b Hb. clear - F' Hb. induction F' as [|? ? ? ? (S & ->) F IH]; [destruct Hb|].
    destruct Hb as [ <- |Hb]; [|auto]. cbn [finite amap shp]. rewrite S. cbn. apply Nat.eqb_refl. }
  rewrite B. cbn [rbind].
  destruct (each_ok (fun i => let* d := jmapM (fun a => Ok (slice i a)) df in sum_sq d xs)
     (fun i y => shp y = o /\ wf_arr y /\ forall oi, valid o oi -> ReshapeSpec.entry 0 y oi = total (leaf_change i oi) (leaves r)) (seq 0 n)) as (l & El & Fl).
  { intros i Hi. apply in_seq in Hi. destruct (jm_from _ _ _ Td (fun a => Ok (slice i a)) (fun p d => shp (fst p) = n :: o ++ shp (snd p) /\ d = slice i (finite (fst p)))) as (d & Ed & T').
    { intros p a _ (S & ->). eexists. split; [reflexivity|]. auto. }
    rewrite Ed. cbn [rbind]. apply (sum_sq_ok i n o r d xs W HL); [lia|exact T'|exact Tx]. }
  rewrite El. cbn [rbind]. pose proof (F2_length _ _ _ Fl) as L. rewrite seq_length in L.
  destruct (stack_ok o l) as (y & E & S & Wy & H).
  - intros ->. cbn in L. lia.
  - intros a Ha. clear - Fl Ha. induction Fl as [|? ? ? ? (S & W & _) F IH]; [destruct Ha|]. destruct Ha as [ <- |Ha]; auto.
  - exists y. split; [exact E|]. split; [rewrite L; exact S|]. split; [exact Wy|]. intros i oi Hi Ho. rewrite H; [|exact (eq_ind _ (fun z => (i < z)%nat) Hi _ L)|exact Ho].
    assert (N : nth_error (seq 0 n) i = Some i). { rewrite (nth_error_nth' _ 0%nat) by (rewrite seq_length; exact Hi). rewrite seq_nth by exact Hi. reflexivity. }
    destruct (F2_nth _ _ _ Fl i i N) as (a & Na & _ & _ & Ha). rewrite (nth_error_nth _ _ _ Na). apply Ha. exact Ho.
Qed.

(** Trees of gradients. *)
Definition sides (d x : tree oarr) (r : tree (oarr * oarr)) : Prop := wf_tree r /\ trel (fun p a => fst p = a) r d /\ trel (fun p a => snd p = a) r x.
Definition grad_ok (n : nat) (xs : tree oarr) (o : list nat) (d : tree oarr) : Prop := trel (fun x g => shp g = n :: o ++ shp x) xs d.

Lemma one_shape_ok (t : tree rarr) s : (forall a, has_leaf t a -> shp a = s) -> one_shape t = true.
Proof.
  intros H. unfold one_shape. assert (H' : forall a, In a (leaves t) -> shp a = s) by (intros; apply H, leaves_has_leaf; assumption). destruct (leaves t) as [|a l]; [reflexivity|].
  apply forallb_forall. intros b Hb. rewrite (H' a (or_introl eq_refl)), (H' b (or_intror Hb)). destruct (list_eq_dec _ _ _); [reflexivity|contradiction].
Qed.
Lemma mean_sq_ok num n o0 shapes (df : tree (tree oarr)) xs : wf_tree shapes -> wf_tree xs -> (exists x, has_leaf xs x) -> (0 < n)%nat -> num <> 0%nat ->
  (forall o, has_leaf shapes o -> o = o0) -> trel (grad_ok n xs) shapes df ->
  exists t w, wf_tree w /\ trel (fun p o => fst p = o) w shapes /\ trel (fun p d => snd p = d) w df /\ mean_sq num df xs = Ok t /\
    trel (fun p a => shp a = n :: fst p /\ wf_arr a /\ forall r, sides (snd p) xs r -> forall i oi, (i < n)%nat -> valid (fst p) oi -> ReshapeSpec.entry 0 a (i :: oi) = total (leaf_change i oi) (leaves r) / INR num) w t.
Proof.
  intros WS WX HX Hn Hm HO T. destruct (trel_pair _ _ _ T) as (w & T1 & T2 & Ww). specialize (Ww WS). unfold mean_sq.
  (* the scales *)
  destruct (jm_from _ _ _ (trel_refl xs) (fun a => Ok (finite a)) (fun x y => y = finite x)) as (xs' & Ex & Tx). { intros x y _ ->. eexists. split; reflexivity. }
  (* the gradients *)
  destruct (jm_from _ _ _ T2 (fun d => jmapM (fun a => Ok (finite a)) d) (fun p d => grad_ok n xs (fst p) (snd p) /\ trel (fun a b => b = finite a) (snd p) d)) as (df' & Ed & Td).
  { intros p d _ (<- & G). destruct (jm_from _ _ _ (trel_refl (snd p)) (fun a => Ok (finite a)) (fun x y => y = finite x)) as (d' & E' & T'). { intros x y _ ->. eexists. split; reflexivity. }
    exists d'. auto. }
  rewrite Ed. cbn [rbind]. rewrite Ex. cbn [rbind].
  assert (A : forall p d r, grad_ok n xs (fst p) (snd p) -> trel (fun a b => b = finite a) (snd p) d -> sides (snd p) xs r ->
    exists y, accumulate d xs' = Ok y /\ shp y = n :: fst p /\ wf_arr y /\ forall i oi, (i < n)%nat -> valid (fst p) oi -> ReshapeSpec.entry 0 y (i :: oi) = total (leaf_change i oi) (leaves r)).
  { intros p d r G Td' (Wr & R1 & R2). apply (accumulate_ok n (fst p) r d xs' Wr).
    - destruct HX as [x Hx]. destruct (map_has_leaf _ _ _ (trel_flip _ _ _ R2) x Hx) as (q & Hq & _). eauto.
    - exact Hn.
    - assert (K : trel (fun q g => fst q = g /\ shp g = n :: fst p ++ shp (snd q)) r (snd p)).
      { apply trel_both; [eapply trel_wf; [exact R1|exact Wr]|exact R1|]. eapply trel_comp; [|exact R2|exact G]. cbn. intros ? ? ? <-. auto. }
      eapply trel_comp; [|exact K|exact Td']. cbn. intros q g b (<- & S) ->. auto.
    - eapply trel_comp; [|exact R2|exact Tx]. cbn. intros ? ? ? <-. auto. }
  assert (E : forall p, grad_ok n xs (fst p) (snd p) -> exists r, sides (snd p) xs r).
  { intros p G. destruct (trel_pair _ _ _ G) as (r & R1 & R2 & Wr). specialize (Wr WX).
    pose (r' := tmap (fun q : oarr * oarr => (snd q, fst q)) r). pose proof (tmap_trel (fun q : oarr * oarr => (snd q, fst q)) r) as M. fold r' in M. exists r'. split; [eapply trel_wf; [exact M|exact Wr]|]. split.
    - eapply trel_comp; [|apply trel_flip; exact M|exact R2]. cbn. intros ? ? ? -> [H _]. exact H.
    - eapply trel_comp; [|apply trel_flip; exact M|exact R1]. cbn. intros ? ? ? -> H. exact H. }
  destruct (jm_from _ _ _ Td (fun d => accumulate d xs') (fun p a => shp a = n :: fst p /\ wf_arr a /\ forall r, sides (snd p) xs r -> forall i oi, (i < n)%nat -> valid (fst p) oi -> ReshapeSpec.entry 0 a (i :: oi) = total (leaf_change i oi) (leaves r))) as (t & Et & Tt).
  { intros p d _ (G & T'). destruct (E p G) as (r & Hr). destruct (A p d r G T' Hr) as (y & Ey & Sy & Wy & Hy). exists y. split; [exact Ey|]. split; [exact Sy|]. split; [exact Wy|].
    intros r' Hr'. destruct (A p d r' G T' Hr') as (y' & Ey' & _ & _ & Hy'). rewrite Ey in Ey'. injection Ey' as <-. exact Hy'. }
  rewrite Et. cbn [rbind]. destruct (Nat.eqb_spec num 0) as [|_]; [contradiction|]. unfold scale.
  assert (OS : one_shape t = true).
  { apply (one_shape_ok t (n :: o0)). intros a Ha. destruct (map_has_leaf _ _ _ (trel_flip _ _ _ Tt) a Ha) as (p & Hp & S & _). rewrite S. f_equal.
    destruct (map_has_leaf _ _ _ T1 p Hp) as (o & Ho & <-). apply HO. exact Ho. }
  rewrite OS. destruct (jm_from _ _ _ Tt (fun a => Ok (amap (fun v => v * (1 / INR num)) a)) (fun p a => shp a = n :: fst p /\ wf_arr a /\ forall r, sides (snd p) xs r -> forall i oi, (i < n)%nat -> valid (fst p) oi -> ReshapeSpec.entry 0 a (i :: oi) = total (leaf_change i oi) (leaves r) / INR num)) as (t' & Et' & Tt').
  { intros p a _ (S & Wa & Ha). eexists. split; [reflexivity|]. split; [exact S|]. split; [unfold wf_arr, amap in *; cbn [shp dat]; rewrite map_length; exact Wa|].
    intros r Hr i oi Hi Ho. assert (Z : ReshapeSpec.entry 0 (amap (fun v => v * (1 / INR num)) a) (i :: oi) = ReshapeSpec.entry 0 a (i :: oi) * (1 / INR num)).
    { rewrite <- (pad_entry (fun v => v * (1 / INR num)) 0). unfold ReshapeSpec.entry. f_equal. lra. }
    rewrite Z, (Ha r Hr i oi Hi Ho). unfold Rdiv. lra. }
  exists t', w. split; [exact Ww|]. split; [exact T1|]. split; [eapply trel_impl; [|exact T2]; cbn; intros ? ? [H _]; exact H|]. split; [exact Et'|exact Tt'].
Qed.

(** A term with selected inputs of any kind. *)
Section term.
Context {A : Type} (g : A -> bool -> oarr) (sz : A -> list nat) (w : A -> list nat -> R).
Hypothesis g_shape : forall a s, shp (g a s) = sz a.
Hypothesis g_true : forall a k, valid (sz a) k -> val (ReshapeSpec.entry None (g a true) k) = w a k.
Hypothesis g_false : forall a k, valid (sz a) k -> val (ReshapeSpec.entry None (g a false) k) = 0.
Definition part (i : nat) (o : list nat) (q : oarr * A * bool) : R := let '(d, a, use) := q in if use then change_leaf d (sz a) (w a) i o else 0.
Definition size_of (q : oarr * A * bool) : R := let '(d, a, use) := q in if use then INR (prod (sz a)) else 0.
Lemma part_nonneg i o q : 0 <= part i o q.
Proof. destruct q as [[d a] [|]]; cbn; [|lra]. apply total_nonneg. intros. apply Rle_0_sqr. Qed.
Lemma INR_sum l : INR (fold_right Nat.add 0%nat l) = total INR l.
Proof. induction l as [|n l IH]; [reflexivity|]. cbn [fold_right]. rewrite plus_INR, IH. reflexivity. Qed.
Lemma F2_ex_r {X Y} (R0 : X -> Y -> Prop) l m y : Forall2 R0 l m -> In y m -> exists x, In x l /\ R0 x y.
Proof. induction 1 as [|a b l m H F IH]; intros Hy; [destruct Hy|]. destruct Hy as [ <- |Hy]; [exists a; split; [left; reflexivity|exact H]|]. destruct (IH Hy) as (x & Hx & Rx). exists x. split; [right; exact Hx|exact Rx]. Qed.

Lemma term_ok n o0 shapes (df : tree (tree oarr)) (src : tree A) flags : wf_tree shapes -> wf_tree src -> wf_tree flags -> (0 < n)%nat ->
  (forall o, has_leaf shapes o -> o = o0) -> trel (fun _ _ => True) src flags -> (exists ks x, leaf_at flags ks true /\ leaf_at src ks x /\ prod (sz x) <> 0%nat) ->
  trel (fun o d => trel (fun x a => shp a = n :: o ++ sz x) src d) shapes df ->
  exists cnt xs t v, jzipM (fun x (s : bool) => Ok (if s then prod (sz x) else 0%nat)) src flags = Ok cnt /\ jzipM (fun x s => Ok (g x s)) src flags = Ok xs /\
    mean_sq (fold_right Nat.add 0%nat (leaves cnt)) df xs = Ok t /\ wf_tree v /\ trel (fun p o => fst p = o) v shapes /\ trel (fun p d => snd p = d) v df /\
    trel (fun p a => shp a = n :: fst p /\ wf_arr a /\ (exists r, beside (snd p) src flags r) /\ forall r, beside (snd p) src flags r ->
       0 < total size_of (leaves r) /\ forall i oi, (i < n)%nat -> valid (fst p) oi -> ReshapeSpec.entry 0 a (i :: oi) = total (part i oi) (leaves r) / total size_of (leaves r)) v t.
Proof.
  intros WS WX WF Hn HO TF (ks & x0 & Hf & Hx & Hp) TG.
  destruct (trel_pair _ _ _ TF) as (y & Y1 & Y2 & Wy). specialize (Wy WX). assert (Y2' : trel (fun p s => snd p = s) y flags) by (eapply trel_impl; [|exact Y2]; cbn; intros ? ? [H _]; exact H).
  destruct (jzip_from (fun x (s : bool) => Ok (if s then prod (sz x) else 0%nat)) _ _ (fun (p : A * bool) z => z = if snd p then prod (sz (fst p)) else 0%nat) y src flags Wy Y1 Y2') as (cnt & Ec & Tc).
  { intros p x s _ <- <-. eexists. split; reflexivity. }
  destruct (jzip_from (fun x s => Ok (g x s)) _ _ (fun (p : A * bool) z => z = g (fst p) (snd p)) y src flags Wy Y1 Y2') as (xs & Ex & Tx).
  { intros p x s _ <- <-. eexists. split; reflexivity. }
  assert (Wxs : wf_tree xs) by (eapply trel_wf; [exact Tx|exact Wy]).
  assert (SX : trel (fun x z => shp z = sz x) src xs). { eapply trel_comp; [|apply trel_flip; exact Y1|exact Tx]. cbn. intros x p z <- ->. apply g_shape. }
  (* numbers *)
  assert (RP : forall (d : tree oarr) (r : tree (oarr * A * bool)), beside d src flags r -> trel (fun (q : oarr * A * bool) (p : A * bool) => snd (fst q) = fst p /\ snd q = snd p) r y).
  { intros d r (Wr & R1 & R2 & R3). apply trel_both; [exact Wy| |].
    - eapply trel_comp; [|exact R2|apply trel_flip; exact Y1]. cbn. intros ? ? ? <- <-. reflexivity.
    - eapply trel_comp; [|exact R3|apply trel_flip; exact Y2']. cbn. intros ? ? ? <- <-. reflexivity. }
  assert (NUM : forall (d : tree oarr) (r : tree (oarr * A * bool)), beside d src flags r -> INR (fold_right Nat.add 0%nat (leaves cnt)) = total size_of (leaves r)).
  { intros d r B. pose proof (RP d r B) as R4. destruct B as (Wr & _). rewrite INR_sum. symmetry.
    assert (T5 : trel (fun (q : oarr * A * bool) z => z = if snd q then prod (sz (snd (fst q))) else 0%nat) r cnt). { eapply trel_comp; [|exact R4|exact Tc]. cbn. intros q p z [-> ->] ->. reflexivity. }
    eapply total_F2; [apply leaves_trel; [exact Wr|exact T5]|]. cbn. intros [[d0 a] [|]] z ->; reflexivity. }
  assert (NZ : fold_right Nat.add 0%nat (leaves cnt) <> 0%nat).
  { destruct (trel_walk _ ks _ _ Wy (trel_flip _ _ _ Y2') true Hf) as (p & Hp1 & Ep). destruct (trel_walk _ ks _ _ WX Y1 p Hp1) as (x1 & Hx1 & Ex1). rewrite (leaf_unique _ _ _ _ Hx1 Hx) in Ex1.
    assert (Wc : wf_tree cnt) by (eapply trel_wf; [exact Tc|exact Wy]). destruct (trel_walk _ ks _ _ Wc Tc p Hp1) as (z & Hz & ->). rewrite Ep, Ex1 in Hz.
    apply leaf_has in Hz. apply leaves_has_leaf in Hz. clear - Hz Hp. induction (leaves cnt) as [|m l IH]; [destruct Hz|]. cbn [fold_right]. destruct Hz as [ -> |Hz]; [lia|]. specialize (IH Hz). lia. }
  assert (TG' : trel (grad_ok n xs) shapes df).
  { eapply trel_impl; [|exact TG]. intros o d G. unfold grad_ok. eapply trel_comp; [|apply trel_flip; exact SX|exact G]. cbn. intros z x a Ez Ea. rewrite Ez. exact Ea. }
  assert (HX : exists x, has_leaf xs x). { destruct (trel_walk _ ks _ _ Wxs SX x0 Hx) as (z & Hz & _). exists z. eapply leaf_has. exact Hz. }
  destruct (mean_sq_ok _ n o0 shapes df xs WS Wxs HX Hn NZ HO TG') as (t & v & Wv & V1 & V2 & Et & Tt).
  assert (VG : trel (fun p d => snd p = d /\ trel (fun x a => shp a = n :: fst p ++ sz x) src d) v df).
  { apply trel_both; [|exact V2|eapply trel_comp; [|exact V1|exact TG]; cbn; intros ? ? ? <-; auto]. eapply trel_wf; [exact V2|exact Wv]. }
  exists cnt, xs, t, v. split; [exact Ec|]. split; [exact Ex|]. split; [exact Et|]. split; [exact Wv|]. split; [exact V1|]. split; [exact V2|].
  assert (VE : forall p, has_leaf v p -> exists r, beside (snd p) src flags r).
  { intros p Hp1. destruct (map_has_leaf _ _ _ VG p Hp1) as (d & _ & <- & G). 
    assert (G2 : trel (fun (q : A * bool) (a : oarr) => True) y (snd p)). { eapply trel_comp; [|exact Y1|exact G]. cbn. auto. }
    destruct (trel_pair _ _ _ G2) as (r & R1 & R2 & Wr). specialize (Wr Wy).
    pose proof (tmap_trel (fun q : (A * bool) * oarr => (snd q, fst (fst q), snd (fst q))) r) as M. set (r2 := tmap _ r) in M. clearbody r2. exists r2. split; [eapply trel_wf; [exact M|exact Wr]|].
    split; [|split].
    - eapply trel_comp; [|apply trel_flip; exact M|exact R2]. cbn. intros ? ? ? -> [H _]. exact H.
    - eapply trel_comp; [|apply trel_flip; exact M|eapply trel_comp with (Q := fun (q : A * bool * oarr) z => fst (fst q) = z); [|exact R1|exact Y1]]; cbn; [intros ? ? ? -> <-; reflexivity|intros ? ? ? <- <-; reflexivity].
    - eapply trel_comp; [|apply trel_flip; exact M|eapply trel_comp with (Q := fun (q : A * bool * oarr) z => snd (fst q) = z); [|exact R1|exact Y2']]; cbn; [intros ? ? ? -> <-; reflexivity|intros ? ? ? <- <-; reflexivity]. }
  eapply trel_impl; [|apply (trel_leaf_prop _ _ _ _ VE Tt)]. cbn. intros p a ((Sa & Wa & Ha) & Hr0). split; [exact Sa|]. split; [exact Wa|]. split; [exact Hr0|].
  intros r B. pose proof (NUM _ _ B) as EN. split; [rewrite <- EN; apply lt_0_INR; lia|]. intros i oi Hi Ho. pose proof (RP _ _ B) as R4. destruct B as (Wr & R1 & R2 & R3).
  pose proof (tmap_trel (fun q : oarr * A * bool => (fst (fst q), g (snd (fst q)) (snd q))) r) as M. set (r2 := tmap _ r) in M. clearbody r2.
  assert (W2 : wf_tree r2) by (eapply trel_wf; [exact M|exact Wr]).
  assert (SD : sides (snd p) xs r2).
  { split; [exact W2|]. split.
    - eapply trel_comp; [|apply trel_flip; exact M|exact R1]. cbn. intros ? ? ? -> <-. reflexivity.
    - eapply trel_comp; [|apply trel_flip; exact M|eapply trel_comp with (S := fun (p : A * bool) z => z = g (fst p) (snd p)) (Q := fun (p : oarr * A * bool) z => z = g (snd (fst p)) (snd p)); [|exact R4|exact Tx]]; cbn; [intros ? ? ? -> K; symmetry; exact K|intros ? ? ? [-> ->] ->; reflexivity]. }
  rewrite (Ha r2 SD i oi Hi Ho).
  rewrite EN. f_equal. rewrite (F2_map_eq _ _ _ (leaves_trel _ _ Wr _ M)), total_map. apply total_ext. intros [[d a0] u] _. cbn [fst snd]. unfold leaf_change, part, change_leaf. cbn [fst snd]. rewrite g_shape. destruct u.
  - apply total_ext. intros k Hk. apply in_indices in Hk. rewrite g_true by exact Hk. reflexivity.
  - apply total_zero. intros k Hk. apply in_indices in Hk. rewrite g_false by exact Hk. unfold Rsqr. lra.
Qed.
End term.
