(** The uncertainty heuristic: the whole formula. *)
From Coq Require Import Reals Lra Lia Permutation Bool.
From Verif Require Import Base BaseLemmas TreeUtil TreeSpec NonSeqSpec NonSeqProofs TrainArgsProofs NdArray Serial SerialSpec SerialProofs Scaler ScalerProofs
  Conformal ReshapeProofs ReshapeMain EigenProofs BatchProofs ReshapeSpec LayersSpec LayersProofs StrataProofs StrataMain Uncertainty UncertaintySpec UncertaintyProofs UncertaintyMain.
Local Open Scope R_scope.
Local Open Scope list_scope.

Lemma divided_nonneg v m : 0 <= v -> (forall w, m = Some w -> 0 < w) -> 0 <= divided v m.
Proof.
  intros Hv H. destruct m as [w|]; cbn; [|lra]. specialize (H w eq_refl). unfold Rdiv. apply Rmult_le_pos; [exact Hv|]. apply Rlt_le, Rinv_0_lt_compat, H.
Qed.

Section add.
Context {A : Type} (sz : A -> list nat) (w : A -> list nat -> R) (n : nat) (shapes : tree (list nat)) (o0 : list nat).
Hypothesis HO : forall o, has_leaf shapes o -> o = o0.
Hypothesis WS : wf_tree shapes.
Lemma add_term (df : tree (tree oarr)) (src : tree A) flags t v N u :
  norms shapes N -> wf_tree u -> trel (fun o a => shp a = n :: o) shapes u -> wf_tree v -> wf_tree df ->
  trel (fun p o => fst p = o) v shapes -> trel (fun p d => snd p = d) v df ->
  trel (fun p a => shp a = n :: fst p /\ wf_arr a /\ (exists r, beside (snd p) src flags r) /\ forall r, beside (snd p) src flags r ->
       0 < total (size_of sz) (leaves r) /\ forall i oi, (i < n)%nat -> valid (fst p) oi -> ReshapeSpec.entry 0 a (i :: oi) = total (part sz w i oi) (leaves r) / total (size_of sz) (leaves r)) v t ->
  exists u', (let* d := normed t N in jzipM radd u d) = Ok u' /\ wf_tree u' /\ trel (fun o a => shp a = n :: o) shapes u' /\
    forall ks o a a', leaf_at shapes ks o -> leaf_at u ks a -> leaf_at u' ks a' -> exists d m r, leaf_at df ks d /\ leaf_at N ks m /\ beside d src flags r /\ 0 < total (size_of sz) (leaves r) /\ positive m /\
      forall i oi, (i < n)%nat -> valid o oi -> ReshapeSpec.entry 0 a' (i :: oi) = ReshapeSpec.entry 0 a (i :: oi) + divided (total (part sz w i oi) (leaves r) / total (size_of sz) (leaves r)) (ReshapeSpec.entry None m oi).
Proof.
  intros [WN TN] Wu Tu Wv Wd V1 V2 Tt.
  assert (TN' : trel (fun p m => shp m = fst p /\ positive m) v N). { eapply trel_comp; [|exact V1|exact TN]. cbn. intros ? ? ? <-. auto. }
  destruct (trel_pair _ _ _ TN') as (q & Q1 & Q2 & Wq). specialize (Wq Wv).
  assert (Qt : trel (fun z a => shp a = n :: fst (fst z) /\ (exists r, beside (snd (fst z)) src flags r) /\ forall r, beside (snd (fst z)) src flags r ->
       0 < total (size_of sz) (leaves r) /\ forall i oi, (i < n)%nat -> valid (fst (fst z)) oi -> ReshapeSpec.entry 0 a (i :: oi) = total (part sz w i oi) (leaves r) / total (size_of sz) (leaves r)) q t).
  { eapply trel_comp; [|exact Q1|exact Tt]. cbn. intros z p a <- (H1 & _ & H2 & H3). auto. }
  set (spec := fun (z : (list nat * tree oarr) * oarr) (a : rarr) => shp a = n :: fst (fst z) /\ positive (snd z) /\ exists r, beside (snd (fst z)) src flags r /\ 0 < total (size_of sz) (leaves r) /\
     forall i oi, (i < n)%nat -> valid (fst (fst z)) oi -> ReshapeSpec.entry 0 a (i :: oi) = divided (total (part sz w i oi) (leaves r) / total (size_of sz) (leaves r)) (ReshapeSpec.entry None (snd z) oi)).
  unfold normed. destruct (jzip_from (abin 0 None over) _ _ spec q t N Wq Qt Q2) as (d & Ed & Td).
  { intros z a m _ (Sa & (r & Hr) & Ha) (<- & Sm & Pm). destruct (Ha r Hr) as [Hs He].
    destruct (abin_prefix 0 None 0 over [n] (fst (fst z)) a (snd z)) as (y & E & S & _ & H); [exact Sa|exact Sm|]. exists y. split; [exact E|]. split; [exact S|]. split; [exact Pm|]. exists r. split; [exact Hr|]. split; [exact Hs|].
    intros i oi Hi Ho. change (i :: oi) with ([i] ++ oi). rewrite H; [|repeat constructor; exact Hi|exact Ho]. cbn [app]. rewrite He by assumption. reflexivity. }
  rewrite Ed. cbn [rbind].
  assert (Qs : trel (fun z o => fst (fst z) = o) q shapes). { eapply trel_comp; [|exact Q1|exact V1]. cbn. intros ? ? ? <- <-. reflexivity. }
  assert (Qu : trel (fun z a => shp a = n :: fst (fst z)) q u). { eapply trel_comp; [|exact Qs|exact Tu]. cbn. intros ? ? ? <-. auto. }
  destruct (trel_pair _ _ _ Qu) as (x & X1 & X2 & Wx). specialize (Wx Wq).
  assert (Xd : trel (fun y b => spec (fst y) b) x d). { eapply trel_comp; [|exact X1|exact Td]. cbn. intros ? ? ? <-. auto. }
  destruct (jzip_from radd _ _ (fun y a' => shp a' = n :: fst (fst (fst y)) /\ positive (snd (fst y)) /\ exists r, beside (snd (fst (fst y))) src flags r /\ 0 < total (size_of sz) (leaves r) /\
     forall i oi, (i < n)%nat -> valid (fst (fst (fst y))) oi -> ReshapeSpec.entry 0 a' (i :: oi) = ReshapeSpec.entry 0 (snd y) (i :: oi) + divided (total (part sz w i oi) (leaves r) / total (size_of sz) (leaves r)) (ReshapeSpec.entry None (snd (fst y)) oi)) x u d Wx X2 Xd) as (u' & Eu & Tu').
  { intros y a b _ (<- & Sa) (Sb & Pm & r & Hr & Hs & He). destruct (abin_equal 0 0 0 Rplus (n :: fst (fst (fst y))) (snd y) b Sa Sb) as (c & E & S & _ & H). exists c. split; [exact E|]. split; [exact S|]. split; [exact Pm|].
    exists r. split; [exact Hr|]. split; [exact Hs|]. intros i oi Hi Ho. rewrite H by (constructor; assumption). rewrite He by assumption. reflexivity. }
  assert (Xs : trel (fun y o => fst (fst (fst y)) = o) x shapes). { eapply trel_comp; [|exact X1|exact Qs]. cbn. intros ? ? ? <- <-. reflexivity. }
  assert (Wu' : wf_tree u') by (eapply trel_wf; [exact Tu'|exact Wx]).
  exists u'. split; [exact Eu|]. split; [exact Wu'|]. split.
  { eapply trel_comp; [|apply trel_flip; exact Xs|exact Tu']. cbn. intros o y a <- [H _]. exact H. }
  intros ks o a a' Ho Ha Ha'. destruct (trel_walk _ ks _ _ Wx (trel_flip _ _ _ Xs) o Ho) as (y & Hy & Ey). destruct (trel_walk _ ks _ _ Wu' Tu' y Hy) as (a0 & Ha0 & _ & Pm & r & Hr & Hs & He).
  destruct (trel_walk _ ks _ _ Wu X2 y Hy) as (a1 & Ha1 & Ea1 & _). destruct (trel_walk _ ks _ _ Wq X1 y Hy) as (z & Hz & Ez).
  destruct (trel_walk _ ks _ _ Wv Q1 z Hz) as (p & Hp & Ep). destruct (trel_walk _ ks _ _ Wd V2 p Hp) as (d0 & Hd0 & Ed0). destruct (trel_walk _ ks _ _ WN Q2 z Hz) as (m & Hm & Em & _).
  rewrite <- (leaf_unique _ _ _ _ Ha' Ha0) in He. rewrite <- (leaf_unique _ _ _ _ Ha Ha1) in Ea1. subst z p d0 o. exists (snd (fst (fst y))), m, r. subst m. split; [exact Hd0|]. split; [exact Hm|]. split; [exact Hr|]. split; [exact Hs|]. split; [exact Pm|].
  intros i oi Hi Hv. rewrite <- Ea1. apply He; assumption.
Qed.
End add.

(** The two kinds of terms. *)
Lemma masked_shape x s : shp (masked x s) = shp x.
Proof. destruct s; reflexivity. Qed.
Lemma masked_false x k : val (ReshapeSpec.entry None (masked x false) k) = 0.
Proof.
  unfold masked, ReshapeSpec.entry, amap. cbn [shp dat]. generalize (ravel (shp x) k) as j. induction (dat x) as [|a l IH]; intros [|j]; cbn; auto.
Qed.
Lemma iqr_shape x s : shp (iqr_leaf x s) = tl (shp x).
Proof. reflexivity. Qed.
Lemma iqr_entry x s k : valid (tl (shp x)) k -> ReshapeSpec.entry None (iqr_leaf x s) k = Some (if s then iqr x k else 0).
Proof.
  intros H. unfold iqr_leaf, ReshapeSpec.entry at 1. cbn [shp dat]. rewrite map_seq_nth by (apply ravel_bound; exact H). f_equal. destruct s; [|reflexivity]. unfold iqr.
  replace (col_of x (ravel (tl (shp x)) k)) with (map (fun i => ReshapeSpec.entry 0 x (i :: k)) (seq 0 (hd 0%nat (shp x)))); [reflexivity|].
  unfold col_of, ReshapeSpec.entry. destruct (shp x); reflexivity.
Qed.

Lemma param_raw_ok p cnt xs t : jzipM (fun (x : oarr) (s : bool) => Ok (if s then prod (shp x) else 0%nat)) (p_params p) (p_flags p) = Ok cnt ->
  jzipM (fun x s => Ok (masked x s)) (p_params p) (p_flags p) = Ok xs -> mean_sq (fold_right Nat.add 0%nat (leaves cnt)) (p_df p) xs = Ok t -> param_raw p = Ok t.
Proof. intros E1 E2 E3. unfold param_raw, count. unfold oarr in *. rewrite E1. cbn [rbind]. rewrite E2. exact E3. Qed.
Lemma input_raw_ok p use cnt xs t : i_use p = Ok use -> jzipM (fun (x : rarr) (s : bool) => Ok (if s then prod (tl (shp x)) else 0%nat)) (i_train p) use = Ok cnt ->
  jzipM (fun x s => Ok (iqr_leaf x s)) (i_train p) use = Ok xs -> mean_sq (fold_right Nat.add 0%nat (leaves cnt)) (i_df p) xs = Ok t -> i_unc p = None -> input_raw p = Ok t.
Proof. intros E0 E1 E2 E3 E4. unfold input_raw, count_features. rewrite E0. cbn [rbind]. unfold rarr in *. rewrite E1. cbn [rbind]. rewrite E2. cbn [rbind]. rewrite E3, E4. reflexivity. Qed.

Theorem heuristic_formula n o0 shapes s : wf_tree shapes -> (0 < n)%nat -> (forall o, has_leaf shapes o -> o = o0) ->
  wf_sources s -> par_ok n shapes s -> inp_ok n shapes s -> dist_ok n o0 s ->
  exists u, heuristic n shapes s = Ok u /\ trel (fun o a => shp a = n :: o) shapes u /\
    forall ks o a, leaf_at shapes ks o -> leaf_at u ks a -> forall i oi, (i < n)%nat -> valid o oi ->
      exists x y, param_part s ks i oi x /\ input_part s ks i oi y /\ 0 <= x /\ 0 <= y /\ 0 <= dist_part s i /\ ReshapeSpec.entry 0 a (i :: oi) = x + y + dist_part s i.
Proof.
  intros WS Hn HO HW HP HI HD. unfold heuristic.
  destruct (jm_from _ _ _ (trel_refl shapes) (fun o => Ok (mk_arr (n :: o) (repeat 0 (n * prod o)%nat))) (fun o a => a = mk_arr (n :: o) (repeat 0 (n * prod o)%nat))) as (u0 & E0 & T0).
  { intros o o' _ <-. eexists. split; reflexivity. }
  rewrite E0. cbn [rbind]. assert (Wu0 : wf_tree u0) by (eapply trel_wf; [exact T0|exact WS]).
  assert (T0' : trel (fun o a => shp a = n :: o) shapes u0) by (eapply trel_impl; [|exact T0]; cbn; intros ? ? ->; reflexivity).
  assert (Z0 : forall ks o a, leaf_at shapes ks o -> leaf_at u0 ks a -> forall idx, ReshapeSpec.entry 0 a idx = 0).
  { intros ks o a Ho Ha idx. destruct (trel_walk _ ks _ _ Wu0 T0 o Ho) as (a' & Ha' & ->). rewrite (leaf_unique _ _ _ _ Ha Ha'). unfold ReshapeSpec.entry. cbn [dat]. apply nth_repeat. }
  (* parameters *)
  assert (S1 : exists u1, with_term param_raw (s_par s) u0 = Ok u1 /\ wf_tree u1 /\ trel (fun o a => shp a = n :: o) shapes u1 /\
    forall ks o a, leaf_at shapes ks o -> leaf_at u1 ks a -> forall i oi, (i < n)%nat -> valid o oi -> exists x, param_part s ks i oi x /\ 0 <= x /\ ReshapeSpec.entry 0 a (i :: oi) = x).
  { unfold with_term, param_part, par_ok in *. destruct (s_par s) as [[p N]|] eqn:ES.
    - destruct HP as (W1 & W2 & HN & TF & HX & TG).
      destruct (term_ok masked shp (fun p k => val (ReshapeSpec.entry None p k)) masked_shape (fun _ _ _ => eq_refl) (fun a k _ => masked_false a k) n o0 shapes (p_df p) (p_params p) (p_flags p) WS W1 W2 Hn HO TF HX TG)
        as (cnt & xs & t & v & Ec & Ex & Et & Wv & V1 & V2 & Tt).
      destruct (add_term shp (fun p k => val (ReshapeSpec.entry None p k)) n shapes (p_df p) (p_params p) (p_flags p) t v N u0 HN Wu0 T0' Wv (proj1 HW p N ES) V1 V2 Tt) as (u1 & E1 & Wu1 & Tu1 & H1).
      exists u1. split; [|split; [exact Wu1|split; [exact Tu1|]]].
      + rewrite (param_raw_ok p cnt xs t Ec Ex Et). cbn [rbind]. exact E1.
      + intros ks o a Ho Ha i oi Hi Hv. destruct (trel_walk _ ks _ _ Wu0 T0' o Ho) as (a0 & Ha0 & _). destruct (H1 ks o a0 a Ho Ha0 Ha) as (d & m & r & Hd & Hm & Hr & Hs & Pm & He).
        eexists. split; [exists d, m, r; split; [exact Hd|]; split; [exact Hm|]; split; [exact Hr|]; split; [exact Hs|]; reflexivity|]. split.
        * apply divided_nonneg; [|intros w Ew; exact (Pm _ _ Ew)]. unfold Rdiv. apply Rmult_le_pos; [apply total_nonneg; intros q _; apply (part_nonneg shp (fun p k => val (ReshapeSpec.entry None p k)))|]. apply Rlt_le, Rinv_0_lt_compat. exact Hs.
        * rewrite He by assumption. rewrite (Z0 ks o a0 Ho Ha0). rewrite Rplus_0_l. reflexivity.
    - exists u0. split; [reflexivity|]. split; [exact Wu0|]. split; [exact T0'|]. intros ks o a Ho Ha i oi _ _. exists 0. split; [reflexivity|]. split; [lra|]. apply (Z0 ks o a Ho Ha). }
  destruct S1 as (u1 & E1 & Wu1 & Tu1 & H1). rewrite E1. cbn [rbind].
  (* inputs *)
  assert (S2 : exists u2, with_term input_raw (s_inp s) u1 = Ok u2 /\ wf_tree u2 /\ trel (fun o a => shp a = n :: o) shapes u2 /\
    forall ks o a a', leaf_at shapes ks o -> leaf_at u1 ks a -> leaf_at u2 ks a' -> forall i oi, (i < n)%nat -> valid o oi -> exists y, input_part s ks i oi y /\ 0 <= y /\ ReshapeSpec.entry 0 a' (i :: oi) = ReshapeSpec.entry 0 a (i :: oi) + y).
  { unfold with_term, input_part, inp_ok in *. destruct (s_inp s) as [[p N]|] eqn:ES.
    - destruct HI as (W1 & W2 & W3 & HN & TC & TF & (ks0 & x0 & Hc & Hf & Hx & Hx0) & TG & EU).
      assert (TCF : trel (fun _ _ => True) (i_cont p) (i_flags p)). { eapply trel_comp; [|apply trel_flip; exact TC|exact TF]. auto. }
      destruct (trel_pair _ _ _ TCF) as (y & Y1 & Y2 & Wy). specialize (Wy W2). assert (Y2' : trel (fun (p : bool * bool) s => snd p = s) y (i_flags p)) by (eapply trel_impl; [|exact Y2]; cbn; intros ? ? [H _]; exact H).
      destruct (jzip_from (fun c s => Ok (c && s)) _ _ (fun (p : bool * bool) z => z = fst p && snd p) y (i_cont p) (i_flags p) Wy Y1 Y2') as (use & Eu & Tus).
      { intros q c f _ <- <-. eexists. split; reflexivity. }
      assert (Wuse : wf_tree use) by (eapply trel_wf; [exact Tus|exact Wy]).
      assert (US : used (i_cont p) (i_flags p) use).
      { split; [exact Wuse|]. split; [eapply trel_comp; [|apply trel_flip; exact Y1|exact Tus]; auto|]. intros ks c f b Lc Lf Lb.
        destruct (trel_walk _ ks _ _ Wy (trel_flip _ _ _ Y1) c Lc) as (q & Hq & Eq). destruct (trel_walk _ ks _ _ W3 Y2' q Hq) as (f' & Hf' & Ef'). destruct (trel_walk _ ks _ _ Wuse Tus q Hq) as (b' & Hb' & Eb').
        rewrite (leaf_unique _ _ _ _ Lf Hf'), (leaf_unique _ _ _ _ Lb Hb'), Eb', Eq, Ef'. reflexivity. }
      assert (TU : trel (fun _ _ => True) (i_train p) use). { eapply trel_comp; [|exact TC|exact (proj1 (proj2 US))]. auto. }
      assert (HX : exists ks x, leaf_at use ks true /\ leaf_at (i_train p) ks x /\ prod (tl (shp x)) <> 0%nat).
      { exists ks0, x0. split; [|auto]. destruct (trel_walk _ ks0 _ _ Wuse TU x0 Hx) as (b & Hb & _). rewrite (proj2 (proj2 US) ks0 true true b Hc Hf Hb) in Hb. exact Hb. }
      destruct (term_ok iqr_leaf (fun x => tl (shp x)) iqr iqr_shape (fun a k Hk => f_equal val (iqr_entry a true k Hk)) (fun a k Hk => f_equal val (iqr_entry a false k Hk)) n o0 shapes (i_df p) (i_train p) use WS W1 Wuse Hn HO TU HX TG)
        as (cnt & xs & t & v & Ec & Ex & Et & Wv & V1 & V2 & Tt).
      destruct (add_term (fun x => tl (shp x)) iqr n shapes (i_df p) (i_train p) use t v N u1 HN Wu1 Tu1 Wv (proj2 HW p N ES) V1 V2 Tt) as (u2 & E2 & Wu2 & Tu2 & H2).
      exists u2. split; [|split; [exact Wu2|split; [exact Tu2|]]].
      + rewrite (input_raw_ok p use cnt xs t Eu Ec Ex Et EU). cbn [rbind]. exact E2.
      + intros ks o a a' Ho Ha Ha' i oi Hi Hv. destruct (H2 ks o a a' Ho Ha Ha') as (d & m & r & Hd & Hm & Hr & Hs & Pm & He).
        eexists. split; [exists use, d, m, r; split; [exact US|]; split; [exact Hd|]; split; [exact Hm|]; split; [exact Hr|]; split; [exact Hs|]; reflexivity|]. split.
        * apply divided_nonneg; [|intros w Ew; exact (Pm _ _ Ew)]. unfold Rdiv. apply Rmult_le_pos; [apply total_nonneg; intros q _; apply (part_nonneg (fun x => tl (shp x)) iqr)|]. apply Rlt_le, Rinv_0_lt_compat. exact Hs.
        * rewrite He by assumption. reflexivity.
    - exists u1. split; [reflexivity|]. split; [exact Wu1|]. split; [exact Tu1|]. intros ks o a a' Ho Ha Ha' i oi _ _. exists 0. split; [reflexivity|]. split; [lra|]. rewrite (leaf_unique _ _ _ _ Ha Ha'). lra. }
  destruct S2 as (u2 & E2 & Wu2 & Tu2 & H2). rewrite E2. cbn [rbind].
  assert (H12 : forall ks o a, leaf_at shapes ks o -> leaf_at u2 ks a -> forall i oi, (i < n)%nat -> valid o oi -> exists x y, param_part s ks i oi x /\ input_part s ks i oi y /\ 0 <= x /\ 0 <= y /\ ReshapeSpec.entry 0 a (i :: oi) = x + y).
  { intros ks o a Ho Ha i oi Hi Hv. destruct (trel_walk _ ks _ _ Wu1 Tu1 o Ho) as (a1 & Ha1 & _). destruct (H1 ks o a1 Ho Ha1 i oi Hi Hv) as (x & Hx & Px & Ex). destruct (H2 ks o a1 a Ho Ha1 Ha i oi Hi Hv) as (y & Hy & Py & Ey).
    exists x, y. repeat apply conj; auto. rewrite Ey, Ex. reflexivity. }
  unfold dist_ok, dist_part in *. destruct (s_dist s) as [d|].
  - destruct HD as (Ld & Pd & R1). destruct o0 as [|k [|? ?]]; cbn in R1; try discriminate.
    assert (Tu2' : trel (fun o a => shp a = n :: o /\ o = [k]) shapes u2) by (apply (trel_leaf_prop _ (fun o => o = [k])); [exact HO|exact Tu2]).
    destruct (trel_pair _ _ _ Tu2') as (q & Q1 & Q2 & Wq). specialize (Wq WS).
    destruct (jm_from _ _ _ Q2 (fun x => radd x (mk_arr [length d; 1%nat] d)) (fun q a => shp a = n :: fst q /\ forall i j, (i < n)%nat -> (j < k)%nat -> ReshapeSpec.entry 0 a [i; j] = ReshapeSpec.entry 0 (snd q) [i; j] + nth i d 0)) as (u3 & E3 & T3).
    { intros q0 a _ (<- & Sa & Ek). rewrite Ek in Sa. rewrite Ld. destruct (abin_column Rplus n k (snd q0) d Sa Ld) as (y & E & S & _ & H). exists y. split; [exact E|]. rewrite Ek. split; [exact S|]. exact H. }
    unfold rarr in *. rewrite E3. assert (Wu3 : wf_tree u3) by (eapply trel_wf; [exact T3|exact Wq]). exists u3. split; [reflexivity|]. split.
    { eapply trel_comp; [|apply trel_flip; exact Q1|exact T3]. cbn. intros o q0 a <- [H _]. exact H. }
    intros ks o a Ho Ha i oi Hi Hv. destruct (trel_walk _ ks _ _ Wq (trel_flip _ _ _ Q1) o Ho) as (q0 & Hq0 & Eq0). destruct (trel_walk _ ks _ _ Wu3 T3 q0 Hq0) as (a' & Ha' & _ & He). rewrite <- (leaf_unique _ _ _ _ Ha Ha') in He.
    destruct (trel_walk _ ks _ _ Wu2 Q2 q0 Hq0) as (a2 & Ha2 & Ea2 & _). destruct (H12 ks o a2 Ho Ha2 i oi Hi Hv) as (x & y & Hx & Hy & Px & Py & Exy). exists x, y.
    assert (P0 : 0 <= nth i d 0) by (apply Pd, nth_In; lia). split; [exact Hx|]. split; [exact Hy|]. split; [exact Px|]. split; [exact Py|]. split; [exact P0|].
    rewrite (HO o (leaf_has _ _ _ Ho)) in Hv. inversion Hv as [|j ? oi' ? Hj Hr]; subst. inversion Hr; subst. rewrite He by assumption. rewrite Exy. reflexivity.
  - exists u2. split; [reflexivity|]. split; [exact Tu2|]. intros ks o a Ho Ha i oi Hi Hv. destruct (H12 ks o a Ho Ha i oi Hi Hv) as (x & y & Hx & Hy & Px & Py & Exy). exists x, y.
    split; [exact Hx|]. split; [exact Hy|]. split; [exact Px|]. split; [exact Py|]. split; [lra|]. rewrite Exy. lra.
Qed.
