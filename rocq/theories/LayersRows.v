From Coq Require Import Arith Permutation.
From Verif Require Import Base BaseLemmas TreeUtil TreeSpec TreeProofs MutableProofs NonSeqSpec NonSeqProofs NdArray Serial SerialSpec SerialProofs Scaler ScalerProofs
  EigenProofs TrainArgs TrainArgsProofs Reshape ReshapeSpec ReshapeProofs ReshapeMain Einsum EinsumProofs EinsumMain ReshapeSpec Layers LayersSpec LayersProofs LayersMain LayersMore.
Local Open Scope list_scope.
Local Open Scope nat_scope.

Section Rows.
Context {V : Type} (zero : V).

Lemma concat_nth (h : nat -> list V) m : forall K b, (forall k, k < b + K -> length (h k) = m) ->
  forall k j, k < K -> j < m -> nth (k * m + j) (concat (map h (seq b K))) zero = nth j (h (b + k)) zero.
Proof.
  induction K as [|K IH]; intros b HL k j Hk Hj; [lia|]. cbn [seq map concat].
  destruct k as [|k].
  - rewrite app_nth1 by (rewrite HL; lia). cbn. rewrite Nat.add_0_r. reflexivity.
  - rewrite app_nth2 by (rewrite HL by lia; cbn; lia). rewrite HL by lia. replace (S k * m + j - m) with (k * m + j) by (cbn; lia).
    rewrite IH by (auto; try lia; intros k' Hk'; apply HL; lia). f_equal. f_equal. lia.
Qed.
Lemma row_map n k (l : list V) K : length l = K * n -> k < K -> row n k l = map (fun j => nth (k * n + j) l zero) (seq 0 n).
Proof.
  intros L Hk. unfold row. apply nth_ext with (d := zero) (d' := zero).
  - rewrite map_length, seq_length, firstn_length, skipn_length, L. assert (n <= K * n - k * n) by nia. lia.
  - intros j Hj. rewrite firstn_length in Hj. assert (Hn : j < n) by lia. rewrite map_seq_nth by exact Hn.
    rewrite <- (firstn_skipn (k * n) l) at 2. rewrite app_nth2; rewrite firstn_length, L.
    + replace (k * n + j - Nat.min (k * n) (K * n)) with j by nia. rewrite <- (firstn_skipn n (skipn (k * n) l)) at 2. rewrite app_nth1; [reflexivity|]. rewrite firstn_length. exact Hj.
    + nia.
Qed.
Lemma ravel_snoc s : forall idx n j, length idx = length s -> ravel (s ++ [n]) (idx ++ [j]) = ravel s idx * n + j.
Proof.
  induction s as [|m s IH]; intros [|i idx] n j H; cbn in H; try discriminate.
  - cbn. lia.
  - cbn [app ravel]. rewrite prod_app, IH by lia. unfold prod at 2. cbn [fold_right]. rewrite Nat.mul_1_r. lia.
Qed.
Lemma valid_length s idx : valid s idx -> length idx = length s.
Proof. induction 1; cbn; congruence. Qed.

(** one entry of the result is a function of the row of the argument *)
Lemma rowwise_entry (g : list V -> list V) s n a : shp a = s ++ [n] -> wf_arr a -> (forall l, length (g l) = length l) ->
  exists y, rowwise g a = Ok y /\ shp y = shp a /\
    forall idx j, valid (s ++ [n]) (idx ++ [j]) -> entry zero y (idx ++ [j]) = nth j (g (map (fun j' => entry zero a (idx ++ [j'])) (seq 0 n))) zero.
Proof.
  intros Ha W G. unfold rowwise. rewrite Ha, rev_app_distr. cbn [rev app]. rewrite rev_involutive. eexists. split; [reflexivity|]. split; [reflexivity|].
  intros idx j Hv. assert (Hl : length idx = length s). { apply valid_length in Hv. rewrite !app_length in Hv. cbn in Hv. lia. }
  unfold valid in Hv. apply Forall2_app_inv_l in Hv as (s1 & s2 & F1 & F2 & E).
  assert (E' : s1 = s /\ s2 = [n]).
  { assert (length s1 = length s) by (rewrite <- Hl; symmetry; eapply F2_length; exact F1). clear -E H. revert s E H. induction s1 as [|x s1 IH]; intros [|y s] E H; cbn in *; try discriminate; [auto|].
    injection E as -> E. destruct (IH s E ltac:(lia)) as [ -> -> ]. auto. }
  destruct E' as [ -> -> ]. inversion F2 as [|? ? ? ? Hj _]; subst. fold (valid s idx) in F1. pose proof (ravel_bound _ _ F1) as B.
  unfold wf_arr in W. rewrite Ha, prod_app in W. cbn [prod fold_right] in W. rewrite Nat.mul_1_r in W.
  unfold entry at 1, along_last. cbn [shp dat]. rewrite ravel_snoc by exact Hl.
  rewrite concat_nth; [|intros k Hk|exact B|exact Hj].
  - cbn [Nat.add]. f_equal. f_equal. rewrite (row_map n _ _ (prod s)) by auto. apply map_ext. intros j'. unfold entry. rewrite Ha, ravel_snoc by exact Hl. reflexivity.
  - rewrite G, (row_map n _ _ (prod s)) by (auto; cbn in Hk; lia). rewrite map_length, seq_length. reflexivity.
Qed.

Theorem rowwise_ok (g : list V -> list V) n shapes (data : tree (arr V)) : (forall l, length (g l) = length l) ->
  wf_tree shapes -> (forall s, has_leaf shapes s -> s <> []) -> trel (batch_of n) shapes data -> (forall a, has_leaf data a -> wf_arr a) ->
  exists out, act_call (rowwise g) data = Ok out /\ trel (batch_of n) (act_shape shapes) out /\
    trel (fun x y => rowwise g x = Ok y /\ shp y = shp x) data out.
Proof.
  intros G W NE T WA. unfold act_call.
  destruct (jm_trel (rowwise g) (fun x y => x = y /\ exists s m, shp x = (n :: s) ++ [m] /\ wf_arr x) (fun a y => rowwise g a = Ok y /\ shp y = shp a) data) with (u := data) as (out & -> & TO).
  { intros a b _ [ <- (s & m & E & Wa)]. destruct (rowwise_entry g _ _ a E Wa G) as (y & Ey & Sy & _). eauto. }
  { apply trel_leaf_prop; [|apply trel_refl]. intros a Ha. destruct (map_has_leaf _ _ _ (trel_flip _ _ _ T) a Ha) as (s & Hs & B). specialize (NE s Hs).
    destruct (exists_last NE) as (s' & m & ->). exists s', m. split; [exact B|]. auto. }
  cbn [rbind]. assert (TB : trel (batch_of n) shapes out).
  { eapply trel_comp; [|exact T|exact TO]. intros s a y B [_ E]. unfold batch_of in *. congruence. }
  rewrite (check_batch_rel n _ _ _ _ T TB). cbn [rbind]. exists out. split; [reflexivity|]. split; [exact TB|exact TO].
Qed.

Theorem rowwise_samples (g : list V -> list V) n shapes i (d1 d2 : tree (arr V)) o1 o2 : (forall l, length (g l) = length l) ->
  wf_tree shapes -> (forall s, has_leaf shapes s -> s <> []) -> trel (batch_of n) shapes d1 -> trel (batch_of n) shapes d2 ->
  (forall a, has_leaf d1 a \/ has_leaf d2 a -> wf_arr a) ->
  act_call (rowwise g) d1 = Ok o1 -> act_call (rowwise g) d2 = Ok o2 -> same_sample zero i d1 d2 -> same_sample zero i o1 o2.
Proof.
  intros G W NE T1 T2 WA E1 E2 S.
  destruct (rowwise_ok g n shapes d1 G W NE T1) as (o1' & E1' & TB1 & R1); [auto|]. rewrite E1 in E1'. injection E1' as <-.
  destruct (rowwise_ok g n shapes d2 G W NE T2) as (o2' & E2' & TB2 & R2); [auto|]. rewrite E2 in E2'. injection E2' as <-.
  assert (W1 : wf_tree d1) by (eapply trel_wf; [exact T1|exact W]). assert (W2 : wf_tree d2) by (eapply trel_wf; [exact T2|exact W]).
  intros ks y1 Hy1. destruct (trel_walk _ ks _ _ W1 (trel_flip _ _ _ R1) y1 Hy1) as (x1 & Hx1 & F1 & S1).
  destruct (S ks x1 Hx1) as (x2 & Hx2 & S12 & E). destruct (trel_walk _ ks _ _ (trel_wf _ _ _ R2 W2) R2 x2 Hx2) as (y2 & Hy2 & F2 & S2).
  exists y2. split; [exact Hy2|]. split; [congruence|].
  assert (H1 : has_leaf d1 x1) by (eapply leaf_has; eauto). assert (H2 : has_leaf d2 x2) by (eapply leaf_has; eauto).
  destruct (map_has_leaf _ _ _ (trel_flip _ _ _ T1) x1 H1) as (s & Hs & B). unfold batch_of in B. specialize (NE s Hs). destruct (exists_last NE) as (s' & m & ->).
  change (n :: s' ++ [m]) with ((n :: s') ++ [m]) in B.
  destruct (rowwise_entry g _ _ x1 B (WA _ (or_introl H1)) G) as (z1 & Z1 & _ & K1). rewrite F1 in Z1. injection Z1 as <-.
  destruct (rowwise_entry g (n :: s') m x2 ltac:(congruence) (WA _ (or_intror H2)) G) as (z2 & Z2 & _ & K2). rewrite F2 in Z2. injection Z2 as <-.
  intros idx Hv. rewrite S1, B in Hv. assert (NI : i :: idx <> []) by discriminate. 
  assert (HI : exists idx' j, i :: idx = (i :: idx') ++ [j]).
  { assert (idx <> []). { intros ->. apply valid_length in Hv. rewrite app_length in Hv. cbn in Hv. lia. } destruct (exists_last H) as (idx' & j & ->). exists idx', j. reflexivity. }
  destruct HI as (idx' & j & EI). rewrite EI in *. rewrite (K1 _ _ Hv), (K2 _ _ Hv). f_equal. f_equal. apply map_ext_in. intros j' Hj. apply in_seq in Hj.
  cbn [app]. apply E. rewrite B. cbn [app]. unfold valid in Hv. cbn [app] in Hv. inversion Hv as [|? ? ? ? Hi Hr]; subst. constructor; [exact Hi|].
  apply Forall2_app_inv_l in Hr as (t1 & t2 & F3 & F4 & EE). assert (length t2 = 1) by (rewrite <- (F2_length _ _ _ F4); reflexivity).
  destruct t2 as [|t [|? ?]]; try discriminate. apply app_inj_tail in EE as [ <- <- ]. apply Forall2_app; [exact F3|]. constructor; [lia|constructor].
Qed.
End Rows.
