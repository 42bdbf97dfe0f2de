(** Bias corrections: the main results. *)
From Coq Require Import Reals ZArith Lra Lia Permutation Bool.
From Verif Require Import Base BaseLemmas TreeUtil TreeSpec NonSeqSpec NonSeqProofs TrainArgsProofs Serial SerialSpec SerialProofs Scaler ScalerProofs OneHot OneHotSpec OneHotProofs
  Conformal ConformalProofs ReshapeProofs ReshapeMain EigenProofs BatchProofs LayersSpec LayersProofs Strata StrataSpec StrataProofs.
Local Open Scope R_scope.
Local Open Scope list_scope.

Lemma rows_of X t n X' n' : wf_tree X -> wf_tree t -> wf_tree X' -> trel (fun _ _ => True) X t -> trel (fun x x' => o_shape x = o_shape x') X X' ->
  (exists x, has_leaf X x) -> (forall x, has_leaf X x -> batch n x) -> (forall x, has_leaf X' x -> batch n' x) ->
  exists f f', strata_features X t = Ok f /\ strata_features X' t = Ok f' /\ length f = n /\ length f' = n' /\
    (forall i j, (i < n)%nat -> (j < n')%nat -> (same_stratum t X X' i j <-> nth i f [] = nth j f' [])).
Proof.
  intros WX WT WX' TT TX' [x0 Hx0] HB HB'. destruct (trel_pair _ X t TT) as (r & R1 & R2 & Wr). specialize (Wr WX).
  assert (T3 : trel (fun p x' => o_shape (fst p) = o_shape x') r X'). { eapply trel_comp; [|exact R1|exact TX']. cbn. intros p x x' <-. auto. }
  destruct (trel_pair _ r X' T3) as (q & Q1 & Q2 & Wq). specialize (Wq Wr).
  assert (QX : trel (fun p x => fst (fst p) = x) q X). { eapply trel_comp; [|exact Q1|exact R1]. cbn. intros ? ? ? <- <-. reflexivity. }
  assert (QT : trel (fun p s => snd (fst p) = s) q t). { eapply trel_comp; [|exact Q1|exact R2]. cbn. intros ? ? ? <- [<- _]. reflexivity. }
  assert (QX' : trel (fun p x => snd p = x) q X'). { eapply trel_impl; [|exact Q2]. cbn. intros ? ? [H _]. exact H. }
  assert (HQ : forall p, has_leaf q p -> batch n (fst (fst p)) /\ batch n' (snd p) /\ o_shape (fst (fst p)) = o_shape (snd p)).
  { intros p Hp. destruct (map_has_leaf _ _ _ QX p Hp) as (x & Hx & <-). destruct (map_has_leaf _ _ _ Q2 p Hp) as (x' & Hx' & <- & E). auto. }
  assert (H0 : exists p, has_leaf q p). { destruct (map_has_leaf _ _ _ (trel_flip _ _ _ QX) x0 Hx0) as (p & Hp & _). eauto. }
  (* the two features *)
  pose proof (tmap_trel (fun p : bdata * bool * bdata => fst p) q) as M1. pose proof (trel_wf _ _ _ M1 Wq) as W1. set (q1 := tmap (fun p : bdata * bool * bdata => fst p) q) in *. clearbody q1.
  pose proof (tmap_trel (fun p : bdata * bool * bdata => (snd p, snd (fst p))) q) as M2. pose proof (trel_wf _ _ _ M2 Wq) as W2. set (q2 := tmap (fun p : bdata * bool * bdata => (snd p, snd (fst p))) q) in *. clearbody q2.
  pose proof (F2_map_eq _ _ _ (leaves_trel _ _ Wq _ M1)) as L1. pose proof (F2_map_eq _ _ _ (leaves_trel _ _ Wq _ M2)) as L2.
  exists (map (fun i => concat (map (picked i) (leaves q1))) (seq 0 n)), (map (fun i => concat (map (picked i) (leaves q2))) (seq 0 n')).
  repeat apply conj.
  - apply features_ok; auto.
    + eapply trel_comp; [|apply trel_flip; exact M1|exact QX]. cbn. intros ? ? ? -> <-. reflexivity.
    + eapply trel_comp; [|apply trel_flip; exact M1|exact QT]. cbn. intros ? ? ? -> <-. reflexivity.
    + destruct H0 as (p & Hp). destruct (map_has_leaf _ _ _ M1 p Hp) as (y & Hy & _). eauto.
    + intros p Hp. destruct (map_has_leaf _ _ _ (trel_flip _ _ _ M1) p Hp) as (y & Hy & ->). destruct (HQ y Hy) as ([L _] & _). exact L.
  - apply features_ok; auto.
    + eapply trel_comp; [|apply trel_flip; exact M2|exact QX']. cbn. intros ? ? ? -> <-. reflexivity.
    + eapply trel_comp; [|apply trel_flip; exact M2|exact QT]. cbn. intros ? ? ? -> <-. reflexivity.
    + destruct H0 as (p & Hp). destruct (map_has_leaf _ _ _ M2 p Hp) as (y & Hy & _). eauto.
    + intros p Hp. destruct (map_has_leaf _ _ _ (trel_flip _ _ _ M2) p Hp) as (y & Hy & ->). destruct (HQ y Hy) as (_ & [L _] & _). exact L.
  - rewrite map_length, seq_length. reflexivity.
  - rewrite map_length, seq_length. reflexivity.
  - intros i j Hi Hj. rewrite !map_seq_nth by assumption. rewrite L1, L2, !map_map. eapply stratum_rows; eauto.
Qed.

(** One leaf: residuals, medians of the strata, corrected predictions. *)
Lemma leaf_op_ok f x y n : o_shape x = o_shape y -> batch n x -> batch n y ->
  exists z, leaf_op f x y = Ok z /\ o_shape z = o_shape x /\ batch n z /\
    forall i j, (i < n)%nat -> (j < features x)%nat -> at_ z i j = f (at_ x i j) (at_ y i j).
Proof.
  intros E [Lx Bx] [Ly By]. unfold leaf_op. destruct (list_eq_dec _ _ _) as [_|N]; [|contradiction]. rewrite Lx, Ly, Nat.eqb_refl. cbn [andb]. eexists. split; [reflexivity|].
  cbn [o_shape o_rows]. split; [reflexivity|].
  assert (R : forall i, (i < n)%nat -> nth i (map (fun p => row_op f (fst p) (snd p)) (combine (o_rows x) (o_rows y))) [] = row_op f (nth i (o_rows x) []) (nth i (o_rows y) [])).
  { intros i Hi. rewrite (map_nth_lt _ _ ([], [])) by (rewrite combine_length; lia). rewrite combine_nth by lia. reflexivity. }
  assert (Z : forall i j, (i < n)%nat -> (j < features x)%nat -> nth j (row_op f (nth i (o_rows x) []) (nth i (o_rows y) [])) 0 = f (at_ x i j) (at_ y i j) /\ length (row_op f (nth i (o_rows x) []) (nth i (o_rows y) [])) = features x).
  { intros i j Hi Hj. unfold row_op. assert (L1 : length (nth i (o_rows x) []) = features x) by (apply Bx, nth_In; lia).
    assert (L2 : length (nth i (o_rows y) []) = features x) by (rewrite By by (apply nth_In; lia); unfold features; rewrite E; reflexivity).
    rewrite map_length, combine_length, L1, L2, Nat.min_id. split; [|reflexivity].
    rewrite (map_nth_lt _ _ (0, 0)) by (rewrite combine_length; lia). rewrite combine_nth by lia. reflexivity. }
  split; [split|].
  - cbn [o_rows]. rewrite map_length, combine_length. lia.
  - cbn [o_rows]. intros r Hr. apply In_nth with (d := []) in Hr as (i & Hi & <-). rewrite map_length, combine_length in Hi. rewrite R by lia.
    unfold row_op. rewrite map_length, combine_length. rewrite Bx by (apply nth_In; lia). rewrite By by (apply nth_In; lia). unfold features. cbn [o_shape]. rewrite E. lia.
  - intros i j Hi Hj. unfold at_. cbn [o_rows]. rewrite R by lia. apply Z; assumption.
Qed.

Definition bias_of (n : nat) (f : list (list R)) (y p : bdata) (r : list R) : R :=
  median (map (fun j => at_ y j 0 - at_ p j 0) (filter (fun j => if list_eq_dec Req_EM_T r (nth j f []) then true else false) (seq 0 n))).
(** The stored biases of one leaf. *)
Definition stored (n : nat) (f : list (list R)) (y p : bdata) (v : list (list R)) : Prop :=
  length v = S (length (unique_rows rops f)) /\
  (forall r, In r f -> nth (index_of (unique_rows rops f) r) v [] = [bias_of n f y p r]) /\
  nth (length (unique_rows rops f)) v [] = [0].
Lemma strata_leaf_ok n f y p : length f = n -> o_shape y = [1%nat] -> o_shape p = [1%nat] -> batch n y -> batch n p ->
  exists z v, leaf_op Rminus y p = Ok z /\ strata_leaf (length (unique_rows rops f)) (map (index_of (unique_rows rops f)) f) z = Ok v /\ stored n f y p v.
Proof.
  intros Lf Ey Ep By Bp. destruct (leaf_op_ok Rminus y p n ltac:(congruence) By Bp) as (z & Ez & Sz & [Lz Bz] & Hz).
  set (u := unique_rows rops f). assert (E1 : o_shape z = [1%nat]) by congruence.
  exists z. eexists. split; [exact Ez|]. unfold strata_leaf. destruct (list_eq_dec _ (o_shape z) _) as [_|N]; [|contradiction]. cbn [orb]. split; [reflexivity|]. unfold stored. fold u. split; [|split].
  - rewrite app_length, map_length, seq_length. cbn. lia.
  - intros r Hr. destruct (index_in u r) as [Hi Hn]; [apply unique_in; exact Hr|].
    rewrite app_nth1 by (rewrite map_length, seq_length; exact Hi). rewrite map_seq_nth by exact Hi.
    assert (F1 : features z = 1%nat) by (unfold features; rewrite E1; reflexivity). rewrite F1. unfold col_median. cbn [seq map]. f_equal.
    unfold bias_of. f_equal. rewrite keep_map. rewrite (list_as_map [] f) at 1. rewrite !map_map.
    rewrite (list_as_map [] (o_rows z)). rewrite map_map, Lf, Lz. rewrite keep_seq.
    rewrite (filter_ext_in _ (fun j => if list_eq_dec Req_EM_T r (nth j f []) then true else false)).
    + apply map_ext_in. intros j Hj. apply filter_In in Hj as [Hj _]. apply in_seq in Hj. apply Hz; [lia|]. unfold features. rewrite Ey. cbn. lia.
    + intros j Hj. apply in_seq in Hj. destruct (list_eq_dec _ r (nth j f [])) as [E|E].
      * rewrite <- E. apply Nat.eqb_refl.
      * apply Nat.eqb_neq. intros C. apply E. apply (index_inj u r); [apply unique_in; exact Hr|exact C].
  - rewrite app_nth2; rewrite map_length, seq_length; [|lia]. rewrite Nat.sub_diag. reflexivity.
Qed.
Lemma corrected_leaf n' (f' u : list (list R)) p' v : length f' = n' -> o_shape p' = [1%nat] -> batch n' p' -> (forall r, length (nth (index_of u r) v []) = 1%nat) ->
  exists c, leaf_op Rplus p' (pick (map (index_of u) f') v) = Ok c /\ alike p' c /\ batch n' c /\
    forall i, (i < n')%nat -> at_ c i 0 = at_ p' i 0 + nth 0 (nth (index_of u (nth i f' [])) v []) 0.
Proof.
  intros Lf E B HV. destruct (leaf_op_ok Rplus p' (pick (map (index_of u) f') v) n') as (c & Ec & Sc & [Lc Bc] & Hc).
  - exact E.
  - exact B.
  - split; [cbn; rewrite !map_length; exact Lf|]. cbn. intros r Hr. rewrite map_map in Hr. apply in_map_iff in Hr as (x & <- & _). apply HV.
  - exists c. split; [exact Ec|]. split; [split; [congruence|destruct B; congruence]|]. split; [split; assumption|].
    intros i Hi. rewrite Hc by (auto; unfold features; rewrite E; cbn; lia). f_equal. unfold at_, pick. cbn [o_rows]. rewrite map_map.
    rewrite (map_nth_lt _ _ []) by lia. reflexivity.
Qed.

Lemma stratum_median n f y p t X i I : length f = n -> (i < n)%nat -> stratum t X n i I -> (forall i j, (i < n)%nat -> (j < n)%nat -> (same_stratum t X X i j <-> nth i f [] = nth j f [])) ->
  is_median (map (fun j => at_ y j 0 - at_ p j 0) I) (bias_of n f y p (nth i f [])).
Proof.
  intros Lf Hi [ND HI] HS. unfold bias_of. eapply is_median_perm; [|apply median_is]. apply Permutation_map. apply NoDup_Permutation; [apply NoDup_filter, seq_NoDup|exact ND|].
  intros j. rewrite filter_In, in_seq, HI. split.
  - intros [H1 H2]. split; [lia|]. apply HS; [exact Hi|lia|]. destruct (list_eq_dec _ _ _); [assumption|discriminate].
  - intros [H1 H2]. split; [lia|]. apply HS in H2; [|exact Hi|exact H1]. destruct (list_eq_dec _ _ _); [reflexivity|contradiction].
Qed.

(** The calibration and later calls, together. *)
Lemma strata_main t X Y P n : wf_tree X -> wf_tree t -> wf_tree Y -> trel (fun _ _ => True) X t -> (exists x, has_leaf X x) ->
  (forall x, has_leaf X x -> batch n x) -> trel (fun y p => o_shape y = [1%nat] /\ o_shape p = [1%nat] /\ batch n y /\ batch n p) Y P ->
  exists f b, strata_features X t = Ok f /\ length f = n /\ fit_bias (MStrata t) X Y P = Ok (BStrata (unique_rows rops f) b) /\ wf_tree b /\
   (exists r : tree (bdata * bdata), wf_tree r /\ trel (fun q y => fst q = y) r Y /\ trel (fun q p => snd q = p) r P /\ trel (fun q v => stored n f (fst q) (snd q) v) r b) /\
   (forall i j, (i < n)%nat -> (j < n)%nat -> (same_stratum t X X i j <-> nth i f [] = nth j f [])).
Proof.
  intros WX WT WY TT HX HB TP.
  destruct (rows_of X t n X n WX WT WX TT) as (f & f' & Ef & Ef' & Lf & _ & HS); auto.
  { eapply trel_impl; [|apply trel_refl]. intros ? ? ->. reflexivity. }
  rewrite Ef in Ef'. injection Ef' as <-.
  destruct (trel_pair _ Y P TP) as (r & R1 & R2 & Wr). specialize (Wr WY).
  destruct (jzip3 (leaf_op Rminus) (fun q y => fst q = y) (fun q p => snd q = p /\ o_shape (fst q) = [1%nat] /\ o_shape p = [1%nat] /\ batch n (fst q) /\ batch n p)
     (fun q z => leaf_op Rminus (fst q) (snd q) = Ok z /\ exists v, strata_leaf (length (unique_rows rops f)) (map (index_of (unique_rows rops f)) f) z = Ok v /\ stored n f (fst q) (snd q) v) r Wr) with (u := Y) (p := P) as (z & Ez & Tz); auto.
  { intros q y p _ <- (<- & E1 & E2 & B1 & B2). destruct (strata_leaf_ok n f (fst q) (snd q) Lf E1 E2 B1 B2) as (z & v & H1 & H2 & H3). exists z. split; [exact H1|]. split; [exact H1|]. exists v. split; [exact H2|exact H3]. }
  destruct (jm_from _ _ _ Tz (strata_leaf (length (unique_rows rops f)) (map (index_of (unique_rows rops f)) f)) (fun q v => stored n f (fst q) (snd q) v)) as (b & Eb & Tb).
  { intros q z' _ H. destruct H as (_ & v & H1 & H2). exists v. split; [exact H1|exact H2]. }
  exists f, b. split; [exact Ef|]. split; [exact Lf|]. split; [|split; [eapply trel_wf; [exact Tb|exact Wr]|split; [|exact HS]]].
  - unfold fit_bias. rewrite Ef. cbn [rbind]. unfold residuals. rewrite Ez. cbn [rbind]. rewrite Eb. reflexivity.
  - exists r. split; [exact Wr|]. split; [exact R1|]. split; [|exact Tb]. eapply trel_impl; [|exact R2]. cbn. intros ? ? [H _]. exact H.
Qed.
Lemma jzip_from {X Y Q Z} (h : Y -> Q -> result Z) (R : X -> Y -> Prop) (P : X -> Q -> Prop) (S : X -> Z -> Prop) t u p : wf_tree t -> trel R t u -> trel P t p ->
  (forall x y q, has_leaf t x -> R x y -> P x q -> exists z, h y q = Ok z /\ S x z) -> exists v, jzipM h u p = Ok v /\ trel S t v.
Proof. intros W T1 T2 H. exact (jzip3 h R P S t W H u p T1 T2). Qed.
Definition corrected (n n' : nat) (f f' : list (list R)) (q : (bdata * bdata) * bdata) (c : bdata) : Prop :=
  exists v, stored n f (fst (fst q)) (snd (fst q)) v /\ alike (snd q) c /\ batch n' c /\
    forall i, (i < n')%nat -> at_ c i 0 = at_ (snd q) i 0 + nth 0 (nth (index_of (unique_rows rops f) (nth i f' [])) v []) 0.
Lemma stored_one n f y p v r : stored n f y p v -> length (nth (index_of (unique_rows rops f) r) v []) = 1%nat.
Proof.
  intros (_ & H & Z). destruct (in_dec (list_eq_dec Req_EM_T) r f) as [I|I]; [rewrite (H r I); reflexivity|].
  rewrite index_out, Z; [reflexivity|]. rewrite unique_in. exact I.
Qed.
Lemma apply_main t X' P' n' f f' b (r : tree (bdata * bdata)) n : wf_tree r -> strata_features X' t = Ok f' -> length f' = n' ->
  trel (fun q p' => o_shape p' = [1%nat] /\ batch n' p') r P' -> trel (fun q v => stored n f (fst q) (snd q) v) r b ->
  exists C' (q : tree ((bdata * bdata) * bdata)), wf_tree q /\ trel (fun x y => fst x = y) q r /\ trel (fun x y => snd x = y) q P' /\
    apply_bias (MStrata t) (BStrata (unique_rows rops f) b) X' P' = Ok C' /\ trel (corrected n n' f f') q C'.
Proof.
  intros Wr Ef Lf TP Tb. destruct (trel_pair _ r P' TP) as (q & Q1 & Q2 & Wq). specialize (Wq Wr).
  assert (Qb : trel (fun x v => stored n f (fst (fst x)) (snd (fst x)) v) q b). { eapply trel_comp; [|exact Q1|exact Tb]. cbn. intros ? ? ? <-. auto. }
  destruct (jm_from _ _ _ Qb (fun v => Ok (pick (map (index_of (unique_rows rops f)) f') v)) (fun x z => exists v, stored n f (fst (fst x)) (snd (fst x)) v /\ z = pick (map (index_of (unique_rows rops f)) f') v)) as (cc & Ec & Tc).
  { intros x v _ H. eexists. split; [reflexivity|]. exists v. split; [exact H|reflexivity]. }
  destruct (jzip_from (leaf_op Rplus) _ _ (corrected n n' f f') q P' cc Wq Q2 Tc) as (C' & EC & TC).
  { intros x y z _ (<- & E1 & B1) (v & Hv & ->). destruct (corrected_leaf n' f' (unique_rows rops f) (snd x) v Lf E1 B1 (fun r0 => stored_one _ _ _ _ _ r0 Hv)) as (c & H1 & H2 & H3 & H4).
    exists c. split; [exact H1|]. exists v. auto. }
  exists C', q. split; [exact Wq|]. split; [exact Q1|]. split; [eapply trel_impl; [|exact Q2]; cbn; intros ? ? [H _]; exact H|]. split; [|exact TC].
  cbn [apply_bias]. rewrite Ef. cbn [rbind]. rewrite Ec. cbn [rbind]. exact EC.
Qed.

Theorem strata_centred t X Y P n : wf_tree X -> wf_tree t -> wf_tree Y -> wf_tree P -> trel (fun _ _ => True) X t -> (exists x, has_leaf X x) ->
  (forall x, has_leaf X x -> batch n x) -> trel (fun y p => o_shape y = [1%nat] /\ o_shape p = [1%nat] /\ batch n y /\ batch n p) Y P ->
  exists b C, calibrate_bias (MStrata t) X Y P = Ok (b, C) /\ trel alike P C /\
    (forall ks y c, leaf_at Y ks y -> leaf_at C ks c -> forall i I, (i < n)%nat -> stratum t X n i I -> is_median (map (fun j => at_ y j 0 - at_ c j 0) I) 0) /\
    forall X' P' n', wf_tree X' -> wf_tree P' -> trel (fun x x' => o_shape x = o_shape x') X X' -> (forall x, has_leaf X' x -> batch n' x) ->
      trel (fun p p' => o_shape p' = [1%nat] /\ batch n' p') P P' ->
      exists C', apply_bias (MStrata t) b X' P' = Ok C' /\ trel alike P' C' /\
        forall ks p c p' c', leaf_at P ks p -> leaf_at C ks c -> leaf_at P' ks p' -> leaf_at C' ks c' -> forall i, (i < n')%nat ->
          (forall j, (j < n)%nat -> same_stratum t X X' j i -> at_ c' i 0 - at_ p' i 0 = at_ c j 0 - at_ p j 0) /\
          ((forall j, (j < n)%nat -> ~ same_stratum t X X' j i) -> at_ c' i 0 = at_ p' i 0).
Proof.
  intros WX WT WY WP TT HX HB TP.
  destruct (strata_main t X Y P n WX WT WY TT HX HB TP) as (f & b & Ef & Lf & Eb & Wb & (r & Wr & RY & RP & Rb) & HS).
  assert (RP0 : trel (fun q p' => o_shape p' = [1%nat] /\ batch n p') r P).
  { eapply trel_comp; [|exact RY|exact TP]. cbn. intros ? ? ? _ (_ & H1 & _ & H2). auto. }
  destruct (apply_main t X P n f f b r n Wr Ef Lf RP0 Rb) as (C & q & Wq & QR & QP & EC & TC).
  assert (WC : wf_tree C) by (eapply trel_wf; [exact TC|exact Wq]).
  assert (V : forall r0 y p v, stored n f y p v -> In r0 f -> nth 0 (nth (index_of (unique_rows rops f) r0) v []) 0 = bias_of n f y p r0).
  { intros r0 y p v (_ & H & _) I0. rewrite (H _ I0). reflexivity. }
  exists (BStrata (unique_rows rops f) b), C. split; [|split; [|split]].
  - unfold calibrate_bias. rewrite Eb. cbn [rbind]. rewrite EC. reflexivity.
  - eapply trel_comp; [|apply trel_flip; exact QP|exact TC]. cbn. intros p x c <- (v & _ & H & _). exact H.
  - intros ks y c Hy Hc i I Hi HI. 
    destruct (trel_walk _ ks _ _ Wr (trel_flip _ _ _ RY) y Hy) as (yp & Hyp & Ey). destruct (trel_walk _ ks _ _ Wq (trel_flip _ _ _ QR) yp Hyp) as (x & Hx & Ex).
    destruct (trel_walk _ ks _ _ WC TC x Hx) as (c0 & Hc0 & v & Sv & _ & _ & Hv). rewrite <- (leaf_unique _ _ _ _ Hc Hc0) in Hv.
    destruct (trel_walk _ ks _ _ WP QP x Hx) as (p0 & Hp0 & Ep0). destruct (trel_walk _ ks _ _ WP RP yp Hyp) as (p1 & Hp1 & Ep1). pose proof (leaf_unique _ _ _ _ Hp0 Hp1) as Epp.
    destruct x as [[y1 p2] p3]. destruct yp as [y2 p4]. cbn [fst snd] in *. injection Ex as -> ->. subst.
    pose proof (median_shift _ _ (stratum_median _ f y p1 t X i I eq_refl Hi HI HS)) as M. rewrite map_map in M.
    erewrite map_ext_in; [exact M|]. intros j Hj. cbn. apply HI in Hj as [Hj Sj]. rewrite (Hv j Hj). rewrite (V _ _ _ _ Sv) by (apply nth_In; lia).
    apply HS in Sj; [|exact Hi|exact Hj]. rewrite Sj. lra.
  - intros X' P' n' WX' WP' TX' HB' TP'.
    destruct (rows_of X t n X' n' WX WT WX' TT TX' HX HB HB') as (f0 & f' & Ef0 & Ef' & _ & Lf' & HS'). rewrite Ef in Ef0. injection Ef0 as <-.
    assert (RP' : trel (fun q p' => o_shape p' = [1%nat] /\ batch n' p') r P'). { eapply trel_comp; [|exact RP|exact TP']. cbn. auto. }
    destruct (apply_main t X' P' n' f f' b r n Wr Ef' Lf' RP' Rb) as (C' & q' & Wq' & QR' & QP' & EC' & TC').
    assert (WC' : wf_tree C') by (eapply trel_wf; [exact TC'|exact Wq']).
    exists C'. split; [exact EC'|]. split.
    { eapply trel_comp; [|apply trel_flip; exact QP'|exact TC']. cbn. intros p x c <- (v & _ & H & _). exact H. }
    intros ks p c p' c' Hp Hc Hp' Hc' i Hi.
    destruct (trel_walk _ ks _ _ Wr (trel_flip _ _ _ RP) p Hp) as (yp & Hyp & Ey).
    destruct (trel_walk _ ks _ _ Wq (trel_flip _ _ _ QR) yp Hyp) as (x & Hx & Ex). destruct (trel_walk _ ks _ _ Wq' (trel_flip _ _ _ QR') yp Hyp) as (x' & Hx' & Ex').
    destruct (trel_walk _ ks _ _ WC TC x Hx) as (c0 & Hc0 & v & Sv & _ & _ & Hv). rewrite <- (leaf_unique _ _ _ _ Hc Hc0) in Hv.
    destruct (trel_walk _ ks _ _ WC' TC' x' Hx') as (c1 & Hc1 & v' & Sv' & _ & _ & Hv'). rewrite <- (leaf_unique _ _ _ _ Hc' Hc1) in Hv'.
    destruct (trel_walk _ ks _ _ WP QP x Hx) as (p0 & Hp0 & Ep0). pose proof (leaf_unique _ _ _ _ Hp Hp0) as Epp.
    destruct (trel_walk _ ks _ _ WP' QP' x' Hx') as (p1 & Hp1 & Ep1). pose proof (leaf_unique _ _ _ _ Hp' Hp1) as Epp'.
    destruct x as [[y2 p2] p3]. destruct x' as [[y4 p4] p5]. cbn [fst snd] in *. subst yp. injection Ex' as -> ->. subst.
    rewrite (Hv' i Hi). split.
    + intros j Hj Sj. apply HS' in Sj; [|exact Hj|exact Hi]. rewrite (Hv j Hj), <- Sj. assert (Ij : In (nth j f []) f) by (apply nth_In; lia).
      rewrite (V _ _ _ _ Sv Ij), (V _ _ _ _ Sv' Ij). cbn [snd]. lra.
    + intros N. destruct Sv' as (_ & _ & Z). rewrite index_out, Z; [cbn; lra|]. rewrite unique_in. intros I0.
      apply In_nth with (d := []) in I0 as (j & Hj & Ej). apply (N j Hj). apply HS'; [exact Hj|exact Hi|exact Ej].
Qed.

(** One bias for everything. *)
Theorem global_centred X Y P n : wf_tree Y -> wf_tree P ->
  trel (fun y p => o_shape y = o_shape p /\ batch n y /\ batch n p) Y P ->
  exists b C, calibrate_bias MGlobal X Y P = Ok (b, C) /\ trel alike P C /\
    (forall ks y c, leaf_at Y ks y -> leaf_at C ks c -> forall j, (j < features y)%nat -> is_median (map (fun i => at_ y i j - at_ c i j) (seq 0 n)) 0) /\
    forall X' P' n', wf_tree P' -> trel (fun p p' => o_shape p = o_shape p' /\ batch n' p') P P' ->
      exists C', apply_bias MGlobal b X' P' = Ok C' /\ trel alike P' C' /\
        forall ks p c p' c', leaf_at P ks p -> leaf_at C ks c -> leaf_at P' ks p' -> leaf_at C' ks c' -> forall i i' j, (i < n)%nat -> (i' < n')%nat -> (j < features p)%nat ->
          at_ c' i' j - at_ p' i' j = at_ c i j - at_ p i j.
Proof.
  intros WY WP TP. destruct (trel_pair _ Y P TP) as (r & RY & RP0 & Wr). specialize (Wr WY).
  set (bias := fun (q : bdata * bdata) j => median (map (fun i => at_ (fst q) i j - at_ (snd q) i j) (seq 0 n))).
  destruct (jzip3 (leaf_op Rminus) (fun q y => fst q = y) (fun q p => snd q = p /\ o_shape (fst q) = o_shape p /\ batch n (fst q) /\ batch n p)
     (fun q z => col_median (features z) (o_rows z) = map (bias q) (seq 0 (features (snd q)))) r Wr) with (u := Y) (p := P) as (z & Ez & Tz); auto.
  { intros q y p _ <- (<- & E1 & B1 & B2). destruct (leaf_op_ok Rminus (fst q) (snd q) n E1 B1 B2) as (z & H1 & H2 & [L3 H3] & H4). exists z. split; [exact H1|].
    assert (F : features z = features (snd q)) by (unfold features; congruence). unfold col_median. rewrite F. apply map_ext_in. intros j Hj. apply in_seq in Hj. unfold bias. f_equal.
    rewrite (list_as_map [] (o_rows z)), map_map, L3. apply map_ext_in. intros i Hi. apply in_seq in Hi. apply H4; [lia|]. unfold features in *. rewrite E1. lia. }
  destruct (jm_from _ _ _ Tz (fun y : bdata => Ok (col_median (features y) (o_rows y))) (fun q v => v = map (bias q) (seq 0 (features (snd q))))) as (b & Eb & Tb).
  { intros q z' _ H. eexists. split; [reflexivity|exact H]. }
  assert (A : forall P' n', trel (fun q p' => o_shape (snd q) = o_shape p' /\ batch n' p') r P' -> exists C' (q : tree ((bdata * bdata) * bdata)), wf_tree q /\ trel (fun x y => fst x = y) q r /\ trel (fun x y => snd x = y) q P' /\
     (forall X', apply_bias MGlobal (BGlobal b) X' P' = Ok C') /\ trel (fun x c => alike (snd x) c /\ forall i j, (i < n')%nat -> (j < features (snd (fst x)))%nat -> at_ c i j = at_ (snd x) i j + bias (fst x) j) q C').
  { intros P' n' TP'. destruct (trel_pair _ r P' TP') as (q & Q1 & Q2 & Wq). specialize (Wq Wr).
    assert (Qb : trel (fun x v => v = map (bias (fst x)) (seq 0 (features (snd (fst x))))) q b). { eapply trel_comp; [|exact Q1|exact Tb]. cbn. intros ? ? ? <-. auto. }
    destruct (jzip_from (fun (x : bdata) (v : list R) => leaf_op Rplus x (mk_odata (o_shape x) (map (fun _ => v) (o_rows x)))) _ _
       (fun x c => alike (snd x) c /\ forall i j, (i < n')%nat -> (j < features (snd (fst x)))%nat -> at_ c i j = at_ (snd x) i j + bias (fst x) j) q P' b Wq Q2 Qb) as (C' & EC & TC).
    { intros x y v _ (<- & E1 & B1) ->. assert (F : features (snd (fst x)) = features (snd x)) by exact (f_equal (fold_right Nat.mul 1%nat) E1).
      destruct (leaf_op_ok Rplus (snd x) (mk_odata (o_shape (snd x)) (map (fun _ => map (bias (fst x)) (seq 0 (features (snd (fst x))))) (o_rows (snd x)))) n') as (c & H1 & H2 & [L3 H3] & H4).
      - reflexivity.
      - exact B1.
      - split; [cbn; rewrite map_length; apply B1|]. cbn [o_rows]. intros w Hw. apply in_map_iff in Hw as (? & <- & _). rewrite map_length, seq_length. exact F.
      - exists c. split; [exact H1|]. split; [split; [symmetry; exact H2|exact (eq_trans (proj1 B1) (eq_sym L3))]|]. intros i j Hi Hj. rewrite H4 by (auto; lia). f_equal. unfold at_. cbn [o_rows].
        destruct B1 as [L1 _]. rewrite (map_nth_lt _ _ []) by (eapply Nat.lt_le_trans; [exact Hi|]; apply Nat.eq_le_incl; symmetry; exact L1). rewrite map_seq_nth by exact Hj. reflexivity. }
    exists C', q. split; [exact Wq|]. split; [exact Q1|]. split; [eapply trel_impl; [|exact Q2]; cbn; intros ? ? [H _]; exact H|]. split; [|exact TC]. intros X'. exact EC. }
  assert (RP : trel (fun q p => snd q = p) r P). { eapply trel_impl; [|exact RP0]. cbn. intros ? ? [H _]. exact H. }
  assert (RP1 : trel (fun q p' => o_shape (snd q) = o_shape p' /\ batch n p') r P). { eapply trel_impl; [|exact RP0]. cbn. intros q p' (<- & _ & _ & H). auto. }
  destruct (A P n RP1) as (C & q & Wq & QR & QP & EC & TC). assert (WC : wf_tree C) by (eapply trel_wf; [exact TC|exact Wq]).
  exists (BGlobal b), C. split; [|split; [|split]].
  - unfold calibrate_bias, fit_bias, residuals. rewrite Ez. cbn [rbind]. unfold bdata in *; rewrite Eb. cbn [rbind]. rewrite EC. reflexivity.
  - eapply trel_comp; [|apply trel_flip; exact QP|exact TC]. cbn. intros p x c <- [H _]. exact H.
  - intros ks y c Hy Hc j Hj.
    destruct (trel_walk _ ks _ _ Wr (trel_flip _ _ _ RY) y Hy) as (yp & Hyp & Ey). destruct (trel_walk _ ks _ _ Wq (trel_flip _ _ _ QR) yp Hyp) as (x & Hx & Ex).
    destruct (trel_walk _ ks _ _ WC TC x Hx) as (c0 & Hc0 & _ & Hv). rewrite <- (leaf_unique _ _ _ _ Hc Hc0) in Hv.
    destruct (trel_walk _ ks _ _ WP QP x Hx) as (p0 & Hp0 & Ep0). destruct (trel_walk _ ks _ _ WP RP0 yp Hyp) as (p1 & Hp1 & Ep1 & Es & _). pose proof (leaf_unique _ _ _ _ Hp0 Hp1) as Epp.
    destruct x as [[y1 p2] p3]. destruct yp as [y2 p4]. cbn [fst snd] in *. injection Ex as -> ->. subst.
    pose proof (median_shift _ _ (median_is (map (fun i => at_ y i j - at_ p1 i j) (seq 0 n)))) as M. rewrite map_map in M.
    erewrite map_ext_in; [exact M|]. intros i Hi. apply in_seq in Hi. cbn. rewrite Hv by (try lia; unfold features in *; rewrite <- Es; lia). unfold bias. cbn. lra.
  - intros X' P' n' WP' TP'.
    assert (RP' : trel (fun q p' => o_shape (snd q) = o_shape p' /\ batch n' p') r P'). { eapply trel_comp; [|exact RP|exact TP']. cbn. intros ? ? ? <-. auto. }
    destruct (A P' n' RP') as (C' & q' & Wq' & QR' & QP' & EC' & TC'). assert (WC' : wf_tree C') by (eapply trel_wf; [exact TC'|exact Wq']).
    exists C'. split; [apply EC'|]. split.
    { eapply trel_comp; [|apply trel_flip; exact QP'|exact TC']. cbn. intros p x c <- [H _]. exact H. }
    intros ks p c p' c' Hp Hc Hp' Hc' i i' j Hi Hi' Hj.
    destruct (trel_walk _ ks _ _ Wr (trel_flip _ _ _ RP) p Hp) as (yp & Hyp & Ey).
    destruct (trel_walk _ ks _ _ Wq (trel_flip _ _ _ QR) yp Hyp) as (x & Hx & Ex). destruct (trel_walk _ ks _ _ Wq' (trel_flip _ _ _ QR') yp Hyp) as (x' & Hx' & Ex').
    destruct (trel_walk _ ks _ _ WC TC x Hx) as (c0 & Hc0 & _ & Hv). rewrite <- (leaf_unique _ _ _ _ Hc Hc0) in Hv.
    destruct (trel_walk _ ks _ _ WC' TC' x' Hx') as (c1 & Hc1 & _ & Hv'). rewrite <- (leaf_unique _ _ _ _ Hc' Hc1) in Hv'.
    destruct (trel_walk _ ks _ _ WP QP x Hx) as (p0 & Hp0 & Ep0). pose proof (leaf_unique _ _ _ _ Hp Hp0) as Epp.
    destruct (trel_walk _ ks _ _ WP' QP' x' Hx') as (p1 & Hp1 & Ep1). pose proof (leaf_unique _ _ _ _ Hp' Hp1) as Epp'.
    destruct x as [[y2 p2] p3]. destruct x' as [[y4 p4] p5]. cbn [fst snd] in *. subst yp. injection Ex' as -> ->. subst.
    rewrite (Hv' i' j Hi'), (Hv i j Hi) by (cbn [snd]; exact Hj). cbn [snd]. lra.
Qed.

(** A tree of flags selecting a continuous feature is refused. *)
Theorem continuous_refused t cont c : wf_tree t -> wf_tree cont -> check_corrections (Some (CTree t)) true cont = Ok c -> forall ks, leaf_at t ks true -> ~ leaf_at cont ks true.
Proof.
  intros W W' E ks H1 H2. cbn [check_corrections negb] in E. destruct (jzipM _ t cont) as [z|] eqn:J; [|discriminate]. clear E.
  destruct (trel_walk _ ks _ _ W' (jzip_inv _ _ _ _ W W' J) true H1) as (y & Hy & z' & Ez). rewrite <- (leaf_unique _ _ _ _ H2 Hy) in Ez. discriminate.
Qed.
