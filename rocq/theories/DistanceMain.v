(** Distances to the training data: whole trees, neighbours, cutoffs. *)
From Coq Require Import Reals ZArith Lra Lia Permutation Sorted Bool.
From Verif Require Import Base BaseLemmas TreeUtil TreeSpec NonSeqSpec NonSeqProofs TrainArgsProofs Serial SerialSpec SerialProofs Scaler ScalerProofs OneHot OneHotSpec OneHotProofs
  Conformal ConformalProofs ReshapeProofs ReshapeMain BatchProofs LayersSpec LayersProofs Strata StrataSpec StrataProofs StrataMain Distance DistanceSpec DistanceProofs.
Local Open Scope R_scope.
Local Open Scope list_scope.

Definition flat (g : feature -> bdata) (L : list feature) (i : nat) : list R := concat (map (fun f => piece f (g f) i) L).
Lemma prepare_ok n m k (g : feature -> bdata) (r : tree feature) X enc rg dist : wf_tree r -> (exists f, has_leaf r f) ->
  (forall f, has_leaf r f -> usable n m f /\ batch k (g f) /\ o_shape (f_train f) = o_shape (g f)) -> trel (fun f x => g f = x) r X ->
  trel (fun f e => e = encoder_leaf (f_train f) (f_cont f) (f_sel f)) r enc -> trel (fun f p => p = (o_shape (f_train f), range_leaf (f_train f) (f_cont f))) r rg ->
  trel (fun f d => f_sel f = d) r dist ->
  prepare enc rg dist X = Ok (map (fun i => map Some (flat g (leaves r) i)) (seq 0 k)).
Proof.
  intros W [f0 H0] U TX TE TR TD. unfold prepare.
  assert (LK : forall f, has_leaf r f -> exists s, leaf_rows f (g f) = Ok s /\ (if f_sel f then s else map (fun _ => []) s) = map (fun i => map Some (piece f (g f) i)) (seq 0 k)).
  { intros f Hf. destruct (U f Hf) as (U1 & U2 & U3). destruct (leaf_ok n m f (g f) U1 (ex_intro _ k U2) U3) as (s & E1 & E2). exists s. split; [exact E1|]. rewrite E2, (proj1 U2). reflexivity. }
  destruct (jzip_from encode_leaf _ _ (fun f y => encode_leaf (encoder_leaf (f_train f) (f_cont f) (f_sel f)) (g f) = Ok y) r enc X W TE TX) as (e & -> & T1).
  { intros f y x Hf -> <-. destruct (LK f Hf) as (s & E & _). unfold leaf_rows in E. destruct (encode_leaf _ _) as [z|] eqn:Ez; [|discriminate]. exists z. auto. }
  cbn [rbind]. destruct (jzip_from scale_leaf _ _ (fun f s => leaf_rows f (g f) = Ok s) r e rg W T1 TR) as (s & -> & T2).
  { intros f y p Hf Ey ->. destruct (LK f Hf) as (s & E & _). exists s. split; [|exact E]. unfold leaf_rows in E. rewrite Ey in E. exact E. }
  cbn [rbind]. destruct (jzip_from (fun (rows : list (list (option R))) (d : bool) => Ok (if d then rows else map (fun _ => []) rows)) _ _
    (fun f z => z = map (fun i => map Some (piece f (g f) i)) (seq 0 k)) r s dist W T2 TD) as (z & -> & T3).
  { intros f y d Hf Ey <-. eexists. split; [reflexivity|]. destruct (LK f Hf) as (s' & E & E2). rewrite Ey in E. injection E as ->. exact E2. }
  cbn [rbind]. pose proof (leaves_trel _ _ W _ T3) as F. apply F2_map_eq in F. rewrite F. apply leaves_has_leaf in H0. destruct (leaves r) as [|q L]; [destruct H0|].
  unfold side_by_side. cbn [map]. match goal with |- (if forallb ?p ?l then _ else _) = _ => assert (FB : forallb p l = true) end.
  { apply forallb_forall. intros x Hx. rewrite map_length, seq_length. apply Nat.eqb_eq. destruct Hx as [ <- |Hx]; [|apply in_map_iff in Hx as (? & <- & _)]; rewrite map_length, seq_length; reflexivity. }
  rewrite FB, map_length, seq_length. f_equal. apply map_ext_in. intros i Hi. apply in_seq in Hi. unfold flat.
  rewrite concat_map, map_map. f_equal. cbn [map]. rewrite map_map, map_seq_nth by lia. f_equal. apply map_ext. intros f. rewrite map_seq_nth by lia. reflexivity.
Qed.
Lemma flat_length g h L i j : length (flat g L i) = length (flat h L j).
Proof. unfold flat. induction L as [|f L IH]; [reflexivity|]. cbn [map concat]. rewrite !app_length, IH, (piece_length f (g f) (h f) i j). reflexivity. Qed.
Lemma flat_apart n m L i j : (forall f, In f L -> usable n m f) -> (i < m)%nat -> (j < n)%nat -> l1 (flat f_data L i) (flat f_train L j) = sum_of (fun f => apart (1 / 2) f i j) L.
Proof.
  intros U Hi Hj. unfold flat. rewrite l1_concat by (intros f _; apply piece_length). apply sum_ext. intros f Hf. eapply piece_apart; eauto.
Qed.
Lemma flat_among n m L i j : (forall f, In f L -> usable n m f) -> (i < n)%nat -> (j < n)%nat -> l1 (flat f_train L i) (flat f_train L j) = sum_of (fun f => apart 1 f i j) (map among L).
Proof.
  intros U Hi Hj. rewrite (sum_ext _ (fun f => apart (1 / 2) f i j)).
  2:{ intros f Hf. apply in_map_iff in Hf as (f' & <- & Hf). apply apart_seen. intros _ _. destruct (U f' Hf) as (B & _). eapply sample_in; eauto. }
  rewrite <- (flat_apart n n (map among L) i j); auto.
  - unfold flat. rewrite !map_map. reflexivity.
  - intros f Hf. apply in_map_iff in Hf as (f' & <- & Hf). apply (among_usable n m). auto.
Qed.

(** * Scaling *)
Lemma insert_scale k x l : 0 < k -> insert rle (k * x) (map (Rmult k) l) = map (Rmult k) (insert rle x l).
Proof.
  intros K. induction l as [|y l IH]; [reflexivity|]. cbn [map insert]. assert (E : rle (k * x) (k * y) = rle x y).
  { destruct (rle x y) eqn:E; [apply rle_spec in E; apply rle_spec, Rmult_le_compat_l; lra|]. destruct (rle (k * x) (k * y)) eqn:E2; [|reflexivity]. apply rle_spec in E2. apply Rmult_le_reg_l in E2; [|exact K]. apply rle_spec in E2. congruence. }
  rewrite E. destruct (rle x y); [reflexivity|]. rewrite IH. reflexivity.
Qed.
Lemma isort_scale k l : 0 < k -> isort rle (map (Rmult k) l) = map (Rmult k) (isort rle l).
Proof. intros K. unfold isort. induction l as [|x l IH]; [reflexivity|]. cbn [map fold_right]. rewrite IH. apply insert_scale. exact K. Qed.
Lemma quantile_scale k l q : 0 < k -> quantile (map (Rmult k) l) q = k * quantile l q.
Proof.
  intros K. unfold quantile. rewrite map_length, isort_scale by exact K. unfold at_position, at_clamped. rewrite map_length.
  assert (Z : forall i, nth i (map (Rmult k) (isort rle l)) 0 = k * nth i (isort rle l) 0).
  { intros i. rewrite <- (map_nth (Rmult k)). f_equal. ring. }
  rewrite !Z. ring.
Qed.
Lemma least_scale k v l : 0 < k -> least v l -> least (k * v) (map (Rmult k) l).
Proof. intros K [I H]. split; [apply in_map; exact I|]. intros w Hw. apply in_map_iff in Hw as (x & <- & Hx). apply Rmult_le_compat_l; [lra|]. auto. Qed.
Lemma least_lmin v l : least v l -> lmin l = v.
Proof. intros [I H]. assert (N : l <> []) by (intros ->; destruct I). destruct (lmin_spec2 l N) as [A B]. specialize (A v I). specialize (H _ B). lra. Qed.
Lemma lmin_least l : l <> [] -> least (lmin l) l.
Proof. intros N. destruct (lmin_spec2 l N) as [A B]. split; auto. Qed.

(** * Neighbours *)
Lemma remove_perm j J : NoDup J -> In j J -> Permutation J (j :: remove Nat.eq_dec j J).
Proof.
  induction 1 as [|x J N ND IH]; [intros []|]. intros [ -> |H]; cbn [remove].
  - destruct (Nat.eq_dec j j) as [_|C]; [|congruence]. rewrite notin_remove by exact N. reflexivity.
  - destruct (Nat.eq_dec j x) as [ -> |Ne]; [contradiction|]. rewrite (IH H) at 1. apply perm_swap.
Qed.
Lemma sorted_first l : l <> [] -> exists d s, isort rle l = d :: s /\ least d l.
Proof.
  intros N. pose proof (sorted_isort l) as S. pose proof (isort_perm rle l) as P. destruct (isort rle l) as [|d s].
  - apply Permutation_sym, Permutation_nil in P. contradiction.
  - exists d, s. split; [reflexivity|]. inversion S as [|? ? _ F]; subst. split; [eapply Permutation_in; [symmetry; exact P|left; reflexivity]|].
    intros w Hw. apply (Permutation_in _ P) in Hw as [ -> |Hw]; [lra|]. rewrite Forall_forall in F. apply rle_spec, F. exact Hw.
Qed.
Lemma zero_first O : (forall w, In w O -> 0 < w) -> isort rle (0 :: O) = 0 :: isort rle O.
Proof.
  intros H. change (isort rle (0 :: O)) with (insert rle 0 (isort rle O)). destruct (isort rle O) as [|d s] eqn:E; [reflexivity|]. cbn [insert].
  assert (0 < d). { apply H. eapply Permutation_in; [symmetry; apply (isort_perm rle)|]. rewrite E. left. reflexivity. }
  rewrite (proj2 (rle_spec 0 d)) by lra. reflexivity.
Qed.

Section Points.
Context (F : nat -> list R) (n : nat).
Hypothesis W : forall i j, length (F i) = length (F j).
Definition pts := unique_rows rops (map F (seq 0 n)).
Lemma indices l : (forall p, In p l -> In p (map F (seq 0 n))) -> exists J, map F J = l /\ forall j, In j J -> (j < n)%nat.
Proof.
  induction l as [|p l IH]; intros H; [exists []; split; [reflexivity|intros ? []]|]. destruct IH as (J & E & B); [intros; apply H; right; assumption|].
  destruct (proj1 (in_map_iff _ _ _) (H p (or_introl eq_refl))) as (j & Ej & Hj). apply in_seq in Hj. exists (j :: J). cbn. rewrite Ej, E. split; [reflexivity|]. intros k [ <- |Hk]; [lia|auto].
Qed.
Lemma points_repr : exists J, map F J = pts /\ representatives (fun i j => l1 (F i) (F j)) n J.
Proof.
  destruct (indices pts) as (J & E & B); [intros p Hp; apply unique_in; exact Hp|]. exists J. split; [exact E|].
  assert (ND : NoDup (map F J)) by (rewrite E; apply unique_nodup).
  split; [exact (NoDup_map_inv _ _ ND)|]. split; [exact B|]. split.
  - intros i Hi. assert (I : In (F i) (map F J)). { rewrite E. apply unique_in, in_map, in_seq. lia. } apply in_map_iff in I as (j & Ej & Hj). exists j. split; [exact Hj|]. rewrite Ej. apply l1_refl.
  - intros j k Hj Hk Ne. destruct (Rle_lt_or_eq_dec _ _ (l1_nonneg (F j) (F k))) as [L|Z]; [exact L|]. symmetry in Z. apply l1_zero in Z; [|apply W]. exfalso. apply Ne.
    clear - ND Hj Hk Z. induction J as [|x J IH]; [destruct Hj|]. cbn in ND. inversion ND as [|? ? N1 N2]; subst. destruct Hj as [ -> |Hj]; destruct Hk as [ -> |Hk]; auto.
    + exfalso. apply N1. rewrite Z. apply in_map. exact Hk.
    + exfalso. apply N1. rewrite <- Z. apply in_map. exact Hj.
Qed.
Lemma neighbour_ok J j : map F J = pts -> representatives (fun i j => l1 (F i) (F j)) n J -> In j J ->
  (length J = 1%nat -> neighbour pts (F j) = None) /\
  (length J <> 1%nat -> exists d, neighbour pts (F j) = Some d /\ least d (map (fun k => l1 (F j) (F k)) (remove Nat.eq_dec j J))).
Proof.
  intros E (ND & B & _ & P) Hj. unfold neighbour. rewrite <- E, map_map. pose proof (remove_perm j J ND Hj) as PM.
  rewrite (ConformalProofs.sort_perm_eq _ _ (Permutation_map (fun x => l1 (F j) (F x)) PM)). cbn [map]. rewrite l1_refl, zero_first.
  - apply Permutation_length in PM. cbn in PM. set (O := map _ (remove Nat.eq_dec j J)). assert (LO : length O = length (remove Nat.eq_dec j J)) by apply map_length. split; intros LJ.
    + assert (O = []) as -> by (apply length_zero_iff_nil; lia). cbn. destruct (Req_EM_T 0 0); congruence.
    + destruct (sorted_first O) as (d & s & -> & L); [intros C; rewrite C in LO; cbn in LO; lia|]. exists d. destruct (Req_EM_T 0 0); [|congruence]. auto.
  - intros w Hw. apply in_map_iff in Hw as (k & <- & Hk). apply in_remove in Hk as [Hk Ne]. apply P; auto.
Qed.
Lemma finite_some {X} (f : X -> option R) (Q : X -> R -> Prop) l : (forall x, In x l -> exists d, f x = Some d /\ Q x d) -> exists v, all_finite (map f l) = Some v /\ Forall2 Q l v.
Proof.
  induction l as [|x l IH]; intros H; [exists []; split; [reflexivity|constructor]|]. destruct IH as (v & E & FA); [intros; apply H; right; assumption|].
  destruct (H x (or_introl eq_refl)) as (d & Ed & Hd). exists (d :: v). cbn. rewrite Ed, E. auto.
Qed.
Lemma cutoff_ok q J : map F J = pts -> representatives (fun i j => l1 (F i) (F j)) n J -> (0 < n)%nat -> is_cutoff (fun i j => l1 (F i) (F j)) q J (cutoff_of q pts).
Proof.
  intros E RJ N. pose proof RJ as (_ & _ & C & _). destruct (C 0%nat N) as (j0 & Hj0 & _). unfold cutoff_of.
  replace (map (neighbour pts) pts) with (map (fun j => neighbour pts (F j)) J) by (rewrite <- (map_map F (neighbour pts)), E; reflexivity).
  destruct (Nat.eq_dec (length J) 1) as [L|L].
  - destruct J as [|j [|]]; try discriminate. cbn [map all_finite]. rewrite (proj1 (neighbour_ok [j] j E RJ (or_introl eq_refl)) L). cbn. reflexivity.
  - destruct (finite_some (fun j => neighbour pts (F j)) (fun j d => least d (map (fun k => l1 (F j) (F k)) (remove Nat.eq_dec j J))) J) as (v & -> & FA).
    + intros j Hj. exact (proj2 (neighbour_ok J j E RJ Hj) L).
    + exists v. auto.
Qed.
End Points.

(** * In units of Gower's distance *)
Lemma cutoff_units D D' N q J c : 0 < N -> (forall j k, In j J -> In k J -> D j k = N * D' j k) -> is_cutoff D q J c -> exists c', is_cutoff D' q J c' /\ c = match c' with Some x => Some (N * x) | None => None end.
Proof.
  intros P H C. destruct c as [c|]; [|exists None; auto]. destruct C as (v & FA & ->).
  assert (G : forall K, Forall2 (fun j d => least d (map (D j) (remove Nat.eq_dec j J))) K v -> (forall j, In j K -> In j J) -> Forall2 (fun j d => least d (map (D' j) (remove Nat.eq_dec j J))) K (map (Rmult (/ N)) v)).
  { clear FA. intros K FA. induction FA as [|j d K v Hd _ IH]; intros I; cbn; constructor.
    - assert (Hj : In j J) by (apply I; left; reflexivity). apply (least_scale (/ N)) in Hd; [|apply Rinv_0_lt_compat; exact P]. rewrite map_map in Hd.
      rewrite (map_ext_in (D' j) (fun x => / N * D j x)); [exact Hd|]. intros k Hk. apply in_remove in Hk as [Hk _]. rewrite H by assumption. field. lra.
    - apply IH. intros k Hk. apply I. right. exact Hk. }
  exists (Some (quantile (map (Rmult (/ N)) v) q)). split; [exists (map (Rmult (/ N)) v); auto|]. f_equal. rewrite quantile_scale by (apply Rinv_0_lt_compat; exact P). field. lra.
Qed.
Lemma filter_scale N c l : 0 < N -> filter (within (match c with Some x => Some (N * x) | None => None end)) (map (Rmult N) l) = map (Rmult N) (filter (near c) l).
Proof.
  intros P. induction l as [|x l IH]; [reflexivity|]. cbn [map filter]. rewrite IH. assert (E : within (match c with Some x => Some (N * x) | None => None end) (N * x) = near c x).
  { destruct c as [c|]; [|reflexivity]. cbn. destruct (Rle_dec x c) as [L|L]; [apply rle_spec, Rmult_le_compat_l; lra|]. destruct (rle (N * x) (N * c)) eqn:E; [|reflexivity]. apply rle_spec in E. apply Rmult_le_reg_l in E; [contradiction|exact P]. }
  rewrite E. destruct (near c x); reflexivity.
Qed.
Lemma mean_scale N l : mean_of (map (Rmult N) l) = N * match l with [] => 0 | _ => sum_of (fun x => x) l / INR (length l) end.
Proof.
  destruct l as [|x l]; [cbn; ring|]. unfold mean_of. cbn [map]. change (N * x :: map (Rmult N) l) with (map (Rmult N) (x :: l)). rewrite map_length.
  assert (E : forall l, fold_right Rplus 0 (map (Rmult N) l) = N * sum_of (fun x => x) l). { clear. intros l. induction l as [|x l IH]; cbn; [ring|]. rewrite IH. unfold sum_of. ring. }
  rewrite E. unfold Rdiv. ring.
Qed.
Lemma sensitivity_units N c l v : 0 < N -> l <> [] ->
  v = Rmax (mean_of (filter (within (match c with Some x => Some (N * x) | None => None end)) (map (Rmult N) l))) (lmin (map (Rmult N) l)) / N -> is_distance c l v.
Proof.
  intros P NE ->. exists (lmin l). split; [apply lmin_least; exact NE|]. rewrite filter_scale, mean_scale by exact P.
  rewrite (least_lmin (N * lmin l)) by (apply least_scale, lmin_least; assumption). rewrite RmaxRmult by lra. field. lra.
Qed.

(** * The distance *)
Theorem distance_ok q (r : tree feature) T X cont dist n m : wf_tree r -> trel (fun f x => f_train f = x) r T -> trel (fun f x => f_data f = x) r X ->
  trel (fun f c => f_cont f = c) r cont -> trel (fun f d => f_sel f = d) r dist -> (forall f, has_leaf r f -> usable n m f) -> (0 < n)%nat -> 0 < sum_of size (leaves r) ->
  exists st ds, fit_distance q T cont dist = Ok st /\ distance st X = Ok ds /\ length ds = m /\
    exists J c, representatives (gower_train (leaves r)) n J /\ is_cutoff (gower_train (leaves r)) q J c /\
      forall i, (i < m)%nat -> is_distance c (map (gower (1 / 2) (leaves r) i) J) (nth i ds 0).
Proof.
  intros W TT TX TC TD U N SZ.
  assert (NE : exists f, has_leaf r f). { destruct (leaves r) as [|f L] eqn:E; [cbn in SZ; lra|]. exists f. apply leaves_has_leaf. rewrite E. left. reflexivity. }
  assert (UL : forall f, In f (leaves r) -> usable n m f) by (intros f Hf; apply U, leaves_has_leaf; exact Hf).
  unfold fit_distance.
  destruct (jzip_from (fun c d => Ok (c, d)) _ _ (fun f p => p = (f_cont f, f_sel f)) r cont dist W TC TD) as (cd & -> & T1); [intros f c d _ <- <-; eexists; split; reflexivity|]. cbn [rbind].
  destruct (jzip_from (fun x (p : bool * bool) => Ok (number_leaf x (fst p) (snd p))) _ _ (fun f k => k = number_leaf (f_train f) (f_cont f) (f_sel f)) r T cd W TT T1) as (num & -> & T2); [intros f x p _ <- ->; eexists; split; reflexivity|]. cbn [rbind].
  destruct (jzip_from (fun x c => Ok (o_shape x, range_leaf x c)) _ _ (fun f p => p = (o_shape (f_train f), range_leaf (f_train f) (f_cont f))) r T cont W TT TC) as (rg & -> & T3); [intros f x p _ <- <-; eexists; split; reflexivity|]. cbn [rbind].
  destruct (jzip_from (fun x (p : bool * bool) => Ok (encoder_leaf x (fst p) (snd p))) _ _ (fun f e => e = encoder_leaf (f_train f) (f_cont f) (f_sel f)) r T cd W TT T1) as (enc & -> & T4); [intros f x p _ <- ->; eexists; split; reflexivity|]. cbn [rbind].
  rewrite (prepare_ok n m n f_train r T enc rg dist W NE (fun f Hf => conj (U f Hf) (conj (proj1 (U f Hf)) eq_refl)) TT T4 T3 TD).
  cbn [rbind]. rewrite finite_rows_some. cbn [rbind].
  set (L := leaves r) in *. set (F := flat f_train L). assert (WF : forall i j, length (F i) = length (F j)) by (intros; apply flat_length).
  destruct (points_repr F n WF) as (J & EJ & RJ). unfold pts in EJ.
  assert (NUM : INR (fold_right Nat.add 0%nat (leaves num)) = sum_of size L).
  { pose proof (leaves_trel _ _ W _ T2) as FF. apply F2_map_eq in FF. rewrite FF. fold L. clear. induction L as [|f L IH]; [reflexivity|]. cbn [map fold_right]. rewrite plus_INR, IH, sum_cons. f_equal.
    unfold number_leaf, size. destruct (f_cont f), (f_sel f); reflexivity. }
  set (Sz := sum_of size L) in *.
  pose proof (cutoff_ok F n WF q J EJ RJ N) as CJ. unfold pts in CJ.
  assert (HD : forall j k, In j J -> In k J -> l1 (F j) (F k) = Sz * gower_train L j k).
  { intros j k Hj Hk. destruct RJ as (_ & B & _). unfold F. rewrite (flat_among n m) by auto. unfold gower_train, gower. fold Sz.
    replace (sum_of size (map among L)) with Sz; [field; lra|]. unfold Sz. rewrite sum_map. reflexivity. }
  assert (HD2 : forall i j, (i < n)%nat -> (j < n)%nat -> l1 (F i) (F j) = Sz * gower_train L i j).
  { intros j k Hj Hk. unfold F. rewrite (flat_among n m) by auto. unfold gower_train, gower. replace (sum_of size (map among L)) with Sz; [field; lra|]. unfold Sz. rewrite sum_map. reflexivity. }
  destruct (cutoff_units _ (gower_train L) Sz q J _ SZ HD CJ) as (c & Cc & Ec).
  eexists. eexists. split; [reflexivity|]. unfold distance. cbn [d_enc d_range d_dist].
  rewrite (prepare_ok n m m f_data r X enc rg dist W NE (fun f Hf => conj (U f Hf) (conj (proj1 (proj2 (U f Hf))) (proj1 (proj2 (proj2 (U f Hf)))))) TX T4 T3 TD).
  cbn [rbind]. rewrite finite_rows_some. cbn [rbind]. split; [reflexivity|]. split; [rewrite !map_length, seq_length; reflexivity|].
  exists J, c. split.
  { destruct RJ as (R1 & R2 & R3 & R4). split; [exact R1|]. split; [exact R2|]. split.
    - intros i Hi. destruct (R3 i Hi) as (j & Hj & Z). exists j. split; [exact Hj|]. rewrite HD2 in Z by auto. apply Rmult_integral in Z as [Z|Z]; [lra|exact Z].
    - intros j k Hj Hk Ne. specialize (R4 j k Hj Hk Ne). cbn beta in R4. rewrite HD in R4 by assumption. apply (Rmult_lt_reg_l Sz); lra. }
  split; [exact Cc|]. intros i Hi. rewrite map_map, map_seq_nth by exact Hi. apply (sensitivity_units Sz).
  - exact SZ.
  - destruct RJ as (_ & _ & R3 & _). destruct (R3 0%nat N) as (j & Hj & _). destruct J; [destruct Hj|discriminate].
  - unfold sensitivity. cbn [d_points d_cutoff d_num]. rewrite NUM, Ec, <- EJ.
    assert (EM : map (l1 (flat f_data L i)) (map F J) = map (Rmult Sz) (map (gower (1 / 2) L i) J)).
    { rewrite !map_map. apply map_ext_in. intros j Hj. destruct RJ as (_ & B & _). unfold F. rewrite (flat_apart n m) by auto. unfold gower. fold Sz. field. lra. }
    fold L. rewrite EM. reflexivity.
Qed.
