(** C75-C77: the uncertainty heuristic of conformal models. *)
From Coq Require Import Reals Lra Lia.
From Verif Require Import Base TreeUtil TreeSpec NdArray Serial SerialSpec Scaler ReshapeSpec LayersSpec Conformal ConformalProofs NonSeqSpec ScalerProofs ReshapeProofs ReshapeMain LayersProofs StrataMain
  Uncertainty UncertaintySpec UncertaintyProofs UncertaintyMain UncertaintyTotal BaseLemmas.
Local Open Scope R_scope.
Local Open Scope list_scope.

(** The uncertainty of every output number is the mean squared first-order
    change under the selected parameters, over its normalisation, plus the same
    for the selected continuous inputs and their interquartile ranges, plus the
    distance of the sample; none of the three is negative.  Partial: the leaves
    of the output have one shape, the output has rank 1 if distances are used,
    and no uncertainties of the inputs are given (C76). *)
Theorem C75_formula_partial : forall n o0 shapes s, wf_tree shapes -> (0 < n)%nat -> (forall o, has_leaf shapes o -> o = o0) ->
  wf_sources s -> par_ok n shapes s -> inp_ok n shapes s -> dist_ok n o0 s ->
  exists u, heuristic n shapes s = Ok u /\ trel (fun o a => shp a = n :: o) shapes u /\
    forall ks o a, leaf_at shapes ks o -> leaf_at u ks a -> forall i oi, (i < n)%nat -> valid o oi ->
      exists x y, param_part s ks i oi x /\ input_part s ks i oi y /\ 0 <= x /\ 0 <= y /\ 0 <= dist_part s i /\
        ReshapeSpec.entry 0 a (i :: oi) = x + y + dist_part s i.
Proof. exact heuristic_formula. Qed.
Print Assumptions C75_formula_partial.

(** The normalisations that calibration computes are of the kind the formula
    needs: the shape of one sample, positive or infinite. *)
Theorem C75_normalisations : forall eps (a : rarr) n o, 0 < eps -> (0 < n)%nat -> shp a = n :: o -> length (dat a) = (n * prod o)%nat ->
  shp (norm_of eps a) = o /\ positive (norm_of eps a).
Proof.
  intros eps a n o He Hn Sa La. unfold norm_of. rewrite Sa. cbn [shp tl]. split; [reflexivity|]. intros idx w H. unfold ReshapeSpec.entry in H. cbn [dat shp] in H.
  assert (N : rrows (rows_of a) <> []). { unfold rows_of. rewrite Sa. cbn [rrows hd]. destruct n; [lia|]. discriminate. }
  destruct (robust_normalization eps (rows_of a)) as [l|k] eqn:E.
  - pose proof (robust_usable eps (rows_of a) l N E) as U.
    destruct (nth_in_or_default (ravel o idx) (map Some l) (@None R)) as [HI|HI]; [|rewrite H in HI; discriminate].
    rewrite H in HI. apply in_map_iff in HI as (x & Ex & Hx). injection Ex as <-. apply In_nth with (d := 0) in Hx as (j & Hj & <-).
    destruct U as [U1 U2]. rewrite U1 in Hj. specialize (U2 j Hj). lra.
  - destruct (nth_in_or_default (ravel o idx) (repeat None k) (@None R)) as [HI|HI]; [|congruence].
    rewrite H in HI. apply repeat_spec in HI. discriminate.
Qed.

(** *** examples *)
Lemma positive_dat : forall m, (forall w, In (Some w) (dat m) -> 0 < w) -> positive m.
Proof. intros m H idx w E. unfold ReshapeSpec.entry in E. apply H. rewrite <- E. destruct (nth_in_or_default (ravel (shp m) idx) (dat m) None) as [HI|HI]; [exact HI|congruence]. Qed.
Definition ex_par (shapes : tree (list nat)) (g : oarr) : param_term * tree oarr :=
  (mk_param (Leaf (Leaf g)) (Leaf (mk_arr [1%nat] [Some 3])) (Leaf true), Leaf (mk_arr [1%nat] [Some 2])).
Definition ex_s : sources :=
  mk_sources (Some (ex_par (Leaf [1%nat]) (mk_arr [2; 1; 1]%nat [Some 1; None]))) 
    (Some (mk_input (Leaf (Leaf (mk_arr [2; 1; 1]%nat [Some 1; Some 4]))) (Leaf (mk_arr [2; 1]%nat [0; 1])) (Leaf true) (Leaf true) None, Leaf (mk_arr [1%nat] [None])))
    (Some [0; 7]).
Example C75_example_hypotheses : wf_sources ex_s /\ par_ok 2 (Leaf [1%nat]) ex_s /\ inp_ok 2 (Leaf [1%nat]) ex_s /\ dist_ok 2 [1%nat] ex_s.
Proof.
  split; [split; intros p N E; injection E as <- <-; constructor|]. split; [|split].
  - cbn. repeat (first [split|constructor]); try (cbn; reflexivity). 
    + apply positive_dat. cbn. intros w [E|[]]. injection E as <-. lra.
    + exists [], (mk_arr [1%nat] [Some 3]). repeat (first [split|constructor]). cbn. lia.
  - cbn. repeat (first [split|constructor]); try (cbn; reflexivity).
    + apply positive_dat. cbn. intros w [E|[]]. discriminate.
    + exists [], (mk_arr [2; 1]%nat [0; 1]). repeat (first [split|constructor]). cbn. lia.
  - cbn. split; [reflexivity|]. split; [|reflexivity]. intros x [<-|[<-|[]]]; lra.
Qed.
(** gradients 1 and infinity, parameter 3, normalisation 2, distances 0 and 7 *)
Definition ex_s' : sources := mk_sources (s_par ex_s) None (Some [0; 7]).
Example C75_example : exists x y, heuristic 2 (Leaf [1%nat]) ex_s' = Ok (Leaf (mk_arr [2; 1]%nat [x; y])) /\ x = 9 / 2 /\ y = 7.
Proof. do 2 eexists. split; [cbv -[Rplus Rmult Rdiv Rabs IZR INR]; reflexivity|]. rewrite !Rabs_pos_eq by (rewrite ?Rmult_0_l; lra). cbn [INR]. split; field. Qed.

(** *** what is not true *)
(** outputs whose leaves have different shapes *)
Definition two_shapes : tree (list nat) := Tup [Leaf [1%nat]; Leaf [2%nat]].
Definition two_s : sources :=
  mk_sources (Some (mk_param (Tup [Leaf (Leaf (mk_arr [1; 1; 1]%nat [Some 1])); Leaf (Leaf (mk_arr [1; 2; 1]%nat [Some 1; Some 1]))]) (Leaf (mk_arr [1%nat] [Some 3])) (Leaf true),
    Tup [Leaf (mk_arr [1%nat] [Some 2]); Leaf (mk_arr [2%nat] [Some 2; Some 2])])) None None.
Theorem C75_output_shapes_refuted : exists n shapes s, wf_tree shapes /\ (0 < n)%nat /\ wf_sources s /\ par_ok n shapes s /\ inp_ok n shapes s /\ s_dist s = None /\
  heuristic n shapes s = Err TypeError.
Proof.
  exists 1%nat, two_shapes, two_s. split; [repeat constructor|]. split; [lia|]. split; [split; intros p N E; [injection E as <- <-; repeat constructor|discriminate]|].
  split; [|split; [exact I|split; [reflexivity|cbv -[Rplus Rmult Rdiv Rabs IZR INR]; reflexivity]]].
  cbn. split; [constructor|]. split; [constructor|]. split; [|split; [constructor; exact I|]].
  - split; [repeat constructor|]. constructor. constructor; [constructor|constructor; [constructor|constructor]]; (split; [reflexivity|]); apply positive_dat; cbn; intros w H; repeat destruct H as [H|H]; try (injection H as <-; lra); destruct H.
  - split; [exists [], (mk_arr [1%nat] [Some 3]); repeat (first [split|constructor]); cbn; lia|]. repeat constructor.
Qed.
(** distances added to outputs that are not of rank 1: single numbers (2 samples,
    the result has 4 numbers), or matrices (2 samples of shape (2, 1): sample 0
    gets the distance of sample 1) *)
Theorem C75_distance_refuted :
  (exists u, heuristic 2 (Leaf []) (mk_sources None None (Some [0; 7])) = Ok (Leaf u) /\ shp u = [2; 2]%nat) /\
  (exists u, heuristic 2 (Leaf [2; 1]%nat) (mk_sources None None (Some [0; 7])) = Ok (Leaf u) /\ shp u = [2; 2; 1]%nat /\ ReshapeSpec.entry 0 u [0; 1; 0]%nat = 7).
Proof.
  split; eexists; (split; [cbv -[Rplus Rmult Rdiv Rabs IZR INR]; reflexivity|]).
  - reflexivity.
  - split; [reflexivity|]. cbv -[Rplus IZR]. lra.
Qed.

(** C76: uncertainties of the inputs.  Two samples with one input and one output,
    gradients 1: the result has four numbers instead of two; with outputs of
    shape (2,) it has the right shape, but doubling the uncertainty of the
    second sample changes the uncertainty of the first. *)
Definition unc_s (o : nat) (g : list (option R)) (e0 e1 : R) : sources :=
  mk_sources None (Some (mk_input (Leaf (Leaf (mk_arr [2; o; 1]%nat g))) (Leaf (mk_arr [1; 1]%nat [0])) (Leaf true) (Leaf true)
    (Some (Leaf (mk_arr [2; 1]%nat [Some e0; Some e1]))), Leaf (mk_arr [o] (repeat (Some 1) o)))) None.
Theorem C76_shape_refuted : exists u, heuristic 2 (Leaf [1%nat]) (unc_s 1 [Some 1; Some 1] 1 1) = Ok (Leaf u) /\ shp u = [2; 2]%nat.
Proof. eexists. split; [cbv -[Rplus Rmult Rdiv Rabs IZR INR quantile]; reflexivity|reflexivity]. Qed.
Theorem C76_samples_refuted : exists g u u',
  heuristic 2 (Leaf [2%nat]) (unc_s 2 g 1 1) = Ok (Leaf u) /\ heuristic 2 (Leaf [2%nat]) (unc_s 2 g 1 2) = Ok (Leaf u') /\
  shp u = [2; 2]%nat /\ shp u' = [2; 2]%nat /\ ReshapeSpec.entry 0 u [0; 0]%nat <> ReshapeSpec.entry 0 u' [0; 0]%nat.
Proof.
  exists [Some 1; Some 1; Some 1; Some 1]. do 2 eexists. split; [cbv -[Rplus Rmult Rdiv Rabs IZR INR quantile]; reflexivity|]. split; [cbv -[Rplus Rmult Rdiv Rabs IZR INR quantile]; reflexivity|].
  split; [reflexivity|]. split; [reflexivity|]. unfold ReshapeSpec.entry. cbn. rewrite !(Rabs_pos_eq (1 * 1)), !(Rabs_pos_eq (1 * 2)) by lra. intros H. lra.
Qed.

(** C77: without any selected continuous input (or selected parameter) the term
    is never computed; the error is a division by zero. *)
Theorem C77_nothing_selected : forall p use, i_use p = Ok use -> wf_tree (i_train p) -> wf_tree use -> (forall ks, ~ leaf_at use ks true) -> is_ok (input_raw p) = false.
Proof.
  intros p use E W W' H. unfold input_raw. rewrite E. cbn [rbind].
  assert (M : forall df xs, is_ok (mean_sq 0 df xs) = false).
  { intros df xs. unfold mean_sq. destruct (jmapM _ df) as [d|]; [|reflexivity]. cbn [rbind]. destruct (jmapM _ xs) as [x|]; [|reflexivity]. cbn [rbind]. destruct (jmapM _ d) as [y|]; reflexivity. }
  assert (C : forall num, count_features (i_train p) use = Ok num -> num = 0%nat).
  { intros num Ec. unfold count_features in Ec. apply rbind_ok in Ec as (t & Et & Ec). injection Ec as <-.
    destruct (trel_pair _ _ _ (jzip_inv _ _ _ _ W W' Et)) as (y & Y1 & Y2 & Wy). specialize (Wy W).
    destruct (jzip_from (fun x (s : bool) => Ok (if s then prod (tl (shp x)) else 0%nat)) _ _ (fun _ z => z = 0%nat) y (i_train p) use Wy Y1 Y2) as (t' & Et' & T').
    { intros q x b Hq <- [<- _]. eexists. split; [reflexivity|]. destruct (snd q) eqn:Eq; [|reflexivity]. exfalso. destruct (BatchProofs.has_leaf_walk y q Hq Wy) as (ks & Hks).
      destruct (trel_walk _ ks _ _ W' Y2 q Hks) as (b & Hb & Hb' & _). rewrite Eq in Hb'. subst b. exact (H ks Hb). }
    assert (t' = t) as -> by (unfold rarr in *; rewrite Et' in Et; injection Et as ->; reflexivity).
    pose proof (leaves_trel _ _ Wy _ T') as F. clear -F. induction F as [|a b l m Hb _ IH]; [reflexivity|]. cbn [fold_right]. rewrite Hb, IH. reflexivity. }
  destruct (count_features (i_train p) use) as [num|]; [|reflexivity]. cbn [rbind]. rewrite (C num eq_refl). destruct (jzipM _ (i_train p) use) as [xs|]; [|reflexivity]. cbn [rbind].
  specialize (M (i_df p) xs). destruct (mean_sq 0 (i_df p) xs); [discriminate|reflexivity].
Qed.
Theorem C77_division_by_zero_refuted : exists n shapes s, wf_tree shapes /\ (0 < n)%nat /\ s_par s = None /\ s_dist s = None /\
  (exists p N, s_inp s = Some (p, N) /\ trel (fun o d => trel (fun x a => shp a = n :: o ++ tl (shp x)) (i_train p) d) shapes (i_df p) /\ norms shapes N /\ i_unc p = None) /\
  heuristic n shapes s = Err ZeroDivisionError.
Proof.
  exists 1%nat, (Leaf [1%nat]), (mk_sources None (Some (mk_input (Leaf (Leaf (mk_arr [1; 1; 1]%nat [Some 1]))) (Leaf (mk_arr [1; 1]%nat [0])) (Leaf false) (Leaf true) None, Leaf (mk_arr [1%nat] [Some 1]))) None).
  split; [constructor|]. split; [lia|]. split; [reflexivity|]. split; [reflexivity|]. split; [|cbv -[Rplus Rmult Rdiv Rabs IZR INR quantile]; reflexivity].
  do 2 eexists. split; [reflexivity|]. cbn. split; [repeat constructor|]. split; [|reflexivity]. split; [constructor|]. constructor. split; [reflexivity|]. apply positive_dat. cbn. intros w [E|[]]. injection E as <-. lra.
Qed.
