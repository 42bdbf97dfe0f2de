From Coq Require Import Arith Permutation.
From Verif Require Import Base BaseLemmas TreeUtil TreeSpec TreeProofs MutableProofs NonSeqSpec NonSeqProofs NdArray Serial SerialSpec SerialProofs Scaler ScalerProofs
  EigenProofs TrainArgs TrainArgsProofs Reshape ReshapeSpec ReshapeProofs ReshapeMain Einsum EinsumProofs EinsumMain ReshapeSpec Layers LayersSpec LayersProofs.
Local Open Scope list_scope.
Local Open Scope nat_scope.

Section Main.
Context {V : Type} (zero : V).

(** an array of [n] samples acted on by one parameter array *)
Definition acted (f : V -> V -> V) (xa : arr V * arr V) (y : arr V) : Prop :=
  shp y = shp (fst xa) /\ forall i idx, valid (shp (fst xa)) (i :: idx) ->
    entry zero y (i :: idx) = f (entry zero (fst xa) (i :: idx)) (everywhere zero (snd xa) idx).

Lemma act_one f n s x a : shp x = n :: s -> shp a = s \/ one_number (shp a) = true -> exists y, abin zero zero f x a = Ok y /\ acted f (x, a) y.
Proof.
  intros Hx [Ha|Ha].
  - destruct (abin_batch zero f n s x a Hx Ha) as (y & E & Hy & H). exists y. split; [exact E|]. split; cbn [fst snd]; [congruence|].
    rewrite Hx. intros i idx Hv. rewrite (H _ _ Hv). f_equal. symmetry. apply full_everywhere. rewrite Ha. inversion Hv; subst. assumption.
  - destruct (abin_one zero f n s x a Hx Ha) as (y & E & Hy & H). exists y. split; [exact E|]. split; cbn [fst snd]; [congruence|].
    rewrite Hx. intros i idx Hv. rewrite (H _ _ Hv). f_equal. symmetry. apply one_number_everywhere. exact Ha.
Qed.

(** one parameter array for all leaves *)
Lemma map_act f n shapes data a : wf_tree shapes -> trel (batch_of n) shapes data ->
  (forall s, has_leaf shapes s -> shp a = s \/ one_number (shp a) = true) ->
  exists out, jmapM (fun x => abin zero zero f x a) data = Ok out /\ trel (batch_of n) shapes out /\
    forall ks x, leaf_at data ks x -> exists y, leaf_at out ks y /\ acted f (x, a) y.
Proof.
  intros W T H. destruct (jm_trel (fun x => abin zero zero f x a) (fun x y => x = y /\ exists s, has_leaf shapes s /\ shp x = n :: s) (fun x y => acted f (x, a) y) data) with (u := data) as (out & E & TO).
  - intros x y _ ( <- & s & Hs & Hx). eapply act_one; eauto.
  - assert (L : forall x, has_leaf data x -> exists s, has_leaf shapes s /\ shp x = n :: s).
    { intros x Hx. destruct (map_has_leaf _ _ _ (trel_flip _ _ _ T) x Hx) as (s & Hs & B). eauto. }
    pose proof (trel_leaf_prop eq _ data data L (trel_refl data)) as T2. eapply trel_impl; [|exact T2]. cbn. tauto.
  - exists out. split; [exact E|]. assert (Wd : wf_tree data) by (eapply trel_wf; [exact T|exact W]). split.
    + eapply trel_comp; [|exact T|exact TO]. intros s x y B [A _]. unfold batch_of in *. cbn in A. congruence.
    + intros ks x Hx. apply (trel_walk (fun x y => acted f (x, a) y) ks data out); [|exact TO|exact Hx]. eapply trel_wf; [exact TO|exact Wd].
Qed.

(** one parameter array per leaf *)
Lemma zip_act f n shapes data p : wf_tree shapes -> trel (batch_of n) shapes data -> trel (fun s a => shp a = s) shapes p ->
  exists out, jzipM (fun x a => abin zero zero f x a) data p = Ok out /\ trel (batch_of n) shapes out /\
    forall ks x, leaf_at data ks x -> exists y a, leaf_at out ks y /\ leaf_at p ks a /\ acted f (x, a) y.
Proof.
  intros W T P. assert (Wd : wf_tree data) by (eapply trel_wf; [exact T|exact W]).
  assert (DP : trel (fun x a => exists s, shp x = n :: s /\ shp a = s) data p).
  { eapply trel_join; [|exact T|exact P]. intros s x a B A. exists s. auto. }
  destruct (trel_pair _ _ _ DP) as (r & R1 & R2 & R3). specialize (R3 Wd).
  destruct (jzip3 (fun x a => abin zero zero f x a) (fun q x => fst q = x) (fun q a => snd q = a /\ exists s, shp (fst q) = n :: s /\ shp a = s) (fun q y => acted f q y) r R3) with (u := data) (p := p) as (out & E & TO); auto.
  { intros [x a] y q _ E1 (E2 & s & Hx & Ha). cbn in *. subst. eapply act_one; eauto. }
  assert (Wr : wf_tree out) by (eapply trel_wf; [exact TO|exact R3]). assert (Wp : wf_tree p) by (eapply trel_wf; [exact P|exact W]).
  exists out. split; [exact E|]. split.
  - assert (TX : trel (fun x y => shp y = shp x) data out).
    { eapply trel_join; [|exact R1|exact TO]. intros q x y <- [A _]. exact A. }
    eapply trel_comp; [|exact T|exact TX]. intros s x y B A. unfold batch_of in *. congruence.
  - intros ks x Hx. destruct (trel_walk _ ks _ _ R3 (trel_flip _ _ _ R1) x Hx) as (q & Hq & E1).
    destruct (trel_walk _ ks _ _ Wr TO q Hq) as (y & Hy & A). destruct (trel_walk _ ks _ _ Wp R2 q Hq) as (a & Ha & E2 & _).
    exists y, a. split; [exact Hy|]. split; [exact Ha|]. destruct q as [x' a']. cbn in *. subst. exact A.
Qed.

(* ------------------------------------------------------------------ *)
(** * Bias *)
Context (add mul : V -> V -> V) (nonneg : V -> bool) (isreal : V -> bool) (isrealobj : arr V -> bool).

(** parameters that fit the data *)
Definition bias_fits (shapes : tree (list nat)) (p : tree (arr V)) : Prop :=
  match p with
  | Leaf a => forall s, has_leaf shapes s -> shp a = s \/ one_number (shp a) = true
  | _ => trel (fun s a => shp a = s) shapes p
  end.
Lemma bias_run n shapes data p b : wf_tree shapes -> trel (batch_of n) shapes data -> bias_fits shapes p ->
  b_val b = Some p ->
  exists out, bias_call zero add b p data = Ok out /\ trel (batch_of n) shapes out /\
    forall ks x, leaf_at data ks x -> exists y a, leaf_at out ks y /\ (p = Leaf a \/ leaf_at p ks a) /\ acted add (x, a) y.
Proof.
  intros W T F E. unfold bias_call. rewrite E. destruct p as [a| |d|l|l]; cbn [bias_fits] in F.
  1: { destruct (map_act add n shapes data a W T F) as (out & -> & TO & H). cbn [rbind]. rewrite (check_batch_rel n _ _ _ _ T TO). cbn [rbind].
       exists out. split; [reflexivity|]. split; [exact TO|]. intros ks x Hx. destruct (H ks x Hx) as (y & H1 & H2). exists y, a. auto. }
  all: destruct (zip_act add n shapes data _ W T F) as (out & -> & TO & H); cbn [rbind]; rewrite (check_batch_rel n _ _ _ _ T TO); cbn [rbind];
    exists out; (split; [reflexivity|]); (split; [exact TO|]); intros ks x Hx; destruct (H ks x Hx) as (y & a & H1 & H2 & H3); exists y, a; auto.
Qed.

Lemma check_fits p shapes v : wf_tree p -> wf_tree shapes -> jzipM check_shape p shapes = Ok v -> trel (fun s (a : arr V) => shp a = s) shapes p.
Proof.
  intros Wp Ws E. apply jzip_inv in E; auto. apply trel_flip in E. eapply trel_impl; [|exact E]. cbn. intros s a (z & H).
  unfold check_shape in H. destruct (same_shape (shp a) s) eqn:Q; [|discriminate]. apply same_shape_eq. exact Q.
Qed.
Lemma drawn_fits (draw : list nat -> arr V) shapes t : (forall s, shp (draw s) = s) -> jmapM (fun s => Ok (draw s)) shapes = Ok t ->
  trel (fun s (a : arr V) => shp a = s) shapes t.
Proof.
  intros D E. destruct (jm_trel (fun s => Ok (draw s)) eq (fun s a => shp a = s) shapes) with (u := shapes) as (v & E' & T').
  - intros x y _ <-. exists (draw x). split; [reflexivity|apply D].
  - apply trel_refl.
  - rewrite E in E'. injection E' as <-. exact T'.
Qed.
Lemma fits_any shapes p : trel (fun s (a : arr V) => shp a = s) shapes p -> bias_fits shapes p.
Proof.
  intros T. destruct p as [a0| |d0|l0|l0]; cbn [bias_fits]; auto. inversion T as [s a E| | | |]; subst. intros s Hs. inversion Hs; subst. left. reflexivity.
Qed.

Lemma bias_compiled draw g real scalar m m' shapes : (forall t, g = GTree t -> wf_tree t) -> wf_tree shapes -> (forall s, shp (draw s) = s) ->
  bias_new isreal isrealobj g real scalar = Ok m -> bias_compile draw m shapes = Ok m' ->
  exists p, b_val m' = Some p /\ bias_fits shapes p /\ match g with GNone => True | GNum v => p = Leaf (mk_arr [1] [v]) | GTree t => p = t end /\
    b_scalar m' = scalar /\ (scalar = true -> exists a, p = Leaf a).
Proof.
  intros Wg W D N C. destruct g as [|v|t]; cbn [bias_new] in N.
  - injection N as <-. cbn [bias_compile b_val b_scalar b_real] in C. apply rbind_ok in C as (t & E & C). injection C as <-. cbn [b_val b_scalar].
    exists t. split; [reflexivity|]. destruct scalar.
    + cbn in E. injection E as <-. split; [|eauto]. intros s _. right. rewrite D. reflexivity.
    + split; [|split; [exact I|split; [reflexivity|discriminate]]]. apply fits_any. eapply drawn_fits; eauto.
  - destruct scalar; [|discriminate]. apply rbind_ok in N as (u & _ & N). injection N as <-. cbn in C. injection C as <-. cbn [b_val b_scalar].
    exists (Leaf (mk_arr [1] [v])). split; [reflexivity|]. split; [|eauto]. intros s _. right. reflexivity.
  - destruct scalar; [discriminate|]. destruct (leaves t) as [|x l]; [discriminate|]. apply rbind_ok in N as (u & _ & N). injection N as <-.
    unfold bias_compile in C. cbn [b_val b_scalar b_real] in C. specialize (Wg t eq_refl).
    assert (G : bias_fits shapes t /\ m' = mk_bias (Some t) real false).
    { destruct t as [a| |d|l0|l0].
      - cbn [bias_fits]. destruct (one_number (shp a)) eqn:O; [injection C as <-; auto|].
        assert (K : (forall s, has_leaf shapes s -> shp a = s) /\ m' = mk_bias (Some (Leaf a)) real false); [|destruct K as [K1 K2]; split; [intros s Hs; left; auto|exact K2]].
        assert (X : forall sh, (if existsb (fun s => negb (same_shape s (shp a))) (leaves sh) then Err ValueError else Ok (mk_bias (Some (Leaf a)) real false)) = Ok m' ->
          (forall s, has_leaf sh s -> shp a = s) /\ m' = mk_bias (Some (Leaf a)) real false).
        { intros sh X. destruct (existsb _ (leaves sh)) eqn:Q; [discriminate|]. injection X as <-. split; [|reflexivity]. intros s Hs. apply leaves_has_leaf in Hs.
          assert (Y : negb (same_shape s (shp a)) = false).
          { destruct (negb (same_shape s (shp a))) eqn:Z; [|reflexivity]. rewrite <- Q. symmetry. apply existsb_exists. eauto. }
          apply negb_false_iff, same_shape_eq in Y. congruence. }
        destruct shapes as [s| |d|l0|l0]; try (apply X; exact C).
        destruct (same_shape (shp a) s) eqn:Q; [|discriminate]. injection C as <-. split; [|reflexivity]. intros s' Hs. inversion Hs; subst. apply same_shape_eq. exact Q.
      - apply rbind_ok in C as (z & E & C). injection C as <-. split; [|reflexivity]. apply fits_any. eapply check_fits; eauto.
      - apply rbind_ok in C as (z & E & C). injection C as <-. split; [|reflexivity]. apply fits_any. eapply check_fits; eauto.
      - apply rbind_ok in C as (z & E & C). injection C as <-. split; [|reflexivity]. apply fits_any. eapply check_fits; eauto.
      - apply rbind_ok in C as (z & E & C). injection C as <-. split; [|reflexivity]. apply fits_any. eapply check_fits; eauto. }
    destruct G as [G ->]. exists t. cbn. split; [reflexivity|]. split; [exact G|]. split; [reflexivity|]. split; [reflexivity|discriminate].
Qed.
Lemma fits_same_shapes shapes p q : trel (fun a b : arr V => shp b = shp a) p q -> bias_fits shapes p -> bias_fits shapes q.
Proof.
  intros T F. inversion T as [a b E| |l m F2|l m F2|d e e' P F2]; subst; cbn [bias_fits] in *.
  1: { rewrite E. exact F. }
  all: eapply trel_comp; [|exact F|exact T]; cbn; congruence.
Qed.

(** adding the bias, after any number of later parameter updates of the same shapes *)
Theorem bias_adds draw g real scalar m m' m2 shapes n data p q : (forall t, g = GTree t -> wf_tree t) -> wf_tree shapes -> (forall s, shp (draw s) = s) ->
  bias_new isreal isrealobj g real scalar = Ok m -> bias_compile draw m shapes = Ok m' -> b_val m' = Some p ->
  trel (fun a b : arr V => shp b = shp a) p q -> (q = p /\ m2 = m' \/ bias_set_params isrealobj m' q = Ok m2) ->
  trel (batch_of n) shapes data ->
  match g with GNone => True | GNum v => p = Leaf (mk_arr [1] [v]) | GTree t => p = t end /\
  exists out, bias_call zero add m2 q data = Ok out /\ trel (batch_of n) (bias_shape shapes) out /\
    pointwise zero data out (fun ks idx x y => exists a, (q = Leaf a \/ leaf_at q ks a) /\ y = add x (everywhere zero a idx)).
Proof.
  intros Wg W D N C EP TQ U T. destruct (bias_compiled draw g real scalar m m' shapes Wg W D N C) as (p0 & E0 & F & G & _). rewrite EP in E0. injection E0 as <-.
  split; [exact G|]. assert (E2 : b_val m2 = Some q).
  { destruct U as [[ -> -> ]|U]; [exact EP|]. unfold bias_set_params in U. apply rbind_ok in U as (? & _ & U). apply rbind_ok in U as (? & _ & U).
    apply rbind_ok in U as (? & _ & U). injection U as <-. reflexivity. }
  destruct (bias_run n shapes data q m2 W T (fits_same_shapes _ _ _ TQ F) E2) as (out & E & TO & H). exists out. split; [exact E|]. split; [exact TO|].
  intros ks x Hx. destruct (H ks x Hx) as (y & a & Hy & Ha & A1 & A2). exists y. split; [exact Hy|]. split; [exact A1|]. intros i idx Hv. exists a. split; [exact Ha|]. exact (A2 i idx Hv).
Qed.
End Main.
