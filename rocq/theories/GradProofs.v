(** Lemmas about gradients of models. *)
From Coq Require Import Lia FunctionalExtensionality.
From Verif Require Import Base BaseLemmas TreeUtil TreeSpec NonSeq NonSeqSpec NonSeqProofs NonSeqShape Batch BatchSpec BatchProofs NdArray Grad.
From Verif Require TrainArgsProofs ConcatProofs.
Local Open Scope list_scope.

(** [tmapA] succeeds with [u] iff [f] succeeds leaf by leaf. *)
Lemma tmapA_iff {X Y} (f : X -> result Y) : forall t u, tmapA f t = Ok u <-> tmap (@Ok Y) u = tmap f t.
Proof.
  unfold tmapA. set (F := fun x => let* y := f x in Ok (Leaf y)).
  assert (HL : forall l, Forall (fun t => forall u, tmapM F t = Ok u <-> tmap (@Ok Y) u = tmap f t) l -> forall us, tmapM_list F l = Ok us <-> map (tmap (@Ok Y)) us = map (tmap f) l).
  { intros l IH. induction IH as [|t l Ht _ IHl]; intros us; cbn [tmapM_list map].
    - split; [intros E; injection E as <-; reflexivity|]. intros E. destruct us; [reflexivity|discriminate E].
    - split.
      + destruct (tmapM F t) as [u|e] eqn:Et; [|discriminate]. cbn [rbind]. destruct (tmapM_list F l) as [us'|e] eqn:El; [|discriminate]. cbn [rbind].
        intros E. injection E as <-. cbn [map]. f_equal; [apply Ht; reflexivity|apply IHl; reflexivity].
      + destruct us as [|u us]; [discriminate|]. cbn [map]. intros E. injection E as E1 E2. apply Ht in E1. apply IHl in E2. rewrite E1. cbn [rbind]. rewrite E2. reflexivity. }
  intros t. induction t as [x| |d IH|l IH|l IH] using tree_ind2; intros u.
  - cbn. unfold F. destruct (f x) as [y|e] eqn:E; cbn.
    + split; [intros H; injection H as <-; reflexivity|]. destruct u; try discriminate. cbn. intros H. injection H as ->. reflexivity.
    + split; [discriminate|]. destruct u; discriminate.
  - cbn. split; [intros H; injection H as <-; reflexivity|]. destruct u; try discriminate. reflexivity.
  - rewrite tmapM_dct. cbn [tmap].
    assert (HD : forall us, tmapM_dict F d = Ok us <-> map (fun kv => (fst kv, tmap (@Ok Y) (snd kv))) us = map (fun kv => (fst kv, tmap f (snd kv))) d).
    { induction IH as [|[k t] d Ht _ IHd]; intros us; cbn [tmapM_dict map].
      - split; [intros E; injection E as <-; reflexivity|]. intros E. destruct us; [reflexivity|discriminate E].
      - cbn [snd] in Ht. split.
        + destruct (tmapM F t) as [u'|e] eqn:Et; [|discriminate]. cbn [rbind]. destruct (tmapM_dict F d) as [us'|e] eqn:El; [|discriminate]. cbn [rbind].
          intros E. injection E as <-. cbn [map fst snd]. f_equal; [f_equal; apply Ht; reflexivity|apply IHd; reflexivity].
        + destruct us as [|[k' u'] us]; [discriminate|]. cbn [map fst snd]. intros E. injection E as <- E1 E2. apply Ht in E1. apply IHd in E2. rewrite E1. cbn [rbind]. rewrite E2. reflexivity. }
    destruct (tmapM_dict F d) as [us|e] eqn:E; cbn [rbind].
    + split; [intros H; injection H as <-; cbn [tmap]; f_equal; apply HD; reflexivity|]. destruct u; try discriminate. cbn [tmap]. intros H. injection H as H. apply HD in H. injection H as ->. reflexivity.
    + split; [discriminate|]. destruct u; try discriminate. cbn [tmap]. intros H. injection H as H. apply HD in H. discriminate H.
  - rewrite tmapM_lst. cbn [tmap]. specialize (HL l IH). destruct (tmapM_list F l) as [us|e] eqn:E; cbn [rbind].
    + split; [intros H; injection H as <-; cbn [tmap]; f_equal; apply HL; reflexivity|]. destruct u; try discriminate. cbn [tmap]. intros H. injection H as H. apply HL in H. injection H as ->. reflexivity.
    + split; [discriminate|]. destruct u; try discriminate. cbn [tmap]. intros H. injection H as H. apply HL in H. discriminate H.
  - rewrite tmapM_tup. cbn [tmap]. specialize (HL l IH). destruct (tmapM_list F l) as [us|e] eqn:E; cbn [rbind].
    + split; [intros H; injection H as <-; cbn [tmap]; f_equal; apply HL; reflexivity|]. destruct u; try discriminate. cbn [tmap]. intros H. injection H as H. apply HL in H. injection H as ->. reflexivity.
    + split; [discriminate|]. destruct u; try discriminate. cbn [tmap]. intros H. injection H as H. apply HL in H. discriminate H.
Qed.
Lemma tmapA_layout {X Y} (f : X -> result Y) t u : tmapA f t = Ok u -> layout u = layout t.
Proof. intros H. apply tmapA_iff in H. rewrite <- (layout_tmap (@Ok Y)), H. apply layout_tmap. Qed.
Lemma tmapA_walk {X Y} (f : X -> result Y) t u ks b : tmapA f t = Ok u -> walk u ks = Some (Leaf b) -> exists a, walk t ks = Some (Leaf a) /\ f a = Ok b.
Proof.
  intros H W. apply tmapA_iff in H. apply (f_equal (fun t => walk t ks)) in H. rewrite !walk_tmap, W in H. cbn in H.
  destruct (walk t ks) as [r|]; [|discriminate H]. cbn in H. destruct r as [a| | | |]; try discriminate H. exists a. split; [reflexivity|]. cbn in H. congruence.
Qed.
Lemma tmapA_total {X Y} (f : X -> result Y) t : (forall x, has_leaf t x -> exists y, f x = Ok y) -> exists u, tmapA f t = Ok u.
Proof.
  unfold tmapA. induction t as [x| |d IH|l IH|l IH] using tree_ind2; intros H.
  - destruct (H x) as [y Hy]; [constructor|]. exists (Leaf y). cbn. rewrite Hy. reflexivity.
  - exists NoneT. reflexivity.
  - rewrite tmapM_dct. assert (E : exists us, tmapM_dict (fun x => let* y := f x in Ok (Leaf y)) d = Ok us).
    { assert (H' : forall k t x, In (k, t) d -> has_leaf t x -> exists y, f x = Ok y) by (intros; apply H; econstructor; eassumption). clear H.
      induction IH as [|[k t] d Ht _ IHd]; [eexists; reflexivity|]. cbn [tmapM_dict]. cbn [snd] in Ht. destruct Ht as [u Hu]; [intros x; apply (H' k t); left; reflexivity|]. rewrite Hu. cbn [rbind].
      destruct IHd as [us Hus]; [intros k' t' x Hin; apply (H' k' t'); right; exact Hin|]. rewrite Hus. eexists. reflexivity. }
    destruct E as [us E]. rewrite E. eexists. reflexivity.
  - rewrite tmapM_lst. assert (E : exists us, tmapM_list (fun x => let* y := f x in Ok (Leaf y)) l = Ok us).
    { assert (H' : forall t x, In t l -> has_leaf t x -> exists y, f x = Ok y) by (intros; apply H; econstructor; eassumption). clear H.
      induction IH as [|t l Ht _ IHl]; [eexists; reflexivity|]. cbn [tmapM_list]. destruct Ht as [u Hu]; [intros x; apply (H' t); left; reflexivity|]. rewrite Hu. cbn [rbind].
      destruct IHl as [us Hus]; [intros t' x Hin; apply (H' t'); right; exact Hin|]. rewrite Hus. eexists. reflexivity. }
    destruct E as [us E]. rewrite E. eexists. reflexivity.
  - rewrite tmapM_tup. assert (E : exists us, tmapM_list (fun x => let* y := f x in Ok (Leaf y)) l = Ok us).
    { assert (H' : forall t x, In t l -> has_leaf t x -> exists y, f x = Ok y) by (intros; apply H; econstructor; eassumption). clear H.
      induction IH as [|t l Ht _ IHl]; [eexists; reflexivity|]. cbn [tmapM_list]. destruct Ht as [u Hu]; [intros x; apply (H' t); left; reflexivity|]. rewrite Hu. cbn [rbind].
      destruct IHl as [us Hus]; [intros t' x Hin; apply (H' t'); right; exact Hin|]. rewrite Hus. eexists. reflexivity. }
    destruct E as [us E]. rewrite E. eexists. reflexivity.
Qed.

(** * Samples *)
Lemma sample_at_iff {S} (X : tree (list S)) i x : sample_at X i = Ok x <-> tmap Some x = sample X i.
Proof.
  unfold sample_at, sample. rewrite tmapA_iff. split; intros H.
  - apply (f_equal (tmap (fun r : result S => match r with Ok a => Some a | Err _ => None end))) in H. rewrite !tmap_tmap in H. etransitivity; [exact H|]. apply tmap_ext. intros l _. destruct (nth_error l i); reflexivity.
  - apply (f_equal (tmap (fun r : option S => match r with Some a => Ok a | None => Err IndexError end))) in H. rewrite !tmap_tmap in H. exact H.
Qed.
Lemma sample_at_ok {S} (X : tree (list S)) n i : uniform n X -> i < n -> exists x, sample_at X i = Ok x.
Proof.
  intros U Hi. apply tmapA_total. intros l Hl. specialize (U l Hl). destruct (nth_error l i) as [r|] eqn:E; [eexists; reflexivity|]. apply nth_error_None in E. lia.
Qed.
Lemma together_ok {A} (ts : list (tree A)) l : ts <> [] -> Forall (fun t => layout t = l) ts -> exists v, together ts = Ok v /\ layout v = l.
Proof.
  intros N F. unfold together. destruct (concatenate_ok (map (tmap (fun a => [a])) ts) l) as (v & Hv & Lv).
  - destruct ts; [congruence|discriminate].
  - apply Forall_forall. intros t Ht. apply in_map_iff in Ht as (u & <- & Hu). rewrite layout_tmap. rewrite Forall_forall in F. apply F. exact Hu.
  - exists v. auto.
Qed.
(** Row [i] of what vmap stacks is the result for sample [i]. *)
Lemma together_sample {A} (ts : list (tree A)) v : together ts = Ok v -> uniform (length ts) v /\ forall i t, nth_error ts i = Some t -> sample v i = tmap Some t.
Proof.
  unfold together. revert v. induction ts as [|t ts IH]; intros v H; [discriminate H|]. destruct ts as [|t' ts].
  - cbn in H. injection H as <-. split.
    + intros x Hx. apply has_leaf_tmap in Hx as (a & _ & ->). reflexivity.
    + intros [|[|i]] u Hu; cbn in Hu; try discriminate Hu. injection Hu as <-. unfold sample. rewrite tmap_tmap. reflexivity.
  - set (L := t' :: ts) in *. change (map (tmap (fun a : A => [a])) (t :: L)) with (tmap (fun a => [a]) t :: map (tmap (fun a => [a])) L) in H.
    apply concatenate_cons in H; [|discriminate]. destruct H as (w & Hw & Ha). destruct (IH w Hw) as [U Sm].
    assert (U1 : uniform 1 (tmap (fun a : A => [a]) t)) by (intros x Hx; apply has_leaf_tmap in Hx as (a & _ & ->); reflexivity).
    destruct (tapp_rows _ _ _ _ _ Ha U1 U) as [Uv Sv]. split; [exact Uv|]. intros i u Hu. rewrite Sv. destruct i as [|i].
    + cbn in Hu. injection Hu as <-. cbn. unfold sample. rewrite tmap_tmap. reflexivity.
    + cbn [nth_error] in Hu. replace (Datatypes.S i <? 1) with false by (symmetry; apply Nat.ltb_ge; lia). replace (Datatypes.S i - 1) with i by lia. apply Sm. exact Hu.
Qed.

(** * Gradients with respect to the inputs *)
Lemma rmapM_iff {A B} (f : A -> result B) l : forall r, rmapM f l = Ok r <-> Forall2 (fun a b => f a = Ok b) l r.
Proof.
  induction l as [|a l IH]; intros r; cbn [rmapM].
  - split; [intros E; injection E as <-; constructor|inversion 1; reflexivity].
  - split.
    + destruct (f a) as [b|e] eqn:E; [|discriminate]. cbn [rbind]. destruct (rmapM f l) as [bs|e]; [|discriminate]. cbn [rbind]. intros H. injection H as <-. constructor; [exact E|apply IH; reflexivity].
    + inversion 1 as [|? b ? bs E F]; subst. rewrite E. cbn [rbind]. apply IH in F. rewrite F. reflexivity.
Qed.
Lemma F2_seq {B} (P : nat -> B -> Prop) n : forall s r, Forall2 P (seq s n) r -> length r = n /\ forall i b, nth_error r i = Some b -> P (s + i) b.
Proof.
  induction n as [|n IH]; intros s r F; cbn [seq] in F; inversion F as [|? b ? bs E F']; subst; [split; [reflexivity|intros [|i] b Hb; discriminate Hb]|].
  destruct (IH _ _ F') as [L N]. split; [cbn; lia|]. intros [|i] c Hc; cbn in Hc; [injection Hc as <-; rewrite Nat.add_0_r; exact E|]. replace (s + Datatypes.S i) with (Datatypes.S s + i) by lia. apply N. exact Hc.
Qed.
Section GradInputs.
Context {S O J V : Type}.
Notation St := (tree (arr V)).
Context (raw : tree (list S) -> St -> result (tree (list O) * St)) (jac : (tree S -> result (tree O)) -> tree S -> result (tree J)).
Lemma grad_inv X st D s' : grad_callable_inputs raw jac X st = Ok (D, s') ->
  exists n rs, first_size X = Ok n /\ uniform n X /\ length rs = n /\ uniform n D /\ together (map fst rs) = Ok D /\
    (exists s, together (map snd rs) = Ok s /\ tmapA stack s = Ok s') /\
    forall i, i < n -> exists x r, sample X i = tmap Some x /\ grad_single raw jac st x = Ok r /\ nth_error rs i = Some r /\ sample D i = tmap Some (fst r).
Proof.
  unfold grad_callable_inputs. intros H. apply rbind_ok in H as (n & Hn & H). destruct (forallb _ (leaves X)) eqn:U; [|discriminate H].
  apply rbind_ok in H as (rs & Hr & H). apply rbind_ok in H as (g & Hg & H). apply rbind_ok in H as (s & Hs & H). apply rbind_ok in H as (s1 & Hs1 & H). injection H as <- <-.
  apply rmapM_iff in Hr. apply F2_seq in Hr as [L N]. cbn in N. destruct (together_sample _ _ Hg) as [UD SD]. rewrite map_length, L in UD.
  exists n, rs. split; [exact Hn|]. split; [|split; [exact L|split; [exact UD|split; [exact Hg|split; [eauto|]]]]].
  - intros x Hx. rewrite forallb_forall in U. apply Nat.eqb_eq. apply U. apply TrainArgsProofs.leaves_has_leaf. exact Hx.
  - intros i Hi. destruct (nth_error rs i) as [r|] eqn:E; [|apply nth_error_None in E; lia]. specialize (N i r E). apply rbind_ok in N as (x & Hx & N).
    exists x, r. apply sample_at_iff in Hx. split; [symmetry; exact Hx|]. split; [exact N|]. split; [reflexivity|]. apply SD. rewrite nth_error_map, E. reflexivity.
Qed.
Lemma grad_total n X st : 1 <= n -> populated X -> uniform n X -> 
  (forall i x, i < n -> sample_at X i = Ok x -> exists r, grad_single raw jac st x = Ok r) ->
  forall gl sl, (forall i x r, i < n -> sample_at X i = Ok x -> grad_single raw jac st x = Ok r -> layout (fst r) = gl /\ tmap (@shp V) (snd r) = sl) ->
  exists D s', grad_callable_inputs raw jac X st = Ok (D, s') /\ layout D = gl.
Proof.
  intros Hn P U R gl sl HL. unfold grad_callable_inputs. rewrite (populated_first X n P U). cbn [rbind].
  replace (forallb (fun x => length x =? n) (leaves X)) with true by (symmetry; apply forallb_forall; intros x Hx; apply Nat.eqb_eq, U, TrainArgsProofs.leaves_has_leaf; exact Hx).
  assert (E : exists rs, rmapM (fun i => let* x := sample_at X i in grad_single raw jac st x) (seq 0 n) = Ok rs).
  { assert (G : forall l, (forall i, In i l -> i < n) -> exists rs, rmapM (fun i => let* x := sample_at X i in grad_single raw jac st x) l = Ok rs).
    { induction l as [|i l IH]; intros Hl; [exists []; reflexivity|]. destruct (sample_at_ok X n i U (Hl i (or_introl eq_refl))) as [x Hx]. destruct (R i x (Hl i (or_introl eq_refl)) Hx) as [r Hr].
      destruct IH as [rs Hrs]; [intros k Hk; apply Hl; right; exact Hk|]. exists (r :: rs). cbn [rmapM]. rewrite Hx. cbn [rbind]. rewrite Hr. cbn [rbind]. rewrite Hrs. reflexivity. }
    apply G. intros i Hi. apply in_seq in Hi. lia. }
  destruct E as [rs E]. rewrite E. cbn [rbind]. apply rmapM_iff in E. apply F2_seq in E as [L N]. cbn in N.
  assert (A : forall r, In r rs -> layout (fst r) = gl /\ tmap (@shp V) (snd r) = sl).
  { intros r Hr. apply In_nth_error in Hr as [i Hi]. assert (i < n) by (rewrite <- L; apply nth_error_Some; rewrite Hi; discriminate). specialize (N i r Hi). apply rbind_ok in N as (x & Hx & N). apply (HL i x r); assumption. }
  assert (NE : rs <> []) by (destruct rs; [cbn in L; lia|discriminate]).
  destruct (together_ok (map fst rs) gl) as (D & HD & LD).
  { destruct rs; [congruence|discriminate]. } { apply Forall_forall. intros t Ht. apply in_map_iff in Ht as (r & <- & Hr). apply A. exact Hr. }
  destruct (together_ok (map snd rs) (layout sl)) as (s & Hs & Ls).
  { destruct rs; [congruence|discriminate]. } { apply Forall_forall. intros t Ht. apply in_map_iff in Ht as (r & <- & Hr). rewrite <- (proj2 (A r Hr)), layout_tmap. reflexivity. }
  rewrite HD. cbn [rbind]. rewrite Hs. cbn [rbind]. assert (T : exists s', tmapA stack s = Ok s').
  { apply tmapA_total. intros l Hl. destruct (together_sample _ _ Hs) as [Us Ss]. pose proof (Us l Hl) as Ll. rewrite map_length, L in Ll.
    destruct rs as [|r0 rs]; [congruence|]. assert (SH : forall b, In b l -> forall a, In a l -> shp b = shp a).
    { assert (W : forall i b, nth_error l i = Some b -> exists q, tmap (fun x => option_map (@shp V) (nth_error x i)) s = tmap Some sl /\ q = shp b).
      { intros i b Hb. exists (shp b). split; [|reflexivity]. assert (Hi : i < n) by (rewrite <- Ll; apply nth_error_Some; rewrite Hb; discriminate). destruct (nth_error (r0 :: rs) i) as [r|] eqn:Er; [|apply nth_error_None in Er; lia].
        specialize (Ss i (snd r)). rewrite nth_error_map, Er in Ss. specialize (Ss eq_refl). unfold sample in Ss. apply (f_equal (tmap (option_map (@shp V)))) in Ss. rewrite !tmap_tmap in Ss. etransitivity; [exact Ss|].
        rewrite <- (proj2 (A r (nth_error_In _ _ Er))), tmap_tmap. reflexivity. }
      assert (K : forall i j, i < n -> j < n -> option_map (@shp V) (nth_error l i) = option_map (@shp V) (nth_error l j)).
      { intros i j Hi Hj. destruct (nth_error l i) as [bi|] eqn:Ei; [|apply nth_error_None in Ei; lia]. destruct (nth_error l j) as [bj|] eqn:Ej; [|apply nth_error_None in Ej; lia].
        destruct (W i bi Ei) as (_ & Wi & _). destruct (W j bj Ej) as (_ & Wj & _). rewrite <- Wj in Wi. rewrite <- Ei, <- Ej. clear -Wi Hl.
        induction Hl as [x|d k t x Hin _ IH|m t x Hin _ IH|m t x Hin _ IH]; cbn [tmap] in Wi; injection Wi as Wi; try exact Wi.
        - apply IH. pose proof (proj1 map_ext_in_iff Wi _ Hin) as F. cbn in F. congruence.
        - apply IH. exact (proj1 map_ext_in_iff Wi _ Hin).
        - apply IH. exact (proj1 map_ext_in_iff Wi _ Hin). }
      intros b Hb a Ha. apply In_nth_error in Hb as [i Hi]. apply In_nth_error in Ha as [j Hj].
      assert (i < n) by (rewrite <- Ll; apply nth_error_Some; rewrite Hi; discriminate). assert (j < n) by (rewrite <- Ll; apply nth_error_Some; rewrite Hj; discriminate).
      specialize (K i j ltac:(assumption) ltac:(assumption)). rewrite Hi, Hj in K. cbn in K. congruence. }
    destruct l as [|a l]; [cbn in Ll; lia|]. unfold stack. replace (forallb _ (a :: l)) with true; [eexists; reflexivity|].
    symmetry. apply forallb_forall. intros b Hb. destruct (list_eq_dec _ (shp b) (shp a)) as [|C]; [reflexivity|]. exfalso. apply C. apply SH; [exact Hb|left; reflexivity]. }
  destruct T as [s' T]. rewrite T. cbn [rbind]. exists D, s'. auto.
Qed.
(** The states. *)
Lemma grad_states X st D s' ks a : grad_callable_inputs raw jac X st = Ok (D, s') -> walk s' ks = Some (Leaf a) ->
  exists n, first_size X = Ok n /\ 1 <= n /\ forall i, i < n -> exists x r b, sample X i = tmap Some x /\ callable_single raw st x = Ok r /\ walk (snd r) ks = Some (Leaf b) /\ shp a = n :: shp b.
Proof.
  intros H W. apply grad_inv in H as (n & rs & Hn & U & L & UD & TG & (s & Hs & Ht) & N). exists n. split; [exact Hn|]. split.
  - destruct rs; [discriminate TG|]. cbn in L. lia.
  - intros i Hi. destruct (N i Hi) as (x & r & Hx & Hr & Er & _). unfold grad_single in Hr. apply rbind_ok in Hr as (q & Hq & Hr). apply rbind_ok in Hr as (g & Hg & Hr). injection Hr as <-.
    exists x, q. destruct (tmapA_walk _ _ _ _ _ Ht W) as (l & Wl & Sl). destruct (together_sample _ _ Hs) as [Us Ss].
    specialize (Ss i (snd q)). rewrite nth_error_map, Er in Ss. specialize (Ss eq_refl). unfold sample in Ss. apply (f_equal (fun t => walk t ks)) in Ss. rewrite !walk_tmap, Wl in Ss. cbn in Ss.
    destruct (walk (snd q) ks) as [w|]; [|discriminate Ss]. cbn in Ss. destruct w as [b| | | |]; try discriminate Ss. cbn in Ss. injection Ss as Ss. exists b. split; [exact Hx|]. split; [exact Hq|]. split; [reflexivity|].
    assert (Ll : length l = n). { rewrite <- L, <- (map_length snd). apply Us. exact (ConcatProofs.leaf_at s ks l Wl). }
    unfold stack in Sl. destruct l as [|a0 l]; [discriminate Sl|]. destruct (forallb _ (a0 :: l)) eqn:F; [|discriminate Sl]. injection Sl as <-. cbn [shp]. f_equal; [exact Ll|].
    rewrite forallb_forall in F. specialize (F b (nth_error_In _ _ Ss)). destruct (list_eq_dec _ (shp b) (shp a0)) as [Eb|]; [symmetry; exact Eb|discriminate F].
Qed.
End GradInputs.
