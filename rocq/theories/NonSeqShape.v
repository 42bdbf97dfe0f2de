(** Announced shapes are the real shapes (C16). *)
From Verif Require Import Base BaseLemmas TreeUtil TreeSpec TreeProofs ExtendProofs Resolve ResolveSpec
  ResolveProofs Connections ConcretizeSpec ConcretizeProofs ConnSpec ConnProofs PlaceProofs
  NonSeq NonSeqSpec NonSeqProofs NonSeqRun NonSeqNet.
Local Open Scope string_scope.
Local Open Scope list_scope.

Lemma dget_map {X Y} (f : X -> Y) (d : list (string * X)) k :
  dget (map (fun kv => (fst kv, f (snd kv))) d) k = option_map f (dget d k).
Proof. induction d as [|[k' v] d IH]; [reflexivity|]. simpl. destruct (String.eqb k k'); [reflexivity|exact IH]. Qed.

Lemma child_tmap {X Y} (f : X -> Y) t k : child (tmap f t) k = option_map (tmap f) (child t k).
Proof.
  destruct t as [a| |d|l|l]; try reflexivity; simpl.
  - apply dget_map.
  - destruct (isdigit k); [apply nth_error_map|reflexivity].
  - destruct (isdigit k); [apply nth_error_map|reflexivity].
Qed.
Lemma walk_tmap {X Y} (f : X -> Y) ks : forall t, walk (tmap f t) ks = option_map (tmap f) (walk t ks).
Proof.
  induction ks as [|k ks IH]; intros t; [reflexivity|]. simpl. rewrite child_tmap.
  destruct (child t k); [apply IH|reflexivity].
Qed.

Lemma filled_tmap {X Y Z} (f : Y -> Z) (R : X -> tree Y -> Prop) (S : X -> tree Z -> Prop) (t : tree X) :
  (forall x y, R x y -> S x (tmap f y)) -> forall u, filled R t u -> filled S t (tmap f u).
Proof.
  intros HRS. induction t as [x| |d IH|l IH|l IH] using tree_ind2; intros u H; inversion H as [? ? E| |? ? HF|? ? HF|? ? HF]; subst.
  - constructor. auto.
  - constructor.
  - simpl. constructor. clear H. induction HF as [|a b d e [E Hab] _ IHF]; constructor.
    + simpl. split; [exact E|]. apply Forall_cons_iff in IH as [Hx _]. apply Hx. exact Hab.
    + apply IHF. apply Forall_cons_iff in IH as [_ IH]. exact IH.
  - simpl. constructor. clear H. induction HF as [|a b d e Hab _ IHF]; constructor.
    + apply Forall_cons_iff in IH as [Hx _]. apply Hx. exact Hab.
    + apply IHF. apply Forall_cons_iff in IH as [_ IH]. exact IH.
  - simpl. constructor. clear H. induction HF as [|a b d e Hab _ IHF]; constructor.
    + apply Forall_cons_iff in IH as [Hx _]. apply Hx. exact Hab.
    + apply IHF. apply Forall_cons_iff in IH as [_ IH]. exact IH.
Qed.

Lemma setitem_fuel_no_leaf {A} sep lf n : forall (t : tree A) s v r,
  setitem_fuel sep lf n t s v = Ok r -> setitem_fuel sep no_leaf n t s v = Ok r.
Proof.
  induction n as [|n IH]; intros t s v r H; [discriminate|]. cbn [setitem_fuel] in *.
  destruct s as [|c s]; [exact H|]. destruct (lf t); [discriminate|]. cbn [no_leaf] in *.
  destruct (split1 sep (String c s)) as [key rest].
  destruct t as [a| |d|l|l]; try discriminate.
  - destruct rest; [|exact H]. destruct (dget d key); [|discriminate].
    apply rbind_ok in H as [x [H1 H2]]. rewrite (IH _ _ _ _ H1). exact H2.
  - destruct (isdigit key); [|discriminate]. destruct rest; [|exact H].
    destruct (nth_error l (int_of key)); [|discriminate].
    apply rbind_ok in H as [x [H1 H2]]. rewrite (IH _ _ _ _ H1). exact H2.
  - destruct (isdigit key); [|discriminate]. destruct rest; [|exact H].
    destruct (nth_error l (int_of key)); [|discriminate].
    apply rbind_ok in H as [x [H1 H2]]. rewrite (IH _ _ _ _ H1). exact H2.
Qed.
Lemma setitem_no_leaf {A} sep lf (t : tree A) s v r :
  setitem sep lf t s v = Ok r -> setitem sep no_leaf t s v = Ok r.
Proof. apply setitem_fuel_no_leaf. Qed.

Section Shapes.
Variable sep : ascii.
Hypothesis Hsi : no_sep sep "input" = true.
Context {M Sh : Type}.
Variable out_shape : M -> tree Sh -> result (tree Sh).
Variable modules : tree M.

Notation sstep := (shape_step sep out_shape modules).

Definition swrap (nodes : list (string * (M * tree string))) : list (string * tree string) :=
  map (fun x => (fst x, snd (snd x))) nodes.

Lemma sstep_ok ins outs p deps ins' outs' m :
  clean sep p -> reserved_name p = false -> walk modules (split sep p) = Some (Leaf m) ->
  sstep (ins, outs) (p, deps) = Ok (ins', outs') ->
  exists ind o, filled (fun q d => look sep shape_leaf_shape outs q = Ok d) deps ind /\
    out_shape m ind = Ok o /\ setitem sep no_leaf ins p ind = Ok ins' /\ setitem sep no_leaf outs p o = Ok outs'.
Proof.
  intros Hc Hr Hm H. unfold shape_step in H. rewrite Hr in H.
  apply rbind_ok in H as [ind [H1 H]]. apply rbind_ok in H as [i' [H2 H]].
  apply look_walk_iff in Hm; [|exact Hc]. rewrite Hm in H. cbn [rbind] in H.
  destruct (out_shape m ind) as [o|] eqn:Eo; [|discriminate].
  apply rbind_ok in H as [o' [H3 H]]. injection H as <- <-.
  exists ind, o. split; [apply tmapM_filled; exact H1|]. split; [exact Eo|].
  split; eapply setitem_no_leaf; eauto.
Qed.

Lemma srun_spec nodes : forall done ins outs ins' outs' val,
  (forall n, In n done -> walk outs (split sep n) = Some (val n)) ->
  apart sep (done ++ map fst nodes) ->
  (forall n, In n (done ++ map fst nodes) -> clean sep n) ->
  (forall p, In p (map fst nodes) -> reserved_name p = false) ->
  (forall p m deps, In (p, (m, deps)) nodes -> walk modules (split sep p) = Some (Leaf m)) ->
  (forall l1 p m deps l2, nodes = l1 ++ (p, (m, deps)) :: l2 -> forall q, has_leaf deps q ->
      clean sep q /\ exists n ks, In n (done ++ map fst l1) /\ split sep q = split sep n ++ ks) ->
  rfold sstep (swrap nodes) (ins, outs) = Ok (ins', outs') ->
  exists val',
    (forall n, In n done -> val' n = val n) /\
    (forall n, In n (done ++ map fst nodes) -> walk outs' (split sep n) = Some (val' n)) /\
    (forall p m deps, In (p, (m, deps)) nodes ->
       exists ind, filled (value_at sep (done ++ map fst nodes) val') deps ind /\
         out_shape m ind = Ok (val' p) /\ walk ins' (split sep p) = Some ind) /\
    (forall ks, (forall p, In p (map fst nodes) -> diverge (split sep p) ks) -> walk ins' ks = walk ins ks).
Proof.
  induction nodes as [|[p [m deps]] nodes IH]; intros done ins outs ins' outs' val Hval Hap Hcl Hres Hmod Hsrc H.
  { injection H as <- <-. exists val. rewrite app_nil_r in *.
    split; [auto|]. split; [exact Hval|]. split; [intros ? ? ? []|auto]. }
  cbn [swrap map rfold fst snd] in H. apply rbind_ok in H as [[i1 s1] [Hs H]].
  assert (Hr : reserved_name p = false) by (apply Hres; left; reflexivity).
  assert (Hcp : clean sep p) by (apply Hcl, in_or_app; right; left; reflexivity).
  eapply sstep_ok in Hs as [ind [o [H1 [H2 [H3 H4]]]]]; [|exact Hcp|exact Hr|eapply Hmod; left; reflexivity].
  assert (Hpd : forall n, In n done -> diverge (split sep n) (split sep p)).
  { intros n Hn. apply apart_app in Hap as [_ [_ Hap]]. apply Hap; [exact Hn|left; reflexivity]. }
  assert (Hpn : forall n, In n (map fst nodes) -> diverge (split sep p) (split sep n)).
  { intros n Hn. apply apart_app in Hap as [_ [Hap _]]. inversion Hap; subst; auto. }
  assert (Hnp : forall n, In n done -> n <> p).
  { intros n Hn ->. eapply diverge_irrefl. apply Hpd. exact Hn. }
  assert (Hassoc : done ++ map fst ((p, (m, deps)) :: nodes) = (done ++ [p]) ++ map fst nodes)
    by (rewrite <- app_assoc; reflexivity).
  destruct (IH (done ++ [p]) i1 s1 ins' outs' (ext val p o)) as [val' [V1 [V2 [V3 V4]]]].
  - intros n Hn. apply in_app_or in Hn as [Hn|[<-|[]]].
    + rewrite ext_other by auto. rewrite <- (Hval n Hn). eapply set_walk_other; [exact H4|].
      apply diverge_sym, Hpd, Hn.
    + rewrite ext_same. eapply set_walk_same; eauto.
  - rewrite <- Hassoc. exact Hap.
  - intros n Hn. rewrite <- Hassoc in Hn. apply Hcl, Hn.
  - intros q Hq. apply Hres. right; exact Hq.
  - intros q m' d' Hi. eapply Hmod. right; exact Hi.
  - intros l1 q m' deps' l2 E q' Hq'. destruct (Hsrc ((p, (m, deps)) :: l1) q m' deps' l2 (f_equal (cons _) E) q' Hq')
      as [Hc [n [ks [Hn Hks]]]]. split; [exact Hc|]. exists n, ks. split; [|exact Hks].
    rewrite <- app_assoc. exact Hn.
  - exact H.
  - exists val'. split; [|split; [|split]].
    + intros n Hn. rewrite V1 by (apply in_or_app; auto). apply ext_other. auto.
    + intros n Hn. rewrite Hassoc in Hn. apply V2, Hn.
    + rewrite Hassoc. intros p' m' deps' [E|Hin]; [|apply V3; exact Hin].
      injection E as <- <- <-. exists ind.
      assert (Ep : val' p = o) by (rewrite V1 by (apply in_or_app; right; left; reflexivity); apply ext_same).
      rewrite Ep. split; [|split].
      * eapply filled_mono; [exact H1|]. intros q d Hq Hl. cbv beta in Hl.
        destruct (Hsrc [] p m deps nodes eq_refl q Hq) as [Hc [n [ks [Hn Hks]]]].
        simpl in Hn. rewrite app_nil_r in Hn.
        apply look_walk in Hl; [|exact Hc]. rewrite Hks, walk_app, (Hval n Hn) in Hl.
        exists n, ks. split; [apply in_or_app; left; apply in_or_app; auto|]. split; [exact Hks|].
        rewrite V1 by (apply in_or_app; auto). rewrite ext_other by auto. exact Hl.
      * exact H2.
      * rewrite V4; [eapply set_walk_same; eauto|]. intros n Hn. apply diverge_sym, Hpn, Hn.
    + intros ks Hks. rewrite V4 by (intros q Hq; apply Hks; right; exact Hq).
      eapply set_walk_other; [exact H3|]. apply Hks. left; reflexivity.
Qed.

Lemma szip_steps nodes : combine (order_of nodes) (deps_of nodes) = ("input", NoneT) :: swrap nodes.
Proof.
  unfold order_of, deps_of. cbn [combine]. f_equal.
  induction nodes as [|[p [m d]] nodes IH]; [reflexivity|]. cbn [map app combine swrap fst snd]. f_equal. exact IH.
Qed.

Context {A Rng : Type}.
Variable call : M -> tree A -> tree A -> bool -> tree A -> Rng -> result (tree A * tree A).
Variable shape : A -> Sh.

Theorem shapes_agree nodes out_deps params data training state rng val news out ins outs o :
  net_ok sep nodes out_deps ->
  (forall p m deps, In (p, (m, deps)) nodes -> walk modules (split sep p) = Some (Leaf m)) ->
  (forall p m deps, In (p, (m, deps)) nodes -> honest shape call out_shape m) ->
  dataflow sep call "input" nodes params data training state rng val news ->
  filled (value_at sep ("input" :: map fst nodes) val) out_deps out ->
  shape_progression sep out_shape modules (order_of nodes) (deps_of nodes) out_deps (tmap shape data)
    = Ok (ins, outs, o) ->
  (forall n, In n ("input" :: map fst nodes) -> walk outs (split sep n) = Some (tmap shape (val n))) /\
  (forall p m deps, In (p, (m, deps)) nodes -> exists ind,
      filled (value_at sep ("input" :: map fst nodes) val) deps ind /\
      walk ins (split sep p) = Some (tmap shape ind)) /\
  o = tmap shape out.
Proof.
  intros Hnet Hmod Hhon [D1 D2] Hout H. unfold shape_progression in H.
  apply rbind_ok in H as [i0 [H0 H]]. apply rbind_ok in H as [o0 [H0' H]].
  apply rbind_ok in H as [o1 [H1 H]]. apply rbind_ok in H as [[ins' outs'] [H2 H]].
  apply rbind_ok in H as [o' [H3 H]]. injection H as <- <- <-.
  rewrite szip_steps in H2. cbn [rfold] in H2. unfold shape_step at 1 in H2.
  cbn [reserved_name orb String.eqb Ascii.eqb Bool.eqb] in H2. cbn [rbind] in H2.
  assert (Ein : split sep "input" = ["input"]) by (apply split_no_sep_id; exact Hsi).
  apply setitem_no_leaf in H1.
  destruct (srun_spec nodes ["input"] i0 o1 ins' outs' (fun _ => tmap shape data)) as [vs [V1 [V2 [V3 V4]]]].
  - intros n [<-|[]]. eapply set_walk_same; [apply input_clean; exact Hsi|exact H1].
  - apply Hnet.
  - intros n [<-|Hn]; [apply input_clean; exact Hsi|apply (proj1 (proj2 Hnet)); exact Hn].
  - intros p Hp. eapply net_ok_reserved; eauto.
  - exact Hmod.
  - eapply net_ok_src; eauto.
  - exact H2.
  - change (["input"] ++ map fst nodes) with ("input" :: map fst nodes) in *.
    assert (Hnodes0 : exists nodes0, nodes0 = nodes) by eauto.
    assert (Hall : forall l1 l2, nodes = l1 ++ l2 ->
      forall n, In n ("input" :: map fst l1) -> vs n = tmap shape (val n)).
    { induction l1 as [|[p [m deps]] l1 IH] using rev_ind; intros l2 E.
      - intros n [<-|[]]. rewrite D1. apply V1. left; reflexivity.
      - rewrite <- app_assoc in E. assert (IHv := IH _ E).
        assert (Hin : In (p, (m, deps)) nodes) by (rewrite E; apply in_or_app; right; left; reflexivity).
        destruct (D2 p m deps Hin) as [ind [mp [ms [F1 [F2 [F3 F4]]]]]].
        destruct (V3 p m deps Hin) as [ind2 [G1 [G2 _]]].
        assert (Ei : ind2 = tmap shape ind).
        { eapply filled_fun; [exact G1|refine (filled_tmap shape (value_at sep ("input" :: map fst nodes) val) (fun q y => exists d, value_at sep ("input" :: map fst nodes) val q d /\ y = tmap shape d) deps _ ind F1); eauto|].
          intros q y y' Hq [n [ks [Hn [Hks Hw]]]] [d [[n2 [ks2 [Hn2 [Hks2 Hw2]]]] ->]].
          destruct (net_ok_src sep _ _ Hnet _ _ _ _ _ E q Hq) as [_ [n0 [ks0 [Hn0 Hks0]]]].
          destruct Hnet as [Ha _].
          assert (Hn0' : In n0 ("input" :: map fst nodes)).
          { rewrite E. rewrite map_app. destruct Hn0 as [Hn0|Hn0]; [left; exact Hn0|right; apply in_or_app; left; exact Hn0]. }
          destruct (apart_source_unique _ _ _ _ _ _ Ha Hn Hn0' (eq_trans (eq_sym Hks) Hks0)) as [-> ->].
          destruct (apart_source_unique _ _ _ _ _ _ Ha Hn2 Hn0' (eq_trans (eq_sym Hks2) Hks0)) as [-> ->].
          rewrite (IHv n0 Hn0), walk_tmap, Hw2 in Hw. injection Hw as <-. reflexivity. }
        subst ind2. rewrite map_app. intros n [<-|Hn].
        + apply IHv. left; reflexivity.
        + apply in_app_or in Hn as [Hn|[<-|[]]]; [apply IHv; right; exact Hn|].
          simpl. symmetry. eapply (Hhon p m deps Hin); eauto. }
    assert (Hv := Hall nodes [] (eq_sym (app_nil_r _))). clear Hall Hnodes0.
    assert (Hfill : forall deps ind ind2, (forall q, has_leaf deps q -> True) ->
      filled (value_at sep ("input" :: map fst nodes) val) deps ind ->
      filled (value_at sep ("input" :: map fst nodes) vs) deps ind2 -> ind2 = tmap shape ind).
    { intros deps ind ind2 _ F1 G1.
      eapply filled_fun; [exact G1|refine (filled_tmap shape (value_at sep ("input" :: map fst nodes) val) (fun q y => exists d, value_at sep ("input" :: map fst nodes) val q d /\ y = tmap shape d) deps _ ind F1); eauto|].
      intros q y y' Hq [n [ks [Hn [Hks Hw]]]] [d [[n2 [ks2 [Hn2 [Hks2 Hw2]]]] ->]].
      destruct Hnet as [Ha _].
      destruct (apart_source_unique _ _ _ _ _ _ Ha Hn Hn2 (eq_trans (eq_sym Hks) Hks2)) as [-> ->].
      rewrite (Hv n2 Hn2), walk_tmap, Hw2 in Hw. injection Hw as <-. reflexivity. }
    split; [|split].
    + intros n Hn. rewrite (V2 n Hn). f_equal. apply Hv. exact Hn.
    + intros p m deps Hi. destruct (V3 p m deps Hi) as [ind2 [G1 [G2 G3]]].
      destruct (D2 p m deps Hi) as [ind [mp [ms [F1 [F2 [F3 F4]]]]]].
      exists ind. split; [exact F1|]. rewrite G3. f_equal. eapply Hfill; eauto.
    + eapply Hfill; [auto|exact Hout|]. eapply filled_mono; [apply tmapM_filled; exact H3|]. intros q d Hq Hl. cbv beta in Hl.
      destruct Hnet as [_ [_ [_ [_ Ho]]]]. destruct (Ho q Hq) as [Hc [n [ks [Hn Hks]]]].
      apply look_walk in Hl; [|exact Hc]. rewrite Hks, walk_app, (V2 n Hn) in Hl.
      exists n, ks. auto.
Qed.
End Shapes.

Section ModelShapes.
Variable sep : ascii.
Hypothesis Hsep : is_digit_char sep = false.
Hypothesis Hsi : no_sep sep "input" = true.
Hypothesis Hso : no_sep sep "output" = true.
Variable uuid : nat -> string.
Context {A Rng M Sh : Type}.
Variable call : M -> tree A -> tree A -> bool -> tree A -> Rng -> result (tree A * tree A).
Variable shape : A -> Sh.
Variable out_shape : M -> tree Sh -> result (tree Sh).

Theorem model_shapes_agree modules conns params data training state rng out st' ins outs o :
  good_network sep uuid modules conns ->
  (forall p m, live_module sep modules conns p -> walk modules (split sep p) = Some (Leaf m) ->
     honest shape call out_shape m) ->
  nonseq_model sep call uuid modules conns params data training state rng = Ok (out, st') ->
  model_shapes sep out_shape uuid modules conns (tmap shape data) = Ok (ins, outs, o) ->
  exists nodes out_deps val news,
    network_of sep uuid modules conns nodes out_deps /\
    dataflow sep call "input" nodes params data training state rng val news /\
    filled (value_at sep ("input" :: map fst nodes) val) out_deps out /\
    (forall n, In n ("input" :: map fst nodes) -> walk outs (split sep n) = Some (tmap shape (val n))) /\
    (forall p m deps, In (p, (m, deps)) nodes -> exists ind,
        filled (value_at sep ("input" :: map fst nodes) val) deps ind /\
    walk ins (split sep p) = Some (tmap shape ind)) /\
    o = tmap shape out.
Proof.
  intros Hg Hh H Hs. rewrite model_compiled in H.
  apply rbind_ok in H as [[[order callables] [deps out_deps]] [Hc H]].
  destruct (compiled_spec sep Hsep Hsi Hso uuid _ _ _ _ _ _ Hg Hc) as [nodes [Eo [Ec [Ed [Hn Hok]]]]].
  unfold compiled in Hc. unfold model_shapes in Hs.
  destruct (get_execution_order sep modules conns) as [order'|]; [|discriminate]. cbn [rbind] in *.
  destruct (module_callables sep modules order') as [cs|]; [|discriminate]. cbn [rbind] in *.
  destruct (module_input_dependencies sep uuid modules conns) as [dd|]; [|discriminate]. cbn [rbind] in *.
  injection Hc as -> -> ->. subst order callables deps.
  destruct (nonseq_sound sep Hsi call nodes out_deps params data training state rng out st' Hok H)
    as [val [news [H1 [H2 _]]]].
  exists nodes, out_deps, val, news.
  destruct (shapes_agree sep Hsi out_shape modules call shape nodes out_deps params data training state rng val news out ins outs o)
    as [S1 [S2 S3]]; auto.
  - apply Hn.
  - intros p m d Hi. assert (Hw : walk modules (split sep p) = Some (Leaf m)) by (eapply Hn; eauto).
    eapply Hh; [|exact Hw]. apply Hn. change p with (fst (p, (m, d))). apply in_map. exact Hi.
  - split; [exact Hn|]. auto 10.
Qed.
End ModelShapes.
