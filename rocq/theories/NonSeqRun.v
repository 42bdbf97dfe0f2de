(** The evaluation loop of a graph model solves the dataflow equations. *)
From Verif Require Import Base BaseLemmas TreeUtil TreeSpec TreeProofs ExtendProofs Resolve
  Connections ConcretizeSpec ConnSpec ConnProofs NonSeq NonSeqSpec NonSeqProofs.
Local Open Scope string_scope.
Local Open Scope list_scope.

Section SetP.
Context {A : Type}.
Lemma setp_ok_iff (t : tree A) ks v : Forall (fun k => k <> EmptyString) ks ->
  settable t ks <-> exists t', setp t ks v = Ok t'.
Proof.
  revert t; induction ks as [|k ks IH]; intros t Hne; [simpl; split; [tauto|intros [? ?]; discriminate]|].
  inversion Hne as [|? ? Hk Hks]; subst. cbn [setp].
  replace (String.eqb k EmptyString) with false by (symmetry; apply String.eqb_neq; exact Hk).
  rewrite andb_false_l. destruct ks as [|k2 ks].
  - destruct t as [a| |d|l|l]; simpl; try (split; [tauto|intros [? ?]; discriminate]).
    + split; [eexists; reflexivity|auto].
    + destruct (isdigit k); [|split; [intros [? _]|intros [? ?]]; discriminate].
      destruct (Nat.ltb_spec (int_of k) (length l)); split; try tauto; try (intros [? ?]; discriminate).
      * intros _; eexists; reflexivity.
      * intros [_ ?]; lia.
    + destruct (isdigit k); split; try tauto; intros [? ?]; discriminate.
  - remember (k2 :: ks) as ps. assert (Hps : forall t : tree A, settable t (k :: ps) <->
      match child t k with Some t' => settable t' ps | None => False end) by (subst ps; reflexivity).
    rewrite Hps. clear Hps. destruct ps as [|k9 ps9] eqn:Eps; [discriminate|]. rewrite <- Eps in *. clear Heqps.
    destruct t as [a| |d|l|l]; simpl; try (split; [tauto|intros [? ?]; discriminate]).
    + destruct (dget d k) as [c|]; [|split; [tauto|intros [? ?]; discriminate]].
      rewrite (IH c Hks). split; intros [t' H]; [rewrite H; eexists; reflexivity|].
      apply rbind_ok in H as [c' [H _]]; eauto.
    + destruct (isdigit k); [|split; [tauto|intros [? ?]; discriminate]].
      destruct (nth_error l (int_of k)) as [c|]; [|split; [tauto|intros [? ?]; discriminate]].
      rewrite (IH c Hks). split; intros [t' H]; [rewrite H; eexists; reflexivity|].
      apply rbind_ok in H as [c' [H _]]; eauto.
    + destruct (isdigit k); [|split; [tauto|intros [? ?]; discriminate]].
      destruct (nth_error l (int_of k)) as [c|]; [|split; [tauto|intros [? ?]; discriminate]].
      rewrite (IH c Hks). split; intros [t' H]; [rewrite H; eexists; reflexivity|].
      apply rbind_ok in H as [c' [H _]]; eauto.
Qed.

Lemma settable_cons (t : tree A) k ks : ks <> [] ->
  settable t (k :: ks) = match child t k with Some t' => settable t' ks | None => False end.
Proof. destruct ks; [congruence|reflexivity]. Qed.

Lemma settable_frame (t t' : tree A) ps v ks :
  setp t ps v = Ok t' -> diverge ps ks -> settable t ks -> settable t' ks.
Proof.
  revert t t' ks. induction ps as [|k ps IH]; intros t t' ks H Hd Hs; [discriminate|].
  destruct ks as [|k2 ks]; [exfalso; eapply diverge_nil_r; eauto|].
  apply diverge_cons in Hd.
  destruct ks as [|k3 ks].
  - assert (Hd' : key_distinct k k2) by (destruct Hd as [?|Hd]; [assumption|exfalso; eapply diverge_nil_r; eauto]).
    cbn [setp] in H. destruct (String.eqb k EmptyString && _); [discriminate|].
    destruct t as [a| |d|l|l]; simpl in Hs; try tauto.
    + destruct ps; [injection H as <-; simpl; auto|]. destruct (dget d k); [|discriminate].
      apply rbind_ok in H as [c [_ H]]. injection H as <-. simpl; auto.
    + destruct (isdigit k); [|discriminate].
      destruct ps; [destruct (int_of k <? length l)%nat; [|discriminate]; injection H as <-|
        destruct (nth_error l (int_of k)); [|discriminate]; apply rbind_ok in H as [c [_ H]]; injection H as <-];
      simpl; rewrite upd_length; exact Hs.
  - rewrite settable_cons in Hs |- * by discriminate. remember (k3 :: ks) as ks'.
    cbn [setp] in H. destruct (String.eqb k EmptyString && _); [discriminate|].
    destruct t as [a| |d|l|l]; try (simpl in Hs; tauto).
    + destruct ps as [|p2 ps].
      * injection H as <-. destruct Hd as [[Hne _]|Hd]; [|exfalso; eapply diverge_nil_l; eauto].
        simpl in *. rewrite dget_dset_other by exact Hne. exact Hs.
      * simpl in Hs. destruct (dget d k) as [c|] eqn:Ec; [|discriminate].
        apply rbind_ok in H as [c' [H1 H2]]. injection H2 as <-. simpl.
        destruct (String.eqb_spec k k2) as [<-|Hne].
        -- rewrite dget_dset_same. rewrite Ec in Hs. destruct Hd as [[Hd _]|Hd]; [congruence|].
           apply (IH _ _ _ H1 Hd Hs).
        -- rewrite dget_dset_other by exact Hne. exact Hs.
    + simpl in Hs. destruct (isdigit k2) eqn:E2; [|tauto].
      destruct (isdigit k) eqn:Ek; [|discriminate]. destruct ps as [|p2 ps].
      * destruct (int_of k <? length l)%nat; [|discriminate]. injection H as <-.
        simpl. rewrite E2. destruct Hd as [[Hne Hint]|Hd]; [|exfalso; eapply diverge_nil_l; eauto].
        rewrite nth_upd_other by (apply Hint; auto). exact Hs.
      * destruct (nth_error l (int_of k)) as [c|] eqn:Ec; [|discriminate].
        apply rbind_ok in H as [c' [H1 H2]]. injection H2 as <-. simpl. rewrite E2.
        destruct (Nat.eq_dec (int_of k) (int_of k2)) as [Ei|Hi].
        -- rewrite <- Ei in Hs |- *. rewrite nth_upd_same by (eapply nth_error_lt; eauto). rewrite Ec in Hs.
           destruct Hd as [[_ Hd]|Hd]; [exfalso; apply Hd; auto|]. apply (IH _ _ _ H1 Hd Hs).
        -- rewrite nth_upd_other by exact Hi. exact Hs.
    + simpl in Hs. destruct (isdigit k2) eqn:E2; [|tauto].
      destruct (isdigit k) eqn:Ek; [|discriminate]. destruct ps as [|p2 ps]; [discriminate|].
      destruct (nth_error l (int_of k)) as [c|] eqn:Ec; [|discriminate].
        apply rbind_ok in H as [c' [H1 H2]]. injection H2 as <-. simpl. rewrite E2.
        destruct (Nat.eq_dec (int_of k) (int_of k2)) as [Ei|Hi].
        -- rewrite <- Ei in Hs |- *. rewrite nth_upd_same by (eapply nth_error_lt; eauto). rewrite Ec in Hs.
           destruct Hd as [[_ Hd]|Hd]; [exfalso; apply Hd; auto|]. apply (IH _ _ _ H1 Hd Hs).
        -- rewrite nth_upd_other by exact Hi. exact Hs.
Qed.
End SetP.

Lemma diverge_irrefl p : ~ diverge p p.
Proof. intros [i [a [b [H1 [H2 [H3 _]]]]]]. congruence. Qed.
Lemma diverge_sym p q : diverge p q -> diverge q p.
Proof. intros [i [a [b [H1 [H2 [H3 H4]]]]]]. exists i, b, a. repeat split; auto.
  intros X Y Z. exact (H4 Y X (eq_sym Z)). Qed.
Lemma diverge_app_l p q r : diverge p q -> diverge (p ++ r) q.
Proof.
  intros [i [a [b [H1 [H2 H3]]]]]. exists i, a, b. split; [|auto]. rewrite nth_error_app1; [exact H1|].
  eapply nth_error_lt; eauto.
Qed.
Lemma diverge_app p q r s : diverge p q -> diverge (p ++ r) (q ++ s).
Proof. intros H. apply diverge_app_l, diverge_sym, diverge_app_l, diverge_sym, H. Qed.

Lemma apart_app sep l m : apart sep (l ++ m) -> apart sep l /\ apart sep m /\
  forall p q, In p l -> In q m -> diverge (split sep p) (split sep q).
Proof.
  induction l as [|x l IH]; intros H; [repeat split; [constructor|exact H|intros ? ? []]|].
  inversion H as [|? ? H1 H2]; subst. apply IH in H2 as [H2 [H3 H4]]. split; [|split].
  - constructor; [intros q Hq; apply H1, in_or_app; auto|exact H2].
  - exact H3.
  - intros p q [<-|Hp] Hq; [apply H1, in_or_app; auto|auto].
Qed.

Lemma apart_In sep l p q : apart sep l -> In p l -> In q l -> p = q \/ diverge (split sep p) (split sep q).
Proof.
  induction 1 as [|x l H1 H2 IH]; intros Hp Hq; [destruct Hp|].
  destruct Hp as [<-|Hp], Hq as [<-|Hq]; auto. right. apply diverge_sym; auto.
Qed.

Lemma app_prefix_cmp {X} (a b c d : list X) : a ++ b = c ++ d ->
  (exists e, c = a ++ e) \/ (exists e, a = c ++ e).
Proof.
  revert c; induction a as [|x a IH]; intros c H; [left; exists c; reflexivity|].
  destruct c as [|y c]; [right; eexists; reflexivity|]. injection H as <- H.
  destruct (IH c H) as [[e ->]|[e ->]]; [left|right]; eexists; reflexivity.
Qed.

Lemma diverge_prefix p e : ~ diverge p (p ++ e).
Proof.
  intros [i [a [b [H1 [H2 [H3 _]]]]]]. rewrite nth_error_app1 in H2 by (eapply nth_error_lt; eauto). congruence.
Qed.

Lemma apart_source_unique sep l n n' ks ks' :
  apart sep l -> In n l -> In n' l -> split sep n ++ ks = split sep n' ++ ks' -> n = n' /\ ks = ks'.
Proof.
  intros Ha Hn Hn' E. assert (n = n').
  { destruct (apart_In _ _ _ _ Ha Hn Hn') as [?|Hd]; [assumption|exfalso].
    apply (diverge_app _ _ ks ks') in Hd. rewrite E in Hd. eapply diverge_irrefl; eauto. }
  subst. split; [reflexivity|]. eapply app_inv_head; eauto.
Qed.

Section Run.
Variable sep : ascii.
Context {A Rng M : Type}.
Variable call : M -> tree A -> tree A -> bool -> tree A -> Rng -> result (tree A * tree A).
Variables (params : tree A) (training : bool) (rng : Rng).

Notation step := (node_step sep call params training rng).

Definition wrap (nodes : list (string * (M * tree string))) : list (string * (option M * tree string)) :=
  map (fun x => (fst x, (Some (fst (snd x)), snd (snd x)))) nodes.

(** one module, success *)
Lemma step_ok inter st p m deps inter' st' :
  reserved_name p = false ->
  step (inter, st) (p, (Some m, deps)) = Ok (inter', st') ->
  exists ind mp ms out ns,
    filled (fun q d => look sep shape_leaf_data inter q = Ok d) deps ind /\
    look sep no_leaf params p = Ok mp /\ look sep no_leaf st p = Ok ms /\
    call m mp ind training ms rng = Ok (out, ns) /\
    setitem sep no_leaf inter p out = Ok inter' /\ setitem sep no_leaf st p ns = Ok st'.
Proof.
  intros Hr H. unfold node_step in H. rewrite Hr in H.
  apply rbind_ok in H as [ind [H1 H]]. apply rbind_ok in H as [mp [H2 H]].
  apply rbind_ok in H as [ms [H3 H]]. apply rbind_ok in H as [[out ns] [H4 H]].
  apply rbind_ok in H as [i' [H5 H]]. apply rbind_ok in H as [s' [H6 H]]. injection H as <- <-.
  exists ind, mp, ms, out, ns. split; [apply tmapM_filled; exact H1|]. auto 10.
Qed.

Definition ext (val : string -> tree A) (p : string) (v : tree A) (n : string) : tree A :=
  if String.eqb n p then v else val n.
Lemma ext_same val p v : ext val p v p = v.
Proof. unfold ext. rewrite String.eqb_refl. reflexivity. Qed.
Lemma ext_other val p v n : n <> p -> ext val p v n = val n.
Proof. intros H. unfold ext. destruct (String.eqb_spec n p); congruence. Qed.

Lemma run_spec nodes : forall done inter st inter' st' val news,
  (forall n, In n done -> walk inter (split sep n) = Some (val n)) ->
  apart sep (done ++ map fst nodes) ->
  (forall n, In n (done ++ map fst nodes) -> clean sep n) ->
  (forall p, In p (map fst nodes) -> reserved_name p = false) ->
  (forall l1 p m deps l2, nodes = l1 ++ (p, (m, deps)) :: l2 -> forall q, has_leaf deps q ->
      clean sep q /\ exists n ks, In n (done ++ map fst l1) /\ split sep q = split sep n ++ ks) ->
  rfold step (wrap nodes) (inter, st) = Ok (inter', st') ->
  exists val' news',
    (forall n, In n done -> val' n = val n) /\ (forall n, In n done -> news' n = news n) /\
    (forall n, In n (done ++ map fst nodes) -> walk inter' (split sep n) = Some (val' n)) /\
    (forall p m deps, In (p, (m, deps)) nodes ->
       exists ind mp ms,
         filled (value_at sep (done ++ map fst nodes) val') deps ind /\
         walk params (split sep p) = Some mp /\ walk st (split sep p) = Some ms /\
         call m mp ind training ms rng = Ok (val' p, news' p) /\
         walk st' (split sep p) = Some (news' p)) /\
    (forall ks, (forall p, In p (map fst nodes) -> diverge (split sep p) ks) -> walk st' ks = walk st ks).
Proof.
  induction nodes as [|[p [m deps]] nodes IH]; intros done inter st inter' st' val news Hval Hap Hcl Hres Hsrc H.
  { injection H as <- <-. exists val, news. rewrite app_nil_r in *.
    split; [auto|]. split; [auto|]. split; [exact Hval|]. split; [intros ? ? ? []|auto]. }
  cbn [wrap map rfold fst snd] in H. apply rbind_ok in H as [[i1 s1] [Hs H]].
  assert (Hr : reserved_name p = false) by (apply Hres; left; reflexivity).
  apply step_ok in Hs as [ind [mp [ms [out [ns [H1 [H2 [H3 [H4 [H5 H6]]]]]]]]]]; [|exact Hr].
  assert (Hcp : clean sep p) by (apply Hcl, in_or_app; right; left; reflexivity).
  assert (Hpd : forall n, In n done -> diverge (split sep n) (split sep p)).
  { intros n Hn. apply apart_app in Hap as [_ [_ Hap]]. apply Hap; [exact Hn|left; reflexivity]. }
  assert (Hpn : forall n, In n (map fst nodes) -> diverge (split sep p) (split sep n)).
  { intros n Hn. apply apart_app in Hap as [_ [Hap _]]. inversion Hap; subst; auto. }
  assert (Hnp : forall n, In n done -> n <> p).
  { intros n Hn ->. eapply diverge_irrefl. apply Hpd. exact Hn. }
  assert (Hassoc : done ++ map fst ((p, (m, deps)) :: nodes) = (done ++ [p]) ++ map fst nodes)
    by (rewrite <- app_assoc; reflexivity).
  destruct (IH (done ++ [p]) i1 s1 inter' st' (ext val p out) (ext news p ns)) as [val' [news' [V1 [V1' [V2 [V3 V4]]]]]].
  - intros n Hn. apply in_app_or in Hn as [Hn|[<-|[]]].
    + rewrite ext_other by auto. rewrite <- (Hval n Hn). eapply set_walk_other; [exact H5|].
      apply diverge_sym, Hpd, Hn.
    + rewrite ext_same. eapply set_walk_same; eauto.
  - rewrite <- Hassoc. exact Hap.
  - intros n Hn. rewrite <- Hassoc in Hn. apply Hcl, Hn.
  - intros q Hq. apply Hres. right; exact Hq.
  - intros l1 q m' deps' l2 E q' Hq'. destruct (Hsrc ((p, (m, deps)) :: l1) q m' deps' l2 (f_equal (cons _) E) q' Hq')
      as [Hc [n [ks [Hn Hks]]]]. split; [exact Hc|]. exists n, ks. split; [|exact Hks].
    rewrite <- app_assoc. exact Hn.
  - exact H.
  - exists val', news'. split; [|split; [|split; [|split]]].
    + intros n Hn. rewrite V1 by (apply in_or_app; auto). apply ext_other. auto.
    + intros n Hn. rewrite V1' by (apply in_or_app; auto). apply ext_other. auto.
    + intros n Hn. rewrite Hassoc in Hn. apply V2, Hn.
    + rewrite Hassoc. intros p' m' deps' [E|Hin].
      * injection E as <- <- <-. exists ind, mp, ms.
        assert (Ep : val' p = out) by (rewrite V1 by (apply in_or_app; right; left; reflexivity); apply ext_same).
        assert (En : news' p = ns) by (rewrite V1' by (apply in_or_app; right; left; reflexivity); apply ext_same).
        rewrite Ep, En. split; [|split; [|split; [|split]]].
        -- eapply filled_mono; [exact H1|]. intros q d Hq Hl. cbv beta in Hl.
           destruct (Hsrc [] p m deps nodes eq_refl q Hq) as [Hc [n [ks [Hn Hks]]]].
           simpl in Hn. rewrite app_nil_r in Hn.
           apply look_walk in Hl; [|exact Hc]. rewrite Hks, walk_app, (Hval n Hn) in Hl.
           exists n, ks. split; [apply in_or_app; left; apply in_or_app; auto|]. split; [exact Hks|].
           rewrite V1 by (apply in_or_app; auto). rewrite ext_other by auto. exact Hl.
        -- apply look_walk in H2; auto.
        -- apply look_walk in H3; auto.
        -- exact H4.
        -- rewrite V4; [eapply set_walk_same; eauto|]. intros n Hn. apply diverge_sym, Hpn, Hn.
      * destruct (V3 p' m' deps' Hin) as [ind' [mp' [ms' [F1 [F2 [F3 [F4 F5]]]]]]].
        exists ind', mp', ms'. split; [exact F1|]. split; [exact F2|]. split; [|auto].
        rewrite <- F3. symmetry. eapply set_walk_other; [exact H6|]. apply Hpn. apply (in_map fst) in Hin. exact Hin.
    + intros ks Hks. rewrite V4 by (intros q Hq; apply Hks; right; exact Hq).
      eapply set_walk_other; [exact H6|]. apply Hks. left; reflexivity.
Qed.

(** converse: a solution of the equations is what the loop computes *)
Lemma run_complete nodes : forall done inter st val news,
  (forall n, In n done -> walk inter (split sep n) = Some (val n)) ->
  apart sep (done ++ map fst nodes) ->
  (forall n, In n (done ++ map fst nodes) -> clean sep n) ->
  (forall p, In p (map fst nodes) -> reserved_name p = false) ->
  (forall l1 p m deps l2, nodes = l1 ++ (p, (m, deps)) :: l2 -> forall q, has_leaf deps q ->
      clean sep q /\ exists n ks, In n (done ++ map fst l1) /\ split sep q = split sep n ++ ks) ->
  (forall p, In p (map fst nodes) -> settable inter (split sep p) /\ settable st (split sep p)) ->
  (forall p m deps, In (p, (m, deps)) nodes ->
       exists ind mp ms,
         filled (value_at sep (done ++ map fst nodes) val) deps ind /\
         walk params (split sep p) = Some mp /\ walk st (split sep p) = Some ms /\
         call m mp ind training ms rng = Ok (val p, news p)) ->
  exists inter' st',
    rfold step (wrap nodes) (inter, st) = Ok (inter', st') /\
    (forall n, In n (done ++ map fst nodes) -> walk inter' (split sep n) = Some (val n)) /\
    (forall p, In p (map fst nodes) -> walk st' (split sep p) = Some (news p)).
Proof.
  induction nodes as [|[p [m deps]] nodes IH]; intros done inter st val news Hval Hap Hcl Hres Hsrc Hset Hdf.
  { exists inter, st. rewrite app_nil_r. split; [reflexivity|]. split; [exact Hval|intros ? []]. }
  cbn [wrap map rfold fst snd].
  assert (Hr : reserved_name p = false) by (apply Hres; left; reflexivity).
  assert (Hcp : clean sep p) by (apply Hcl, in_or_app; right; left; reflexivity).
  assert (Hpd : forall n, In n done -> diverge (split sep n) (split sep p)).
  { intros n Hn. apply apart_app in Hap as [_ [_ Hap']]. apply Hap'; [exact Hn|left; reflexivity]. }
  assert (Hpn : forall n, In n (map fst nodes) -> diverge (split sep p) (split sep n)).
  { intros n Hn. apply apart_app in Hap as [_ [Hap' _]]. inversion Hap'; subst; auto. }
  assert (Hassoc : done ++ map fst ((p, (m, deps)) :: nodes) = (done ++ [p]) ++ map fst nodes)
    by (rewrite <- app_assoc; reflexivity).
  destruct (Hdf p m deps (or_introl eq_refl)) as [ind [mp [ms [F1 [F2 [F3 F4]]]]]].
  destruct (Hset p (or_introl eq_refl)) as [Si Ss].
  apply (setp_ok_iff _ _ (val p)) in Si as [i1 Hi1]; [|apply Hcp]. rewrite <- setitem_split in Hi1.
  apply (setp_ok_iff _ _ (news p)) in Ss as [s1 Hs1]; [|apply Hcp]. rewrite <- setitem_split in Hs1.
  assert (Estep : step (inter, st) (p, (Some m, deps)) = Ok (i1, s1)).
  { unfold node_step. rewrite Hr.
    rewrite (filled_tmapM (look sep shape_leaf_data inter) deps ind).
    - cbn [rbind]. apply look_walk_iff in F2; [|exact Hcp]. rewrite F2. cbn [rbind].
      apply look_walk_iff in F3; [|exact Hcp]. rewrite F3. cbn [rbind]. rewrite F4. cbn [rbind].
      rewrite Hi1. cbn [rbind]. rewrite Hs1. reflexivity.
    - eapply filled_mono; [exact F1|]. intros q d Hq [n [ks [Hn [Hks Hw]]]].
      destruct (Hsrc [] p m deps nodes eq_refl q Hq) as [Hc [n2 [ks2 [Hn2 Hks2]]]].
      simpl in Hn2. rewrite app_nil_r in Hn2.
      assert (n2 = n /\ ks2 = ks) as [-> ->].
      { eapply apart_source_unique; [exact Hap|apply in_or_app; left; exact Hn2|exact Hn|congruence]. }
      apply walk_look; [exact shape_leaf_data_childless|exact Hc|]. rewrite Hks, walk_app, (Hval n Hn2). exact Hw. }
  rewrite Estep. cbn [rbind].
  destruct (IH (done ++ [p]) i1 s1 val news) as [inter' [st' [R1 [R2 R3]]]].
  - intros n Hn. apply in_app_or in Hn as [Hn|[<-|[]]].
    + rewrite <- (Hval n Hn). eapply set_walk_other; [exact Hi1|]. apply diverge_sym, Hpd, Hn.
    + eapply set_walk_same; eauto.
  - rewrite <- Hassoc. exact Hap.
  - intros n Hn. rewrite <- Hassoc in Hn. apply Hcl, Hn.
  - intros q Hq. apply Hres. right; exact Hq.
  - intros l1 q m' deps' l2 E q' Hq'. destruct (Hsrc ((p, (m, deps)) :: l1) q m' deps' l2 (f_equal (cons _) E) q' Hq')
      as [Hc [n [ks [Hn Hks]]]]. split; [exact Hc|]. exists n, ks. split; [|exact Hks].
    rewrite <- app_assoc. exact Hn.
  - intros q Hq. destruct (Hset q (or_intror Hq)) as [S1 S2]. rewrite setitem_split in Hi1, Hs1.
    split; (eapply settable_frame; [eassumption|apply Hpn; exact Hq|assumption]).
  - intros q m' deps' Hin. destruct (Hdf q m' deps' (or_intror Hin)) as [ind' [mp' [ms' [G1 [G2 [G3 G4]]]]]].
    exists ind', mp', ms'. rewrite <- Hassoc. split; [exact G1|]. split; [exact G2|]. split; [|exact G4].
    rewrite <- G3. eapply set_walk_other; [exact Hs1|]. apply Hpn. apply (in_map fst) in Hin. exact Hin.
  - exists inter', st'. split; [exact R1|]. split; [intros n Hn; apply R2; rewrite <- app_assoc; exact Hn|].
    intros q [<-|Hq]; [|apply R3; exact Hq].
    (* the state of [p] is not touched afterwards *)
    destruct (run_spec nodes (done ++ [p]) i1 s1 inter' st' val news) as [v2 [n2 [_ [_ [_ [_ Hfr]]]]]].
    + intros n Hn. apply in_app_or in Hn as [Hn|[<-|[]]].
      * rewrite <- (Hval n Hn). eapply set_walk_other; [exact Hi1|]. apply diverge_sym, Hpd, Hn.
      * eapply set_walk_same; eauto.
    + rewrite <- Hassoc. exact Hap.
    + intros n Hn. rewrite <- Hassoc in Hn. apply Hcl, Hn.
    + intros q Hq. apply Hres. right; exact Hq.
    + intros l1 q m' deps' l2 E q' Hq'. destruct (Hsrc ((p, (m, deps)) :: l1) q m' deps' l2 (f_equal (cons _) E) q' Hq')
        as [Hc [n [ks [Hn Hks]]]]. split; [exact Hc|]. exists n, ks. split; [|exact Hks].
      rewrite <- app_assoc. exact Hn.
    + exact R1.
    + rewrite Hfr; [eapply set_walk_same; eauto|]. intros n Hn. apply diverge_sym, Hpn, Hn.
Qed.
End Run.

(* ---- the empty slots made for the intermediate results ---- *)
Lemma combine_fst {X Y} (l : list X) (m : list Y) : length m = length l -> map fst (combine l m) = l.
Proof. revert m; induction l as [|x l IH]; intros [|y m] H; try discriminate; [reflexivity|]. simpl. f_equal. apply IH. simpl in H; lia. Qed.

Section Slots.
Context {A : Type}.
Variable eqA : A -> A -> bool.
Variable sep : ascii.

Lemma settable_dset (d : list (string * tree A)) k c' ks :
  (forall c, dget d k = Some c -> forall r, settable c r -> settable c' r) ->
  settable (Dict d) ks -> settable (Dict (dset d k c')) ks.
Proof.
  intros Hc Hs. destruct ks as [|k2 [|k3 ks]]; [exact Hs|simpl; auto|].
  rewrite settable_cons in Hs |- * by discriminate. simpl child in *.
  destruct (String.eqb_spec k k2) as [<-|Hne].
  - rewrite dget_dset_same. destruct (dget d k) as [c|]; [|tauto]. eapply Hc; eauto.
  - rewrite dget_dset_other by exact Hne. exact Hs.
Qed.

Lemma settable_pad_upd (l : list (tree A)) i c' ks :
  (forall c, nth_error l i = Some c -> forall r, settable c r -> settable c' r) ->
  settable (Lst l) ks -> settable (Lst (upd (pad l i) i c')) ks.
Proof.
  intros Hc Hs. assert (Hl := pad_length l i). destruct ks as [|k2 [|k3 ks]]; [exact Hs| |].
  - simpl in *. rewrite upd_length. lia.
  - rewrite settable_cons in Hs |- * by discriminate. simpl child in *.
    destruct (isdigit k2); [|exact Hs]. destruct (nth_error l (int_of k2)) as [c|] eqn:E; [|tauto].
    destruct (Nat.eq_dec i (int_of k2)) as [Ei|Hi].
    + rewrite <- Ei in *. rewrite nth_upd_same by (destruct Hl; assumption). eapply Hc; eauto.
    + rewrite nth_upd_other by exact Hi. erewrite nth_error_pad_mono by exact E. exact Hs.
Qed.

Lemma settable_pad (l : list (tree A)) i ks : settable (Lst l) ks -> settable (Lst (pad l i)) ks.
Proof.
  intros Hs. assert (Hl := pad_length l i). destruct ks as [|k2 [|k3 ks]]; [exact Hs| |].
  - simpl in *. lia.
  - rewrite settable_cons in Hs |- * by discriminate. simpl child in *.
    destruct (isdigit k2); [|exact Hs]. destruct (nth_error l (int_of k2)) as [c|] eqn:E; [|tauto].
    erewrite nth_error_pad_mono by exact E. exact Hs.
Qed.

Lemma settable_leafless_none (c' : tree A) r : settable (@NoneT A) r -> settable c' r.
Proof. destruct r as [|k [|k2 r]]; simpl; tauto. Qed.

Lemma nth_pad_none (l : list (tree A)) i c : nth_error l i = Some c -> nth i (pad l i) NoneT = c.
Proof.
  intros H. apply nth_error_nth. eapply nth_error_pad_mono; eauto.
Qed.

Lemma extend_walk_settable ps : forall (t : tree A) done fill t' rec, ps <> [] ->
  extend_walk eqA sep t done ps fill = Ok (t', rec) ->
  settable t' ps /\ (forall ks, settable t ks -> settable t' ks).
Proof.
  induction ps as [|key ps IH]; intros t done fill t' rec Hne H; [congruence|]. clear Hne.
  assert (Hnode : forall node r0, (forall ks, settable t ks -> settable node ks) ->
    extend_node eqA (fun c => extend_walk eqA sep c (done ++ [key]) ps fill) key ps fill node r0 = Ok (t', rec) ->
    settable t' (key :: ps) /\ (forall ks, settable t ks -> settable t' ks)).
  { intros node r0 Hsub HN. enough (settable t' (key :: ps) /\ (forall ks, settable node ks -> settable t' ks))
      as [G1 G2] by (split; auto). clear H Hsub t.
    destruct node as [a| |d|l|l]; try discriminate; unfold extend_node in HN.
    - destruct ps as [|k2 ps].
      + destruct (dget d key) as [old|] eqn:Ed.
        * destruct (conflict _ _ _); [discriminate|]. injection HN as <- <-. split; [simpl; auto|auto].
        * injection HN as <- <-. split; [simpl; auto|]. intros ks. apply settable_dset. congruence.
      + apply rbind_ok in HN as [[c' rec'] [H1 H2]]. injection H2 as <- <-.
        apply IH in H1 as [H1 H2]; [|discriminate]. split.
        * rewrite settable_cons by discriminate. simpl child. rewrite dget_dset_same. exact H1.
        * intros ks. apply settable_dset. intros c Hc. rewrite Hc in H2. exact H2.
    - destruct (isdigit key) eqn:Ek; [|discriminate]. assert (Hl := pad_length l (int_of key)).
      destruct ps as [|k2 ps].
      + assert (Hst : forall v, settable (Lst (upd (pad l (int_of key)) (int_of key) v)) [key]).
        { intros v. simpl. rewrite upd_length, Ek. split; [reflexivity|destruct Hl; assumption]. }
        assert (Hst' : settable (Lst (pad l (int_of key))) [key]).
        { simpl. rewrite Ek. split; [reflexivity|destruct Hl; assumption]. }
        destruct (nth (int_of key) (pad l (int_of key)) NoneT) eqn:En.
        2: { injection HN as <- <-. split; [apply Hst|]. intros ks. apply settable_pad_upd.
             intros c Hc. apply nth_pad_none in Hc. rewrite En in Hc. subst c. intros r Hr.
             apply settable_leafless_none. exact Hr. }
        all: destruct (conflict _ _ _); [discriminate|]; injection HN as <- <-; split; [exact Hst'|];
          intros ks; apply settable_pad.
      + apply rbind_ok in HN as [[c' rec'] [H1 H2]]. injection H2 as <- <-.
        apply IH in H1 as [H1 H2]; [|discriminate]. split.
        * rewrite settable_cons by discriminate. simpl child. rewrite Ek, nth_upd_same by (destruct Hl; assumption).
          exact H1.
        * intros ks. apply settable_pad_upd. intros c Hc. apply nth_pad_none in Hc. rewrite Hc in H2.
          destruct c; try exact H2. intros r Hr. apply settable_leafless_none. exact Hr. }
  cbn [extend_walk] in H. destruct t as [a| |d|l|l]; try (eapply Hnode; [|exact H]; auto; fail).
  destruct (String.eqb _ _); [discriminate|]. eapply Hnode; [|exact H].
  intros [|k [|k2 ks]]; simpl; tauto.
Qed.

Lemma tuple_free_dset (d : list (string * tree A)) k c : tuple_free (Dict d) -> tuple_free c -> tuple_free (Dict (dset d k c)).
Proof.
  intros H Hc. inversion H as [| |? HF|]; subst. constructor. clear H.
  induction d as [|[k' v] d IH]; simpl; [constructor; auto|]. inversion HF; subst.
  destruct (String.eqb k k'); constructor; auto.
Qed.
Lemma Forall_upd {X} (P : X -> Prop) l i c : Forall P l -> P c -> Forall P (upd l i c).
Proof.
  intros H Hc. revert i. induction H as [|x l Hx H IH]; intros [|i]; simpl; constructor; auto.
Qed.
Lemma Forall_pad (P : tree A -> Prop) l i : Forall P l -> P NoneT -> Forall P (pad l i).
Proof.
  intros H Hc. unfold pad. apply Forall_app. split; [exact H|]. apply Forall_forall. intros x Hx.
  apply repeat_spec in Hx as ->. exact Hc.
Qed.
Lemma Forall_nth_default (P : tree A -> Prop) l i : Forall P l -> P NoneT -> P (nth i l NoneT).
Proof.
  intros H Hn. destruct (nth_in_or_default i l NoneT) as [Hi| ->]; [|exact Hn].
  rewrite Forall_forall in H. auto.
Qed.

Lemma new_node_tuple_free k : tuple_free (@new_node A k).
Proof. unfold new_node. destruct (isdigit k); repeat constructor. Qed.

(** without tuples nothing is recorded and no tuple appears *)
Lemma extend_walk_tuple_free ps : forall (t : tree A) done fill t' rec,
  tuple_free t -> tuple_free fill ->
  extend_walk eqA sep t done ps fill = Ok (t', rec) -> tuple_free t' /\ rec = [].
Proof.
  induction ps as [|key ps IH]; intros t done fill t' rec Ht Hf H; [injection H as <- <-; auto|].
  cbn [extend_walk] in H.
  destruct t as [a| |d|l|l]; try discriminate; unfold extend_node in H.
  - assert (Hc : forall c, dget d key = Some c -> tuple_free c).
    { intros c Hc. inversion Ht as [| |? HF|]; subst. rewrite Forall_forall in HF.
      apply dget_In in Hc. apply (HF _ Hc). }
    destruct ps as [|k2 ps].
    + destruct (dget d key) as [old|].
      * destruct (conflict _ _ _); [discriminate|]. injection H as <- <-. auto.
      * injection H as <- <-. split; [apply tuple_free_dset; auto|reflexivity].
    + apply rbind_ok in H as [[c' rec'] [H1 H2]]. injection H2 as <- <-.
      apply IH in H1 as [H1 ->]; auto.
      * split; [apply tuple_free_dset; auto|reflexivity].
      * destruct (dget d key); [auto|apply new_node_tuple_free].
  - destruct (isdigit key); [|discriminate].
    assert (HF : Forall tuple_free (pad l (int_of key))).
    { apply Forall_pad; [inversion Ht; assumption|constructor]. }
    destruct ps as [|k2 ps].
    + assert (G1 : tuple_free (Lst (upd (pad l (int_of key)) (int_of key) fill))) by (constructor; apply Forall_upd; auto).
      destruct (nth (int_of key) (pad l (int_of key)) NoneT);
        try (destruct (conflict _ _ _); [discriminate|]); injection H as <- <-; split; auto; constructor; exact HF.
    + apply rbind_ok in H as [[c' rec'] [H1 H2]]. injection H2 as <- <-.
      apply IH in H1 as [H1 ->]; auto.
      * split; [constructor; apply Forall_upd; auto|reflexivity].
      * assert (Hn : tuple_free (nth (int_of key) (pad l (int_of key)) NoneT)) by (apply Forall_nth_default; [auto|constructor]).
        destruct (nth (int_of key) (pad l (int_of key)) NoneT); auto. apply new_node_tuple_free.
  - inversion Ht.
Qed.

Lemma extend_fold_settable pfs : forall (t : tree A) t' rec',
  tuple_free t -> Forall (fun pf => tuple_free (snd pf)) pfs ->
  rfold (fun '(t, recs) '(p, fill) =>
           let* (t', r) := extend_walk eqA sep t [] (split sep p) fill in Ok (t', recs ++ r))
        pfs (t, []) = Ok (t', rec') ->
  tuple_free t' /\ rec' = [] /\ (forall ks, settable t ks -> settable t' ks) /\
  (forall p, In p (map fst pfs) -> settable t' (split sep p)).
Proof.
  induction pfs as [|[p f] pfs IH]; intros t t' rec' Ht Hf H.
  { injection H as <- <-. repeat split; auto. intros ? []. }
  apply Forall_cons_iff in Hf as [Hf1 Hf2]. cbn [rfold] in H. apply rbind_ok in H as [[t1 r1] [H1 H]].
  apply rbind_ok in H1 as [[t2 r2] [H1 H2]]. injection H2 as <- <-.
  destruct (extend_walk_settable _ _ _ _ _ _ (split_nonempty sep p) H1) as [S1 S2].
  apply extend_walk_tuple_free in H1 as [Htf ->]; auto.
  apply IH in H as [G1 [G2 [G3 G4]]]; auto. repeat split; auto.
  intros q [<-|Hq]; auto.
Qed.

Lemma extend_none_settable paths fv (t : tree A) :
  (forall f, In f (match fv with FillList l => l | FillOne v => repeat v (length paths) end) -> tuple_free f) ->
  extend_structure eqA sep None paths fv = Ok t ->
  tuple_free t /\ forall p, In p paths -> settable t (split sep p).
Proof.
  intros Hf H. unfold extend_structure in H.
  set (fills := match fv with FillList l => l | FillOne v => _ end) in *.
  destruct (Nat.eqb_spec (length fills) (length paths)) as [Hl|]; [|discriminate]. cbn [negb] in H.
  set (b := if forallb _ _ then Lst [] else Dict []) in H.
  assert (Hb : tuple_free b) by (subst b; destruct (forallb _ _); repeat constructor).
  assert (Hbt : (match b with Tup l => (Lst l, true) | _ => (b, false) end) = (b, false)).
  { subst b; destruct (forallb _ _); reflexivity. }
  rewrite Hbt in H. apply rbind_ok in H as [[t1 recs] [H1 H]].
  apply extend_fold_settable in H1 as [G1 [-> [_ G4]]]; [|exact Hb|].
  - cbn in H. injection H as <-. split; [exact G1|]. intros p Hp. apply G4.
    rewrite combine_fst by auto. exact Hp.
  - apply Forall_forall. intros [p f] Hpf. apply in_combine_r in Hpf. apply Hf. exact Hpf.
Qed.
End Slots.

(* ---- the whole callable ---- *)
Lemma filled_fun {X Y} (R R' : X -> tree Y -> Prop) (t : tree X) : forall u u',
  filled R t u -> filled R' t u' ->
  (forall x y y', has_leaf t x -> R x y -> R' x y' -> y = y') -> u = u'.
Proof.
  induction t as [x| |d IH|l IH|l IH] using tree_ind2; intros u u' H H' HRS; inversion H; inversion H'; subst.
  - eapply HRS; eauto. constructor.
  - reflexivity.
  - f_equal. rename H1 into HF, H4 into HF'.
    assert (HRS' : forall k t x y y', In (k, t) d -> has_leaf t x -> R x y -> R' x y' -> y = y')
      by (intros k t x y y' Hi Hl; apply HRS; econstructor; eauto).
    clear H H' HRS. revert e0 HF'. induction HF as [|[k a] [k' b] d e [E Hab] _ IHF]; intros e0 HF';
      inversion HF' as [|? [k2 b2] ? ? [E2 Hab2] HF2]; subst; [reflexivity|]. simpl in *. subst.
    inversion IH as [|? ? Hx IH']; subst. f_equal.
    + f_equal. eapply Hx; [exact Hab|exact Hab2|]. intros x y y' Hl; eapply HRS'; [left; reflexivity|exact Hl].
    + eapply IHF; [exact IH'| |exact HF2]. intros kk t x y y' Hi. eapply HRS'. right; exact Hi.
  - f_equal. rename H1 into HF, H4 into HF'.
    assert (HRS' : forall t x y y', In t l -> has_leaf t x -> R x y -> R' x y' -> y = y')
      by (intros t x y y' Hi Hl; apply HRS; econstructor; eauto).
    clear H H' HRS. revert m0 HF'. induction HF as [|a b l m Hab _ IHF]; intros m0 HF';
      inversion HF' as [|? b2 ? ? Hab2 HF2]; subst; [reflexivity|].
    inversion IH as [|? ? Hx IH']; subst. f_equal.
    + eapply Hx; [exact Hab|exact Hab2|]. intros x y y' Hl; eapply HRS'; [left; reflexivity|exact Hl].
    + eapply IHF; [exact IH'| |exact HF2]. intros t x y y' Hi. eapply HRS'. right; exact Hi.
  - f_equal. rename H1 into HF, H4 into HF'.
    assert (HRS' : forall t x y y', In t l -> has_leaf t x -> R x y -> R' x y' -> y = y')
      by (intros t x y y' Hi Hl; apply HRS; econstructor; eauto).
    clear H H' HRS. revert m0 HF'. induction HF as [|a b l m Hab _ IHF]; intros m0 HF';
      inversion HF' as [|? b2 ? ? Hab2 HF2]; subst; [reflexivity|].
    inversion IH as [|? ? Hx IH']; subst. f_equal.
    + eapply Hx; [exact Hab|exact Hab2|]. intros x y y' Hl; eapply HRS'; [left; reflexivity|exact Hl].
    + eapply IHF; [exact IH'| |exact HF2]. intros t x y y' Hi. eapply HRS'. right; exact Hi.
Qed.

Section Whole.
Variable sep : ascii.
Hypothesis Hsi : no_sep sep "input" = true.
Context {A Rng M : Type}.
Variable call : M -> tree A -> tree A -> bool -> tree A -> Rng -> result (tree A * tree A).

Definition order_of (nodes : list (string * (M * tree string))) : list string :=
  "input" :: map fst nodes ++ ["output"].
Definition callables_of (nodes : list (string * (M * tree string))) : list (option M) :=
  None :: map (fun x => Some (fst (snd x))) nodes.
Definition deps_of (nodes : list (string * (M * tree string))) : list (tree string) :=
  NoneT :: map (fun x => snd (snd x)) nodes.

(** the network as the evaluation loop needs it *)
Definition net_ok (nodes : list (string * (M * tree string))) (out_deps : tree string) : Prop :=
  apart sep ("input" :: map fst nodes) /\
  (forall p, In p (map fst nodes) -> clean sep p /\ p <> "output") /\
  (forall p m deps, In (p, (m, deps)) nodes -> forall q, has_leaf deps q -> clean sep q) /\
  sources_earlier sep "input" nodes /\
  (forall q, has_leaf out_deps q -> clean sep q /\
     exists n ks, In n ("input" :: map fst nodes) /\ split sep q = split sep n ++ ks).

Lemma input_clean : clean sep "input".
Proof. split; [discriminate|]. rewrite split_no_sep_id by exact Hsi. constructor; [discriminate|constructor]. Qed.

Lemma zip_steps nodes :
  combine (order_of nodes) (combine (callables_of nodes) (deps_of nodes))
  = ("input", (None, NoneT)) :: wrap nodes.
Proof.
  unfold order_of, callables_of, deps_of. cbn [combine]. f_equal.
  induction nodes as [|[p [m d]] nodes IH]; [reflexivity|]. cbn [map app combine wrap fst snd]. f_equal. exact IH.
Qed.

Lemma net_ok_reserved nodes od p : net_ok nodes od -> In p (map fst nodes) -> reserved_name p = false.
Proof.
  intros [Ha [Hc _]] Hp. unfold reserved_name. apply orb_false_iff. split; apply String.eqb_neq.
  - intros ->. inversion Ha as [|? ? H1 _]; subst. eapply diverge_irrefl. apply H1. exact Hp.
  - apply Hc. exact Hp.
Qed.

Lemma net_ok_src nodes od : net_ok nodes od ->
  forall l1 p m deps l2, nodes = l1 ++ (p, (m, deps)) :: l2 -> forall q, has_leaf deps q ->
      clean sep q /\ exists n ks, In n (["input"] ++ map fst l1) /\ split sep q = split sep n ++ ks.
Proof.
  intros [_ [_ [Hq [Hs _]]]] l1 p m deps l2 E q Hl. split.
  - eapply Hq; [|exact Hl]. rewrite E. apply in_or_app. right; left; reflexivity.
  - eapply Hs; eauto.
Qed.

Theorem nonseq_sound nodes out_deps params data training state rng out st' :
  net_ok nodes out_deps ->
  nonseq_callable sep call (order_of nodes) (callables_of nodes) (deps_of nodes) out_deps
    params data training state rng = Ok (out, st') ->
  exists val news,
    dataflow sep call "input" nodes params data training state rng val news /\
    filled (value_at sep ("input" :: map fst nodes) val) out_deps out /\
    (forall p, In p (map fst nodes) -> walk st' (split sep p) = Some (news p)) /\
    (forall ks, (forall p, In p (map fst nodes) -> diverge (split sep p) ks) -> walk st' ks = walk state ks).
Proof.
  intros Hnet H. unfold nonseq_callable in H.
  apply rbind_ok in H as [i0 [H0 H]]. apply rbind_ok in H as [i1 [H1 H]].
  apply rbind_ok in H as [[inter st] [H2 H]]. apply rbind_ok in H as [out' [H3 H]]. injection H as <- <-.
  rewrite zip_steps in H2. cbn [rfold] in H2. unfold node_step at 1 in H2. cbn [reserved_name orb String.eqb Ascii.eqb Bool.eqb] in H2.
  cbn [rbind] in H2.
  assert (Ein : split sep "input" = ["input"]) by (apply split_no_sep_id; exact Hsi).
  assert (Hw1 : walk i1 (split sep "input") = Some data) by (eapply set_walk_same; [apply input_clean|exact H1]).
  destruct (run_spec sep call params training rng nodes ["input"] i1 state inter st (fun _ => data) (fun _ => data))
    as [val [news [V1 [_ [V2 [V3 V4]]]]]].
  - intros n [<-|[]]. exact Hw1.
  - apply Hnet.
  - intros n [<-|Hn]; [apply input_clean|apply (proj1 (proj2 Hnet)); exact Hn].
  - intros p Hp. eapply net_ok_reserved; eauto.
  - eapply net_ok_src; eauto.
  - exact H2.
  - exists val, news. split; [split|split; [|split]].
    + apply V1. left; reflexivity.
    + intros p m deps Hp. destruct (V3 p m deps Hp) as [ind [mp [ms [F1 [F2 [F3 [F4 _]]]]]]]. eauto 10.
    + eapply filled_mono; [apply tmapM_filled; exact H3|]. intros q d Hq Hl. cbv beta in Hl.
      destruct Hnet as [_ [_ [_ [_ Ho]]]]. destruct (Ho q Hq) as [Hc [n [ks [Hn Hks]]]].
      apply look_walk in Hl; [|exact Hc]. rewrite Hks, walk_app, (V2 n Hn) in Hl.
      exists n, ks. auto.
    + intros p Hp. apply in_map_iff in Hp as [[p' [m deps]] [E Hp]]. simpl in E; subst p'.
      destruct (V3 p m deps Hp) as [ind [mp [ms [_ [_ [_ [_ F5]]]]]]]. exact F5.
    + exact V4.
Qed.

Theorem nonseq_complete nodes out_deps params data training state rng val news out slots :
  net_ok nodes out_deps ->
  @empty_slots sep A (order_of nodes) = Ok slots ->
  (forall p, In p (map fst nodes) -> settable state (split sep p)) ->
  dataflow sep call "input" nodes params data training state rng val news ->
  filled (value_at sep ("input" :: map fst nodes) val) out_deps out ->
  exists st',
    nonseq_callable sep call (order_of nodes) (callables_of nodes) (deps_of nodes) out_deps
      params data training state rng = Ok (out, st') /\
    (forall p, In p (map fst nodes) -> walk st' (split sep p) = Some (news p)).
Proof.
  intros Hnet Hs Hst [Hd1 Hd2] Hout. unfold nonseq_callable. rewrite Hs. cbn [rbind].
  unfold empty_slots in Hs. apply extend_none_settable in Hs as [_ Hs].
  2: { intros f Hf. apply repeat_spec in Hf as ->. constructor. }
  assert (Ein : split sep "input" = ["input"]) by (apply split_no_sep_id; exact Hsi).
  assert (Hi := Hs "input" (or_introl eq_refl)).
  apply (setp_ok_iff _ _ data) in Hi as [i1 Hi1]; [|apply input_clean]. rewrite <- setitem_split in Hi1.
  rewrite Hi1. cbn [rbind]. rewrite zip_steps. cbn [rfold]. unfold node_step at 1.
  cbn [reserved_name orb String.eqb Ascii.eqb Bool.eqb]. cbn [rbind].
  destruct (run_complete sep call params training rng nodes ["input"] i1 state val news) as [inter [st' [R1 [R2 R3]]]].
  - intros n [<-|[]]. rewrite Hd1. eapply set_walk_same; [apply input_clean|exact Hi1].
  - apply Hnet.
  - intros n [<-|Hn]; [apply input_clean|apply (proj1 (proj2 Hnet)); exact Hn].
  - intros p Hp. eapply net_ok_reserved; eauto.
  - eapply net_ok_src; eauto.
  - intros p Hp. split; [|apply Hst; exact Hp].
    rewrite setitem_split in Hi1. eapply settable_frame; [exact Hi1| |].
    + destruct Hnet as [Ha _]. inversion Ha as [|? ? H1 _]; subst. apply H1. exact Hp.
    + apply Hs. right. apply in_or_app. left; exact Hp.
  - exact Hd2.
  - rewrite R1. cbn [rbind]. rewrite (filled_tmapM (look sep shape_leaf_data inter) out_deps out).
    + exists st'. split; [reflexivity|exact R3].
    + eapply filled_mono; [exact Hout|]. intros q d Hq [n [ks [Hn [Hks Hw]]]].
      destruct Hnet as [_ [_ [_ [_ Ho]]]]. destruct (Ho q Hq) as [Hc _].
      apply walk_look; [exact shape_leaf_data_childless|exact Hc|]. rewrite Hks, walk_app, (R2 n Hn). exact Hw.
Qed.

(** the equations have at most one solution *)
Theorem dataflow_unique nodes out_deps params data training state rng val news val2 news2 :
  net_ok nodes out_deps ->
  dataflow sep call "input" nodes params data training state rng val news ->
  dataflow sep call "input" nodes params data training state rng val2 news2 ->
  (forall n, In n ("input" :: map fst nodes) -> val n = val2 n) /\
  (forall p, In p (map fst nodes) -> news p = news2 p).
Proof.
  intros Hnet [D1 D2] [E1 E2].
  assert (Hall : forall l1 l2, nodes = l1 ++ l2 ->
    (forall n, In n ("input" :: map fst l1) -> val n = val2 n) /\
    (forall p, In p (map fst l1) -> news p = news2 p)).
  { induction l1 as [|[p [m deps]] l1 IH] using rev_ind; intros l2 E.
    - split; [intros n [<-|[]]; congruence|intros ? []].
    - rewrite <- app_assoc in E. destruct (IH _ E) as [IHv IHs].
      assert (Hin : In (p, (m, deps)) nodes) by (rewrite E; apply in_or_app; right; left; reflexivity).
      destruct (D2 p m deps Hin) as [ind [mp [ms [F1 [F2 [F3 F4]]]]]].
      destruct (E2 p m deps Hin) as [ind2 [mp2 [ms2 [G1 [G2 [G3 G4]]]]]].
      assert (Ei : ind = ind2).
      { eapply filled_fun; [exact F1|exact G1|]. intros q y y' Hq [n [ks [Hn [Hks Hw]]]] [n2 [ks2 [Hn2 [Hks2 Hw2]]]].
        destruct (net_ok_src _ _ Hnet _ _ _ _ _ E q Hq) as [_ [n0 [ks0 [Hn0 Hks0]]]].
        destruct Hnet as [Ha _].
        assert (Hn0' : In n0 ("input" :: map fst nodes)).
        { rewrite E. rewrite map_app. destruct Hn0 as [Hn0|Hn0]; [left; exact Hn0|right; apply in_or_app; left; exact Hn0]. }
        destruct (apart_source_unique _ _ _ _ _ _ Ha Hn Hn0' (eq_trans (eq_sym Hks) Hks0)) as [-> ->].
        destruct (apart_source_unique _ _ _ _ _ _ Ha Hn2 Hn0' (eq_trans (eq_sym Hks2) Hks0)) as [-> ->].
        rewrite (IHv n0 Hn0) in Hw. congruence. }
      subst ind2. assert (mp2 = mp) by congruence. assert (ms2 = ms) by congruence. subst mp2 ms2.
      rewrite F4 in G4. injection G4 as Ev En. rewrite map_app. split.
      + intros n [<-|Hn]; [congruence|]. apply in_app_or in Hn as [Hn|[<-|[]]]; [apply IHv; right; exact Hn|exact Ev].
      + intros n Hn. apply in_app_or in Hn as [Hn|[<-|[]]]; [apply IHs; exact Hn|exact En]. }
  destruct (Hall nodes [] (eq_sym (app_nil_r _))) as [H1 H2]. split; assumption.
Qed.
End Whole.
