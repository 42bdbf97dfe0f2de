(** Extending a structure keeps the kind of every container of the base (C56):
    while the paths are walked a tuple that is entered becomes a list and its
    address is recorded; restoring turns exactly those lists back. *)
From Verif Require Import Base BaseLemmas TreeUtil TreeSpec TreeProofs ExtendProofs NonSeqProofs.

Section Kind.
Context {A : Type}.
Variable eqA : A -> A -> bool.
Variable sep : ascii.

(** The recorded addresses below a dictionary key, below an index. *)
Definition bel (R : list string -> Prop) (k : string) : list string -> Prop := fun p => R (k :: p).
Definition ati (R : list string -> Prop) (i : nat) : list string -> Prop :=
  fun p => exists k, isdigit k = true /\ int_of k = i /\ R (k :: p).

(** [t] extends [b] with the same kinds, up to tuples at addresses in [R] that
    are lists for the moment. *)
Inductive kept : (list string -> Prop) -> tree A -> tree A -> Prop :=
| kp_leaf R a : kept R (Leaf a) (Leaf a)
| kp_none R t : kept R NoneT t
| kp_dict R d d' : (forall k c, dget d k = Some c -> exists c', dget d' k = Some c' /\ kept (bel R k) c c') ->
    kept R (Dict d) (Dict d')
| kp_lst (R : list string -> Prop) l l' : ~ R [] ->
    (forall i c, nth_error l i = Some c -> exists c', nth_error l' i = Some c' /\ kept (ati R i) c c') ->
    kept R (Lst l) (Lst l')
| kp_tup R l l' :
    (forall i c, nth_error l i = Some c -> exists c', nth_error l' i = Some c' /\ kept (ati R i) c c') ->
    kept R (Tup l) (Tup l')
| kp_tl (R : list string -> Prop) l l' : R [] ->
    (forall i c, nth_error l i = Some c -> exists c', nth_error l' i = Some c' /\ kept (ati R i) c c') ->
    kept R (Tup l) (Lst l').

Lemma dget_Forall {V} (P : string * V -> Prop) (d : dict V) k c : Forall P d -> dget d k = Some c -> P (k, c).
Proof. intros H E. apply dget_In in E. rewrite Forall_forall in H. auto. Qed.

Lemma kept_ext b : forall R R' t, (forall p, R p <-> R' p) -> kept R b t -> kept R' b t.
Proof.
  induction b as [x| |d IH|l IH|l IH] using tree_ind2; intros R R' t HR H.
  1-3: inversion H as [|R0 t0|R0 d0 d0' HD| | |]; subst; clear H.
  - constructor.
  - constructor.
  - constructor. intros k c Hc. destruct (HD k c Hc) as [c' [E K]]. exists c'. split; [exact E|].
    apply (dget_Forall _ _ _ _ IH Hc (bel R k)); [|exact K]. intros p; apply HR.
  - assert (Hi : forall l', (forall i c, nth_error l i = Some c -> exists c', nth_error l' i = Some c' /\ kept (ati R i) c c') ->
              forall i c, nth_error l i = Some c -> exists c', nth_error l' i = Some c' /\ kept (ati R' i) c c').
    { intros l' HD i c Hc. destruct (HD i c Hc) as [c' [E K]]. exists c'. split; [exact E|].
      rewrite Forall_forall in IH. apply (IH c (nth_error_In _ _ Hc) (ati R i)); [|exact K].
      intros p. split; intros [k [D [I Hk]]]; exists k; repeat split; auto; apply HR; exact Hk. }
    inversion H as [| | |R0 l0 l0' N HD| |]; subst. constructor; [rewrite <- HR; assumption|auto].
  - assert (Hi : forall l', (forall i c, nth_error l i = Some c -> exists c', nth_error l' i = Some c' /\ kept (ati R i) c c') ->
              forall i c, nth_error l i = Some c -> exists c', nth_error l' i = Some c' /\ kept (ati R' i) c c').
    { intros l' HD i c Hc. destruct (HD i c Hc) as [c' [E K]]. exists c'. split; [exact E|].
      rewrite Forall_forall in IH. apply (IH c (nth_error_In _ _ Hc) (ati R i)); [|exact K].
      intros p. split; intros [k [D [I Hk]]]; exists k; repeat split; auto; apply HR; exact Hk. }
    inversion H as [| | | |R0 l0 l0' HD|R0 l0 l0' N HD]; subst; [apply kp_tup; auto|].
    apply kp_tl; [apply HR; assumption|auto].
Qed.

Lemma kept_refl b : kept (fun _ => False) b b.
Proof.
  induction b as [x| |d IH|l IH|l IH] using tree_ind2; constructor; auto.
  - intros k c Hc. exists c. split; [exact Hc|]. apply (kept_ext _ (fun _ => False)); [unfold bel; tauto|].
    exact (dget_Forall _ _ _ _ IH Hc).
  - intros i c Hc. exists c. split; [exact Hc|]. apply (kept_ext _ (fun _ => False)); [unfold ati; firstorder|].
    rewrite Forall_forall in IH. exact (IH c (nth_error_In _ _ Hc)).
  - intros i c Hc. exists c. split; [exact Hc|]. apply (kept_ext _ (fun _ => False)); [unfold ati; firstorder|].
    rewrite Forall_forall in IH. exact (IH c (nth_error_In _ _ Hc)).
Qed.

(** Items of a list, a hole being anything. *)
Definition items (R : list string -> Prop) (l l' : list (tree A)) : Prop :=
  forall i c, nth_error l i = Some c -> exists c', nth_error l' i = Some c' /\ kept (ati R i) c c'.

Lemma kept_inv_lst R b l : kept R b (Lst l) ->
  b = NoneT \/ (exists m, b = Lst m /\ ~ R [] /\ items R m l) \/ (exists m, b = Tup m /\ R [] /\ items R m l).
Proof.
  intros H; inversion H; subst; [left; reflexivity| |].
  - right; left. exists l0. auto.
  - right; right. exists l0. auto.
Qed.

Lemma items_pad R m l i : items R m l -> items R m (pad l i).
Proof.
  intros H j c Hc. destruct (H j c Hc) as [c' [E K]]. exists c'. split; [|exact K].
  apply nth_error_pad_mono. exact E.
Qed.

(** Replacing item [i]. *)
Lemma items_upd (R R' : list string -> Prop) m l i x :
  (forall j p, j <> i -> (ati R j p <-> ati R' j p)) ->
  (forall c c', nth_error m i = Some c -> nth_error l i = Some c' -> kept (ati R i) c c' -> kept (ati R' i) c x) ->
  items R m l -> items R' m (upd l i x).
Proof.
  intros HR Hx H j c Hc. destruct (H j c Hc) as [c' [E K]].
  destruct (Nat.eq_dec j i) as [->|Hne].
  - exists x. split; [apply nth_upd_same; eapply nth_error_lt; eauto|]. eapply Hx; eauto.
  - exists c'. split; [rewrite nth_upd_other by congruence; exact E|].
    eapply kept_ext; [|exact K]. intros p. apply HR. exact Hne.
Qed.

Lemma items_same (R R' : list string -> Prop) m l :
  (forall j p, ati R j p <-> ati R' j p) -> items R m l -> items R' m l.
Proof.
  intros HR H j c Hc. destruct (H j c Hc) as [c' [E K]]. exists c'. split; [exact E|].
  eapply kept_ext; [|exact K]. intros p. apply HR.
Qed.

(** What a walk records: addresses [Q] relative to the node. *)
Definition plus (R : list string -> Prop) (Q : list (list string)) : list string -> Prop := fun p => R p \/ In p Q.

Lemma kept_plus_nil R b t : kept R b t -> kept (plus R []) b t.
Proof. apply kept_ext. unfold plus. simpl. tauto. Qed.

Lemma in_map_cons (k k' : string) p Q : In (k' :: p) (map (cons k) Q) <-> k' = k /\ In p Q.
Proof.
  rewrite in_map_iff. split.
  - intros [q [E H]]. injection E as -> ->. auto.
  - intros [-> H]. eauto.
Qed.

Lemma ati_plus R Q k i p : isdigit k = true ->
  ati (plus R (map (cons k) Q)) i p <-> (if Nat.eqb i (int_of k) then plus (ati R i) Q p else ati R i p).
Proof.
  intros Hk. unfold ati, plus. destruct (Nat.eqb_spec i (int_of k)) as [->|Hne]; split.
  - intros [k' [D [I [H|H]]]]; [left; eauto|]. apply in_map_cons in H as [-> H]. auto.
  - intros [[k' [D [I H]]]|H]; [exists k'; auto|]. exists k. repeat split; auto. right. apply in_map_cons. auto.
  - intros [k' [D [I [H|H]]]]; [eauto|]. apply in_map_cons in H as [-> H]. congruence.
  - intros [k' [D [I H]]]. exists k'; auto.
Qed.

Lemma kept_none_dict R b nk : kept R b NoneT -> kept R b (@new_node A nk).
Proof. intros H; inversion H; subst. constructor. Qed.

Lemma join_done done k (q : list string) : (done ++ [k]) ++ q = done ++ k :: q.
Proof. rewrite <- app_assoc. reflexivity. Qed.

(** Pieces recorded: prefixes of the path. *)
Definition prefixes (parts : list string) (Q : list (list string)) : Prop :=
  forall q, In q Q -> exists r, r <> [] /\ parts = q ++ r.

Lemma extend_walk_kept parts : forall t done fill t' rec,
  extend_walk eqA sep t done parts fill = Ok (t', rec) ->
  exists Q, rec = map (fun q => join sep (done ++ q)) Q /\ prefixes parts Q /\
    (forall q, In q Q -> last (done ++ q) EmptyString <> EmptyString) /\
    forall R b, kept R b t -> kept (plus R Q) b t'.
Proof.
  induction parts as [|key parts IH]; intros t done fill t' rec H.
  - injection H as <- <-. exists []. split; [reflexivity|]. do 2 (split; [intros q []|]). intros R b. apply kept_plus_nil.
  - cbn [extend_walk] in H.
    set (desc := fun c => extend_walk eqA sep c (done ++ [key]) parts fill) in H.
    (* the step at a node, the record so far aside *)
    assert (Hnil : forall rc : list string, exists Q, rc ++ [] = rc ++ map (fun q => join sep (done ++ q)) Q /\
              prefixes (key :: parts) Q /\ (forall q, In q Q -> q <> []) /\
              (forall q, In q Q -> last (done ++ q) EmptyString <> EmptyString) /\
              (forall R b u, kept R b u -> kept (plus R Q) b u)).
    { intros rc. exists []. split; [reflexivity|]. do 3 (split; [intros q []|]). intros R b u. apply kept_plus_nil. }
    assert (Hdict : forall d rc, extend_node eqA desc key parts fill (Dict d) rc = Ok (t', rec) ->
              exists Q, rec = rc ++ map (fun q => join sep (done ++ q)) Q /\ prefixes (key :: parts) Q /\
                (forall q, In q Q -> q <> []) /\
                (forall q, In q Q -> last (done ++ q) EmptyString <> EmptyString) /\
                forall R b, kept R b (Dict d) -> kept (plus R Q) b t').
    { intros d rc Hs. cbn [extend_node] in Hs. destruct parts as [|nk parts'].
      - destruct (dget d key) as [old|] eqn:Ed.
        + destruct (conflict eqA old fill) eqn:Ec; [discriminate|]. injection Hs as <- <-.
          destruct (Hnil rc) as [Q [E [P1 [P2 [P3 P4]]]]]. exists Q. rewrite app_nil_r in E. auto 10.
        + injection Hs as <- <-. destruct (Hnil rc) as [Q [E [P1 [P2 [P3 P4]]]]]. exists Q. rewrite app_nil_r in E.
          do 4 (split; [assumption|]). intros R b K. apply P4. inversion K as [|R0 t0|R0 d0 d0' HD| | |]; subst; [constructor|].
          constructor. intros k c Hc. destruct (HD k c Hc) as [c' [E' K']]. exists c'. split; [|exact K'].
          rewrite dget_dset_other by congruence. exact E'.
      - apply rbind_ok in Hs as [[c' rec'] [Hw Hs]]. injection Hs as <- <-.
        apply IH in Hw as [Q [-> [P [L K]]]]. exists (map (cons key) Q). split; [|split; [|split; [|split]]].
        + rewrite map_map. f_equal. apply map_ext. intros q. rewrite join_done. reflexivity.
        + intros q Hq. apply in_map_iff in Hq as [q' [<- Hq]]. destruct (P _ Hq) as [r [Hr E]].
          exists r. split; [exact Hr|]. rewrite E. reflexivity.
        + intros q Hq. apply in_map_iff in Hq as [q' [<- _]]. discriminate.
        + intros q Hq. apply in_map_iff in Hq as [q' [<- Hq]]. rewrite <- join_done. apply L. exact Hq.
        + intros R b Kb. inversion Kb as [| R0 t0 | R0 d0 d0' HD | | |]; subst; [constructor|]. constructor. intros k c Hc.
          destruct (HD k c Hc) as [c0 [E0 K0]].
          destruct (String.eqb_spec key k) as [<-|Hne].
          * exists c'. split; [apply dget_dset_same|]. rewrite E0 in K.
            eapply kept_ext; [|exact (K _ _ K0)]. intros p. unfold plus, bel. rewrite in_map_cons. tauto.
          * exists c0. split; [rewrite dget_dset_other by exact Hne; exact E0|].
            eapply kept_ext; [|exact K0]. intros p. unfold plus, bel. rewrite in_map_cons.
            split; [tauto|]. intros [X|[X _]]; congruence. }
    assert (Hlist : forall l rc, extend_node eqA desc key parts fill (Lst l) rc = Ok (t', rec) ->
              exists Q l', t' = Lst l' /\ rec = rc ++ map (fun q => join sep (done ++ q)) Q /\ prefixes (key :: parts) Q /\
                (forall q, In q Q -> q <> []) /\
                (forall q, In q Q -> last (done ++ q) EmptyString <> EmptyString) /\
                forall R m, items R m l -> items (plus R Q) m l').
    { intros l rc Hs. cbn [extend_node] in Hs. destruct (isdigit key) eqn:Ek; [|discriminate].
      set (i := int_of key) in *.
      assert (Hn : nth_error (pad l i) i = Some (nth i (pad l i) NoneT))
        by (apply nth_nth_error, pad_length).
      destruct parts as [|nk parts'].
      - destruct (Hnil rc) as [Q [E [P1 [P2 [P3 P4]]]]]. rewrite app_nil_r in E.
        assert (Hst : forall R m l0, items R m l0 -> items (plus R []) m l0).
        { intros R m l0. apply items_same. unfold ati, plus. simpl. firstorder. }
        exists []. destruct (nth i (pad l i) NoneT) as [a| |d0|l0|l0] eqn:En.
        2: { injection Hs as <- <-. eexists. split; [reflexivity|]. rewrite app_nil_r. split; [reflexivity|].
             do 3 (split; [intros q []|]). intros R m Hm. apply Hst.
             apply (items_upd R); [tauto| |apply items_pad; exact Hm].
             intros c c' _ Hc' Kc. rewrite Hn in Hc'. injection Hc' as <-. inversion Kc; subst. constructor. }
        all: match type of Hs with context [conflict _ ?o ?f] =>
               destruct (conflict _ o f) eqn:Ec; [discriminate|]; injection Hs as <- <- end;
             eexists; split; [reflexivity|]; rewrite app_nil_r; split; [reflexivity|];
             do 3 (split; [intros q []|]); intros R m Hm; apply Hst; apply items_pad; exact Hm.
      - apply rbind_ok in Hs as [[c' rec'] [Hw Hs]]. injection Hs as <- <-.
        apply IH in Hw as [Q [-> [P [L K]]]]. exists (map (cons key) Q). eexists. split; [reflexivity|].
        split; [|split; [|split; [|split]]].
        + rewrite map_map. f_equal. apply map_ext. intros q. rewrite join_done. reflexivity.
        + intros q Hq. apply in_map_iff in Hq as [q' [<- Hq]]. destruct (P _ Hq) as [r [Hr E]].
          exists r. split; [exact Hr|]. rewrite E. reflexivity.
        + intros q Hq. apply in_map_iff in Hq as [q' [<- _]]. discriminate.
        + intros q Hq. apply in_map_iff in Hq as [q' [<- Hq]]. rewrite <- join_done. apply L. exact Hq.
        + intros R m Hm. apply (items_upd R); [| |apply items_pad; exact Hm].
          * intros j p Hj. rewrite ati_plus by exact Ek. fold i.
            destruct (Nat.eqb_spec j i); [congruence|tauto].
          * intros c c0 Hc Hc0 Kc. rewrite Hn in Hc0. injection Hc0 as <-.
            eapply kept_ext; [|apply (K (ati R i))].
            -- intros p. rewrite ati_plus by exact Ek. fold i. rewrite Nat.eqb_refl. tauto.
            -- destruct (nth i (pad l i) NoneT); try exact Kc. apply kept_none_dict. exact Kc. }
    destruct t as [a| |d|l|l]; try discriminate.
    + destruct (Hdict d [] H) as [Q [E [P1 [P2 [P3 P4]]]]]. exists Q. auto.
    + destruct (Hlist l [] H) as [Q [l' [-> [E [P1 [P2 [P3 P4]]]]]]]. exists Q. do 3 (split; [auto|]).
      intros R b K. apply kept_inv_lst in K as [->|[[m [-> [N I]]]|[m [-> [N I]]]]].
      * constructor.
      * constructor; [|apply P4; exact I]. intros [X|X]; [auto|]. exact (P2 _ X eq_refl).
      * apply kp_tl; [left; exact N|apply P4; exact I].
    + destruct (String.eqb_spec (last done EmptyString) EmptyString) as [|Hlast]; [discriminate|].
      destruct (Hlist l _ H) as [Q [l' [-> [E [P1 [P2 [P3 P4]]]]]]]. exists ([] :: Q).
      split; [|split; [|split]].
      * rewrite E. cbn [map]. rewrite app_nil_r. reflexivity.
      * intros q [<-|Hq]; [exists (key :: parts); split; [discriminate|reflexivity]|auto].
      * intros q [<-|Hq]; [rewrite app_nil_r; exact Hlast|auto].
      * assert (Hpl : forall R m, items (plus R Q) m l' -> items (plus R ([] :: Q)) m l').
        { intros R m. apply items_same. intros j p. unfold ati, plus. simpl.
          split; intros [k [D [I X]]]; exists k; repeat split; auto; destruct X as [X|X]; auto.
          destruct X as [X|X]; [discriminate|auto]. }
        intros R b K. inversion K; subst.
        -- constructor.
        -- apply kp_tl; [right; left; reflexivity|]. apply Hpl, P4. assumption.
Qed.

Lemma extend_fold_kept pfs : forall t (Q0 : list (list string)) recs t' recs',
  rfold (fun '(t, recs) '(p, fill) =>
           let* (t', r) := extend_walk eqA sep t [] (split sep p) fill in
           Ok (t', recs ++ r)) pfs (t, recs) = Ok (t', recs') ->
  recs = map (join sep) Q0 ->
  (forall q, In q Q0 -> q <> [] /\ nosep_parts sep q) ->
  exists Q, recs' = map (join sep) Q /\ (forall q, In q Q -> q <> [] /\ nosep_parts sep q) /\
    forall b, kept (fun p => In p Q0) b t -> kept (fun p => In p Q) b t'.
Proof.
  induction pfs as [|[p fill] pfs IH]; intros t Q0 recs t' recs' H HE HQ.
  - injection H as <- <-. exists Q0. auto.
  - cbn [rfold] in H. apply rbind_ok in H as [[t1 recs1] [H1 H]].
    apply rbind_ok in H1 as [[t2 r] [Hw H1]]. injection H1 as -> <-.
    apply extend_walk_kept in Hw as [Q1 [-> [P [L K]]]].
    destruct (IH _ (Q0 ++ Q1) _ _ _ H) as [Q [E [HQ' K']]].
    + rewrite map_app, HE. reflexivity.
    + intros q Hq. apply in_app_iff in Hq as [Hq|Hq]; [auto|]. split.
      * intros ->. exact (L _ Hq eq_refl).
      * destruct (P _ Hq) as [r [_ E]]. assert (N := split_no_sep sep p). rewrite E in N.
        apply Forall_app in N. exact (proj1 N).
    + exists Q. split; [exact E|]. split; [exact HQ'|]. intros b Kb. apply K'.
      eapply kept_ext; [|exact (K _ _ Kb)]. intros q. unfold plus. rewrite in_app_iff. tauto.
Qed.

(** Restoring one recorded tuple. *)
Lemma restore_kept r : forall (R R' : list string -> Prop) b t t' l,
  walk t r = Some (Lst l) ->
  (r = [] /\ t' = Tup l) \/ setp t r (Tup l) = Ok t' ->
  R r -> (forall p, R p -> p = r \/ R' p) -> (forall p, R' p -> R p) ->
  kept R b t -> kept R' b t'.
Proof.
  induction r as [|k r IH]; intros R R' b t t' l Hw Hs Hr H1 H2 K.
  - destruct Hs as [[_ ->]|Hs]; [|discriminate]. simpl in Hw. injection Hw as ->.
    apply kept_inv_lst in K as [->|[[m [-> [N I]]]|[m [-> [N I]]]]]; [constructor|contradiction|].
    apply kp_tup. eapply items_same; [|exact I]. intros j p. unfold ati.
    split; intros [k [D [E X]]]; exists k; repeat split; auto. apply H1 in X as [X|X]; [discriminate|exact X].
  - destruct Hs as [[X _]|Hs]; [discriminate|]. cbn [setp] in Hs. cbn [walk] in Hw.
    destruct (String.eqb k EmptyString && match r with [] => true | _ => false end); [discriminate|].
    destruct (child t k) as [c|] eqn:Ec; [|discriminate].
    assert (Hd : forall d d' c', t = Dict d -> dget d k = Some c -> t' = Dict d' -> d' = dset d k c' ->
              ((r = [] /\ c' = Tup l) \/ setp c r (Tup l) = Ok c') -> kept R' b t').
    { intros d d' c' -> Ed -> -> Hc'. inversion K as [|R0 t0|R0 d0 d0' HD| | |]; subst; [constructor|]. constructor.
      intros k0 c0 Hc0. destruct (HD _ _ Hc0) as [c1 [E1 K1]].
      destruct (String.eqb_spec k k0) as [<-|Hne].
      - exists c'. split; [apply dget_dset_same|]. rewrite Ed in E1. injection E1 as <-.
        eapply (IH (bel R k) (bel R' k)); eauto.
        + intros p Hp. apply H1 in Hp as [E|Hp]; [injection E as ->; auto|auto].
        + intros p Hp. apply H2. exact Hp.
      - exists c1. split; [rewrite dget_dset_other by exact Hne; exact E1|]. eapply kept_ext; [|exact K1].
        intros p. unfold bel. split; [intros X; apply H1 in X as [X|X]; [congruence|exact X]|apply H2]. }
    assert (Hi : forall m m0 c', isdigit k = true -> nth_error m (int_of k) = Some c ->
              ((r = [] /\ c' = Tup l) \/ setp c r (Tup l) = Ok c') ->
              items R m0 m -> items R' m0 (upd m (int_of k) c')).
    { intros m m0 c' Ek En Hc' I. apply (items_upd R); [| |exact I].
      - intros j p Hj. unfold ati. split; intros [k0 [D [E X]]]; exists k0; repeat split; auto.
        apply H1 in X as [X|X]; [congruence|exact X].
      - intros c0 c1 _ E1 K1. rewrite En in E1. injection E1 as <-.
        eapply (IH (ati R (int_of k)) (ati R' (int_of k))); eauto.
        + exists k. auto.
        + intros p [k0 [D [E X]]]. apply H1 in X as [X|X]; [injection X as -> ->; auto|right; exists k0; auto].
        + intros p [k0 [D [E X]]]. exists k0. auto. }
    assert (Hlst : forall m c', t = Lst m -> isdigit k = true -> nth_error m (int_of k) = Some c ->
              ((r = [] /\ c' = Tup l) \/ setp c r (Tup l) = Ok c') -> t' = Lst (upd m (int_of k) c') -> kept R' b t').
    { intros m c' -> Ek En Hc' ->. apply kept_inv_lst in K as [->|[[m0 [-> [N I]]]|[m0 [-> [N I]]]]].
      - constructor.
      - constructor; [intros X; apply N, H2, X|]. eapply Hi; eauto.
      - apply kp_tl; [apply H1 in N as [N|N]; [discriminate|exact N]|]. eapply Hi; eauto. }
    destruct t as [a| |d|m|m]; try discriminate; cbn [child] in Ec.
    + destruct r as [|k2 r2].
      * injection Hs as <-. eapply Hd; eauto.
      * rewrite Ec in Hs. apply rbind_ok in Hs as [c' [Hs Ht]]. injection Ht as <-. eapply Hd; eauto.
    + destruct (isdigit k) eqn:Ek; [|discriminate]. destruct r as [|k2 r2].
      * destruct (int_of k <? length m); [|discriminate]. injection Hs as <-. eapply Hlst; eauto.
      * rewrite Ec in Hs. apply rbind_ok in Hs as [c' [Hs Ht]]. injection Ht as <-. eapply Hlst; eauto.
    + destruct (isdigit k) eqn:Ek; [|discriminate]. destruct r as [|k2 r2]; [discriminate|].
      rewrite Ec in Hs. apply rbind_ok in Hs as [c' [Hs Ht]]. injection Ht as <-.
      inversion K; subst; [constructor|]. apply kp_tup. eapply Hi; eauto.
Qed.

Lemma restore_all_kept Q : forall b t t',
  (forall q, In q Q -> q <> [] /\ nosep_parts sep q) ->
  restore_tuples sep t (map (join sep) Q) = Ok t' ->
  kept (fun p => In p Q) b t -> kept (fun _ => False) b t'.
Proof.
  induction Q as [|q Q IH]; intros b t t' HQ H K.
  - injection H as <-. exact K.
  - unfold restore_tuples in H. cbn [map rfold] in H. apply rbind_ok in H as [t1 [H1 H]].
    apply rbind_ok in H1 as [[node r] [Hg H1]]. destruct node as [x| |d|l|l]; try discriminate.
    assert (Hr : r = EmptyString).
    { rewrite getitem_split in Hg. destruct (getp false t (split sep (join sep q))) as [[u r']|] eqn:E; [|discriminate].
      simpl in Hg. injection Hg as -> <-. rewrite (getp_false_rem _ _ _ _ E). reflexivity. }
    subst r. apply getitem_full_walk in Hg. rewrite setitem_split in H1.
    assert (Htr := setp_ok_trim _ _ _ _ H1). unfold path_keys in Hg. rewrite Htr in Hg.
    destruct (HQ q (or_introl eq_refl)) as [Hne Hns].
    rewrite split_join in Hg, H1 by assumption.
    apply (IH b t1 t'); [intros; apply HQ; right; assumption|exact H|].
    apply (restore_kept q (fun p => In p (q :: Q)) (fun p => In p Q) b t t1 l); auto.
    + left. reflexivity.
    + intros p [<-|Hp]; auto.
    + intros p Hp. right. exact Hp.
Qed.
End Kind.

(** Same kind of container. *)
Definition same_kind {A} (x y : tree A) : Prop :=
  match x, y with
  | Dict _, Dict _ | Lst _, Lst _ | Tup _, Tup _ => True
  | _, _ => False
  end.

Lemma kept_walk {A} ks : forall (b t : tree A) x, kept (fun _ => False) b t -> walk b ks = Some x -> atomic x = false ->
  exists y, walk t ks = Some y /\ same_kind x y.
Proof.
  induction ks as [|k ks IH]; intros b t x K Hw Hx.
  - injection Hw as ->. exists t. split; [reflexivity|]. inversion K; subst; simpl in *; try discriminate; auto.
  - cbn [walk] in Hw. destruct (child b k) as [c|] eqn:Ec; [|discriminate].
    assert (exists c', child t k = Some c' /\ kept (fun _ => False) c c') as [c' [E' K']].
    { assert (Hat : forall i (c c' : tree A), kept (ati (fun _ => False) i) c c' -> kept (fun _ => False) c c')
        by (intros i c0 c1; apply kept_ext; unfold ati; firstorder).
      inversion K; subst; cbn [child] in *; try discriminate; try contradiction.
      - destruct (H _ _ Ec) as [c' [E X]]. exists c'. auto.
      - destruct (isdigit k); [|discriminate]. destruct (H0 _ _ Ec) as [c' [E X]]. exists c'. eauto.
      - destruct (isdigit k); [|discriminate]. destruct (H _ _ Ec) as [c' [E X]]. exists c'. eauto. }
    cbn [walk]. rewrite E'. eapply IH; eauto.
Qed.

Theorem extend_keeps_kinds {A} (eqA : A -> A -> bool) sep base paths fv (t : tree A) :
  extend_structure eqA sep (Some base) paths fv = Ok t ->
  forall ks x, walk base ks = Some x -> atomic x = false -> exists y, walk t ks = Some y /\ same_kind x y.
Proof.
  intros H ks x Hw Hx. unfold extend_structure in H.
  destruct (negb _); [discriminate|].
  destruct (match base with Tup l => (Lst l, true) | b => (b, false) end) as [base1 bt] eqn:Eb.
  apply rbind_ok in H as [[t1 recs] [Hf H]]. apply rbind_ok in H as [t2 [Hr H]].
  destruct (extend_fold_kept eqA sep _ _ [] [] _ _ Hf eq_refl (fun q X => match X with end)) as [Q [-> [HQ K]]].
  assert (K1 : kept (fun _ => False) base1 t2).
  { apply (restore_all_kept sep Q base1 t1 t2 HQ Hr). apply K. apply (kept_refl sep). }
  apply (kept_walk ks base t); [|exact Hw|exact Hx]. injection H as <-.
  destruct base; injection Eb as <- <-; try exact K1.
  inversion K1; subst. apply kp_tup. assumption.
Qed.
