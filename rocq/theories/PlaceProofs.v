(** Lemmas about place_connections (model in Connections.v). *)
From Verif Require Import Base BaseLemmas TreeUtil TreeSpec TreeProofs ExtendProofs Resolve
  Connections ConcretizeSpec ConcretizeProofs ConnSpec ConnProofs.
From Coq Require Import Permutation.
Open Scope list_scope.

Definition swap {X Y} (p : X * Y) : Y * X := (snd p, fst p).

Lemma reverse_conn_eq cc : reverse_conn cc = fold_left (fun g x => dpush g (fst x) (snd x)) (map swap (pairs cc)) [].
Proof.
  unfold reverse_conn, pairs. generalize (@nil (string * list string)) as acc.
  induction cc as [|[k vs] cc IH]; intros acc; [reflexivity|].
  cbn [fold_left flat_map]. rewrite map_app, fold_left_app, IH. f_equal. cbn [fst snd].
  clear. revert acc. induction vs as [|v vs IH]; intros acc; [reflexivity|]. simpl. apply IH.
Qed.

Lemma dpush_distinct {V} (l : list (string * V)) : forall acc,
  NoDup (dkeys acc ++ map fst l) ->
  fold_left (fun g x => dpush g (fst x) (snd x)) l acc = acc ++ map (fun x => (fst x, [snd x])) l.
Proof.
  induction l as [|[k x] l IH]; intros acc H; simpl; [rewrite app_nil_r; reflexivity|].
  simpl in H. assert (Hk : ~ In k (dkeys acc)).
  { apply NoDup_remove_2 in H. intros Hi. apply H. apply in_or_app; auto. }
  unfold dpush at 2. assert (Hg : dget acc k = None).
  { destruct (dget acc k) eqn:E; [|reflexivity]. exfalso. apply Hk. apply dget_In in E.
    apply in_map_iff. eexists; split; [|exact E]. reflexivity. }
  rewrite Hg, dset_fresh by exact Hk. simpl app. rewrite IH.
  - rewrite <- app_assoc. reflexivity.
  - unfold dkeys in *. rewrite map_app, <- app_assoc. exact H.
Qed.

Lemma single_sources_ok cc :
  NoDup (map snd (pairs cc)) -> single_sources (reverse_conn cc) = Ok (map swap (pairs cc)).
Proof.
  intros H. rewrite reverse_conn_eq, dpush_distinct.
  - simpl app. unfold single_sources.
    assert (E : existsb (fun kv : string * list string => 1 <? length (snd kv))
                  (map (fun x : string * string => (fst x, [snd x])) (map swap (pairs cc))) = false).
    { induction (map swap (pairs cc)) as [|x l IH]; [reflexivity|]. simpl. exact IH. }
    rewrite E. f_equal. rewrite map_map. rewrite <- map_id. apply map_ext. intros [a b]. reflexivity.
  - simpl. rewrite map_map. exact H.
Qed.

(** no tuple anywhere: no RuntimeError from re-creating tuples *)
Lemma extend_no_runtime {A} (eqA : A -> A -> bool) sep paths fills :
  Forall (fun f => exists a : A, f = Leaf a) fills ->
  extend_structure eqA sep None paths (FillList fills) <> Err RuntimeError.
Proof.
  intros Hf.
  assert (Hwalk : forall parts t done fill, tuple_free t -> tuple_free fill ->
     match extend_walk eqA sep t done parts fill with
     | Ok (t', r) => tuple_free t' /\ r = []
     | Err e => e <> RuntimeError
     end).
  { induction parts as [|key parts IH]; intros t done fill Ht Hfill; [simpl; auto|].
    cbn [extend_walk].
    assert (Hn : forall c, tuple_free c -> match extend_walk eqA sep c (done ++ [key]) parts fill with
       | Ok (t', r) => tuple_free t' /\ r = [] | Err e => e <> RuntimeError end)
      by (intros c Hc; apply IH; assumption).
    assert (Hnew : forall nk, tuple_free (@new_node A nk)).
    { intros nk. unfold new_node. destruct (isdigit nk); constructor; constructor. }
    destruct t as [a| |d|l|l]; try (inversion Ht; fail); cbn [extend_node]; try discriminate.
    - inversion Ht as [| |? Hd|]; subst.
      assert (Hget : forall c, dget d key = Some c -> tuple_free c).
      { intros c Hc. apply dget_In in Hc. rewrite Forall_forall in Hd. apply (Hd _ Hc). }
      assert (Hset : forall c, tuple_free c -> tuple_free (Dict (dset d key c))).
      { intros c Hc. constructor. clear -Hd Hc. induction Hd as [|[k v] d Hv Hd IH]; simpl.
        - constructor; [exact Hc|constructor].
        - destruct (String.eqb key k); constructor; simpl in *; auto. }
      destruct parts as [|nk parts].
      + destruct (dget d key) as [old|] eqn:E.
        * destruct (conflict eqA old fill); [discriminate|auto].
        * auto.
      + destruct (dget d key) as [c|] eqn:E.
        * specialize (Hn c (Hget c eq_refl)). destruct (extend_walk eqA sep c (done ++ [key]) (nk :: parts) fill) as [[t' r]|e];
            simpl; [destruct Hn as [Hn ->]; auto|exact Hn].
        * specialize (Hn _ (Hnew nk)). destruct (extend_walk eqA sep (new_node nk) (done ++ [key]) (nk :: parts) fill) as [[t' r]|e];
            simpl; [destruct Hn as [Hn ->]; auto|exact Hn].
    - inversion Ht as [| | |? Hd]; subst.
      assert (Hpad : Forall tuple_free (pad l (int_of key))).
      { unfold pad. apply Forall_app. split; [exact Hd|]. apply Forall_forall. intros x Hx.
        apply repeat_spec in Hx. subst x. constructor. }
      assert (Hset : forall l', Forall tuple_free l' -> forall n c, tuple_free c -> tuple_free (Lst (@upd (tree A) l' n c))).
      { intros l' Hl n c Hc. constructor. revert n. induction Hl as [|x l' Hx Hl IHl]; intros n; simpl; [constructor|].
        destruct n; constructor; auto. }
      assert (Hnth : tuple_free (nth (int_of key) (pad l (int_of key)) NoneT)).
      { destruct (nth_in_or_default (int_of key) (pad l (int_of key)) NoneT) as [Hi|E].
        - rewrite Forall_forall in Hpad. apply Hpad. exact Hi.
        - rewrite E. constructor. }
      destruct (isdigit key); [|discriminate].
      remember (nth (int_of key) (pad l (int_of key)) NoneT) as old eqn:Eold.
      destruct parts as [|nk parts].
      + destruct old; try (destruct (conflict eqA _ fill); [discriminate|]);
          (split; [|reflexivity]); first [apply Hset; assumption | constructor; assumption].
      + match goal with |- context [rbind (extend_walk _ _ ?c _ _ _)] => set (c0 := c) end.
        assert (Hc : tuple_free c0) by (subst c0; destruct old; try apply Hnew; exact Hnth).
        specialize (Hn c0 Hc).
        destruct (extend_walk eqA sep c0 (done ++ [key]) (nk :: parts) fill) as [[t' r]|e]; cbn [rbind];
          [destruct Hn as [Hn ->]; split; [apply Hset; assumption|reflexivity]|exact Hn].
  }
  unfold extend_structure. destruct (negb (length fills =? length paths)); [discriminate|].
  match goal with |- context [if ?c then Lst [] else Dict []] => destruct c end.
  all: match goal with |- context [rfold ?f ?l (?b, [])] =>
    assert (Hrf : match rfold f l (b, []) with Ok (t', r) => tuple_free t' /\ r = [] | Err e => e <> RuntimeError end) end.
  1,3: assert (Hl : Forall (fun pf : string * tree A => tuple_free (snd pf)) (combine paths fills))
    by (apply Forall_forall; intros [p f] Hp; apply in_combine_r in Hp; rewrite Forall_forall in Hf;
        destruct (Hf f Hp) as [a ->]; constructor).
  1: assert (Hb : tuple_free (@Lst A [])) by (constructor; constructor).
  2: assert (Hb : tuple_free (@Dict A [])) by (constructor; constructor).
  1,2: revert Hb; clear -Hwalk Hl; 
    match goal with |- context [rfold _ _ (?b, [])] => generalize b as b0 end;
    induction Hl as [|[p f] l Hp _ IH]; intros b0 Hb; [simpl; auto|]; cbn [rfold];
    assert (H := Hwalk (split sep p) b0 [] f Hb Hp);
    destruct (extend_walk eqA sep b0 [] (split sep p) f) as [[t' r]|e]; cbn [rbind];
    [destruct H as [H ->]; simpl app; apply IH; exact H|exact H].
  all: match goal with |- context [rfold ?f ?l (?b, [])] => destruct (rfold f l (b, [])) as [[t' r]|e] end;
    cbn [rbind]; [destruct Hrf as [_ ->]; discriminate|congruence].
Qed.

Section Place.
Variable sep : ascii.
Hypothesis Hsep : is_digit_char sep = false.
Variable uuid : nat -> string.
Variables in_key out_key : string.
Hypothesis Hin : no_sep sep in_key = true /\ in_key <> EmptyString.
Hypothesis Hout : no_sep sep out_key = true /\ out_key <> EmptyString.
Context {A : Type}.
Variable t : tree A.

Lemma getp_true_ok ks : forall (t0 : tree A) rest u,
  walk t0 ks = Some u -> rest = [] \/ atomic u = true -> exists r, getp true t0 (ks ++ rest) = Ok r.
Proof.
  induction ks as [|k ks IH]; intros t0 rest u Hw Hr.
  - injection Hw as ->. simpl. destruct Hr as [->|Ha]; [simpl; eauto|].
    destruct rest as [|k rest]; [simpl; eauto|]. cbn [getp].
    destruct (String.eqb k EmptyString && _); [eauto|]. destruct u; try discriminate; eauto.
  - cbn [walk] in Hw. destruct (child t0 k) as [t1|] eqn:Ec; [|discriminate].
    simpl app. cbn [getp].
    destruct (String.eqb k EmptyString && _); [eauto|].
    destruct t0 as [a| |d|l|l]; cbn [child] in Ec; try discriminate.
    + rewrite Ec. eapply IH; eauto.
    + destruct (isdigit k); [|discriminate]. rewrite Ec. eapply IH; eauto.
    + destruct (isdigit k); [|discriminate]. rewrite Ec. eapply IH; eauto.
Qed.

Lemma getitem_ok p ks rest u :
  split sep p = ks ++ rest -> walk t ks = Some u -> rest = [] \/ atomic u = true ->
  exists r, getitem sep no_leaf true t p = Ok r.
Proof.
  intros E Hw Hr. rewrite getitem_split, E. destruct (getp_true_ok ks t rest u Hw Hr) as [[u' r] ->].
  simpl. eauto.
Qed.

Lemma part_val_ok v : is_target sep out_key t v -> ~ reserved sep in_key v ->
  exists pv, part_val sep in_key out_key t v = Ok pv.
Proof.
  intros H Hnr. unfold part_val. destruct (under sep v out_key) eqn:Eo; [eauto|].
  destruct (under sep v in_key) eqn:Ei.
  { apply under_reserved in Ei; [contradiction|tauto]. }
  destruct H as [H|[ks [rest [u [E [Hw Ha]]]]]].
  - apply under_reserved in H; [congruence|tauto].
  - destruct (getitem_ok v ks rest u E Hw (or_intror Ha)) as [[u' r] ->]. simpl. eauto.
Qed.

Lemma part_key_ok k : is_source sep in_key out_key t k ->
  exists pk, part_key sep in_key out_key t k = Ok pk.
Proof.
  intros H. unfold part_key. destruct (under sep k in_key) eqn:Ei; [eauto|].
  destruct H as [H|[Hno [ks [rest [u [E [Hw Ha]]]]]]].
  - apply under_reserved in H; [congruence|tauto].
  - destruct (under sep k out_key) eqn:Eo; [apply under_reserved in Eo; [contradiction|tauto]|].
    destruct (getitem_ok k ks rest u E Hw Ha) as [[u' r] ->]. simpl. eauto.
Qed.

Lemma rmapM_ok {X Y} (f : X -> result Y) l : (forall x, In x l -> exists y, f x = Ok y) -> exists ys, rmapM f l = Ok ys.
Proof.
  induction l as [|x l IH]; intros H; [exists []; reflexivity|].
  destruct (H x (or_introl eq_refl)) as [y E]. destruct IH as [ys Es]; [intros z Hz; apply H; right; exact Hz|].
  exists (y :: ys). simpl. rewrite E. simpl. rewrite Es. reflexivity.
Qed.

Lemma partition_ok conns :
  well_written sep out_key t conns ->
  (forall k c, In (k, c) conns -> is_source sep in_key out_key t k) ->
  (forall k v, In (k, v) (pairs (normalize conns)) -> ~ reserved sep in_key v) ->
  exists pc, partition_connections sep in_key out_key t conns = Ok pc.
Proof.
  intros [Hnd [Hkc Hvc]] Hs Hr. unfold partition_connections.
  assert (Hd : check_double sep (normalize conns) = false).
  { destruct (check_double sep (normalize conns)) eqn:E; [exfalso|reflexivity].
    unfold check_double in E. apply existsb_exists in E as [[k vs] [Hi E]]. simpl in E.
    apply orb_true_iff in E as [E|E].
    - unfold normalize in Hi. apply in_map_iff in Hi as [[k' c] [E' Hi]]. injection E' as <- <-.
      assert (Hc := Hkc _ _ Hi). apply clean_no_double in Hc. congruence.
    - apply existsb_exists in E as [v [Hv E]]. assert (Hp : In (k, v) (pairs (normalize conns))).
      { rewrite pairs_flatg. apply In_flatg. eauto. }
      destruct (Hvc k v Hp) as [Hc _]. apply clean_no_double in Hc. congruence. }
  rewrite Hd. clear Hd.
  assert (Hkey : forall k vs, In (k, vs) (normalize conns) -> is_source sep in_key out_key t k).
  { intros k vs Hi. unfold normalize in Hi. apply in_map_iff in Hi as [[k' c] [E' Hi]].
    injection E' as <- <-. eapply Hs; eauto. }
  assert (Hval : forall k vs v, In (k, vs) (normalize conns) -> In v vs ->
     is_target sep out_key t v /\ ~ reserved sep in_key v).
  { intros k vs v Hi Hv. assert (Hp : In (k, v) (pairs (normalize conns))).
    { rewrite pairs_flatg. apply In_flatg. eauto. }
    split; [apply (Hvc k v Hp)|eapply Hr; eauto]. }
  revert Hkey Hval. generalize (@nil (string * list string)) as acc.
  clear -Hin Hout. induction (normalize conns) as [|[k vs] l IH]; intros acc Hkey Hval; [simpl; eauto|].
  cbn [rfold]. unfold part_entry at 1. cbn [fst snd].
  destruct (part_key_ok k) as [pk ->]; [apply (Hkey k vs); left; reflexivity|]. cbn [rbind].
  destruct (rmapM_ok (part_val sep in_key out_key t) vs) as [pvs ->].
  { intros v Hv. destruct (Hval k vs v (or_introl eq_refl) Hv). apply part_val_ok; assumption. }
  cbn [rbind]. apply IH.
  - intros k' vs' Hi. eapply Hkey. right; exact Hi.
  - intros k' vs' v Hi Hv. eapply Hval; [right; exact Hi|exact Hv].
Qed.

Lemma concretize_total conns pc :
  well_written sep out_key t conns ->
  fresh_source sep uuid (map snd (pairs (normalize conns))) ->
  partition_connections sep in_key out_key t conns = Ok pc ->
  exists cc, concretize_connections sep uuid in_key out_key t conns = Ok cc.
Proof.
  intros [Hnd [Hkc Hvc]] Hfresh Hpc. unfold concretize_connections. rewrite Hpc. cbn [rbind].
  unfold partition_connections in Hpc.
  destruct (check_double sep (normalize conns)); [discriminate|].
  set (conn := normalize conns) in *.
  assert (Hkc' : forall k vs, In (k, vs) conn -> clean sep k).
  { intros k vs Hi. unfold conn, normalize in Hi. apply in_map_iff in Hi as [[k' c] [E Hi]].
    simpl in E. injection E as <- _. eapply Hkc; eauto. }
  destruct (part_fold sep in_key out_key Hin Hout t conn [] pc Hpc) as [new [Epc Hrel]];
    [unfold conn; rewrite dkeys_normalize; exact Hnd|exact Hkc'|intros nk []|].
  simpl in Epc. subst new.
  destruct (triples_rel sep in_key out_key Hin Hout t conn pc Hrel Hkc') as [HX Hu2]; [intros k v Hi; apply (Hvc k v Hi)|].
  rewrite (by_outer_eq sep pc Hu2). cbn [rbind].
  set (X := triples sep pc) in *.
  set (grouped := fold_left (fun g x => dpush g (fst x) (snd x)) X []) in *.
  assert (HpermX : Permutation (flatg grouped) X) by (apply (flatg_group X [])).
  assert (Hgroups : forall e, In e grouped -> snd e <> [] /\ fresh_source sep uuid (map fst (snd e))).
  { intros [outer ms] He. split.
    - simpl. apply In_group in He. tauto.
    - destruct Hfresh as [F1 [F2 F3]]. split; [exact F1|]. split; [exact F2|].
      intros n p Hp Hc. simpl in Hp. apply in_map_iff in Hp as [m [<- Hm]].
      assert (Hm' : In (outer, m) X) by (apply (Permutation_in _ HpermX); apply In_flatg; eauto).
      destruct (Forall2_In_r _ _ _ _ HX Hm') as [[k v] [Hkv [_ [o [i [_ [Ei [Es [_ [Hci _]]]]]]]]]].
      simpl in Ei, Es. rewrite Ei, cclean_comps in Hc by exact Hci.
      apply (F3 n v); [apply (in_map snd _ (k, v)); exact Hkv|].
      destruct (Hvc k v Hkv) as [Hcv _]. destruct (clean_comps sep v Hcv) as [-> _].
      rewrite Es. apply in_or_app; right; exact Hc. }
  destruct (conc_fold sep Hsep uuid grouped 0 [] Hgroups) as [n' [conc [Ec _]]].
  eexists. etransitivity; [apply (f_equal (fun r => rbind r _)); exact Ec|]. reflexivity.
Qed.

Lemma getitem_no_runtime p : getitem sep no_leaf true t p <> Err RuntimeError.
Proof.
  rewrite getitem_split. assert (H : forall ps (t0 : tree A), getp true t0 ps <> Err RuntimeError).
  { induction ps as [|k ps IH]; intros t0; [discriminate|]. cbn [getp].
    destruct (String.eqb k EmptyString && _); [discriminate|].
    destruct t0 as [a| |d|l|l]; try discriminate.
    - destruct (dget d k); [apply IH|discriminate].
    - destruct (isdigit k); [|discriminate]. destruct (nth_error l (int_of k)); [apply IH|discriminate].
    - destruct (isdigit k); [|discriminate]. destruct (nth_error l (int_of k)); [apply IH|discriminate]. }
  destruct (getp true t (split sep p)) as [[u r]|e] eqn:E; simpl; [discriminate|].
  intros E'. injection E' as ->. apply (H _ _ E).
Qed.

Lemma partition_no_runtime conns : partition_connections sep in_key out_key t conns <> Err RuntimeError.
Proof.
  unfold partition_connections. destruct (check_double sep (normalize conns)); [discriminate|].
  assert (Hk : forall k, part_key sep in_key out_key t k <> Err RuntimeError).
  { intros k. unfold part_key. destruct (under sep k in_key); [discriminate|].
    destruct (under sep k out_key); [discriminate|]. assert (H := getitem_no_runtime k).
    destruct (getitem sep no_leaf true t k) as [[u r]|e]; simpl; congruence. }
  assert (Hv : forall v, part_val sep in_key out_key t v <> Err RuntimeError).
  { intros k. unfold part_val. destruct (under sep k out_key); [discriminate|].
    destruct (under sep k in_key); [discriminate|]. assert (H := getitem_no_runtime k).
    destruct (getitem sep no_leaf true t k) as [[u r]|e]; simpl; congruence. }
  assert (Hvs : forall vs, rmapM (part_val sep in_key out_key t) vs <> Err RuntimeError).
  { induction vs as [|v vs IH]; [discriminate|]. simpl. specialize (Hv v).
    destruct (part_val sep in_key out_key t v); simpl; [|congruence].
    destruct (rmapM _ vs); simpl; congruence. }
  generalize (@nil (string * list string)) as acc.
  induction (normalize conns) as [|[k vs] l IH]; intros acc; [discriminate|].
  cbn [rfold]. unfold part_entry at 1. cbn [fst snd]. specialize (Hk k). specialize (Hvs vs).
  destruct (part_key sep in_key out_key t k); simpl; [|congruence].
  destruct (rmapM _ vs); simpl; [apply IH|congruence].
Qed.

Lemma startswith_app_sep p : forall v x, no_sep sep p = true ->
  startswith (append v (String sep x)) p = true -> startswith v p = true.
Proof.
  induction p as [|c p IH]; intros v x Hn H; [reflexivity|].
  cbn [no_sep] in Hn. apply andb_true_iff in Hn as [Hc Hn].
  destruct v as [|d v]; cbn [append startswith] in *.
  - apply andb_true_iff in H as [H _]. rewrite H in Hc. discriminate.
  - apply andb_true_iff in H as [H1 H2]. rewrite H1. simpl. eapply IH; eauto.
Qed.

Lemma strip_slot w r : clean sep w -> split sep w = out_key :: r -> r <> [] ->
  strip sep (removeprefix w (append out_key (sepS sep))) = join sep r /\
  startswith w (append out_key (sepS sep)) = true.
Proof.
  intros Hc E Hr. destruct (clean_comps sep w Hc) as [_ Hcc]. rewrite E in Hcc.
  inversion Hcc as [|? ? _ Hcr]; subst.
  assert (Ew : w = append (append out_key (sepS sep)) (join sep r)).
  { rewrite <- (join_split sep w), E, join_cons by exact Hr. rewrite append_assoc. reflexivity. }
  rewrite Ew, removeprefix_append. split; [|apply startswith_refl_app].
  apply strip_clean. apply cclean_clean; assumption.
Qed.

Theorem place_spec conns :
  well_written sep out_key t conns ->
  fresh_source sep uuid (map snd (pairs (normalize conns))) ->
  plain_outputs sep out_key conns ->
  place_connections sep uuid in_key out_key t conns <> Err RuntimeError /\
  (forall placed outrem, place_connections sep uuid in_key out_key t conns = Ok (placed, outrem) ->
   exists Q : list (string * string * string),
    map fst Q = pairs (normalize conns) /\
    (forall i k v w, nth_error Q i = Some (k, v, w) -> clean sep w /\
        slot_given sep uuid (map snd (pairs (normalize conns))) i v w) /\
    (forall i j q1 q2, nth_error Q i = Some q1 -> nth_error Q j = Some q2 -> i <> j ->
        ~ prefix (split sep (snd q1)) (split sep (snd q2))) /\
    (forall k v w, In (k, v, w) Q ->
       match split sep w with
       | s :: r => if String.eqb s out_key then walk outrem r = Some (Leaf k)
                   else walk placed (s :: r) = Some (Leaf k)
       | [] => False
       end) /\
    (forall ks a, walk outrem ks = Some (Leaf a) ->
       exists v w r, In (a, v, w) Q /\ split sep w = out_key :: r /\ same_keys ks r) /\
    (forall ks a, walk placed ks = Some (Leaf a) ->
       exists v w, In (a, v, w) Q /\ same_keys ks (split sep w))).
Proof.
  intros Hww Hfresh Hplain.
  assert (Hpn := partition_no_runtime conns).
  unfold place_connections.
  destruct (partition_connections sep in_key out_key t conns) as [pc|e] eqn:Epc.
  2: { assert (E : concretize_connections sep uuid in_key out_key t conns = Err e)
         by (unfold concretize_connections; rewrite Epc; reflexivity).
       rewrite E. simpl. split; [congruence|discriminate]. }
  destruct (concretize_total conns pc Hww Hfresh Epc) as [cc Ecc]. rewrite Ecc. cbn [rbind].
  destruct (concretize_connections_spec sep Hsep uuid in_key out_key Hin Hout t conns cc Hww Hfresh Ecc)
    as [_ [Q [P1 [P2 [P3' P4]]]]].
  assert (P3 := slots_shape sep uuid _ conns Q (proj2 (proj2 Hww)) P1 P3').
  (* all targets are different *)
  assert (Hnd : NoDup (map snd (pairs cc))).
  { eapply Permutation_NoDup; [apply Permutation_map; exact P2|]. rewrite map_map. cbn [snd].
    apply NoDup_nth_error. intros i j Hi Eij. destruct (Nat.eq_dec i j) as [|Hij]; [assumption|exfalso].
    rewrite !nth_error_map in Eij. rewrite map_length in Hi.
    destruct (nth_error Q i) as [q1|] eqn:E1; [|apply nth_error_None in E1; lia].
    destruct (nth_error Q j) as [q2|] eqn:E2; [|discriminate].
    simpl in Eij. apply (P4 i j q1 q2 E1 E2 Hij). exists []. rewrite app_nil_r. congruence. }
  rewrite (single_sources_ok cc Hnd). cbn [rbind].
  set (rc := map swap (pairs cc)).
  assert (Hrc : forall w k, In (w, k) rc <-> exists v, In (k, v, w) Q).
  { intros w k. unfold rc. split.
    - intros Hi. apply in_map_iff in Hi as [[k' w'] [E Hi]]. injection E as -> ->.
      apply (Permutation_in _ (Permutation_sym P2)) in Hi. apply in_map_iff in Hi as [[[k2 v] w2] [E Hi]].
      injection E as -> ->. exists v; exact Hi.
    - intros [v Hi]. apply in_map_iff. exists (k, w). split; [reflexivity|].
      apply (Permutation_in _ P2). apply in_map_iff. exists (k, v, w); auto. }
  assert (Hclean : forall w k, In (w, k) rc -> clean sep w).
  { intros w k Hi. apply Hrc in Hi as [v Hi]. apply (P3 _ _ _ Hi). }
  assert (Hres : forall w k, In (w, k) rc -> startswith w out_key = true -> reserved sep out_key w).
  { intros w k Hi Hs. apply Hrc in Hi as [v Hi].
    assert (Hv : In (k, v) (pairs (normalize conns))).
    { rewrite <- P1. apply in_map_iff. exists (k, v, w); auto. }
    destruct (P3 _ _ _ Hi) as [Hc [->|[x [Hx E]]]]; [eapply Hplain; eauto|].
    assert (Ew : w = append v (String sep x)).
    { rewrite <- (join_split sep w), E, join_app; [rewrite join_split; reflexivity|apply split_nonempty|discriminate]. }
    rewrite Ew in Hs. apply startswith_app_sep in Hs; [|tauto].
    destruct (Hplain k v Hv Hs) as [r Er]. exists (r ++ [x]). rewrite E, Er. reflexivity. }
  (* a target equal to the output key is the only target of the output *)
  assert (Hwhole : forall k, In (out_key, k) rc -> forall w' k', In (w', k') rc -> reserved sep out_key w' ->
            w' = out_key).
  { intros k Hk w' k' Hk' [r Er]. destruct (string_dec w' out_key) as [|Hne]; [assumption|exfalso].
    apply Hrc in Hk as [v Hk]. apply Hrc in Hk' as [v' Hk'].
    apply In_nth_error in Hk as [i Hk]. apply In_nth_error in Hk' as [j Hk'].
    apply (P4 i j _ _ Hk Hk').
    - intros ->. rewrite Hk in Hk'. injection Hk' as -> -> ->. congruence.
    - cbn [snd]. rewrite Er, split_no_sep_id by tauto. exists r. reflexivity. }
  set (outs := filter (fun kv => startswith (fst kv) out_key) rc).
  set (ins := filter (fun kv => negb (startswith (fst kv) (append out_key (sepS sep)))) rc).
  match goal with |- context [rbind ?x _] => set (outr := x) end.
  set (gen := extend_structure String.eqb sep None
               (map (fun kv : string * string => strip sep (removeprefix (fst kv) (append out_key (sepS sep)))) outs)
               (FillList (map (fun kv : string * string => Leaf (snd kv)) outs))) in *.
  assert (Hgen : gen <> Err RuntimeError).
  { apply extend_no_runtime. apply Forall_forall. intros f Hf. apply in_map_iff in Hf as [x [<- _]]. eauto. }
  assert (Houtr : (exists k, outs = [(out_key, k)] /\ outr = Ok (Leaf k)) \/
                  (outr = gen /\ forall k, ~ In (out_key, k) rc)).
  { destruct (in_dec string_dec out_key (map fst rc)) as [Hi|Hni].
    - left. apply in_map_iff in Hi as [[w k] [E Hi]]. simpl in E. subst w.
      assert (Hall : forall x, In x outs -> fst x = out_key).
      { intros [w' k'] Hx. apply filter_In in Hx as [Hx Hs]. simpl in *.
        eapply Hwhole; eauto. }
      assert (Hndo : NoDup (map fst outs)).
      { apply NoDup_filter_map. unfold rc. rewrite map_map. exact Hnd. }
      assert (Hin' : In (out_key, k) outs).
      { apply filter_In. split; [exact Hi|]. simpl. apply startswith_iff. exists EmptyString.
        symmetry. apply append_nil_r. }
      assert (Eo : outs = [(out_key, k)]).
      { clear -Hall Hndo Hin'. destruct outs as [|x [|y l]]; [destruct Hin'|destruct Hin' as [->|[]]; reflexivity|].
        exfalso. simpl in Hndo. rewrite (Hall x), (Hall y) in Hndo by (simpl; auto).
        inversion Hndo as [|? ? H _]. apply H. left; reflexivity. }
      exists k. split; [exact Eo|]. unfold outr. fold outs. rewrite Eo. rewrite String.eqb_refl. reflexivity.
    - right. split.
      + unfold outr. fold outs. destruct outs as [|[k src] [|y l]] eqn:Eo; [reflexivity| |reflexivity].
        destruct (String.eqb_spec k out_key) as [->|]; [|reflexivity].
        exfalso. apply Hni. apply in_map_iff. exists (out_key, src). split; [reflexivity|].
        assert (H : In (out_key, src) outs) by (rewrite Eo; left; reflexivity).
        apply filter_In in H. tauto.
      + intros k Hi. apply Hni. apply in_map_iff. exists (out_key, k). auto. }
  assert (Hplaced : extend_structure String.eqb sep None (map (fun kv : string * string => strip sep (fst kv)) ins)
                      (FillList (map (fun kv : string * string => Leaf (snd kv)) ins)) <> Err RuntimeError).
  { apply extend_no_runtime. apply Forall_forall. intros f Hf. apply in_map_iff in Hf as [x [<- _]]. eauto. }
  split.
  - destruct Houtr as [[k [_ ->]]|[-> _]].
    + cbn [rbind]. fold ins. match type of Hplaced with ?x <> _ => destruct x as [p|e] end; cbn [rbind]; [discriminate|congruence].
    + destruct gen as [g|e]; [|simpl; congruence]. cbn [rbind]. fold ins.
      match type of Hplaced with ?x <> _ => destruct x as [p|e] end; cbn [rbind]; [discriminate|congruence].
  - intros placed outrem H. apply rbind_ok in H as [outrem' [Ho H]]. fold ins in H.
    apply rbind_ok in H as [placed' [Hp H]]. injection H as -> ->.
    exists Q. split; [exact P1|]. split; [exact P3'|]. split; [exact P4|].
    apply (@extend_structure_post string String.eqb (fun a b => proj1 (String.eqb_eq a b)) sep) in Hp as [_ [_ [Hp1 Hp2]]].

    split; [|split].
    + intros k v w Hi. assert (Hir : In (w, k) rc) by (apply Hrc; eauto).
      assert (Hcw := Hclean w k Hir).
      destruct (split sep w) as [|s r] eqn:Es; [exfalso; eapply split_nonempty; eauto|].
      destruct (String.eqb_spec s out_key) as [->|Hs].
      * destruct r as [|r0 r].
        -- assert (w = out_key) by (rewrite <- (join_split sep w), Es; reflexivity). subst w.
           destruct Houtr as [[k' [Eo Er]]|[_ Hno]]; [|exfalso; eapply Hno; eauto].
           rewrite Er in Ho. injection Ho as <-. simpl.
           assert (H : In (out_key, k) outs).
           { apply filter_In. split; [exact Hir|]. apply startswith_iff. exists EmptyString. symmetry; apply append_nil_r. }
           rewrite Eo in H. destruct H as [H|[]]. congruence.
        -- destruct Houtr as [[k' [Eo Er]]|[Er Hno]].
           { exfalso. assert (H : In (out_key, k') outs) by (rewrite Eo; left; reflexivity).
             apply filter_In in H as [H _]. assert (E := Hwhole k' H w k Hir (ex_intro _ _ Es)).
             subst w. rewrite split_no_sep_id in Es by tauto. discriminate. }
           rewrite Er in Ho. unfold gen in Ho.
           apply (@extend_structure_post string String.eqb (fun a b => proj1 (String.eqb_eq a b)) sep) in Ho as [_ [_ [Ho _]]].
           destruct (strip_slot w (r0 :: r) Hcw Es) as [Est Esw]; [discriminate|].
           assert (Hio : In (w, k) outs).
           { apply filter_In. split; [exact Hir|]. simpl. apply startswith_iff in Esw as [tl Htl].
             apply startswith_iff. rewrite append_assoc in Htl. eauto. }
           apply In_nth_error in Hio as [n Hn].
           specialize (Ho n (join sep (r0 :: r)) k). rewrite !nth_error_map, Hn in Ho. cbn [option_map fst snd] in Ho.
           rewrite Est in Ho. specialize (Ho eq_refl eq_refl).
           destruct (clean_comps sep w Hcw) as [_ Hcc]. rewrite Es in Hcc. inversion Hcc; subst.
           rewrite cclean_split in Ho; [exact Ho|discriminate|assumption].
      * assert (Hii : In (w, k) ins).
        { apply filter_In. split; [exact Hir|]. simpl. destruct (startswith w (append out_key (sepS sep))) eqn:Esw; [|reflexivity].
          exfalso. apply Hs. assert (Hs' : startswith w out_key = true).
          { apply startswith_iff in Esw as [tl ->]. rewrite append_assoc. apply startswith_refl_app. }
          destruct (Hres w k Hir Hs') as [r' Er']. congruence. }
        apply In_nth_error in Hii as [n Hn].
        specialize (Hp1 n w k). rewrite !nth_error_map, Hn in Hp1. cbn [option_map fst snd] in Hp1.
        rewrite strip_clean in Hp1 by exact Hcw. rewrite Es in Hp1. apply Hp1; reflexivity.
    + intros ks a Hw. destruct Houtr as [[k' [Eo Er]]|[Er Hno]].
      * rewrite Er in Ho. injection Ho as <-.
        destruct ks as [|k0 ks]; [|simpl in Hw; discriminate]. injection Hw as <-.
        assert (H : In (out_key, k') outs) by (rewrite Eo; left; reflexivity).
        apply filter_In in H as [H _]. apply Hrc in H as [v Hv].
        exists v, out_key, []. split; [exact Hv|]. split; [apply split_no_sep_id; tauto|constructor].
      * rewrite Er in Ho. unfold gen in Ho.
        apply (@extend_structure_post string String.eqb (fun a b => proj1 (String.eqb_eq a b)) sep) in Ho as [_ [_ [_ Ho]]].
        destruct (Ho ks a Hw) as [[b [E _]]|[i [p [fill [k1 [k2 [Hi1 [Hi2 [-> [Hsk Hwf]]]]]]]]]]; [discriminate|].
        rewrite !nth_error_map in Hi1, Hi2. destruct (nth_error outs i) as [[w k]|] eqn:En; [|discriminate].
        simpl in Hi1, Hi2. injection Hi1 as <-. injection Hi2 as <-.
        destruct k2 as [|k0 k2]; [|simpl in Hwf; discriminate]. injection Hwf as ->. rewrite app_nil_r in *.
        apply nth_error_In, filter_In in En as [Hir Hs]. cbn [fst] in Hs.
        destruct (Hres w a Hir Hs) as [r Er'].
        assert (Hcw := Hclean w a Hir).
        destruct r as [|r0 r].
        { exfalso. apply (Hno a). assert (w = out_key) by (rewrite <- (join_split sep w), Er'; reflexivity).
          subst w. exact Hir. }
        destruct (strip_slot w (r0 :: r) Hcw Er') as [Est _]; [discriminate|].
        rewrite Est in Hsk. destruct (clean_comps sep w Hcw) as [_ Hcc]. rewrite Er' in Hcc. inversion Hcc; subst.
        rewrite cclean_split in Hsk; [|discriminate|assumption].
        apply Hrc in Hir as [v Hv]. exists v, w, (r0 :: r). auto.
    + intros ks a Hw.
      destruct (Hp2 ks a Hw) as [[b [E _]]|[i [p [fill [k1 [k2 [Hi1 [Hi2 [-> [Hsk Hwf]]]]]]]]]]; [discriminate|].
      rewrite !nth_error_map in Hi1, Hi2. destruct (nth_error ins i) as [[w k]|] eqn:En; [|discriminate].
      simpl in Hi1, Hi2. injection Hi1 as <-. injection Hi2 as <-.
      destruct k2 as [|k0 k2]; [|simpl in Hwf; discriminate]. injection Hwf as ->. rewrite app_nil_r in *.
      apply nth_error_In, filter_In in En as [Hir _]. rewrite strip_clean in Hsk by (eapply Hclean; eauto).
      apply Hrc in Hir as [v Hv]. exists v, w. auto.
Qed.
End Place.
