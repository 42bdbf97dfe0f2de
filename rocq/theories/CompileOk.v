(** Networks that can be compiled. *)
From Verif Require Import Base BaseLemmas TreeUtil TreeSpec TreeProofs ExtendProofs Resolve ResolveSpec
  ResolveProofs Connections ConcretizeSpec ConcretizeProofs ConnSpec ConnProofs PlaceProofs
  NonSeq NonSeqSpec NonSeqProofs NonSeqRun NonSeqNet CompileSpec ExtendOk.
From Coq Require Import Permutation Relations.Operators_Properties Relations.
Local Open Scope string_scope.
Local Open Scope list_scope.

Section Slots.
Variable sep : ascii.
Hypothesis Hsep : is_digit_char sep = false.
Variable uuid : nat -> string.
Hypothesis Hname : forall n, isdigit (uuid n) = false.
Variable Q : list (string * string * string).
Variable V : list string.
Hypothesis HV : map snd (map fst Q) = V.
Hypothesis Hclean : forall v, In v V -> clean sep v.
Hypothesis Hcan : forall v, In v V -> canonical sep v.
Hypothesis HU : uniform (map (split sep) V).
Hypothesis HQ : forall i k v w, nth_error Q i = Some (k, v, w) -> clean sep w /\ slot_given sep uuid V i v w.

Lemma slot_V i k v w : nth_error Q i = Some (k, v, w) -> In v V.
Proof. intros H. rewrite <- HV. apply nth_error_In in H. apply (in_map fst), (in_map snd) in H. exact H. Qed.

(** a slot is the written target, or the written target and one more key, a
    number if all keys in use there are numbers and a name otherwise *)
Lemma slot_cases i k v w : nth_error Q i = Some (k, v, w) ->
  split sep w = split sep v \/
  exists x, split sep w = split sep v ++ [x] /\ (isdigit x = true -> x = str_of (int_of x)) /\
    (forall u a r, In u V -> split sep u = split sep v ++ a :: r -> isdigit a = isdigit x) /\
    ((forall u a r, In u V -> split sep u = split sep v ++ a :: r -> isdigit a = true) -> isdigit x = true).
Proof.
  intros H. assert (Hv := slot_V i k v w H). destruct (HQ i k v w H) as [Hw [[_ -> ]|[_ [x [E [_ [_ [_ [S1 S2]]]]]]]]]; [left; reflexivity|right].
  destruct (clean_comps sep w Hw) as [Cw _]. destruct (clean_comps sep v (Hclean v Hv)) as [Cv _]. rewrite Cw, Cv in E.
  assert (Hsib : forall e, sibling sep V v e <-> exists u r, In u V /\ split sep u = split sep v ++ e :: r).
  { intros e. unfold sibling. rewrite Cv. split; intros [u [r [Hu Eu]]]; exists u, r; (split; [exact Hu|]);
      destruct (clean_comps sep u (Hclean u Hu)) as [Cu _]; congruence. }
  exists x. split; [exact E|].
  assert (Hall : (forall e, sibling sep V v e -> isdigit e = true) -> isdigit x = true /\ x = str_of (int_of x)).
  { intros Ha. destruct (S1 Ha) as [m [L [ -> _]]]. rewrite int_of_str_of. split; [apply isdigit_str_of|reflexivity]. }
  assert (Hex : (exists e, sibling sep V v e /\ isdigit e = false) -> isdigit x = false).
  { intros He. destruct (S2 He) as [m -> ]. apply Hname. }
  assert (Hdig : isdigit x = true -> forall e, sibling sep V v e -> isdigit e = true).
  { intros Hx e He. destruct (isdigit e) eqn:Ee; [reflexivity|]. rewrite (Hex (ex_intro _ e (conj He Ee))) in Hx. discriminate. }
  split; [|split].
  - intros Hx. apply Hall, Hdig, Hx.
  - intros u a r Hu Eu. assert (Ha : sibling sep V v a) by (apply Hsib; eauto).
    destruct (isdigit a) eqn:Ea.
    + symmetry. apply Hall. intros e He. apply Hsib in He as [u2 [r2 [Hu2 Eu2]]]. rewrite <- Ea.
      apply (HU (split sep v) e a r2 r); [rewrite <- Eu2; apply in_map; exact Hu2|rewrite <- Eu; apply in_map; exact Hu|apply split_nonempty].
    + symmetry. apply Hex. eauto.
  - intros Ha. apply Hall. intros e He. apply Hsib in He as [u [r [Hu Eu]]]. eapply Ha; eauto.
Qed.

Lemma slots_standard i k v w : nth_error Q i = Some (k, v, w) -> standard (split sep w).
Proof.
  intros H. assert (Hv := Hcan v (slot_V i k v w H)). unfold canonical in Hv. unfold standard.
  destruct (slot_cases i k v w H) as [ -> |[x [ -> [Hx _]]]]; [exact Hv|]. apply Forall_app. split; [exact Hv|]. repeat constructor. exact Hx.
Qed.

Lemma app_cases {X} (c : list X) a r s x : c ++ a :: r = s ++ [x] -> (r = [] /\ c = s /\ a = x) \/ exists r', s = c ++ a :: r'.
Proof.
  intros E. destruct r as [|y r _] using rev_ind.
  - left. apply app_inj_tail in E as [ -> -> ]. auto.
  - right. exists r. assert (E' : (c ++ a :: r) ++ [y] = s ++ [x]) by (rewrite <- E, <- app_assoc; reflexivity).
    apply app_inj_tail in E' as [ <- _]. reflexivity.
Qed.

Lemma slots_uniform : uniform (map (split sep) (map snd Q)).
Proof.
  intros c a b r s Ha Hb Hc.
  assert (G : forall p, In p (map (split sep) (map snd Q)) -> exists i k v w, nth_error Q i = Some (k, v, w) /\ p = split sep w).
  { intros p Hp. apply in_map_iff in Hp as [w [ <- Hp]]. apply in_map_iff in Hp as [[[k v] w'] [E Hp]]. simpl in E. subst w'.
    apply In_nth_error in Hp as [i Hp]. eauto 6. }
  apply G in Ha as [i [k [v [w [Hi E]]]]]. apply G in Hb as [j [k' [v' [w' [Hj E']]]]]. clear G.
  assert (Hv := slot_V _ _ _ _ Hi). assert (Hv' := slot_V _ _ _ _ Hj).
  assert (K : forall i k v w c a r, nth_error Q i = Some (k, v, w) -> c ++ a :: r = split sep w ->
     (exists r', split sep v = c ++ a :: r') \/
     (split sep v = c /\ (forall u e t, In u V -> split sep u = c ++ e :: t -> isdigit e = isdigit a) /\
       ((forall u e t, In u V -> split sep u = c ++ e :: t -> isdigit e = true) -> isdigit a = true))).
  { clear -Hname HV Hclean HU HQ. intros i k v w c a r Hi E. destruct (slot_cases i k v w Hi) as [Es|[x [Es [_ [S1 S2]]]]]; rewrite Es in E.
    - left. exists r. symmetry; exact E.
    - apply app_cases in E as [[ -> [ -> -> ]]|[r' E]]; [right|left; eauto]. auto. }
  destruct (K _ _ _ _ _ _ _ Hi E) as [[r1 E1]|[E1 [S1 T1]]]; destruct (K _ _ _ _ _ _ _ Hj E') as [[r2 E2]|[E2 [S2 T2]]].
  - apply (HU c a b r1 r2); [rewrite <- E1; apply in_map; exact Hv|rewrite <- E2; apply in_map; exact Hv'|exact Hc].
  - exact (S2 v a r1 Hv E1).
  - symmetry. exact (S1 v' b r2 Hv' E2).
  - destruct (isdigit a) eqn:Ea; [|destruct (isdigit b) eqn:Eb; [|reflexivity]].
    + symmetry. apply T2. intros u e t Hu Eu. exact (S1 u e t Hu Eu).
    + apply T1. intros u e t Hu Eu. exact (S2 u e t Hu Eu).
Qed.
End Slots.

Lemma uniform_incl P P' : uniform P -> incl P' P -> uniform P'.
Proof. intros H Hi c a b r s Ha Hb Hc. apply (H c a b r s); auto. Qed.

Section Place.
Variable sep : ascii.
Hypothesis Hsep : is_digit_char sep = false.
Variable uuid : nat -> string.
Hypothesis Hname : forall n, isdigit (uuid n) = false.
Variables in_key out_key : string.
Hypothesis Hin : no_sep sep in_key = true /\ in_key <> EmptyString.
Hypothesis Hout : no_sep sep out_key = true /\ out_key <> EmptyString.
Context {A : Type}.
Variable t : tree A.

Lemma extend_pairs_ok (f : string * string -> string) (l : list (string * string)) :
  Forall (fun kv => clean sep (f kv)) l ->
  Forall (fun kv => standard (split sep (f kv))) l ->
  uniform (map (fun kv => split sep (f kv)) l) ->
  NoDup (map f l) ->
  (forall x y, In x l -> In y l -> f x <> f y -> ~ prefix (split sep (f x)) (split sep (f y))) ->
  exists u, extend_structure String.eqb sep None (map f l) (FillList (map (fun kv => Leaf (snd kv)) l)) = Ok u.
Proof.
  intros Hc Hs HU Hnd Hp. apply extend_none_ok.
  - rewrite !map_length. reflexivity.
  - apply Forall_forall. intros p Hi. apply in_map_iff in Hi as [x [ <- Hx]]. rewrite Forall_forall in Hc. apply (Hc x Hx).
  - apply Forall_forall. intros p Hi. apply in_map_iff in Hi as [x [ <- Hx]]. rewrite Forall_forall in Hs. apply (Hs x Hx).
  - rewrite map_map. exact HU.
  - intros i j p q Hi Hj Hij. assert (Hne : p <> q).
    { intros ->. apply Hij. apply (proj1 (NoDup_nth_error (map f l)) Hnd); [apply nth_error_Some; congruence|congruence]. }
    apply nth_error_In in Hi. apply nth_error_In in Hj. apply in_map_iff in Hi as [x [ <- Hx]]. apply in_map_iff in Hj as [y [ <- Hy]].
    apply Hp; assumption.
Qed.

Theorem place_ok conns :
  well_written sep out_key t conns ->
  fresh_source sep uuid (map snd (pairs (normalize conns))) ->
  plain_outputs sep out_key conns ->
  (forall k c, In (k, c) conns -> is_source sep in_key out_key t k) ->
  (forall k v, In (k, v) (pairs (normalize conns)) -> ~ reserved sep in_key v) ->
  (forall k v, In (k, v) (pairs (normalize conns)) -> canonical sep v) ->
  uniform (map (split sep) (map snd (pairs (normalize conns)))) ->
  exists placed outrem, place_connections sep uuid in_key out_key t conns = Ok (placed, outrem).
Proof.
  intros Hww Hfresh Hplain Hsrc Htgt Hcan HU.
  destruct (partition_ok sep in_key out_key Hin Hout t conns Hww Hsrc Htgt) as [pc Epc].
  unfold place_connections.
  destruct (concretize_total sep Hsep uuid in_key out_key Hin Hout t conns pc Hww Hfresh Epc) as [cc Ecc]. rewrite Ecc. cbn [rbind].
  destruct (concretize_connections_spec sep Hsep uuid in_key out_key Hin Hout t conns cc Hww Hfresh Ecc)
    as [_ [Q [P1 [P2 [P3' P4]]]]].
  assert (P3 := slots_shape sep uuid _ conns Q (proj2 (proj2 Hww)) P1 P3').
  set (V := map snd (pairs (normalize conns))) in *.
  assert (HVe : map snd (map fst Q) = V) by (rewrite P1; reflexivity).
  assert (HVc : forall v, In v V -> clean sep v).
  { intros v Hv. apply in_map_iff in Hv as [[k v'] [E Hv]]. simpl in E. subst v'. apply (proj2 (proj2 Hww) k v Hv). }
  assert (HVn : forall v, In v V -> canonical sep v).
  { intros v Hv. apply in_map_iff in Hv as [[k v'] [E Hv]]. simpl in E. subst v'. apply (Hcan k v Hv). }
  assert (HWu := slots_uniform sep uuid Hname Q V HVe HVc HU P3').
  assert (HWs : forall k v w, In (k, v, w) Q -> standard (split sep w)).
  { intros k v w Hi. apply In_nth_error in Hi as [i Hi]. eapply (slots_standard sep uuid Hname Q V); eauto. }
  assert (Hnd : NoDup (map snd (pairs cc))).
  { eapply Permutation_NoDup; [apply Permutation_map; exact P2|]. rewrite map_map. cbn [snd].
    apply NoDup_nth_error. intros i j Hi Eij. destruct (Nat.eq_dec i j) as [|Hij]; [assumption|exfalso].
    rewrite !nth_error_map in Eij. rewrite map_length in Hi.
    destruct (nth_error Q i) as [q1|] eqn:E1; [|apply nth_error_None in E1; lia].
    destruct (nth_error Q j) as [q2|] eqn:E2; [|discriminate].
    simpl in Eij. apply (P4 i j q1 q2 E1 E2 Hij). exists []. rewrite app_nil_r. congruence. }
  rewrite (single_sources_ok cc Hnd). cbn [rbind].
  set (rc := map swap (pairs cc)).
  assert (Hrc : forall w k, In (w, k) rc <-> exists v, In (k, v, w) Q).
  { intros w k. unfold rc. split.
    - intros Hi. apply in_map_iff in Hi as [[k' w'] [E Hi]]. injection E as -> ->.
      apply (Permutation_in _ (Permutation_sym P2)) in Hi. apply in_map_iff in Hi as [[[k2 v] w2] [E Hi]].
      injection E as -> ->. exists v; exact Hi.
    - intros [v Hi]. apply in_map_iff. exists (k, w). split; [reflexivity|].
      apply (Permutation_in _ P2). apply in_map_iff. exists (k, v, w); auto. }
  assert (Hclean : forall w k, In (w, k) rc -> clean sep w).
  { intros w k Hi. apply Hrc in Hi as [v Hi]. apply (P3 _ _ _ Hi). }
  assert (Hres : forall w k, In (w, k) rc -> startswith w out_key = true -> reserved sep out_key w).
  { intros w k Hi Hs. apply Hrc in Hi as [v Hi].
    assert (Hv : In (k, v) (pairs (normalize conns))).
    { rewrite <- P1. apply in_map_iff. exists (k, v, w); auto. }
    destruct (P3 _ _ _ Hi) as [Hc [->|[x [Hx E]]]]; [eapply Hplain; eauto|].
    assert (Ew : w = append v (String sep x)).
    { rewrite <- (join_split sep w), E, join_app; [rewrite join_split; reflexivity|apply split_nonempty|discriminate]. }
    rewrite Ew in Hs. apply startswith_app_sep in Hs; [|tauto].
    destruct (Hplain k v Hv Hs) as [r Er]. exists (r ++ [x]). rewrite E, Er. reflexivity. }
  assert (Hpre : forall x y, In x rc -> In y rc -> fst x <> fst y -> ~ prefix (split sep (fst x)) (split sep (fst y))).
  { intros [w k] [w' k'] Hx Hy Hne. cbn [fst] in *. apply Hrc in Hx as [v Hx]. apply Hrc in Hy as [v' Hy].
    apply In_nth_error in Hx as [i Hi]. apply In_nth_error in Hy as [j Hj].
    apply (P4 i j _ _ Hi Hj). intros ->. rewrite Hi in Hj. injection Hj as _ _ E. contradiction. }
  assert (Hrcu : uniform (map (fun kv => split sep (fst kv)) rc)).
  { eapply uniform_incl; [exact HWu|]. intros p Hp. apply in_map_iff in Hp as [[w k] [ <- Hp]]. cbn [fst].
    apply Hrc in Hp as [v Hp]. apply in_map, in_map_iff. exists (k, v, w). auto. }
  assert (Hrcs : forall w k, In (w, k) rc -> standard (split sep w)).
  { intros w k Hi. apply Hrc in Hi as [v Hi]. eauto. }
  assert (Hrcn : NoDup (map fst rc)) by (unfold rc; rewrite map_map; exact Hnd).
  set (outs := filter (fun kv => startswith (fst kv) out_key) rc).
  set (ins := filter (fun kv => negb (startswith (fst kv) (append out_key (sepS sep)))) rc).
  assert (Hins : exists u, extend_structure String.eqb sep None (map (fun kv : string * string => strip sep (fst kv)) ins)
                      (FillList (map (fun kv : string * string => Leaf (snd kv)) ins)) = Ok u).
  { assert (Hsub : forall x, In x ins -> In x rc) by (intros x Hx; apply filter_In in Hx; tauto).
    assert (Est : forall x, In x ins -> strip sep (fst x) = fst x).
    { intros [w k] Hx. apply strip_clean. apply (Hclean w k), Hsub, Hx. }
    rewrite (map_ext_in (fun kv : string * string => strip sep (fst kv)) fst ins Est).
    apply (extend_pairs_ok fst ins).
    - apply Forall_forall. intros [w k] Hx. apply (Hclean w k), Hsub, Hx.
    - apply Forall_forall. intros [w k] Hx. apply (Hrcs w k), Hsub, Hx.
    - eapply uniform_incl; [exact Hrcu|]. intros p Hp. apply in_map_iff in Hp as [x [ <- Hp]].
      apply (in_map (fun kv => split sep (fst kv))), Hsub, Hp.
    - apply NoDup_filter_map. exact Hrcn.
    - intros x y Hx Hy. apply Hpre; auto. }
  destruct Hins as [placed Hins].
  set (gen := extend_structure String.eqb sep None
               (map (fun kv : string * string => strip sep (removeprefix (fst kv) (append out_key (sepS sep)))) outs)
               (FillList (map (fun kv : string * string => Leaf (snd kv)) outs))).
  assert (Hgen : (exists k, outs = [(out_key, k)]) \/ exists u, gen = Ok u).
  { destruct (in_dec string_dec out_key (map fst rc)) as [Hi|Hni].
    - left. apply in_map_iff in Hi as [[w k] [E Hi]]. simpl in E. subst w. exists k.
      assert (Hall : forall x, In x outs -> fst x = out_key).
      { intros [w' k'] Hx. apply filter_In in Hx as [Hx Hs]. cbn [fst] in *.
        destruct (Hres w' k' Hx Hs) as [r Er]. destruct (string_dec w' out_key) as [|Hne]; [assumption|exfalso].
        apply (Hpre (out_key, k) (w', k') Hi Hx); cbn [fst]; [congruence|].
        rewrite Er, split_no_sep_id by tauto. exists r. reflexivity. }
      assert (Hndo : NoDup (map fst outs)) by (apply NoDup_filter_map; exact Hrcn).
      assert (Hin' : In (out_key, k) outs).
      { apply filter_In. split; [exact Hi|]. simpl. apply startswith_iff. exists EmptyString.
        symmetry. apply append_nil_r. }
      clear -Hall Hndo Hin'. destruct outs as [|x [|y l]]; [destruct Hin'|destruct Hin' as [->|[]]; reflexivity|].
      exfalso. simpl in Hndo. rewrite (Hall x), (Hall y) in Hndo by (simpl; auto).
      inversion Hndo as [|? ? H _]. apply H. left; reflexivity.
    - right. set (f := fun kv : string * string => strip sep (removeprefix (fst kv) (append out_key (sepS sep)))) in gen.
      assert (Hf : forall x, In x outs -> exists r, split sep (fst x) = out_key :: r /\ clean sep (f x) /\ split sep (f x) = r).
      { intros [w k] Hx. apply filter_In in Hx as [Hx Hs]. cbn [fst] in *.
        destruct (Hres w k Hx Hs) as [r Er]. exists r. split; [exact Er|].
        assert (Hr : r <> []).
        { intros ->. apply Hni. assert (Ew : w = out_key) by (rewrite <- (join_split sep w), Er; reflexivity).
          subst w. apply (in_map fst) in Hx. exact Hx. }
        assert (Hcw := Hclean w k Hx). destruct (strip_slot sep out_key w r Hcw Er Hr) as [Es _].
        unfold f. cbn [fst]. rewrite Es. destruct (clean_comps sep w Hcw) as [_ Hcc]. rewrite Er in Hcc.
        apply Forall_cons_iff in Hcc as [_ Hcc]. split; [apply cclean_clean; assumption|apply cclean_split; assumption]. }
      assert (Hsub : forall x, In x outs -> In x rc) by (intros x Hx; apply filter_In in Hx; tauto).
      assert (Hfi : forall x y, In x outs -> In y outs -> f x = f y -> fst x = fst y).
      { intros x y Hx Hy E. destruct (Hf x Hx) as [r [E1 [_ E2]]]. destruct (Hf y Hy) as [r' [E1' [_ E2']]].
        apply (split_inj sep). rewrite E1, E1'. congruence. }
      apply (extend_pairs_ok f outs).
      + apply Forall_forall. intros x Hx. destruct (Hf x Hx) as [r [_ [Hc _]]]. exact Hc.
      + apply Forall_forall. intros x Hx. destruct (Hf x Hx) as [r [E [_ ->]]]. destruct x as [w k].
        assert (Hs := Hrcs w k (Hsub _ Hx)). cbn [fst] in E. rewrite E in Hs. apply Forall_cons_iff in Hs. apply Hs.
      + intros c a b r s Ha Hb Hc. apply in_map_iff in Ha as [x [Ex Hx]]. apply in_map_iff in Hb as [y [Ey Hy]].
        destruct (Hf x Hx) as [r1 [E1 [_ E2]]]. destruct (Hf y Hy) as [r2 [E3 [_ E4]]].
        apply (Hrcu (out_key :: c) a b r s); [| |discriminate]; apply in_map_iff.
        * exists x. split; [rewrite E1, <- E2, Ex; reflexivity|auto].
        * exists y. split; [rewrite E3, <- E4, Ey; reflexivity|auto].
      + assert (Hndo : NoDup (map fst outs)) by (apply NoDup_filter_map; exact Hrcn).
        clear -Hndo Hfi. induction outs as [|x l IH]; [constructor|]. simpl in *. apply NoDup_cons_iff in Hndo as [Hx Hndo].
        constructor; [|apply IH; auto]. intros Hi. apply in_map_iff in Hi as [y [E Hy]]. apply Hx.
        rewrite (Hfi x y) by auto. apply in_map. exact Hy.
      + intros x y Hx Hy Hne [r E]. destruct (Hf x Hx) as [r1 [E1 [_ E2]]]. destruct (Hf y Hy) as [r2 [E3 [_ E4]]].
        apply (Hpre x y); auto.
        * intros Ee. apply Hne. unfold f. rewrite Ee. reflexivity.
        * exists r. rewrite E1, E3, <- E2, <- E4, E. reflexivity. }
  fold outs ins. 
  destruct Hgen as [[k Eo]|[u Hu]].
  - rewrite Eo. rewrite String.eqb_refl. cbn [rbind]. rewrite Hins. cbn [rbind]. eauto.
  - exists placed. destruct outs as [|[k src] [|y l]] eqn:Eo.
    + fold gen. rewrite Hu. cbn [rbind]. rewrite Hins. cbn [rbind]. eauto.
    + destruct (String.eqb k out_key).
      * cbn [rbind]. rewrite Hins. cbn [rbind]. eauto.
      * fold gen. rewrite Hu. cbn [rbind]. rewrite Hins. cbn [rbind]. eauto.
    + fold gen. rewrite Hu. cbn [rbind]. rewrite Hins. cbn [rbind]. eauto.
Qed.
End Place.

(* ---- the whole network ---- *)
Lemma trans_transfer (R S : string -> string -> Prop) x y :
  (forall a b, R a b -> S a b) -> clos_trans _ R x y -> clos_trans _ S x y.
Proof. intros H. induction 1; [apply t_step; auto|eapply t_trans; eauto]. Qed.

Section Network.
Variable sep : ascii.
Hypothesis Hsep : is_digit_char sep = false.
Hypothesis Hsi : no_sep sep "input" = true.
Hypothesis Hso : no_sep sep "output" = true.
Variable uuid : nat -> string.
Hypothesis Hname : forall n, isdigit (uuid n) = false.
Context {M : Type}.
Variable modules : tree M.
Variable conns : dict cval.
Hypothesis Hgood : good_network sep uuid modules conns.
Hypothesis Hends : proper_ends sep modules conns.

Let Hin : no_sep sep "input" = true /\ "input" <> EmptyString.
Proof. split; [exact Hsi|discriminate]. Qed.
Let Hout : no_sep sep "output" = true /\ "output" <> EmptyString.
Proof. split; [exact Hso|discriminate]. Qed.

Lemma outer_ok : exists g, get_outer_connections sep "input" "output" modules conns = Ok g.
Proof.
  destruct Hgood as [Hroot [Hww [Hfresh [Hplo [Hpls Hcan]]]]]. destruct Hends as [E1 [E2 _]].
  destruct (partition_ok sep "input" "output" Hin Hout modules conns Hww E1) as [pc Hpc].
  { intros k v Hi. apply (E2 k v Hi). }
  unfold get_outer_connections. rewrite Hpc. cbn [rbind].
  unfold partition_connections in Hpc. destruct (check_double sep (normalize conns)); [discriminate|].
  destruct Hww as [Hnd [Hkc Hvc]].
  assert (Hkc' : forall k vs, In (k, vs) (normalize conns) -> clean sep k /\
     (startswith k "input" = true \/ startswith k "output" = true -> reserved sep "input" k)).
  { intros k vs Hi. unfold normalize in Hi. apply in_map_iff in Hi as [[k' c] [E Hi]].
    injection E as <- <-. split; [eapply Hkc; eauto|eapply Hpls; eauto]. }
  destruct (part_fold sep "input" "output" Hin Hout modules (normalize conns) [] pc Hpc) as [new [Epc Hrel]].
  { rewrite dkeys_normalize; exact Hnd. }
  { intros k vs Hi. eapply Hkc'; eauto. }
  { intros nk []. }
  simpl in Epc. subst new.
  assert (Hall : forall pk pvs, In (pk, pvs) pc -> (exists u, src_name sep pk = Ok u) /\
            forall pv, In pv pvs -> exists y i, unpack2 sep pv = Ok (y, i)).
  { intros pk pvs Hp. destruct (Forall2_In_r _ _ _ _ Hrel Hp) as [[k vs] [Hk [R1 R2]]]. cbn [fst snd] in R1, R2.
    destruct (Hkc' k vs Hk) as [Hck Hplk]. split.
    - destruct (part_key_outer sep Hsi Hso modules Hroot k pk Hck Hplk R1) as [x [E _]]. eauto.
    - intros pv Hpv. destruct (Forall2_In_r _ _ _ _ R2 Hpv) as [v [Hv Rv]].
      destruct (part_val_outer sep Hsi Hso modules Hroot v pv) as [y [i [E _]]]; [|exact Rv|eauto].
      apply (Hvc k v). unfold pairs. apply in_flat_map. exists (k, vs). split; [exact Hk|]. apply in_map. exact Hv. }
  clear -Hall. generalize (@nil (string * list string)) as acc. induction pc as [|[pk pvs] pc IH]; intros acc; [simpl; eauto|].
  destruct (Hall pk pvs (or_introl eq_refl)) as [[u Hu] Hv]. cbn [rfold]. unfold outer_entry at 1. fold (src_name sep pk). rewrite Hu. cbn [rbind].
  destruct (rmapM_ok (fun v => let* (o, _) := unpack2 sep v in Ok o) pvs) as [ys Hys].
  { intros pv Hpv. destruct (Hv pv Hpv) as [y [i E]]. rewrite E. cbn [rbind]. eauto. }
  rewrite Hys. cbn [rbind]. apply IH. intros pk' pvs' Hi. apply Hall. right; exact Hi.
Qed.

Hypothesis Hflow : proper_flow sep modules conns.

(** a node that takes data and is not the output is a module *)
Lemma fed_module u p : feeds sep "input" "output" modules conns u p -> p <> "output" ->
  clean sep p /\ canonical sep p /\ ~ reserved sep "input" p /\ ~ reserved sep "output" p /\
  (exists m, walk modules (split sep p) = Some (Leaf m)) /\
  exists v r, In v (map snd (pairs (normalize conns))) /\ split sep v = split sep p ++ r.
Proof.
  intros [k [v [Hkv [_ Hv]]]] Hne. destruct Hgood as [Hroot [Hww [Hfresh [Hplo [Hpls Hcan]]]]]. destruct Hends as [_ [E2 _]].
  destruct Hv as [[ -> _]|[Hnr [Hcl [rest [a [E [Hw Ha]]]]]]]; [congruence|].
  destruct (E2 k v Hkv) as [Hni [Ho|[ks [rest' [m [E' Hm]]]]]]; [contradiction|].
  split; [exact Hcl|]. split; [|split; [|split; [|split]]].
  - assert (Hc := Hcan k v Hkv). unfold canonical in *. rewrite E in Hc. apply Forall_app in Hc as [Hc _]. exact Hc.
  - intros [r Er]. apply Hni. exists (r ++ rest). rewrite E, Er. reflexivity.
  - intros [r Er]. apply Hnr. exists (r ++ rest). rewrite E, Er. reflexivity.
  - rewrite E in E'. destruct (app_prefix_cmp _ _ _ _ E') as [[f Ef]|[f Ef]].
    + (* ks longer *) rewrite Ef, walk_app, Hw in Hm. destruct f as [|z f]; [injection Hm as ->; eauto|].
      rewrite walk_atomic in Hm; [discriminate| |discriminate]. apply Ha. intros ->.
      rewrite Ef, app_nil_r, <- app_assoc in E'. apply (f_equal (@length string)) in E'. rewrite !app_length in E'. simpl in E'. lia.
    + rewrite Ef, walk_app, Hm in Hw. destruct f as [|z f]; [rewrite app_nil_r in Ef; rewrite Ef; eauto|discriminate].
  - exists v, rest. split; [apply (in_map snd) in Hkv; exact Hkv|exact E].
Qed.

Theorem compile_ok (A : Type) : exists order callables deps out_deps slots,
  compiled sep uuid modules conns = Ok (order, callables, (deps, out_deps)) /\
  @empty_slots sep A order = Ok slots.
Proof.
  assert (Hgood' := Hgood). assert (Hends' := Hends).
  destruct Hgood' as [Hroot [Hww [Hfresh [Hplo [Hpls Hcan]]]]]. destruct Hends' as [Ee1 [Ee2 HU]].
  destruct Hflow as [F1 [F2 F3]].
  destruct outer_ok as [g Eg].
  destruct (outer_graph_spec sep Hsi Hso modules Hroot conns g Hww Hpls Eg) as [Hwf [Hedge [Hnoin Hex]]].
  assert (Hnoin' : forall u, ~ edge g u "input").
  { intros u Hu. apply Hnoin in Hu. apply Hu. exists []. apply split_no_sep_id; exact Hsi. }
  assert (Hto : forall a b, feeds sep "input" "output" modules conns a b -> edge g a b) by (intros a b; apply Hedge).
  assert (Hfrom : forall a b, edge g a b -> feeds sep "input" "output" modules conns a b) by (intros a b; apply Hedge).
  assert (Hlive : forall p, live g "input" "output" p -> on_path sep "input" "output" modules conns p).
  { intros p [L1 L2]. split; (eapply reach_transfer; [exact Hfrom|eassumption]). }
  destruct (proj2 (resolve_iff g "input" "output" Hwf Hnoin')) as [order [vis Eres]].
  { split; [eapply reach_transfer; [exact Hto|exact F1]|]. split.
    - intros v Hv Hc. apply (F2 v (Hlive v Hv)). eapply trans_transfer; [exact Hfrom|exact Hc].
    - intros u v Huv Hv. eapply reach_transfer; [exact Hto|]. apply (F3 u v); [apply Hfrom; exact Huv|apply Hlive; exact Hv]. }
  destruct (resolve_sound g "input" "output" order vis Hwf Hnoin' Eres) as [Hnd [Hlv [[mid Hmid] [Hlast _]]]].
  assert (Edm : dmem g "input" = true).
  { apply clos_rt_rt1n in F1. inversion F1 as [|y z Hy _]; subst. apply Hto in Hy as [vs [E _]].
    unfold dmem. rewrite E. reflexivity. }
  assert (Eord : get_execution_order sep modules conns = Ok order).
  { unfold get_execution_order. rewrite Eg. cbn [rbind]. rewrite Edm. cbn [negb]. rewrite Eres. reflexivity. }
  assert (Hfed : forall p, In p order -> p <> "input" -> exists u, feeds sep "input" "output" modules conns u p).
  { intros p Hp Hne. apply Hlv in Hp as [L1 _]. apply reach_last in L1 as [z Hz]; [|congruence]. eauto. }
  assert (Hbody : forall p, In p (body order) -> In p order /\ p <> "input" /\ p <> "output").
  { intros p Hp. unfold body in Hp. apply filter_In in Hp as [Hp Hr]. split; [exact Hp|].
    unfold reserved_name in Hr. apply negb_true_iff, orb_false_iff in Hr as [R1 R2].
    apply String.eqb_neq in R1. apply String.eqb_neq in R2. auto. }
  assert (Hmod : forall p, In p (body order) -> clean sep p /\ canonical sep p /\ ~ reserved sep "input" p /\ ~ reserved sep "output" p /\
            (exists m, walk modules (split sep p) = Some (Leaf m)) /\
            exists v r, In v (map snd (pairs (normalize conns))) /\ split sep v = split sep p ++ r).
  { intros p Hp. destruct (Hbody p Hp) as [Ho [Hni Hno]]. destruct (Hfed p Ho Hni) as [u Hu]. eapply fed_module; eauto. }
  assert (Ecal : exists callables, module_callables sep modules order = Ok callables).
  { unfold module_callables. destruct (rmapM_ok (fun p => let* t := look sep no_leaf modules p in
        match t with Leaf m => Ok (Some m) | _ => Err AttributeError end) (body order)) as [ms Hms].
    - intros p Hp. destruct (Hmod p Hp) as [Hc [_ [_ [_ [[m Hm] _]]]]].
      rewrite (proj2 (look_walk_iff sep modules p (Leaf m) Hc) Hm). cbn [rbind]. eauto.
    - rewrite Hms. cbn [rbind]. eauto. }
  destruct Ecal as [callables Ecal].
  destruct (place_ok sep Hsep uuid Hname "input" "output" Hin Hout modules conns Hww Hfresh Hplo Ee1
              (fun k v Hi => proj1 (Ee2 k v Hi)) Hcan HU) as [placed [outrem Epl]].
  assert (Edep : exists deps, module_input_dependencies sep uuid modules conns = Ok (deps, outrem)).
  { unfold module_input_dependencies. rewrite Eord. cbn [rbind]. rewrite Epl. cbn [rbind].
    destruct (rmapM_ok (look sep no_leaf placed) (body order)) as [ds Hds]; [|rewrite Hds; cbn [rbind]; eauto].
    intros p Hp. destruct (Hmod p Hp) as [Hc [_ [_ [Hno [_ [v [r [Hv Er]]]]]]]].
    destruct (place_spec sep Hsep uuid "input" "output" Hin Hout modules conns Hww Hfresh Hplo) as [_ Hps].
    destruct (Hps placed outrem Epl) as [Q [HQp [HQw' [_ [HQ1 _]]]]].
    assert (HQw := slots_shape sep uuid _ conns Q (proj2 (proj2 Hww)) HQp HQw').
    rewrite <- HQp in Hv. apply in_map_iff in Hv as [[k v'] [E Hv]]. simpl in E. subst v'.
    apply in_map_iff in Hv as [[[k' v'] w] [E Hv]]. simpl in E. injection E as -> ->.
    assert (Hw := HQ1 k v w Hv). assert (Hsw : exists e, split sep w = split sep p ++ e).
    { destruct (HQw k v w Hv) as [_ [ -> |[x [_ E]]]]; [eauto|]. exists (r ++ [x]). rewrite E, Er, app_assoc. reflexivity. }
    destruct Hsw as [e He]. rewrite He in Hw.
    destruct (split sep p) as [|s ks] eqn:Es; [exfalso; eapply split_nonempty; exact Es|]. cbn [app] in Hw.
    destruct (String.eqb_spec s "output") as [E|_]; [exfalso; apply Hno; exists ks; rewrite Es, E; reflexivity|].
    change (s :: ks ++ e) with ((s :: ks) ++ e) in Hw. rewrite walk_app in Hw. rewrite <- Es in Hw.
    destruct (walk placed (split sep p)) as [d|] eqn:Ed; [|discriminate].
    exists d. apply (look_walk_iff sep placed p d Hc). exact Ed. }
  destruct Edep as [deps Edep].
  assert (Hslot : exists slots, @empty_slots sep A order = Ok slots).
  { assert (Hcase : forall p, In p order -> split sep p = [p] /\ (p = "input" \/ p = "output") \/ In p (body order)).
    { intros p Hp. destruct (string_dec p "input") as [E|Hni]; [left; subst; split; [apply split_no_sep_id; exact Hsi|auto]|].
      destruct (string_dec p "output") as [E|Hno]; [left; subst; split; [apply split_no_sep_id; exact Hso|auto]|].
      right. unfold body. apply filter_In. split; [exact Hp|]. unfold reserved_name.
      apply negb_true_iff, orb_false_iff. split; apply String.eqb_neq; assumption. }
    apply extend_none_ok.
    - apply repeat_length.
    - apply Forall_forall. intros p Hp. destruct (Hcase p Hp) as [[_ [ -> | -> ]]|Hb]; [discriminate|discriminate|]. apply (Hmod p Hb).
    - apply Forall_forall. intros p Hp. destruct (Hcase p Hp) as [[E1 [E2|E2]]|Hb]; [| |apply (Hmod p Hb)];
        rewrite E1; subst p; (constructor; [intros D; discriminate D|constructor]).
    - intros c a b r s Ha Hb Hc. apply in_map_iff in Ha as [p [Ep Hp]]. apply in_map_iff in Hb as [q [Eq Hq]].
      assert (G : forall p c a r, split sep p = c ++ a :: r -> c <> [] -> In p order ->
                exists r', In (c ++ a :: r') (map (split sep) (map snd (pairs (normalize conns))))).
      { clear -Hcase Hmod. intros p c a r E Hc Hp. destruct (Hcase p Hp) as [[E1 _]|Hb].
        - rewrite E1 in E. destruct c as [|x [|y c]]; [congruence|discriminate|discriminate].
        - destruct (Hmod p Hb) as [_ [_ [_ [_ [_ [v [r' [Hv Er]]]]]]]]. exists (r ++ r').
          apply in_map_iff. exists v. split; [|exact Hv]. rewrite Er, E, <- app_assoc. reflexivity. }
      destruct (G p c a r Ep Hc Hp) as [r1 G1]. destruct (G q c b s Eq Hc Hq) as [r2 G2]. exact (HU c a b r1 r2 G1 G2 Hc).
    - intros i j p q Hi Hj Hij [f Ef].
      assert (Hne : p <> q).
      { intros ->. apply Hij. apply (proj1 (NoDup_nth_error order) Hnd); [apply nth_error_Some; congruence|congruence]. }
      apply nth_error_In in Hi. apply nth_error_In in Hj.
      destruct (Hcase p Hi) as [[E1 N1]|Hb1]; destruct (Hcase q Hj) as [[E2 N2]|Hb2].
      + rewrite E1, E2 in Ef. injection Ef as Ef _. congruence.
      + rewrite E1 in Ef. destruct (Hmod q Hb2) as [_ [_ [H1 [H2 _]]]].
        destruct N1 as [ -> | -> ]; [apply H1|apply H2]; exists f; exact Ef.
      + rewrite E2 in Ef. destruct (Hmod p Hb1) as [_ [_ [H1 [H2 _]]]].
        destruct (split sep p) as [|s ks] eqn:Es; [eapply split_nonempty; exact Es|]. injection Ef as Eq' Ef'.
        destruct ks; [|discriminate]. destruct N2 as [ -> | -> ]; [apply H1|apply H2]; exists []; rewrite Es, Eq'; reflexivity.
      + destruct (Hmod p Hb1) as [_ [_ [_ [_ [[m Hm] _]]]]]. destruct (Hmod q Hb2) as [_ [_ [_ [_ [[m' Hm'] _]]]]].
        rewrite Ef, walk_app, Hm in Hm'. destruct f as [|z f]; [|discriminate].
        rewrite app_nil_r in Ef. apply Hne. symmetry. apply (split_inj sep). exact Ef. }
  destruct Hslot as [slots Hslot].
  exists order, callables, deps, outrem, slots. split; [|exact Hslot].
  unfold compiled. rewrite Eord. cbn [rbind]. rewrite Ecal. cbn [rbind]. rewrite Edep. reflexivity.
Qed.
End Network.

(** only networks with a proper flow compile *)
Theorem compile_flow {M} sep (Hsi : no_sep sep "input" = true) (Hso : no_sep sep "output" = true) uuid (modules : tree M) conns order callables dd :
  good_network sep uuid modules conns ->
  compiled sep uuid modules conns = Ok (order, callables, dd) -> proper_flow sep modules conns.
Proof.
  intros [Hroot [Hww [Hfresh [Hplo [Hpls Hcan]]]]] H. unfold compiled in H.
  apply rbind_ok in H as [order0 [Hord _]]. unfold get_execution_order in Hord.
  destruct (get_outer_connections sep "input" "output" modules conns) as [g|] eqn:Eg; [|discriminate].
  cbn [rbind] in Hord. destruct (negb (dmem g "input")) eqn:Edm; [discriminate|].
  destruct (resolve_connections g "input" "output") as [[ord vis]|] eqn:Eres; [|discriminate].
  destruct (outer_graph_spec sep Hsi Hso modules Hroot conns g Hww Hpls Eg) as [Hwf [Hedge [Hnoin Hex]]].
  assert (Hnoin' : forall u, ~ edge g u "input").
  { intros u Hu. apply Hnoin in Hu. apply Hu. exists []. apply split_no_sep_id; exact Hsi. }
  assert (Hto : forall a b, feeds sep "input" "output" modules conns a b -> edge g a b) by (intros a b; apply Hedge).
  assert (Hfrom : forall a b, edge g a b -> feeds sep "input" "output" modules conns a b) by (intros a b; apply Hedge).
  assert (Hlive : forall p, on_path sep "input" "output" modules conns p -> live g "input" "output" p).
  { intros p [L1 L2]. split; (eapply reach_transfer; [exact Hto|eassumption]). }
  destruct (proj1 (resolve_iff g "input" "output" Hwf Hnoin')) as [F1 [F2 F3]]; [eauto|].
  split; [eapply reach_transfer; [exact Hfrom|exact F1]|]. split.
  - intros p Hp Hc. apply (F2 p (Hlive p Hp)). eapply trans_transfer; [exact Hto|exact Hc].
  - intros u p Hu Hp. eapply reach_transfer; [exact Hfrom|]. apply (F3 u p); auto.
Qed.
