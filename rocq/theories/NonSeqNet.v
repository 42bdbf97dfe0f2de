(** From connection dictionaries to the evaluation loop. *)
From Verif Require Import Base BaseLemmas TreeUtil TreeSpec TreeProofs ExtendProofs Resolve ResolveSpec
  ResolveProofs Connections ConcretizeSpec ConcretizeProofs ConnSpec ConnProofs PlaceProofs
  NonSeq NonSeqSpec NonSeqProofs NonSeqRun.
From Coq Require Import Permutation Relations.Operators_Properties.
Local Open Scope string_scope.
Local Open Scope list_scope.

(* ---- well-formedness of extended structures ---- *)
Section Wf.
Context {A : Type}.
Variable eqA : A -> A -> bool.
Variable sep : ascii.

Lemma wf_dset (d : list (string * tree A)) k c : wf_tree (Dict d) -> wf_tree c -> wf_tree (Dict (dset d k c)).
Proof.
  intros H Hc. inversion H as [| |? Hnd HF| |]; subst. constructor; [apply NoDup_dset; exact Hnd|]. clear H Hnd.
  induction d as [|[k' v] d IH]; simpl; [constructor; auto|]. apply Forall_cons_iff in HF as [H1 H2].
  destruct (String.eqb k k'); constructor; auto.
Qed.
Lemma new_node_wf k : wf_tree (@new_node A k).
Proof. unfold new_node. destruct (isdigit k); repeat constructor. Qed.

Lemma extend_walk_wf ps : forall (t : tree A) done fill t' rec,
  wf_tree t -> wf_tree fill ->
  extend_walk eqA sep t done ps fill = Ok (t', rec) -> wf_tree t'.
Proof.
  induction ps as [|key ps IH]; intros t done fill t' rec Ht Hf H; [injection H as <- <-; auto|].
  assert (Hnode : forall node r0, wf_tree node ->
    extend_node eqA (fun c => extend_walk eqA sep c (done ++ [key]) ps fill) key ps fill node r0 = Ok (t', rec) ->
    wf_tree t').
  { intros node r0 Hn HN. clear H Ht t.
    destruct node as [a| |d|l|l]; try discriminate; unfold extend_node in HN.
    - assert (Hc : forall c, dget d key = Some c -> wf_tree c).
      { intros c Hc. inversion Hn as [| |? ? HF| |]; subst. rewrite Forall_forall in HF.
        apply dget_In in Hc. apply (HF _ Hc). }
      destruct ps as [|k2 ps].
      + destruct (dget d key) as [old|].
        * destruct (conflict _ _ _); [discriminate|]. injection HN as <- <-. auto.
        * injection HN as <- <-. apply wf_dset; auto.
      + apply rbind_ok in HN as [[c' rec'] [H1 H2]]. injection H2 as <- <-.
        apply IH in H1; auto.
        * apply wf_dset; auto.
        * destruct (dget d key); [auto|apply new_node_wf].
    - destruct (isdigit key); [|discriminate].
      assert (HF : Forall wf_tree (pad l (int_of key))).
      { apply Forall_pad; [inversion Hn; assumption|constructor]. }
      destruct ps as [|k2 ps].
      + assert (G1 : wf_tree (Lst (upd (pad l (int_of key)) (int_of key) fill))) by (constructor; apply Forall_upd; auto).
        destruct (nth (int_of key) (pad l (int_of key)) NoneT);
          try (destruct (conflict _ _ _); [discriminate|]); injection HN as <- <-; auto; constructor; exact HF.
      + apply rbind_ok in HN as [[c' rec'] [H1 H2]]. injection H2 as <- <-.
        apply IH in H1; auto.
        * constructor; apply Forall_upd; auto.
        * assert (Hn' : wf_tree (nth (int_of key) (pad l (int_of key)) NoneT)) by (apply Forall_nth_default; [auto|constructor]).
          destruct (nth (int_of key) (pad l (int_of key)) NoneT); auto. apply new_node_wf. }
  cbn [extend_walk] in H. destruct t as [a| |d|l|l]; try (eapply Hnode; [|exact H]; auto; fail).
  destruct (String.eqb _ _); [discriminate|]. eapply Hnode; [|exact H]. inversion Ht; subst. constructor; assumption.
Qed.

Lemma extend_fold_wf pfs : forall (t : tree A) r0 t' r,
  tuple_free t -> wf_tree t -> Forall (fun pf => wf_tree (snd pf) /\ tuple_free (snd pf)) pfs ->
  rfold (fun '(t, recs) '(p, fill) =>
           let* (t', r) := extend_walk eqA sep t [] (split sep p) fill in Ok (t', recs ++ r))
        pfs (t, r0) = Ok (t', r) -> wf_tree t'.
Proof.
  induction pfs as [|[p f] pfs IH]; intros b r0 t' r Hb1 Hb2 Hfs H1.
  - injection H1 as <- _. exact Hb2.
  - apply Forall_cons_iff in Hfs as [[Hw Htf] Hfs].
    cbn [rfold] in H1. apply rbind_ok in H1 as [[b1 r2] [H1 H2]].
    apply rbind_ok in H1 as [[b2 r3] [H1 H3]]. injection H3 as <- <-.
    cbn [snd] in Hw, Htf. assert (wf_tree b2) by (eapply extend_walk_wf; [exact Hb2|exact Hw|exact H1]).
    apply extend_walk_tuple_free in H1 as [Htf' _]; auto. eapply IH; [exact Htf'|assumption|exact Hfs|exact H2].
Qed.

Lemma extend_none_wf paths fills (t : tree A) :
  (forall f, In f fills -> wf_tree f /\ tuple_free f) ->
  extend_structure eqA sep None paths (FillList fills) = Ok t -> wf_tree t.
Proof.
  intros Hf H. unfold extend_structure in H.
  destruct (Nat.eqb_spec (length fills) (length paths)) as [Hl|]; [|discriminate]. cbn [negb] in H.
  set (b := if forallb _ _ then Lst [] else Dict []) in H.
  assert (Hb : tuple_free b /\ wf_tree b) by (subst b; destruct (forallb _ _); repeat constructor).
  assert (Hbt : (match b with Tup l => (Lst l, true) | _ => (b, false) end) = (b, false)).
  { subst b; destruct (forallb _ _); reflexivity. }
  rewrite Hbt in H. clear Hbt. clearbody b. destruct Hb as [Hb1 Hb2].
  apply rbind_ok in H as [[t1 recs] [H1 H]].
  assert (Hfs : Forall (fun pf => wf_tree (snd pf) /\ tuple_free (snd pf)) (combine paths fills)).
  { apply Forall_forall. intros [p f] Hpf. apply in_combine_r in Hpf. apply Hf. exact Hpf. }
  assert (G1 : recs = []).
  { apply extend_fold_settable in H1 as [_ [G _]]; [exact G|exact Hb1|].
    eapply Forall_impl; [|exact Hfs]. cbv beta. tauto. }
  subst recs. cbn in H. injection H as <-.
  eapply extend_fold_wf; [exact Hb1|exact Hb2|exact Hfs|exact H1].
Qed.

Lemma wf_child (t u : tree A) k : wf_tree t -> child t k = Some u -> wf_tree u.
Proof.
  intros Ht H. destruct t as [a| |d|l|l]; simpl in H; try discriminate.
  - inversion Ht as [| |? ? HF| |]; subst. rewrite Forall_forall in HF. apply dget_In in H. apply (HF _ H).
  - destruct (isdigit k); [|discriminate]. inversion Ht as [| | |? HF|]; subst. rewrite Forall_forall in HF.
    apply HF. eapply nth_error_In; eauto.
  - destruct (isdigit k); [|discriminate]. inversion Ht as [| | | |? HF]; subst. rewrite Forall_forall in HF.
    apply HF. eapply nth_error_In; eauto.
Qed.
Lemma wf_walk ks : forall t u : tree A, wf_tree t -> walk t ks = Some u -> wf_tree u.
Proof.
  induction ks as [|k ks IH]; intros t u Ht H; [injection H as <-; exact Ht|].
  simpl in H. destruct (child t k) as [c|] eqn:E; [|discriminate]. eapply IH; [|exact H]. eapply wf_child; eauto.
Qed.

Lemma has_leaf_walk (t : tree A) q : wf_tree t -> has_leaf t q -> exists r, walk t r = Some (Leaf q).
Proof.
  intros Ht H. induction H as [x|d k t x Hi _ IH|l t x Hi _ IH|l t x Hi _ IH].
  - exists []. reflexivity.
  - inversion Ht as [| |? Hnd HF| |]; subst. rewrite Forall_forall in HF. destruct (IH (HF _ Hi)) as [r Hr].
    exists (k :: r). simpl. rewrite (In_dget _ _ _ Hnd Hi). exact Hr.
  - inversion Ht as [| | |? HF|]; subst. rewrite Forall_forall in HF. destruct (IH (HF _ Hi)) as [r Hr].
    apply In_nth_error in Hi as [n Hn]. exists (str_of n :: r). simpl. rewrite isdigit_str_of, int_of_str_of, Hn. exact Hr.
  - inversion Ht as [| | | |? HF]; subst. rewrite Forall_forall in HF. destruct (IH (HF _ Hi)) as [r Hr].
    apply In_nth_error in Hi as [n Hn]. exists (str_of n :: r). simpl. rewrite isdigit_str_of, int_of_str_of, Hn. exact Hr.
Qed.
End Wf.

(* ---- the outer graph ---- *)
Lemma walk_atomic {A} (a : tree A) e : atomic a = true -> e <> [] -> walk a e = None.
Proof. destruct e; [congruence|]. destruct a; try discriminate; reflexivity. Qed.

Lemma split_inj sep p q : split sep p = split sep q -> p = q.
Proof. intros H. rewrite <- (join_split sep p), H. apply join_split. Qed.

Lemma outer_path_fun {A} sep key (t : tree A) p u u' :
  outer_path sep key t p u -> outer_path sep key t p u' -> u = u'.
Proof.
  assert (Hw : forall u u' rest rest' a a', split sep p = split sep u ++ rest -> split sep p = split sep u' ++ rest' ->
    walk t (split sep u) = Some a -> (rest <> [] -> atomic a = true) -> walk t (split sep u') = Some a' ->
    (exists e, split sep u' = split sep u ++ e) -> u = u').
  { clear u u'. intros u u' rest rest' a a' E E' Hw Ha Hw' [e He]. destruct e as [|k e].
    - rewrite app_nil_r in He. apply split_inj in He. congruence.
    - exfalso. rewrite E', He, <- app_assoc in E. apply app_inv_head in E.
      rewrite He, walk_app, Hw, walk_atomic in Hw'; [discriminate| |discriminate].
      apply Ha. rewrite <- E. discriminate. }
  intros [[-> H]|[H [_ [rest [a [E [Hwa Ha]]]]]]] [[-> H']|[H' [_ [rest' [a' [E' [Hwa' Ha']]]]]]]; try reflexivity; try contradiction.
  destruct (app_prefix_cmp _ _ _ _ (eq_trans (eq_sym E) E')) as [He|He].
  - eapply Hw; eauto.
  - symmetry. eapply Hw; eauto.
Qed.

Section Outer.
Variable sep : ascii.
Hypothesis Hsi : no_sep sep "input" = true.
Hypothesis Hso : no_sep sep "output" = true.
Context {A : Type}.
Variable t : tree A.
Hypothesis Hroot : atomic t = false.

Let Hin : no_sep sep "input" = true /\ "input" <> EmptyString.
Proof. split; [exact Hsi|discriminate]. Qed.
Let Hout : no_sep sep "output" = true /\ "output" <> EmptyString.
Proof. split; [exact Hso|discriminate]. Qed.

Lemma walk_outer_nonempty o i p u : split sep p = o ++ i -> walk t o = Some u -> (i <> [] -> atomic u = true) -> o <> [].
Proof.
  intros E Hw Ha ->. injection Hw as <-. assert (i <> []) by (simpl in E; rewrite <- E; apply split_nonempty).
  specialize (Ha H). congruence.
Qed.

Lemma part_val_outer v pv : clean sep v -> part_val sep "input" "output" t v = Ok pv ->
  exists w i, unpack2 sep pv = Ok (w, i) /\ outer_path sep "output" t v w /\ ~ reserved sep "input" w.
Proof.
  intros Hc H. destruct (part_val_spec sep "input" "output" Hin Hout t v pv Hc H) as [o [i [E [Epv Hk]]]].
  destruct (part_tidy_gen sep v o i pv Hc E Epv) as [_ [Hu [Ho Hi]]].
  exists (join sep o), (join sep i). split; [exact Hu|]. destruct Hk as [->|[Hnr [u [Hw Ha]]]].
  - split; [left; split; [reflexivity|]; exists i; exact E|].
    intros [r Er]. change (join sep ["output"]) with "output" in Er. rewrite split_no_sep_id in Er by exact Hso. discriminate.
  - assert (Hne : o <> []) by (eapply walk_outer_nonempty; eauto). split.
    + right. split; [exact Hnr|]. split; [apply cclean_clean; assumption|]. exists i, u.
      rewrite cclean_split by assumption. auto.
    + intros [r Er]. rewrite cclean_split in Er by assumption.
      unfold part_val in H. destruct (under sep v "output") eqn:Eu.
      * apply under_reserved in Eu; [contradiction|exact Hso].
      * destruct (under sep v "input") eqn:Eui; [discriminate|].
        assert (under sep v "input" = true); [|congruence]. apply under_reserved; [exact Hsi|].
        exists (r ++ i). rewrite E, Er. reflexivity.
Qed.

(** the name under which a partitioned source enters the graph *)
Definition src_name (pk : string) : result string :=
  if startswith pk "input" || startswith pk "output"
  then Ok (hd EmptyString (split sep pk))
  else let* (o, _) := unpack2 sep pk in Ok o.

Lemma append_dsep o i : append o (append (dsep sep) i) = append o (String sep (append (sepS sep) i)).
Proof. reflexivity. Qed.

Lemma startswith_join_app p o i : startswith (join sep o) p = true -> o <> [] ->
  startswith (join sep (o ++ i)) p = true.
Proof.
  intros H Hne. destruct i as [|k i]; [rewrite app_nil_r; exact H|].
  rewrite join_app by (try assumption; discriminate).
  apply startswith_iff in H as [x ->]. apply startswith_iff. eexists. rewrite append_assoc. reflexivity.
Qed.

Lemma part_key_outer k pk : clean sep k ->
  (startswith k "input" = true \/ startswith k "output" = true -> reserved sep "input" k) ->
  part_key sep "input" "output" t k = Ok pk ->
  exists u, src_name pk = Ok u /\ outer_path sep "input" t k u.
Proof.
  intros Hc Hpl H. destruct (part_key_spec sep "input" "output" Hin Hout t k pk Hc H) as [o [i [E [Epk Hk]]]].
  destruct (part_tidy_gen sep k o i pk Hc E Epk) as [_ [Hu [Ho Hi]]].
  exists (join sep o). destruct Hk as [->|[Hni [Hno [u [Hw Ha]]]]].
  - split.
    + unfold src_name. rewrite Epk at 1. rewrite append_dsep.
      change (join sep ["input"]) with "input" at 1. rewrite startswith_refl_app. cbn [orb].
      rewrite Epk, append_dsep. change (join sep ["input"]) with "input".
      rewrite split_app_sep by exact Hsi. reflexivity.
    + left. split; [reflexivity|]. exists i. exact E.
  - assert (Hne : o <> []) by (eapply walk_outer_nonempty; eauto). split.
    + unfold src_name. rewrite Hu. cbn [rbind].
      assert (Hpre : forall key, no_sep sep key = true -> startswith pk key = true -> startswith k key = true).
      { intros key Hk Hs. rewrite Epk, append_dsep in Hs. apply startswith_app_sep in Hs; [|exact Hk].
        rewrite <- (join_split sep k), E. apply startswith_join_app; assumption. }
      destruct (startswith pk "input") eqn:E1; [exfalso; apply Hni, Hpl; left; apply Hpre; auto|].
      destruct (startswith pk "output") eqn:E2; [exfalso; apply Hni, Hpl; right; apply Hpre; auto|]. reflexivity.
    + right. split; [exact Hni|]. split; [apply cclean_clean; assumption|]. exists i, u.
      rewrite cclean_split by assumption. auto.
Qed.

(** edges of the outer graph *)
Lemma add_set_In l : forall acc x, In x (fold_left add_set l acc) <-> In x acc \/ In x l.
Proof.
  induction l as [|y l IH]; intros acc x; simpl; [tauto|]. rewrite IH. unfold add_set.
  destruct (mem_str y acc) eqn:E.
  - apply mem_str_In in E. intuition (subst; auto).
  - rewrite in_app_iff. simpl. tauto.
Qed.

Lemma outer_entry_edge acc pk pvs g : outer_entry sep acc (pk, pvs) = Ok g ->
  exists u ws, src_name pk = Ok u /\ Forall2 (fun pv w => exists i, unpack2 sep pv = Ok (w, i)) pvs ws /\
    (wf_graph acc -> wf_graph g) /\
    (forall x y, edge g x y <-> edge acc x y \/ (x = u /\ In y ws)).
Proof.
  unfold outer_entry. intros H. fold (src_name pk) in H. apply rbind_ok in H as [u [Hu H]].
  apply rbind_ok in H as [ws [Hws H]]. injection H as <-. exists u, ws. split; [exact Hu|]. split; [|split].
  - apply rmapM_Forall2 in Hws. clear -Hws. induction Hws as [|pv w pvs ws Hw _ IH]; constructor; [|exact IH].
    apply rbind_ok in Hw as [[o i] [Hw1 Hw2]]. injection Hw2 as <-. eauto.
  - apply NoDup_dset.
  - intros x y. unfold edge. destruct (String.eqb_spec u x) as [<-|Hne].
    + rewrite dget_dset_same. split.
      * intros [vs [Evs Hy]]. injection Evs as <-. apply add_set_In in Hy as [Hy|Hy]; [left|right; auto].
        destruct (dget acc u) as [l|]; [eauto|destruct Hy].
      * intros [[vs [Evs Hy]]|[_ Hy]]; (eexists; split; [reflexivity|]); apply add_set_In; [left|right; exact Hy].
        rewrite Evs. exact Hy.
    + rewrite dget_dset_other by exact Hne. split; [auto|]. intros [H|[-> _]]; [exact H|congruence].
Qed.

Lemma outer_fold pc : forall acc g, rfold (outer_entry sep) pc acc = Ok g ->
  (wf_graph acc -> wf_graph g) /\
  (forall x y, edge g x y <-> edge acc x y \/
     exists pk pvs pv i, In (pk, pvs) pc /\ In pv pvs /\ src_name pk = Ok x /\ unpack2 sep pv = Ok (y, i)) /\
  (forall pk pvs pv, In (pk, pvs) pc -> In pv pvs -> exists x y i, src_name pk = Ok x /\ unpack2 sep pv = Ok (y, i)).
Proof.
  induction pc as [|[pk pvs] pc IH]; intros acc g H.
  - injection H as <-. split; [auto|]. split; [|intros ? ? ? []]. intros x y. split; [auto|].
    intros [H|[? [? [? [? [[] _]]]]]]. exact H.
  - cbn [rfold] in H. apply rbind_ok in H as [acc' [H1 H2]].
    apply outer_entry_edge in H1 as [u [ws [Hu [Hws [Hwf He]]]]]. apply IH in H2 as [I1 [I2 I3]].
    split; [auto|]. split.
    + intros x y. rewrite I2, He. split.
      * intros [[H|[-> Hy]]|[pk' [pvs' [pv [i [G1 [G2 [G3 G4]]]]]]]]; [auto| |].
        -- right. destruct (Forall2_In_r _ _ _ _ Hws Hy) as [pv [Hpv [i Ei]]].
           exists pk, pvs, pv, i. split; [left; reflexivity|auto].
        -- right. exists pk', pvs', pv, i. split; [right; exact G1|auto].
      * intros [H|[pk' [pvs' [pv [i [[G1|G1] [G2 [G3 G4]]]]]]]]; [auto| |].
        -- injection G1 as <- <-. left. right. split; [congruence|].
           destruct (Forall2_In_l _ _ _ _ Hws G2) as [w [Hw [i' Ei]]]. congruence.
        -- right. exists pk', pvs', pv, i. auto.
    + intros pk' pvs' pv [G|G] Hpv; [|eapply I3; eauto]. injection G as <- <-.
      destruct (Forall2_In_l _ _ _ _ Hws Hpv) as [w [Hw [i' Ei]]]. eauto.
Qed.

Theorem outer_graph_spec conns g :
  well_written sep "output" t conns -> plain_sources sep "input" "output" conns ->
  get_outer_connections sep "input" "output" t conns = Ok g ->
  wf_graph g /\ (forall x y, edge g x y <-> feeds sep "input" "output" t conns x y) /\
  (forall x y, edge g x y -> ~ reserved sep "input" y) /\
  (forall k v, In (k, v) (pairs (normalize conns)) -> exists x y,
     outer_path sep "input" t k x /\ outer_path sep "output" t v y).
Proof.
  intros [Hnd [Hkc Hvc]] Hpl H. unfold get_outer_connections in H. apply rbind_ok in H as [pc [Hpc H]].
  unfold partition_connections in Hpc. destruct (check_double sep (normalize conns)); [discriminate|].
  set (conn := normalize conns) in *.
  assert (Hkc' : forall k vs, In (k, vs) conn -> clean sep k /\
     (startswith k "input" = true \/ startswith k "output" = true -> reserved sep "input" k)).
  { intros k vs Hi. subst conn. unfold normalize in Hi. apply in_map_iff in Hi as [[k' c] [E Hi]].
    injection E as <- <-. split; [eapply Hkc; eauto|eapply Hpl; eauto]. }
  destruct (part_fold sep "input" "output" Hin Hout t conn [] pc Hpc) as [new [Epc Hrel]].
  { unfold conn; rewrite dkeys_normalize; exact Hnd. }
  { intros k vs Hi. eapply Hkc'; eauto. }
  { intros nk []. }
  simpl in Epc. subst new. apply outer_fold in H as [Hwf [He Hall]].
  assert (Hcorr : forall x y, edge g x y <->
      exists k v, In (k, v) (pairs conn) /\ outer_path sep "input" t k x /\ outer_path sep "output" t v y /\ ~ reserved sep "input" y).
  { intros x y. rewrite He. split.
    - intros [[vs [E _]]|[pk [pvs [pv [i [G1 [G2 [G3 G4]]]]]]]]; [discriminate|].
      destruct (Forall2_In_r _ _ _ _ Hrel G1) as [[k vs] [Hk [R1 R2]]]. cbn [fst snd] in R1, R2.
      destruct (Forall2_In_r _ _ _ _ R2 G2) as [v [Hv Rv]].
      assert (Hp : In (k, v) (pairs conn)).
      { unfold pairs. apply in_flat_map. exists (k, vs). split; [exact Hk|]. apply in_map. exact Hv. }
      destruct (Hkc' k vs Hk) as [Hck Hplk]. destruct (part_key_outer k pk Hck Hplk R1) as [x' [E1 O1]].
      destruct (part_val_outer v pv) as [y' [i' [E2 [O2 Hny]]]]; [apply (Hvc k v Hp)|exact Rv|].
      rewrite E1 in G3. injection G3 as ->. rewrite E2 in G4. injection G4 as -> _. eauto 10.
    - intros [k [v [Hp [O1 [O2 Hny]]]]]. right.
      unfold pairs in Hp. apply in_flat_map in Hp as [[k' vs] [Hk Hv]]. cbn [fst snd] in Hv.
      apply in_map_iff in Hv as [v' [E Hv]]. injection E as -> ->.
      destruct (Forall2_In_l _ _ _ _ Hrel Hk) as [[pk pvs] [Hpk [R1 R2]]]. cbn [fst snd] in R1, R2.
      destruct (Forall2_In_l _ _ _ _ R2 Hv) as [pv [Hpv Rv]].
      destruct (Hkc' k vs Hk) as [Hck Hplk]. destruct (part_key_outer k pk Hck Hplk R1) as [x' [E1 O1']].
      destruct (part_val_outer v pv) as [y' [i' [E2 [O2' _]]]].
      { apply (Hvc k v). unfold pairs. apply in_flat_map. exists (k, vs). split; [exact Hk|apply in_map; exact Hv]. }
      { exact Rv. }
      rewrite (outer_path_fun _ _ _ _ _ _ O1 O1'), (outer_path_fun _ _ _ _ _ _ O2 O2').
      exists pk, pvs, pv, i'. auto. }
  assert (Hex : forall k v, In (k, v) (pairs conn) -> exists x y,
     outer_path sep "input" t k x /\ outer_path sep "output" t v y /\ ~ reserved sep "input" y).
  { intros k v H1. assert (Hp := H1).
    unfold pairs in H1. apply in_flat_map in H1 as [[k' vs] [Hk Hv]]. cbn [fst snd] in Hv.
    apply in_map_iff in Hv as [v' [E Hv]]. injection E as -> ->.
    destruct (Forall2_In_l _ _ _ _ Hrel Hk) as [[pk pvs] [Hpk [R1 R2]]]. cbn [fst snd] in R1, R2.
    destruct (Forall2_In_l _ _ _ _ R2 Hv) as [pv [Hpv Rv]].
    destruct (Hkc' k vs Hk) as [Hck Hplk]. destruct (part_key_outer k pk Hck Hplk R1) as [x' [E1 O1']].
    destruct (part_val_outer v pv) as [y' [i' [E2 [O2' Hny]]]]; [apply (Hvc k v Hp)|exact Rv|]. eauto. }
  split; [apply Hwf; constructor|]. split; [|split].
  - intros x y. rewrite Hcorr. unfold feeds. split.
    + intros [k [v [H1 [H2 [H3 _]]]]]. eauto.
    + intros [k [v [H1 [H2 H3]]]]. exists k, v. repeat split; auto.
      destruct (Hex k v H1) as [x' [y' [_ [O2' Hny]]]].
      rewrite (outer_path_fun _ _ _ _ _ _ H3 O2'). exact Hny.
  - intros x y Hx. apply Hcorr in Hx as [k [v [_ [_ [_ Hx]]]]]. exact Hx.
  - intros k v Hp. destruct (Hex k v Hp) as [x [y [H1 [H2 _]]]]. eauto.
Qed.
End Outer.

(* ---- the whole model ---- *)
Lemma reach_transfer (R S : string -> string -> Prop) x y :
  (forall a b, R a b -> S a b) -> clos_refl_trans _ R x y -> clos_refl_trans _ S x y.
Proof. intros H. induction 1; [apply rt_step; auto|apply rt_refl|eapply rt_trans; eauto]. Qed.

Lemma reach_last (R : string -> string -> Prop) x y :
  clos_refl_trans _ R x y -> x <> y -> exists z, R z y.
Proof.
  intros H. apply clos_rt_rtn1 in H. destruct H as [|z w Hzw _]; [congruence|eauto].
Qed.

Lemma place_wf {A} sep uuid in_key out_key (t : tree A) conns placed outrem :
  place_connections sep uuid in_key out_key t conns = Ok (placed, outrem) ->
  wf_tree placed /\ wf_tree outrem.
Proof.
  intros H. unfold place_connections in H. apply rbind_ok in H as [cc [_ H]].
  apply rbind_ok in H as [rc [_ H]]. apply rbind_ok in H as [o [Ho H]].
  apply rbind_ok in H as [p [Hp H]]. injection H as <- <-.
  assert (Hf : forall l : list (string * string), forall f, In f (map (fun kv => @Leaf string (snd kv)) l) -> wf_tree f /\ tuple_free f).
  { intros l f Hi. apply in_map_iff in Hi as [x [<- _]]. split; constructor. }
  split; [eapply extend_none_wf; [|exact Hp]; apply Hf|].
  destruct (filter _ rc) as [|[k src] [|y ys]].
  - eapply extend_none_wf; [|exact Ho]; apply (Hf []).
  - destruct (String.eqb k out_key); [injection Ho as <-; constructor|].
    eapply extend_none_wf; [|exact Ho]; apply (Hf [(k, src)]).
  - eapply extend_none_wf; [|exact Ho]; apply (Hf ((k, src) :: y :: ys)).
Qed.

Lemma same_key_canonical k1 k2 :
  (isdigit k1 = true -> k1 = str_of (int_of k1)) -> (isdigit k2 = true -> k2 = str_of (int_of k2)) ->
  same_key k1 k2 -> k1 = k2.
Proof. intros H1 H2 [E|[D1 [D2 E]]]; [exact E|]. rewrite (H1 D1), (H2 D2), E. reflexivity. Qed.

Lemma same_keys_prefix a : forall b r s,
  Forall (fun k => isdigit k = true -> k = str_of (int_of k)) a ->
  Forall (fun k => isdigit k = true -> k = str_of (int_of k)) b ->
  same_keys (a ++ r) (b ++ s) -> (exists e, b = a ++ e) \/ (exists e, a = b ++ e).
Proof.
  induction a as [|x a IH]; intros b r s Ha Hb H; [left; exists b; reflexivity|].
  destruct b as [|y b]; [right; eexists; reflexivity|].
  apply Forall_cons_iff in Ha as [Hx Ha]. apply Forall_cons_iff in Hb as [Hy Hb].
  inversion H as [|? ? ? ? Hk Hr]; subst. apply same_key_canonical in Hk; auto. subst y.
  destruct (IH b r s Ha Hb Hr) as [[e ->]|[e ->]]; [left|right]; eexists; reflexivity.
Qed.

Lemma same_keys_app_inv a r s : same_keys (a ++ r) (a ++ s) -> same_keys r s.
Proof. induction a as [|x a IH]; intros H; [exact H|]. inversion H; subst. apply IH. assumption. Qed.

Lemma canonical_diverge p q :
  Forall (fun k => isdigit k = true -> k = str_of (int_of k)) p ->
  Forall (fun k => isdigit k = true -> k = str_of (int_of k)) q ->
  (forall e, q <> p ++ e) -> (forall e, p <> q ++ e) -> diverge p q.
Proof.
  revert q; induction p as [|x p IH]; intros q Hp Hq H1 H2; [exfalso; apply (H1 q); reflexivity|].
  destruct q as [|y q]; [exfalso; apply (H2 (x :: p)); reflexivity|].
  apply Forall_cons_iff in Hp as [Hx Hp]. apply Forall_cons_iff in Hq as [Hy Hq].
  destruct (String.eqb_spec x y) as [<-|Hne].
  - destruct (IH q Hp Hq) as [i [a [b H]]].
    + intros e ->. apply (H1 e). reflexivity.
    + intros e ->. apply (H2 e). reflexivity.
    + exists (S i), a, b. exact H.
  - exists 0, x, y. repeat split; auto. intros D1 D2 E. apply Hne. rewrite (Hx D1), (Hy D2), E. reflexivity.
Qed.

Lemma apart_intro sep l :
  NoDup l -> (forall p q, In p l -> In q l -> p <> q -> diverge (split sep p) (split sep q)) -> apart sep l.
Proof.
  induction l as [|x l IH]; intros Hnd H; constructor.
  - apply NoDup_cons_iff in Hnd as [Hx _]. intros q Hq. apply H; [left; reflexivity|right; exact Hq|].
    intros ->. contradiction.
  - apply NoDup_cons_iff in Hnd as [_ Hnd]. apply IH; [exact Hnd|]. intros p q Hp Hq. apply H; right; assumption.
Qed.

Section Model.
Variable sep : ascii.
Hypothesis Hsep : is_digit_char sep = false.
Hypothesis Hsi : no_sep sep "input" = true.
Hypothesis Hso : no_sep sep "output" = true.
Variable uuid : nat -> string.
Context {A Rng M : Type}.
Variable call : M -> tree A -> tree A -> bool -> tree A -> Rng -> result (tree A * tree A).

Let Hin : no_sep sep "input" = true /\ "input" <> EmptyString.
Proof. split; [exact Hsi|discriminate]. Qed.
Let Hout : no_sep sep "output" = true /\ "output" <> EmptyString.
Proof. split; [exact Hso|discriminate]. Qed.

(** what a user may write without surprises (the restrictions are those of the
    refuted properties C07, C08, C11 plus canonical indices) *)
Definition good_network (modules : tree M) (conns : dict cval) : Prop :=
  atomic modules = false /\
  well_written sep "output" modules conns /\
  fresh_source sep uuid (map snd (pairs (normalize conns))) /\
  plain_outputs sep "output" conns /\ plain_sources sep "input" "output" conns /\
  (forall k v, In (k, v) (pairs (normalize conns)) -> canonical sep v).

(** the compiled network: execution order, modules and dependencies *)
Definition compiled (modules : tree M) (conns : dict cval)
  : result (list string * list (option M) * (list (tree string) * tree string)) :=
  let* order := get_execution_order sep modules conns in
  let* callables := module_callables sep modules order in
  let* dd := module_input_dependencies sep uuid modules conns in
  Ok (order, callables, dd).

Lemma model_compiled modules conns params data training state rng :
  nonseq_model sep call uuid modules conns params data training state rng =
  (let* c := compiled modules conns in
   let '(order, callables, (deps, out_deps)) := c in
   nonseq_callable sep call order callables deps out_deps params data training state rng).
Proof.
  unfold nonseq_model, compiled. destruct (get_execution_order sep modules conns); [|reflexivity]. cbn [rbind].
  destruct (module_callables sep modules a); [|reflexivity]. cbn [rbind].
  destruct (module_input_dependencies sep uuid modules conns) as [[d o]|]; reflexivity.
Qed.

(** relation between the connection dictionary and the compiled network *)
Definition network_of (modules : tree M) (conns : dict cval)
    (nodes : list (string * (M * tree string))) (out_deps : tree string) : Prop :=
  NoDup (map fst nodes) /\
  (forall p, In p (map fst nodes) <-> live_module sep modules conns p) /\
  (forall p m deps, In (p, (m, deps)) nodes -> walk modules (split sep p) = Some (Leaf m)) /\
  exists Q : list (string * string * string),
    map fst Q = pairs (normalize conns) /\
    (forall i k v w, nth_error Q i = Some (k, v, w) -> clean sep w /\
        slot_given sep uuid (map snd (pairs (normalize conns))) i v w) /\
    (forall p m deps, In (p, (m, deps)) nodes -> assembled sep Q (split sep p) deps) /\
    assembled sep Q ["output"] out_deps.

Theorem compiled_spec modules conns order callables deps out_deps :
  good_network modules conns ->
  compiled modules conns = Ok (order, callables, (deps, out_deps)) ->
  exists nodes, order = order_of nodes /\ callables = callables_of nodes /\ deps = deps_of nodes /\
    network_of modules conns nodes out_deps /\ net_ok sep nodes out_deps.
Proof.
  intros [Hroot [Hww [Hfresh [Hplo [Hpls Hcan]]]]] H. unfold compiled in H.
  apply rbind_ok in H as [order0 [Hord H]]. apply rbind_ok in H as [call0 [Hcal H]].
  apply rbind_ok in H as [dd [Hdeps H]]. injection H as -> -> ->.
  (* the order *)
  unfold get_execution_order in Hord.
  destruct (get_outer_connections sep "input" "output" modules conns) as [g|] eqn:Eg; [|discriminate].
  cbn [rbind] in Hord. destruct (negb (dmem g "input")) eqn:Edm; [discriminate|].
  destruct (resolve_connections g "input" "output") as [[ord vis]|] eqn:Eres; [|discriminate].
  cbn [rbind] in Hord. injection Hord as ->.
  destruct (outer_graph_spec sep Hsi Hso modules Hroot conns g Hww Hpls Eg) as [Hwf [Hedge [Hnoin Hex]]].
  assert (Hnoin' : forall u, ~ edge g u "input").
  { intros u Hu. apply Hnoin in Hu. apply Hu. exists []. apply split_no_sep_id; exact Hsi. }
  destruct (resolve_sound g "input" "output" order vis Hwf Hnoin' Eres) as [Hnd [Hlive [[mid Hmid] [Hlast [Htop _]]]]].
  assert (Hshape : exists mids, order = "input" :: mids ++ ["output"]).
  { destruct mid as [|x mid] using rev_ind.
    - rewrite Hmid in Hlast. discriminate.
    - exists mid. rewrite Hmid in Hlast. change ("input" :: mid ++ [x]) with (("input" :: mid) ++ [x]) in Hlast.
      rewrite last_last in Hlast. subst x. exact Hmid. }
  destruct Hshape as [mids Emids]. clear mid Hmid Hlast.
  rewrite Emids in Hnd. assert (Hnd0 := Hnd). apply NoDup_cons_iff in Hnd0 as [Hnin Hnd1].
  assert (Hmno : ~ In "output" mids).
  { intros Hi. apply NoDup_remove_2 in Hnd1. rewrite app_nil_r in Hnd1. contradiction. }
  assert (Hmni : ~ In "input" mids) by (intros Hi; apply Hnin, in_or_app; auto).
  assert (Hndm : NoDup mids) by (apply NoDup_remove_1 in Hnd1; rewrite app_nil_r in Hnd1; exact Hnd1).
  assert (Hres : forall p, In p mids -> reserved_name p = false).
  { intros p Hp. unfold reserved_name. apply orb_false_iff. split; apply String.eqb_neq; intros ->; contradiction. }
  assert (Hbody : body order = mids).
  { rewrite Emids. unfold body. cbn [filter]. cbn [reserved_name String.eqb Ascii.eqb Bool.eqb orb negb].
    rewrite filter_app. cbn [filter]. cbn [reserved_name String.eqb Ascii.eqb Bool.eqb orb negb]. rewrite app_nil_r.
    clear -Hres. induction mids as [|p mids IH]; [reflexivity|]. cbn [filter].
    rewrite (Hres p) by (left; reflexivity). cbn [negb]. f_equal. apply IH. intros q Hq. apply Hres. right; exact Hq. }
  (* callables *)
  unfold module_callables in Hcal. rewrite Hbody in Hcal. apply rbind_ok in Hcal as [ms [Hms Hcal]]. injection Hcal as <-.
  (* dependencies *)
  unfold module_input_dependencies in Hdeps. unfold get_execution_order in Hdeps. rewrite Eg in Hdeps.
  cbn [rbind] in Hdeps. rewrite Edm, Eres in Hdeps. cbn [rbind] in Hdeps.
  destruct (place_connections sep uuid "input" "output" modules conns) as [[placed outrem]|] eqn:Epl; [|discriminate].
  cbn [rbind] in Hdeps. rewrite Hbody in Hdeps. apply rbind_ok in Hdeps as [ds [Hds Hdeps]]. injection Hdeps as <- <-.
  destruct (place_wf _ _ _ _ _ _ _ _ Epl) as [Hwfp Hwfo].
  destruct (place_spec sep Hsep uuid "input" "output" Hin Hout modules conns Hww Hfresh Hplo) as [_ Hps].
  destruct (Hps placed outrem Epl) as [Q [HQp [HQw' [_ [HQ1 [HQ2 HQ3]]]]]]. clear Hps.
  assert (HQw := slots_shape sep uuid _ conns Q (proj2 (proj2 Hww)) HQp HQw').
  assert (HQin : forall k v w, In (k, v, w) Q -> In (k, v) (pairs (normalize conns))).
  { intros k v w Hq. rewrite <- HQp. apply (in_map fst) in Hq. exact Hq. }
  assert (HQext : forall k v w, In (k, v, w) Q -> exists e, split sep w = split sep v ++ e).
  { intros k v w Hq. destruct (HQw k v w Hq) as [_ [->|[x [_ E]]]]; [exists []; rewrite app_nil_r; reflexivity|eauto]. }
  (* facts about the module paths *)
  assert (Hfeed : forall p, In p mids -> exists u, edge g u p).
  { intros p Hp. assert (Hl : live g "input" "output" p).
    { apply Hlive. rewrite Emids. right. apply in_or_app. left; exact Hp. }
    destruct Hl as [Hl _]. apply reach_last in Hl; [exact Hl|]. intros <-. contradiction. }
  assert (Hpath : forall p, In p mids -> clean sep p /\ canonical sep p /\ ~ reserved sep "input" p /\ ~ reserved sep "output" p).
  { intros p Hp. destruct (Hfeed p Hp) as [u Hu]. assert (Hni := Hnoin u p Hu). apply Hedge in Hu as [k [v [Hkv [_ Ho]]]].
    destruct Ho as [[-> _]|[Hnr [Hcl [rest [a [E [Hw Ha]]]]]]]; [contradiction|].
    split; [exact Hcl|]. split; [|split; [exact Hni|]].
    - assert (Hc := Hcan k v Hkv). unfold canonical in *. rewrite E in Hc. apply Forall_app in Hc as [Hc _]. exact Hc.
    - intros [r Er]. apply Hnr. exists (r ++ rest). rewrite E, Er. reflexivity. }
  assert (Hmod : Forall2 (fun p m => exists m0, m = Some m0 /\ walk modules (split sep p) = Some (Leaf m0)) mids ms).
  { apply rmapM_Forall2 in Hms. clear -Hms Hpath. induction Hms as [|p m mids ms H _ IH]; constructor.
    - apply rbind_ok in H as [u [Hu H]]. destruct u as [m0| | | |]; try discriminate. injection H as <-.
      exists m0. split; [reflexivity|]. apply look_walk in Hu; [exact Hu|]. apply Hpath. left; reflexivity.
    - apply IH. intros q Hq. apply Hpath. right; exact Hq. }
  assert (Hdep : Forall2 (fun p d => walk placed (split sep p) = Some d) mids ds).
  { apply rmapM_Forall2 in Hds. clear -Hds Hpath. induction Hds as [|p d mids ds H _ IH]; constructor.
    - apply look_walk in H; [exact H|]. apply Hpath. left; reflexivity.
    - apply IH. intros q Hq. apply Hpath. right; exact Hq. }
  (* the nodes *)
  assert (Hnodes : exists nodes : list (string * (M * tree string)),
    map fst nodes = mids /\ ms = map (fun x => Some (fst (snd x))) nodes /\ ds = map (fun x => snd (snd x)) nodes /\
    (forall p m deps, In (p, (m, deps)) nodes -> walk modules (split sep p) = Some (Leaf m) /\ walk placed (split sep p) = Some deps)).
  { clear -Hmod Hdep. revert ds Hdep. induction Hmod as [|p m mids ms [m0 [-> Hm]] _ IH]; intros ds Hdep.
    - inversion Hdep; subst. exists []. split; [reflexivity|]. split; [reflexivity|]. split; [reflexivity|intros ? ? ? []].
    - inversion Hdep as [|? d ? ds' Hd Hds]; subst. destruct (IH ds' Hds) as [nodes [N1 [N2 [N3 N4]]]].
      exists ((p, (m0, d)) :: nodes). simpl. split; [f_equal; exact N1|]. split; [f_equal; exact N2|].
      split; [f_equal; exact N3|]. intros q m' d' [E|Hi]; [injection E as <- <- <-; auto|apply N4; exact Hi]. }
  destruct Hnodes as [nodes [N1 [N2 [N3 N4]]]].
  (* which concrete targets belong to a module *)
  assert (Hown : forall p m q v w r, In p mids -> walk modules (split sep p) = Some (Leaf m) -> In (q, v, w) Q ->
    same_keys (split sep p ++ r) (split sep w) ->
    outer_path sep "output" modules v p /\ exists r', split sep w = split sep p ++ r' /\ same_keys r r').
  { intros p m q v w r Hp Hm Hq Hs. assert (Hkv := HQin _ _ _ Hq). destruct (HQext _ _ _ Hq) as [e He].
    destruct (Hex q v Hkv) as [x [y [_ Hy]]]. destruct (Hpath p Hp) as [Hcp [Hcanp [Hnip Hnop]]].
    assert (Hyp : y = p).
    { destruct Hy as [[-> [rest Er]]|[Hnr [Hcly [rest [a [E [Hw Ha]]]]]]].
      - exfalso. apply Hnop. rewrite He, Er in Hs. unfold reserved.
        destruct (split sep p) as [|k ks] eqn:Ek; [exfalso; eapply split_nonempty; eauto|].
        cbn [app] in Hs. inversion Hs as [|? ? ? ? Hk _]; subst.
        destruct Hk as [->|[_ [D _]]]; [eauto|discriminate].
      - assert (Hcany : canonical sep y).
        { assert (Hc := Hcan q v Hkv). unfold canonical in *. rewrite E in Hc. apply Forall_app in Hc as [Hc _]. exact Hc. }
        rewrite He, E, <- app_assoc in Hs.
        destruct (same_keys_prefix _ _ _ _ Hcanp Hcany Hs) as [[f Ef]|[f Ef]].
        + destruct f as [|k f]; [rewrite app_nil_r in Ef; exact (split_inj sep y p Ef)|].
          exfalso. rewrite Ef, walk_app, Hm in Hw. discriminate.
        + destruct f as [|k f]; [rewrite app_nil_r in Ef; exact (split_inj sep y p (eq_sym Ef))|].
          exfalso. rewrite Ef, walk_app, Hw in Hm.
          assert (Hat : atomic a = true).
          { destruct rest as [|z rest]; [|apply Ha; discriminate]. rewrite app_nil_r in E.
            destruct Hww as [_ [_ Hvc]]. destruct (Hvc q v Hkv) as [_ [Hr|[ks [rest' [u [Eks [Hu Hau]]]]]]]; [contradiction|].
            rewrite <- E, Eks, walk_app, Hu in Hw.
            destruct rest' as [|z rest']; [injection Hw as <-; exact Hau|].
            rewrite walk_atomic in Hw; [discriminate|exact Hau|discriminate]. }
          rewrite walk_atomic in Hm; [discriminate|exact Hat|discriminate]. }
    subst y. split; [exact Hy|].
    destruct Hy as [[-> _]|[_ [_ [rest [a [E _]]]]]]; [contradiction|].
    exists (rest ++ e). rewrite He, E, <- app_assoc. split; [reflexivity|].
    rewrite He, E, <- app_assoc in Hs. apply same_keys_app_inv in Hs. exact Hs. }
  (* sources *)
  assert (Hsrc : forall l1 y l2 q v, order = l1 ++ y :: l2 -> In (q, v) (pairs (normalize conns)) ->
    outer_path sep "output" modules v y ->
    clean sep q /\ exists n ks, In n l1 /\ split sep q = split sep n ++ ks).
  { intros l1 y l2 q v E Hkv Hy. split.
    - destruct Hww as [_ [Hkc _]]. unfold pairs in Hkv. apply in_flat_map in Hkv as [[k' vs] [Hk Hv]].
      cbn [fst snd] in Hv. apply in_map_iff in Hv as [v' [E' _]]. injection E' as -> ->.
      unfold normalize in Hk. apply in_map_iff in Hk as [[k c] [E'' Hk]]. injection E'' as <- _. eapply Hkc; eauto.
    - destruct (Hex q v Hkv) as [x [y' [Hx Hy']]]. rewrite (outer_path_fun _ _ _ _ _ _ Hy' Hy) in Hy'.
      assert (He : edge g x y) by (apply Hedge; exists q, v; auto).
      assert (Hx1 : In x l1) by (eapply Htop; eauto).
      destruct Hx as [[-> [rest Er]]|[_ [_ [rest [a [E' _]]]]]].
      + exists "input", rest. split; [exact Hx1|]. rewrite Er, (split_no_sep_id sep "input") by exact Hsi. reflexivity.
      + exists x, rest. auto. }
  assert (HasmP : forall p m deps, In (p, (m, deps)) nodes -> assembled sep Q (split sep p) deps).
  { intros p m d Hi. destruct (N4 p m d Hi) as [Hm Hd].
    assert (Hp : In p mids) by (rewrite <- N1; apply (in_map fst) in Hi; exact Hi).
    destruct (Hpath p Hp) as [_ [_ [_ Hnop]]]. split.
    - intros k v w r Hq E. assert (G := HQ1 k v w Hq). rewrite E in G.
      destruct (split sep p) as [|s ks] eqn:Es; [exfalso; eapply split_nonempty; eauto|]. cbn [app] in G.
      destruct (String.eqb_spec s "output") as [->|_]; [exfalso; apply Hnop; exists ks; exact Es|].
      change (s :: ks ++ r) with ((s :: ks) ++ r) in G. rewrite walk_app, Hd in G. exact G.
    - intros r q Hr. assert (Hwp : walk placed (split sep p ++ r) = Some (Leaf q)) by (rewrite walk_app, Hd; exact Hr).
      destruct (HQ3 _ _ Hwp) as [v [w [Hq Hs]]].
      destruct (Hown p m q v w r Hp Hm Hq Hs) as [_ [r' [E' Hs']]]. eauto 10. }
  assert (HasmO : assembled sep Q ["output"] outrem).
  { split.
    - intros k v w r Hq E. assert (G := HQ1 k v w Hq). rewrite E in G. exact G.
    - intros r q Hr. destruct (HQ2 _ _ Hr) as [v [w [r' [Hq [E Hs]]]]]. eauto 10. }
  exists nodes. split; [unfold order_of; rewrite N1; exact Emids|].
  split; [unfold callables_of; f_equal; exact N2|]. split; [unfold deps_of; f_equal; exact N3|].
  split.
  - (* network_of *)
    split; [rewrite N1; exact Hndm|]. split; [|split].
    + intros p. rewrite N1. split.
      * intros Hp. split; [|split; [intros ->; contradiction|intros ->; contradiction]].
        assert (Hl : live g "input" "output" p).
        { apply Hlive. rewrite Emids. right. apply in_or_app. left; exact Hp. }
        destruct Hl as [L1 L2]. split; (eapply reach_transfer; [|eassumption]); intros a b; apply Hedge.
      * intros [[L1 L2] [Hni Hno]].
        assert (Hl : live g "input" "output" p).
        { split; (eapply reach_transfer; [|eassumption]); intros a b; apply Hedge. }
        apply Hlive in Hl. rewrite Emids in Hl. destruct Hl as [<-|Hl]; [congruence|].
        apply in_app_or in Hl as [Hl|[<-|[]]]; [exact Hl|congruence].
    + intros p m d Hi. apply (N4 p m d Hi).
    + exists Q. auto.
  - (* net_ok *)
    rewrite <- N1 in Hndm. split; [|split; [|split; [|split]]].
    + apply apart_intro.
      * rewrite N1. constructor; [exact Hmni|]. rewrite <- N1. exact Hndm.
      * assert (Hip : forall p, In p (map fst nodes) -> diverge (split sep "input") (split sep p)).
        { intros p Hp. rewrite N1 in Hp. destruct (Hpath p Hp) as [_ [_ [Hni _]]].
          rewrite (split_no_sep_id sep "input") by exact Hsi.
          destruct (split sep p) as [|k ks] eqn:Ek; [exfalso; eapply split_nonempty; eauto|].
          exists 0, "input", k. split; [reflexivity|]. split; [reflexivity|]. split; [|discriminate].
          intros <-. apply Hni. exists ks. exact Ek. }
        intros p q [<-|Hp] [<-|Hq] Hne; [congruence|apply Hip; exact Hq|apply diverge_sym, Hip; exact Hp|].
        rewrite N1 in Hp, Hq. apply canonical_diverge; [apply Hpath; exact Hp|apply Hpath; exact Hq| |].
        -- intros e E. destruct e as [|k e]; [rewrite app_nil_r in E; apply split_inj in E; congruence|].
           rewrite <- N1 in Hp, Hq. apply in_map_iff in Hp as [[p' [mp dp]] [Ep Hp]]. simpl in Ep; subst p'.
           apply in_map_iff in Hq as [[q' [mq dq]] [Eq Hq]]. simpl in Eq; subst q'.
           destruct (N4 _ _ _ Hp) as [Wp _]. destruct (N4 _ _ _ Hq) as [Wq _].
           rewrite E, walk_app, Wp in Wq. discriminate.
        -- intros e E. destruct e as [|k e]; [rewrite app_nil_r in E; apply split_inj in E; congruence|].
           rewrite <- N1 in Hp, Hq. apply in_map_iff in Hp as [[p' [mp dp]] [Ep Hp]]. simpl in Ep; subst p'.
           apply in_map_iff in Hq as [[q' [mq dq]] [Eq Hq]]. simpl in Eq; subst q'.
           destruct (N4 _ _ _ Hp) as [Wp _]. destruct (N4 _ _ _ Hq) as [Wq _].
           rewrite E, walk_app, Wq in Wp. discriminate.
    + intros p Hp. rewrite N1 in Hp. split; [apply Hpath; exact Hp|]. intros ->. contradiction.
    + intros p m d Hi q Hq. destruct (N4 p m d Hi) as [Hm Hd].
      assert (Hwd : wf_tree d) by (eapply wf_walk; [exact Hwfp|exact Hd]). destruct (has_leaf_walk d q Hwd Hq) as [r Hr].
      destruct (HasmP p m d Hi) as [_ Ha]. destruct (Ha r q Hr) as [v [w [r' [Hqv _]]]].
      assert (Hkv := HQin _ _ _ Hqv). destruct Hww as [_ [Hkc _]]. unfold pairs in Hkv.
      apply in_flat_map in Hkv as [[k' vs] [Hk Hv]].
      cbn [fst snd] in Hv. apply in_map_iff in Hv as [v' [E' _]]. injection E' as -> ->.
      unfold normalize in Hk. apply in_map_iff in Hk as [[k c] [E'' Hk]]. injection E'' as <- _. eapply Hkc; eauto.
    + intros l1 p m d l2 E q Hq.
      assert (Hi : In (p, (m, d)) nodes) by (rewrite E; apply in_or_app; right; left; reflexivity).
      assert (Hp : In p mids) by (rewrite <- N1; apply (in_map fst) in Hi; exact Hi).
      destruct (N4 p m d Hi) as [Hm Hd].
      assert (Hwd : wf_tree d) by (eapply wf_walk; [exact Hwfp|exact Hd]). destruct (has_leaf_walk d q Hwd Hq) as [r Hr].
      assert (Hwp : walk placed (split sep p ++ r) = Some (Leaf q)) by (rewrite walk_app, Hd; exact Hr).
      destruct (HQ3 _ _ Hwp) as [v [w [Hqv Hs]]].
      destruct (Hown p m q v w r Hp Hm Hqv Hs) as [Hy _].
      assert (Eo : order = ("input" :: map fst l1) ++ p :: map fst l2 ++ ["output"]).
      { rewrite Emids, <- N1, E, map_app. cbn [map fst]. rewrite <- app_assoc. reflexivity. }
      destruct (Hsrc _ _ _ q v Eo (HQin _ _ _ Hqv) Hy) as [_ G]. exact G.
    + intros q Hq. destruct (has_leaf_walk outrem q Hwfo Hq) as [r Hr].
      destruct (HQ2 _ _ Hr) as [v [w [r' [Hqv [E _]]]]]. destruct (HQext _ _ _ Hqv) as [e He].
      assert (Hy : outer_path sep "output" modules v "output").
      { left. split; [reflexivity|]. rewrite He in E.
        destruct (split sep v) as [|k ks] eqn:Ek; [exfalso; eapply split_nonempty; eauto|].
        injection E as -> _. exists ks. exact Ek. }
      assert (Eo : order = ("input" :: map fst nodes) ++ ["output"]) by (rewrite N1; exact Emids).
      apply (Hsrc _ _ _ q v Eo (HQin _ _ _ Hqv) Hy).
Qed.

(** C12 and C14 *)
Theorem model_sound modules conns params data training state rng out st' :
  good_network modules conns ->
  nonseq_model sep call uuid modules conns params data training state rng = Ok (out, st') ->
  exists nodes out_deps val news,
    network_of modules conns nodes out_deps /\ net_ok sep nodes out_deps /\
    dataflow sep call "input" nodes params data training state rng val news /\
    filled (value_at sep ("input" :: map fst nodes) val) out_deps out /\
    (forall p, In p (map fst nodes) -> walk st' (split sep p) = Some (news p)) /\
    (forall ks, (forall p, In p (map fst nodes) -> diverge (split sep p) ks) -> walk st' ks = walk state ks).
Proof.
  intros Hg H. rewrite model_compiled in H. apply rbind_ok in H as [[[order callables] [deps out_deps]] [Hc H]].
  destruct (compiled_spec _ _ _ _ _ _ Hg Hc) as [nodes [-> [-> [-> [Hn Hok]]]]].
  destruct (nonseq_sound sep Hsi call nodes out_deps params data training state rng out st' Hok H)
    as [val [news [H1 [H2 [H3 H4]]]]].
  exists nodes, out_deps, val, news. auto 10.
Qed.
End Model.
