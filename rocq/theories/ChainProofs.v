(** Chains of modules: graph models against sequential models (C19). *)
From Verif Require Import Base BaseLemmas TreeUtil TreeSpec TreeProofs Connections ConcretizeSpec ConnSpec ConnProofs
  NonSeq NonSeqSpec NonSeqProofs NonSeqNet NonSeqDead Seq SeqSpec SeqProofs SeqMain ChainSpec.
From Coq Require Import Permutation Relations.
Local Open Scope string_scope.
Local Open Scope list_scope.

(* ---------------- lists of leaves ---------------- *)
Lemma flatten_leaves {X Y} (xs : list X) (ys : list (tree Y)) : length xs = length ys ->
  flatten_up_to (Lst (map Leaf xs)) (Lst ys) = Ok ys.
Proof.
  rewrite flatten_lst. revert ys. induction xs as [|x xs IH]; intros [|y ys] H; try discriminate; [reflexivity|].
  cbn [map flat_list flatten_up_to rbind]. rewrite IH by (simpl in H; lia). reflexivity.
Qed.
Lemma flatten_leaves_ok {X Y} (xs : list X) (ys us : list (tree Y)) :
  flatten_up_to (Lst (map Leaf xs)) (Lst ys) = Ok us -> length xs = length ys.
Proof.
  rewrite flatten_lst. revert ys us. induction xs as [|x xs IH]; intros [|y ys] us H; try discriminate; [reflexivity|].
  cbn [map flat_list flatten_up_to rbind] in H. apply rbind_ok in H as [b [Hb _]]. simpl. f_equal. eapply IH; exact Hb.
Qed.
Lemma unflatten_leaves {X Y} (xs : list X) (ys : list (tree Y)) : length xs = length ys ->
  unflatten (Lst (map Leaf xs)) ys = Ok (Lst ys).
Proof.
  intros H. unfold unflatten.
  assert (G : forall xs (ys : list (tree Y)), length xs = length ys -> unfl_list (map (@Leaf X) xs) ys = Ok (ys, [])).
  { clear. induction xs as [|x xs IH]; intros [|y ys] H; try discriminate; [reflexivity|].
    cbn [map unfl_list unflatten_part rbind]. rewrite IH by (simpl in H; lia). reflexivity. }
  assert (E : unflatten_part (Lst (map Leaf xs)) ys = let* (zs, vs') := unfl_list (map Leaf xs) ys in Ok (Lst zs, vs')) by reflexivity.
  rewrite E, G by exact H. reflexivity.
Qed.
Lemma leaves_leaves {X} (xs : list X) : leaves (Lst (map Leaf xs)) = xs.
Proof. cbn [leaves]. induction xs as [|x xs IH]; [reflexivity|]. cbn [map concat leaves app]. f_equal. exact IH. Qed.
Lemma treedef_leaves {X} (xs : list X) : treedef (Lst (map Leaf xs)) = Lst (map Leaf xs).
Proof. cbn [treedef]. f_equal. rewrite map_map. apply map_ext. reflexivity. Qed.
Lemma wf_leaves {X} (xs : list X) : wf_tree (Lst (map Leaf xs)).
Proof. constructor. apply Forall_map, Forall_forall. intros x _. constructor. Qed.

Section Chain.
Context {A Rng M : Type}.
Variable call : M -> tree A -> tree A -> bool -> tree A -> Rng -> result (tree A * tree A).

(** module after module *)
Inductive ran (training : bool) : list Rng -> list (M * (tree A * tree A)) -> tree A -> list (tree A) -> tree A -> Prop :=
| ran_nil rs d : ran training rs [] d [] d
| ran_cons r rs m mp ms l d d1 ns nss out :
    call m mp d training ms r = Ok (d1, ns) -> ran training rs l d1 nss out ->
    ran training (r :: rs) ((m, (mp, ms)) :: l) d (ns :: nss) out.

Lemma ran_len training rng l d nss out : ran training rng l d nss out -> length nss = length l.
Proof. induction 1; simpl; congruence. Qed.

Fixpoint zip3 (ms : list M) (ps ss : list (tree A)) : list (M * (tree A * tree A)) :=
  match ms, ps, ss with
  | m :: ms', p :: ps', s :: ss' => (m, (p, s)) :: zip3 ms' ps' ss'
  | _, _, _ => []
  end.

(* ---------------- sequential models ---------------- *)
Variable split_rng : Rng -> nat -> list Rng.
Hypothesis Hsplit : forall r n, length (split_rng r n) = n.

Lemma fold_ran training ms : forall ps ss keys d acc out news,
  length ps = length ms -> length ss = length ms -> length keys = length ms -> Forall (fun p => p <> NoneT) ps ->
  (rfold (seq_step call training) (combine ms (combine ps (combine ss keys))) (d, acc) = Ok (out, news) <->
   exists nss, news = acc ++ nss /\ ran training keys (zip3 ms ps ss) d nss out).
Proof.
  induction ms as [|m ms IH]; intros [|p ps] [|s ss] [|k keys] d acc out news H1 H2 H3 Hn; try discriminate.
  - cbn [combine rfold zip3]. split.
    + intros H. injection H as <- <-. exists []. split; [symmetry; apply app_nil_r|constructor].
    + intros [nss [ -> H]]. inversion H; subst. rewrite app_nil_r. reflexivity.
  - cbn [combine rfold zip3]. inversion Hn as [|? ? Hp Hn']; subst.
    assert (E : seq_step call training (d, acc) (m, (p, (s, k))) =
      let* (o, ns) := call m p d training s k in Ok (o, acc ++ [ns])) by (destruct p; try reflexivity; congruence).
    rewrite E. destruct (call m p d training s k) as [[o ns]|e] eqn:Ec; cbn [rbind].
    + rewrite (IH ps ss keys o (acc ++ [ns]) out news) by (simpl in *; auto). split.
      * intros [nss [ -> H]]. exists (ns :: nss). split; [rewrite <- app_assoc; reflexivity|]. econstructor; eauto.
      * intros [nss [ -> H]]. inversion H as [|? ? ? ? ? ? ? d1 ns' nss' ? Hc Hr]; subst. rewrite Ec in Hc. injection Hc as <- <-.
        exists nss'. split; [rewrite <- app_assoc; reflexivity|exact Hr].
    + split; [discriminate|]. intros [nss [_ H]]. inversion H; subst. congruence.
Qed.

Lemma seq_ran ms ps ss data training rng out st :
  length ps = length ms -> length ss = length ms -> Forall (fun p => p <> NoneT) ps ->
  (seq_callable call split_rng (Lst (map Leaf ms)) (Lst ps) data training (Lst ss) rng = Ok (out, st) <->
   exists nss, st = Lst nss /\ ran training (split_rng rng (length ms)) (zip3 ms ps ss) data nss out).
Proof.
  intros H1 H2 Hn. rewrite (seq_callable_eq call split_rng Hsplit) by apply wf_leaves.
  rewrite treedef_leaves, leaves_leaves, !flatten_leaves by congruence. cbn [rbind].
  split.
  - intros H. apply rbind_ok in H as [[o news] [Hf H]]. apply fold_ran in Hf as [nss [ -> Hr]]; try assumption; [|apply Hsplit].
    apply rbind_ok in H as [u [Hu H]]. injection H as -> ->. cbn [app] in Hu.
    assert (Hl := ran_len _ _ _ _ _ _ Hr).
    assert (Hz : length (zip3 ms ps ss) = length ms).
    { clear -H1 H2. revert ps ss H1 H2. induction ms as [|m ms IH]; intros [|p ps] [|s ss] H1 H2; try discriminate; [reflexivity|].
      simpl in *. f_equal. apply IH; lia. }
    rewrite unflatten_leaves in Hu by congruence. injection Hu as <-. exists nss. auto.
  - intros [nss [ -> Hr]].
    assert (Hl := ran_len _ _ _ _ _ _ Hr).
    assert (Hz : length (zip3 ms ps ss) = length ms).
    { clear -H1 H2. revert ps ss H1 H2. induction ms as [|m ms IH]; intros [|p ps] [|s ss] H1 H2; try discriminate; [reflexivity|].
      simpl in *. f_equal. apply IH; lia. }
    assert (Hf := proj2 (fold_ran training ms ps ss (split_rng rng (length ms)) data [] out nss H1 H2 (Hsplit _ _) Hn)
                    (ex_intro _ nss (conj eq_refl Hr))).
    rewrite Hf. cbn [rbind]. rewrite unflatten_leaves by congruence. reflexivity.
Qed.

(* ---------------- equations of a chain ---------------- *)
Hypothesis Hrng : forall m mp d tr ms r1 r2, call m mp d tr ms r1 = call m mp d tr ms r2.

Fixpoint solved (training : bool) (rng : Rng) (u : string) (ps : list string) (l : list (M * (tree A * tree A)))
    (val news : string -> tree A) (out : tree A) : Prop :=
  match ps, l with
  | [], [] => out = val u
  | p :: ps', (m, (mp, ms)) :: l' =>
      call m mp (val u) training ms rng = Ok (val p, news p) /\ solved training rng p ps' l' val news out
  | _, _ => False
  end.

Lemma solved_ran training rng ps : forall rs u l val news out, length rs = length ps ->
  solved training rng u ps l val news out -> ran training rs l (val u) (map news ps) out.
Proof.
  induction ps as [|p ps IH]; intros [|r rs] u [|[m [mp ms]] l] val news out Hl H; try discriminate; try contradiction.
  - cbn [solved] in H. subst out. constructor.
  - destruct H as [H1 H2]. cbn [map]. econstructor; [rewrite (Hrng _ _ _ _ _ r rng); exact H1|]. apply IH; [simpl in Hl; lia|exact H2].
Qed.

Lemma solved_ext training rng ps : forall u l val val' news news' out,
  val u = val' u -> (forall p, In p ps -> val p = val' p /\ news p = news' p) ->
  solved training rng u ps l val news out -> solved training rng u ps l val' news' out.
Proof.
  induction ps as [|p ps IH]; intros u [|[m [mp ms]] l] val val' news news' out Hu Hp H; try contradiction.
  - cbn [solved] in *. congruence.
  - cbn [solved] in *. destruct H as [H1 H2]. destruct (Hp p (or_introl eq_refl)) as [E1 E2]. split; [congruence|].
    eapply IH; [exact E1| |exact H2]. intros q Hq. apply Hp. right; exact Hq.
Qed.

Lemma ran_solved training rng ps : forall rs u l d nss out, NoDup (u :: ps) -> length ps = length l ->
  ran training rs l d nss out ->
  exists val news, val u = d /\ Forall2 (fun p ns => news p = ns) ps nss /\ solved training rng u ps l val news out.
Proof.
  induction ps as [|p ps IH]; intros rs u l d nss out Hnd Hl H.
  - destruct l; [|discriminate]. inversion H; subst. exists (fun _ => out), (fun _ => out). split; [reflexivity|]. split; [constructor|reflexivity].
  - inversion H as [|r rs' m mp ms l' ? d1 ns nss' ? Hc Hr]; subst; [discriminate|]. simpl in Hl.
    apply NoDup_cons_iff in Hnd as [Hu Hnd].
    destruct (IH rs' p l' d1 nss' out Hnd) as [val [news [V1 [V2 V3]]]]; [lia|exact Hr|].
    apply NoDup_cons_iff in Hnd as [Hp Hnd].
    exists (fun q => if string_dec q u then d else val q), (fun q => if string_dec q p then ns else news q).
    split; [destruct (string_dec u u); congruence|]. split.
    + constructor; [destruct (string_dec p p); congruence|]. clear -V2 Hp. induction V2 as [|q s ps nss' H _ IH]; constructor.
      * destruct (string_dec q p) as [ -> |]; [exfalso; apply Hp; left; reflexivity|exact H].
      * apply IH. intros Hi. apply Hp. right; exact Hi.
    + cbn [solved]. split.
      * destruct (string_dec u u); [|congruence]. destruct (string_dec p u) as [ -> |]; [exfalso; apply Hu; left; reflexivity|].
        destruct (string_dec p p); [|congruence]. rewrite V1, (Hrng _ _ _ _ _ rng r). exact Hc.
      * eapply solved_ext; [| |exact V3].
        -- destruct (string_dec p u) as [ -> |]; [exfalso; apply Hu; left; reflexivity|reflexivity].
        -- intros q Hq. destruct (string_dec q u) as [ -> |]; [exfalso; apply Hu; right; exact Hq|].
           destruct (string_dec q p) as [ -> |]; [contradiction|auto].
Qed.

(* ---------------- graph models ---------------- *)
Variable sep : ascii.
Hypothesis Hsep : is_digit_char sep = false.
Hypothesis Hsi : no_sep sep "input" = true.
Hypothesis Hso : no_sep sep "output" = true.
Variable uuid : nat -> string.
Variable modules : tree M.
Variable conns : dict cval.
Variable ps : list string.
Hypothesis Hgood : good_network sep uuid modules conns.
Hypothesis Hchain : chain sep modules conns ps.

Lemma links_targets u qs : map snd (links u qs) = qs ++ ["output"].
Proof. revert u. induction qs as [|q qs IH]; intros u; [reflexivity|]. cbn [links map snd]. rewrite IH. reflexivity. Qed.
Lemma links_source u qs k v : In (k, v) (links u qs) -> k = u \/ In k qs.
Proof.
  revert u. induction qs as [|q qs IH]; intros u H; simpl in H.
  - destruct H as [H|[]]. injection H as <- _. auto.
  - destruct H as [H|H]; [injection H as <- _; auto|]. apply IH in H. simpl. intuition.
Qed.

Lemma ps_module p : In p ps -> ~ reserved sep "input" p /\ ~ reserved sep "output" p /\ exists m, walk modules (split sep p) = Some (Leaf m).
Proof. destruct Hchain as [_ [_ H]]. apply H. Qed.

Lemma chain_pair k v : In (k, v) (pairs (normalize conns)) <-> In (k, v) (links "input" ps).
Proof. destruct Hchain as [_ [H _]]. split; apply Permutation_in; [exact H|apply Permutation_sym; exact H]. Qed.

Lemma chain_target k v : In (k, v) (pairs (normalize conns)) -> v = "output" \/ In v ps.
Proof.
  intros H. apply chain_pair, (in_map snd) in H. rewrite links_targets in H. apply in_app_iff in H as [H|[H|[]]]; auto.
Qed.

Lemma module_prefix p q e : In p ps -> In q ps -> split sep q = split sep p ++ e -> e = [] /\ p = q.
Proof.
  intros Hp Hq E. destruct (ps_module p Hp) as [_ [_ [m Hm]]]. destruct (ps_module q Hq) as [_ [_ [m' Hm']]].
  rewrite E, walk_app, Hm in Hm'. destruct e as [|k e]; [|discriminate]. split; [reflexivity|].
  rewrite app_nil_r in E. symmetry. exact (split_inj sep q p E).
Qed.

Lemma target_clean k v : In (k, v) (pairs (normalize conns)) -> clean sep v.
Proof. destruct Hgood as [_ [[_ [_ H]] _]]. intros Hkv. apply (H k v Hkv). Qed.
Lemma source_clean k v : In (k, v) (pairs (normalize conns)) -> clean sep k.
Proof.
  destruct Hgood as [_ [[_ [H _]] _]]. intros Hkv. unfold pairs in Hkv. apply in_flat_map in Hkv as [[k' vs] [Hk Hv]].
  cbn [fst snd] in Hv. apply in_map_iff in Hv as [v' [E' _]]. injection E' as -> ->.
  unfold normalize in Hk. apply in_map_iff in Hk as [[k1 c] [E'' Hk]]. injection E'' as <- _. eapply H; eauto.
Qed.

Lemma targets_apart a b : (a = "output" \/ In a ps) -> (b = "output" \/ In b ps) -> a <> b -> ~ prefix (split sep a) (split sep b).
Proof.
  intros Ha Hb Hab [e E]. destruct Ha as [ -> |Ha]; destruct Hb as [ -> |Hb].
  - congruence.
  - destruct (ps_module b Hb) as [_ [H _]]. apply H. rewrite (split_no_sep_id sep "output") in E by exact Hso. exists e. exact E.
  - destruct (ps_module a Ha) as [_ [H _]]. apply H. rewrite (split_no_sep_id sep "output") in E by exact Hso.
    destruct (split sep a) as [|h t] eqn:Es; [exfalso; eapply split_nonempty; eauto|]. injection E as E1 E2. subst h. exists t. exact Es.
  - destruct (module_prefix a b e Ha Hb E) as [_ ->]. congruence.
Qed.

Lemma slots_kept i v w :
  nth_error (map snd (pairs (normalize conns))) i = Some v ->
  slot_given sep uuid (map snd (pairs (normalize conns))) i v w -> w = v.
Proof.
  intros Hi [[_ ->]|[Hu _]]; [reflexivity|exfalso]. apply Hu. intros j p q Hp Hq Hij Hpre.
  rewrite Hi in Hp. injection Hp as <-.
  assert (Hin : forall i v, nth_error (map snd (pairs (normalize conns))) i = Some v -> exists k, In (k, v) (pairs (normalize conns))).
  { intros i0 v0 H. apply nth_error_In, in_map_iff in H as [[k v1] [E H]]. simpl in E. subst v1. eauto. }
  destruct (Hin i v Hi) as [k1 H1]. destruct (Hin j q Hq) as [k2 H2].
  destruct (clean_comps sep v (target_clean k1 v H1)) as [E1 _]. destruct (clean_comps sep q (target_clean k2 q H2)) as [E2 _].
  rewrite E1, E2 in Hpre. revert Hpre. apply targets_apart; [eapply chain_target; eauto|eapply chain_target; eauto|].
  intros <-. assert (Hnd : NoDup (map snd (pairs (normalize conns)))).
  { destruct Hchain as [N1 [N2 _]]. eapply Permutation_NoDup; [apply Permutation_sym, Permutation_map; exact N2|]. rewrite links_targets.
    eapply Permutation_NoDup; [apply Permutation_cons_append|]. constructor; [|exact N1]. intros Ho. destruct (ps_module _ Ho) as [_ [H _]]. apply H. exists []. apply split_no_sep_id; exact Hso. }
  apply Hij. apply (proj1 (NoDup_nth_error _) Hnd); [eapply nth_error_lt; exact Hi|congruence].
Qed.

(** the modules on the way are those of the chain *)
Lemma chain_live p : live_module sep modules conns p <-> In p ps.
Proof.
  split.
  - intros [[Hr _] [Hni Hno]]. apply clos_rt_rtn1 in Hr. destruct Hr as [|y z Hf _]; [congruence|].
    destruct Hf as [k [v [Hkv [_ Ho]]]]. destruct (chain_target k v Hkv) as [ -> |Hv].
    + destruct Ho as [[ -> _]|[Hn _]]; [congruence|]. exfalso. apply Hn. exists []. apply split_no_sep_id; exact Hso.
    + destruct Ho as [[ -> _]|[_ [_ [rest [a [E [Hw Ha]]]]]]]; [congruence|].
      destruct (ps_module v Hv) as [_ [_ [m Hm]]]. destruct rest as [|r rest].
      * rewrite app_nil_r in E. apply split_inj in E. subst v. exact Hv.
      * exfalso. rewrite E, walk_app, Hw, walk_atomic in Hm; [discriminate|apply Ha; discriminate|discriminate].
  - assert (Hfeeds : forall k v, In (k, v) (links "input" ps) -> feeds sep "input" "output" modules conns k v).
    { intros k v Hkv. exists k, v. assert (Hkv' := proj2 (chain_pair k v) Hkv). split; [exact Hkv'|]. split.
      - apply links_source in Hkv as [ -> |Hk].
        + left. split; [reflexivity|]. exists []. apply split_no_sep_id; exact Hsi.
        + right. destruct (ps_module k Hk) as [Hn [_ [m Hm]]]. split; [exact Hn|]. split; [eapply source_clean; exact Hkv'|].
          exists [], (Leaf m). split; [symmetry; apply app_nil_r|]. split; [exact Hm|]. intros H; congruence.
      - destruct (chain_target k v Hkv') as [ -> |Hv].
        + left. split; [reflexivity|]. exists []. apply split_no_sep_id; exact Hso.
        + right. destruct (ps_module v Hv) as [_ [Hn [m Hm]]]. split; [exact Hn|]. split; [eapply target_clean; exact Hkv'|].
          exists [], (Leaf m). split; [symmetry; apply app_nil_r|]. split; [exact Hm|]. intros H; congruence. }
    intros Hp. split.
    + assert (G : forall qs u, (forall k v, In (k, v) (links u qs) -> feeds sep "input" "output" modules conns k v) ->
         clos_refl_trans _ (feeds sep "input" "output" modules conns) u "output" /\
         forall q, In q qs -> clos_refl_trans _ (feeds sep "input" "output" modules conns) u q /\
            clos_refl_trans _ (feeds sep "input" "output" modules conns) q "output").
      { induction qs as [|q qs IH]; intros u Hl.
        - split; [|intros q []]. apply rt_step, Hl. left; reflexivity.
        - destruct (IH q) as [I1 I2]; [intros k v H; apply Hl; right; exact H|].
          assert (Hs : clos_refl_trans _ (feeds sep "input" "output" modules conns) u q) by (apply rt_step, Hl; left; reflexivity).
          split; [eapply rt_trans; [exact Hs|exact I1]|]. intros x [ <- |Hx]; [split; [exact Hs|exact I1]|].
          destruct (I2 x Hx) as [J1 J2]. split; [eapply rt_trans; [exact Hs|exact J1]|exact J2]. }
      apply (proj2 (G ps "input" Hfeeds) p Hp).
    + destruct (ps_module p Hp) as [H1 [H2 _]]. split; intros ->; [apply H1|apply H2]; exists []; apply split_no_sep_id; assumption.
Qed.

Section Net.
Variable nodes : list (string * (M * tree string)).
Variable out_deps : tree string.
Hypothesis Hnet : network_of sep uuid modules conns nodes out_deps.

Lemma chain_nodes p : In p (map fst nodes) <-> In p ps.
Proof. destruct Hnet as [_ [H _]]. rewrite H. apply chain_live. Qed.

Lemma chain_deps :
  (forall u p, In (u, p) (links "input" ps) -> p <> "output" -> exists m, In (p, (m, Leaf u)) nodes) /\
  (forall p m deps, In (p, (m, deps)) nodes -> exists u, In (u, p) (links "input" ps) /\ deps = Leaf u) /\
  (forall u, In (u, "output") (links "input" ps) -> out_deps = Leaf u).
Proof.
  destruct Hnet as [_ [_ [_ [Q [HQ [Hs [Hd Ho]]]]]]].
  assert (HQk : forall k v, In (k, v) (pairs (normalize conns)) -> In (k, v, v) Q).
  { intros k v H. rewrite <- HQ in H. apply in_map_iff in H as [[[k' v'] w] [E H]]. simpl in E. injection E as -> ->.
    apply In_nth_error in H as [i Hi]. destruct (Hs i k v w Hi) as [_ Hg].
    rewrite (slots_kept i v w) in Hi; [eapply nth_error_In; exact Hi| |exact Hg].
    rewrite <- HQ, map_map, nth_error_map, Hi. reflexivity. }
  assert (Hdep : forall u p m deps, In (u, p) (links "input" ps) -> In (p, (m, deps)) nodes -> deps = Leaf u).
  { intros u p m deps Hl Hi. destruct (Hd p m deps Hi) as [Ha _].
    specialize (Ha u p p [] (HQk u p (proj2 (chain_pair u p) Hl)) (eq_sym (app_nil_r _))). injection Ha as ->. reflexivity. }
  split; [|split].
  - intros u p Hl Hp. assert (Hin : In p ps) by (destruct (chain_target u p (proj2 (chain_pair u p) Hl)); [contradiction|assumption]).
    apply chain_nodes in Hin. apply in_map_iff in Hin as [[p' [m deps]] [E Hi]]. simpl in E. subst p'.
    exists m. rewrite <- (Hdep u p m deps Hl Hi). exact Hi.
  - intros p m deps Hi. assert (Hin : In p ps) by (apply chain_nodes; apply (in_map fst) in Hi; exact Hi).
    assert (Hl : exists u, In (u, p) (links "input" ps)).
    { assert (H : In p (map snd (links "input" ps))) by (rewrite links_targets; apply in_or_app; auto).
      apply in_map_iff in H as [[u p'] [E H]]. simpl in E. subst p'. eauto. }
    destruct Hl as [u Hl]. exists u. split; [exact Hl|]. eapply Hdep; eauto.
  - intros u Hl. destruct Ho as [Ha _].
    specialize (Ha u "output" "output" [] (HQk u "output" (proj2 (chain_pair u "output") Hl))). rewrite split_no_sep_id in Ha by exact Hso.
    specialize (Ha eq_refl). injection Ha as ->. reflexivity.
Qed.

Lemma node_value (val : string -> tree A) u d : (u = "input" \/ In u ps) ->
  (value_at sep ("input" :: map fst nodes) val u d <-> d = val u).
Proof.
  intros Hu. split.
  - intros [n [ks [Hn [E Hw]]]].
    assert (Hn' : n = "input" \/ In n ps) by (destruct Hn as [ <- |Hn]; [auto|right; apply chain_nodes, Hn]).
    assert (Hk : ks = [] /\ n = u).
    { destruct Hu as [ -> |Hu]; destruct Hn' as [ -> |Hn'].
      - rewrite split_no_sep_id in E by exact Hsi. cbn [app] in E. injection E as <-. auto.
      - exfalso. destruct (ps_module n Hn') as [H _]. apply H. rewrite (split_no_sep_id sep "input") in E by exact Hsi.
        destruct (split sep n) as [|h t] eqn:Es; [exfalso; eapply split_nonempty; eauto|]. injection E as E1 E2. subst h. exists t. exact Es.
      - exfalso. destruct (ps_module u Hu) as [H _]. apply H. rewrite (split_no_sep_id sep "input") in E by exact Hsi. exists ks. exact E.
      - apply (module_prefix n u ks Hn' Hu E). }
    destruct Hk as [ -> ->]. simpl in Hw. congruence.
  - intros ->. exists u, []. split; [|split; [symmetry; apply app_nil_r|reflexivity]].
    destruct Hu as [ -> |Hu]; [left; reflexivity|right; apply chain_nodes, Hu].
Qed.
End Net.


Lemma ps_not_output : ~ In "output" ps.
Proof. intros H. destruct (ps_module _ H) as [_ [Hn _]]. apply Hn. exists []. apply split_no_sep_id; exact Hso. Qed.
Lemma ps_not_input : ~ In "input" ps.
Proof. intros H. destruct (ps_module _ H) as [Hn _]. apply Hn. exists []. apply split_no_sep_id; exact Hsi. Qed.

Variables (params data state : tree A) (training : bool).

Lemma links_solved rng (val news : string -> tree A) out qs : forall u ms mps mss,
  Forall2 (fun p m => walk modules (split sep p) = Some (Leaf m)) qs ms ->
  at_paths sep params qs mps -> at_paths sep state qs mss -> ~ In "output" qs ->
  ((forall k v, In (k, v) (links u qs) -> v <> "output" -> exists m mp s,
      walk modules (split sep v) = Some (Leaf m) /\ walk params (split sep v) = Some mp /\ walk state (split sep v) = Some s /\
      call m mp (val k) training s rng = Ok (val v, news v)) /\
   (forall k, In (k, "output") (links u qs) -> out = val k) <->
   solved training rng u qs (zip3 ms mps mss) val news out).
Proof.
  induction qs as [|q qs IH]; intros u ms mps mss H1 H2 H3 Hno.
  - inversion H1; subst. cbn [zip3 solved links]. split.
    + intros [_ H]. apply H. left; reflexivity.
    + intros ->. split; [intros k v [E|[]] Hv; injection E as <- <-; congruence|]. intros k [E|[]]. injection E as <-. reflexivity.
  - inversion H1 as [|? m ? ms' Hm H1']; subst. inversion H2 as [|? mp ? mps' Hmp H2']; subst. inversion H3 as [|? s ? mss' Hs H3']; subst.
    cbn [zip3 solved links]. assert (Hq : q <> "output") by (intros ->; apply Hno; left; reflexivity).
    assert (Hno' : ~ In "output" qs) by (intros Hi; apply Hno; right; exact Hi).
    rewrite <- (IH q ms' mps' mss' H1' H2' H3' Hno'). split.
    + intros [L1 L2]. split; [|split].
      * destruct (L1 u q (or_introl eq_refl) Hq) as [m2 [mp2 [s2 [W1 [W2 [W3 Hc]]]]]].
        rewrite Hm in W1. injection W1 as <-. rewrite Hmp in W2. injection W2 as <-. rewrite Hs in W3. injection W3 as <-. exact Hc.
      * intros k v Hi. apply L1. right; exact Hi.
      * intros k Hi. apply L2. right; exact Hi.
    + intros [Hc [L1 L2]]. split.
      * intros k v [E|Hi] Hv; [|apply L1; assumption]. injection E as <- <-. exists m, mp, s. auto.
      * intros k [E|Hi]; [injection E as _ E; congruence|apply L2; exact Hi].
Qed.

Variables (ms : list M) (mps mss : list (tree A)).
Hypothesis Hms : Forall2 (fun p m => walk modules (split sep p) = Some (Leaf m)) ps ms.
Hypothesis Hmps : at_paths sep params ps mps.
Hypothesis Hmss : at_paths sep state ps mss.

Lemma dataflow_solved rng nodes out_deps val news out :
  network_of sep uuid modules conns nodes out_deps ->
  (dataflow sep call "input" nodes params data training state rng val news /\
   filled (value_at sep ("input" :: map fst nodes) val) out_deps out <->
   val "input" = data /\ solved training rng "input" ps (zip3 ms mps mss) val news out).
Proof.
  intros Hn. rewrite <- (links_solved rng val news out ps "input" ms mps mss Hms Hmps Hmss ps_not_output).
  destruct (chain_deps nodes out_deps Hn) as [D1 [D2 D3]].
  assert (Hmod : forall p m deps, In (p, (m, deps)) nodes -> walk modules (split sep p) = Some (Leaf m)) by apply Hn.
  assert (Hsrc : forall k v, In (k, v) (links "input" ps) -> k = "input" \/ In k ps) by (intros k v; apply links_source).
  assert (Hlast : exists u, In (u, "output") (links "input" ps)).
  { assert (H : In "output" (map snd (links "input" ps))) by (rewrite links_targets; apply in_or_app; right; left; reflexivity).
    apply in_map_iff in H as [[u p] [E H]]. simpl in E. subst p. eauto. }
  split.
  - intros [[Hd0 Hd] Hf]. split; [exact Hd0|]. split.
    + intros k v Hl Hv. destruct (D1 k v Hl Hv) as [m Hi]. destruct (Hd v m (Leaf k) Hi) as [ind [mp [s [F1 [F2 [F3 F4]]]]]].
      inversion F1 as [x y Hx| | | |]; subst. apply (node_value nodes out_deps Hn val k ind (Hsrc k v Hl)) in Hx. subst ind.
      exists m, mp, s. split; [exact (Hmod _ _ _ Hi)|]. auto.
    + intros k Hl. rewrite (D3 k Hl) in Hf. inversion Hf as [x y Hx| | | |]; subst.
      apply (node_value nodes out_deps Hn val k out (Hsrc _ _ Hl)) in Hx. exact Hx.
  - intros [Hd0 [L1 L2]]. split; [split; [exact Hd0|]|].
    + intros p m deps Hi. destruct (D2 p m deps Hi) as [u [Hl ->]].
      assert (Hp : p <> "output").
      { intros ->. apply ps_not_output. apply (chain_nodes nodes out_deps Hn). apply (in_map fst) in Hi. exact Hi. }
      destruct (L1 u p Hl Hp) as [m2 [mp [s [W1 [W2 [W3 Hc]]]]]]. rewrite (Hmod _ _ _ Hi) in W1. injection W1 as <-.
      exists (val u), mp, s. split; [|auto]. constructor. apply (node_value nodes out_deps Hn val u (val u) (Hsrc _ _ Hl)). reflexivity.
    + destruct Hlast as [u Hl]. rewrite (D3 u Hl). constructor. rewrite (L2 u Hl).
      apply (node_value nodes out_deps Hn val u (val u) (Hsrc _ _ Hl)). reflexivity.
Qed.

Lemma Forall2_lens : length mps = length ms /\ length mss = length ms /\ length ms = length ps.
Proof.
  assert (L1 := Forall2_len _ _ _ Hms). assert (L2 := Forall2_len _ _ _ Hmps). assert (L3 := Forall2_len _ _ _ Hmss).
  split; [congruence|]. split; congruence.
Qed.

Lemma zip3_len (a : list M) : forall (b c : list (tree A)), length b = length a -> length c = length a -> length (zip3 a b c) = length a.
Proof. induction a as [|x a IH]; intros [|y b] [|z c] H1 H2; try discriminate; [reflexivity|]. simpl in *. f_equal. apply IH; lia. Qed.

Theorem chain_sequential rng rng' out st' :
  Forall (fun p => p <> NoneT) mps ->
  nonseq_model sep call uuid modules conns params data training state rng = Ok (out, st') ->
  exists sts, seq_callable call split_rng (Lst (map Leaf ms)) (Lst mps) data training (Lst mss) rng' = Ok (out, Lst sts) /\
    at_paths sep st' ps sts.
Proof.
  intros Hn H. destruct Forall2_lens as [L1 [L2 L3]].
  destruct (model_sound sep Hsep Hsi Hso uuid call _ _ _ _ _ _ _ _ _ Hgood H) as [nodes [od [val [news [Hnet [_ [Hd [Hf [Hs _]]]]]]]]].
  destruct (proj1 (dataflow_solved rng nodes od val news out Hnet) (conj Hd Hf)) as [Hv Hsol].
  apply (solved_ran training rng ps (split_rng rng' (length ms))) in Hsol; [|rewrite Hsplit; exact L3]. rewrite Hv in Hsol.
  exists (map news ps). split.
  - apply (seq_ran ms mps mss data training rng' out (Lst (map news ps)) L1 L2 Hn). eauto.
  - unfold at_paths. assert (G : forall qs, (forall q, In q qs -> In q ps) -> Forall2 (fun p x => walk st' (split sep p) = Some x) qs (map news qs)).
    { induction qs as [|q qs IH]; intros Hq; constructor; [|apply IH; intros x Hx; apply Hq; right; exact Hx].
      apply Hs, (chain_nodes nodes od Hnet), Hq. left; reflexivity. }
    apply G. auto.
Qed.

Theorem sequential_chain rng rng' order callables deps out_deps slots out sts :
  compiled sep uuid modules conns = Ok (order, callables, (deps, out_deps)) ->
  @empty_slots sep A order = Ok slots ->
  (forall p, In p ps -> settable state (split sep p)) ->
  Forall (fun p => p <> NoneT) mps ->
  seq_callable call split_rng (Lst (map Leaf ms)) (Lst mps) data training (Lst mss) rng' = Ok (out, sts) ->
  exists st', nonseq_model sep call uuid modules conns params data training state rng = Ok (out, st') /\
    exists nss, sts = Lst nss /\ at_paths sep st' ps nss.
Proof.
  intros Hc Hes Hset Hn H. destruct Forall2_lens as [L1 [L2 L3]]. assert (H0 := H).
  apply (seq_ran ms mps mss data training rng' out sts L1 L2 Hn) in H as [nss [ -> Hr]].
  destruct (ran_solved training rng ps _ "input" _ _ _ _ ltac:(constructor; [exact ps_not_input|apply Hchain])
              ltac:(rewrite zip3_len; [symmetry; exact L3|exact L1|exact L2]) Hr) as [val [news [V1 [V2 V3]]]].
  destruct (model_complete sep Hsep Hsi Hso uuid call modules conns order callables deps out_deps slots Hgood Hc Hes) as [nodes [Hnet [_ Hrun]]].
  destruct (proj2 (dataflow_solved rng nodes out_deps val news out Hnet) (conj V1 V3)) as [Hd Hf].
  destruct (Hrun params data training state rng val news out) as [st' Hst].
  - intros p Hp. apply Hset, (chain_nodes nodes out_deps Hnet), Hp.
  - exact Hd.
  - exact Hf.
  - exists st'. split; [exact Hst|]. destruct (chain_sequential rng rng' out st' Hn Hst) as [sts [E Hat]].
    rewrite H0 in E. injection E as ->. eauto.
Qed.
End Chain.
