(** Chains of modules compile (C19). *)
From Verif Require Import Base BaseLemmas TreeUtil TreeSpec TreeProofs Connections ConcretizeSpec ConnSpec ConnProofs
  NonSeq NonSeqSpec NonSeqProofs NonSeqRun NonSeqNet NonSeqDead Seq SeqSpec SeqProofs SeqMain ChainSpec ChainProofs CompileSpec ExtendOk CompileOk.
From Coq Require Import Permutation Relations Relations.Operators_Properties.
Local Open Scope string_scope.
Local Open Scope list_scope.

Section ChainCompile.
Context {M : Type}.
Variable sep : ascii.
Hypothesis Hsep : is_digit_char sep = false.
Hypothesis Hsi : no_sep sep "input" = true.
Hypothesis Hso : no_sep sep "output" = true.
Variable uuid : nat -> string.
Variable modules : tree M.
Variable conns : dict cval.
Variable ps : list string.
Hypothesis Hgood : good_network sep uuid modules conns.
Hypothesis Hchain : chain sep modules conns ps.
Hypothesis Hsrc : forall k c, In (k, c) conns -> k = "input" \/ In k ps.
Hypothesis HU : uniform (map (split sep) ps).

Lemma in_pairs_key k v : In (k, v) (pairs (normalize conns)) -> exists c, In (k, c) conns.
Proof.
  intros Hkv. unfold pairs in Hkv. apply in_flat_map in Hkv as [[k' vs] [Hk Hv]].
  cbn [fst snd] in Hv. apply in_map_iff in Hv as [v' [E' _]]. injection E' as -> ->.
  unfold normalize in Hk. apply in_map_iff in Hk as [[k1 c] [E'' Hk]]. injection E'' as <- _. eauto.
Qed.

Lemma chain_feeds u v : feeds sep "input" "output" modules conns u v <-> In (u, v) (links "input" ps).
Proof.
  assert (Hkc : forall k c, In (k, c) conns -> clean sep k) by apply Hgood.
  assert (G : forall k v, In (k, v) (pairs (normalize conns)) ->
            outer_path sep "input" modules k k /\ outer_path sep "output" modules v v).
  { intros k w Hkv. split.
    - assert (Hl := proj1 (chain_pair sep modules conns ps Hchain k w) Hkv). apply links_source in Hl as [ -> |Hk].
      + left. split; [reflexivity|]. exists []. apply split_no_sep_id; exact Hsi.
      + right. destruct (ps_module sep modules conns ps Hchain k Hk) as [Hn [_ [m Hm]]]. split; [exact Hn|].
        split; [destruct (in_pairs_key k w Hkv) as [c Hc]; eauto|].
        exists [], (Leaf m). split; [symmetry; apply app_nil_r|]. split; [exact Hm|]. intros H; congruence.
    - destruct (chain_target sep modules conns ps Hchain k w Hkv) as [ -> |Hv].
      + left. split; [reflexivity|]. exists []. apply split_no_sep_id; exact Hso.
      + right. destruct (ps_module sep modules conns ps Hchain w Hv) as [_ [Hn [m Hm]]]. split; [exact Hn|].
        split; [eapply (target_clean sep uuid modules conns Hgood); exact Hkv|].
        exists [], (Leaf m). split; [symmetry; apply app_nil_r|]. split; [exact Hm|]. intros H; congruence. }
  split.
  - intros [k [w [Hkv [O1 O2]]]]. destruct (G k w Hkv) as [G1 G2].
    rewrite (outer_path_fun _ _ _ _ _ _ O1 G1), (outer_path_fun _ _ _ _ _ _ O2 G2).
    apply (chain_pair sep modules conns ps Hchain). exact Hkv.
  - intros Hl. apply (chain_pair sep modules conns ps Hchain) in Hl. destruct (G u v Hl) as [G1 G2]. exists u, v. auto.
Qed.

Lemma links_rank qs : forall u, NoDup (u :: qs ++ ["output"]) -> exists f : string -> nat, forall k v, In (k, v) (links u qs) -> f k < f v.
Proof.
  intros u Hnd.
  assert (G : forall qs u n, NoDup (u :: qs ++ ["output"]) -> exists f : string -> nat, f u = n /\ (forall x, In x (qs ++ ["output"]) -> n < f x) /\
      forall k v, In (k, v) (links u qs) -> f k < f v).
  { clear. induction qs as [|q qs IH]; intros u n Hnd.
    - exists (fun x => if string_dec x u then n else S n). apply NoDup_cons_iff in Hnd as [Hu _].
      split; [destruct (string_dec u u); congruence|]. split.
      + intros x Hx. destruct (string_dec x u) as [ -> |]; [contradiction|lia].
      + intros k v [E|[]]. injection E as <- <-. destruct (string_dec u u); [|congruence].
        destruct (string_dec "output" u) as [E|]; [|lia]. exfalso. apply Hu. left. exact E.
    - apply NoDup_cons_iff in Hnd as [Hu Hnd]. cbn [app] in Hu, Hnd. destruct (IH q (S n) Hnd) as [f [F1 [F2 F3]]].
      exists (fun x => if string_dec x u then n else f x). split; [destruct (string_dec u u); congruence|].
      assert (Hne : forall x, In x (q :: qs ++ ["output"]) -> (if string_dec x u then n else f x) = f x).
      { intros x Hx. destruct (string_dec x u) as [ -> |]; [contradiction|reflexivity]. }
      split.
      + intros x Hx. cbn [app] in Hx. rewrite (Hne x Hx). destruct Hx as [ <- |Hx]; [lia|]. specialize (F2 x Hx). lia.
      + intros k v [E|Hl].
        * injection E as <- <-. destruct (string_dec u u); [|congruence]. rewrite (Hne q) by (left; reflexivity). lia.
        * rewrite (Hne k), (Hne v); [apply F3; exact Hl| |].
          -- right. rewrite <- (links_targets q). apply (in_map snd) in Hl. exact Hl.
          -- apply links_source in Hl as [ -> |Hk]; [left; reflexivity|right; apply in_or_app; left; exact Hk]. }
  destruct (G qs u 0 Hnd) as [f [_ [_ F]]]. eauto.
Qed.

Lemma chain_flow : proper_flow sep modules conns.
Proof.
  assert (Hl : forall p, In p ps -> live_module sep modules conns p).
  { intros p. apply (chain_live sep Hsi Hso uuid modules conns ps Hgood Hchain). }
  assert (Hnd : NoDup ("input" :: ps ++ ["output"])).
  { constructor.
    - intros H. apply in_app_iff in H as [H|[H|[]]]; [|discriminate]. eapply ps_not_input; eauto.
    - eapply Permutation_NoDup; [apply Permutation_cons_append|]. constructor; [eapply ps_not_output; eauto|apply Hchain]. }
  assert (Hall : forall q, q = "input" \/ In q ps -> clos_refl_trans _ (feeds sep "input" "output" modules conns) "input" q).
  { intros q [ -> |Hq]; [apply rt_refl|apply (Hl q Hq)]. }
  split; [|split].
  - assert (H : In "output" (map snd (links "input" ps))) by (rewrite links_targets; apply in_or_app; right; left; reflexivity).
    apply in_map_iff in H as [[u p] [E H]]. simpl in E. subst p.
    eapply rt_trans; [apply Hall; eapply links_source; exact H|]. apply rt_step, chain_feeds. exact H.
  - intros p _ Hc. destruct (links_rank ps "input" Hnd) as [f Hf].
    assert (G : forall a b, clos_trans _ (feeds sep "input" "output" modules conns) a b -> f a < f b).
    { intros a b H. induction H as [a b H|a b c _ IH1 _ IH2]; [apply Hf, chain_feeds; exact H|lia]. }
    apply G in Hc. lia.
  - intros u p Hu _. apply Hall. apply chain_feeds in Hu. eapply links_source; exact Hu.
Qed.

Lemma chain_ends : proper_ends sep modules conns.
Proof.
  assert (Hkc : forall k c, In (k, c) conns -> clean sep k) by apply Hgood. split; [|split].
  - intros k c Hi. destruct (Hsrc k c Hi) as [ -> |Hk].
    + left. exists []. apply split_no_sep_id; exact Hsi.
    + right. destruct (ps_module sep modules conns ps Hchain k Hk) as [_ [Hn [m Hm]]]. split; [exact Hn|].
      exists (split sep k), [], (Leaf m). rewrite app_nil_r. auto.
  - intros k v Hkv. destruct (chain_target sep modules conns ps Hchain k v Hkv) as [ -> |Hv].
    + split; [intros [r E]; rewrite split_no_sep_id in E by exact Hso; discriminate|]. left. exists []. apply split_no_sep_id; exact Hso.
    + destruct (ps_module sep modules conns ps Hchain v Hv) as [Hn [_ [m Hm]]]. split; [exact Hn|]. right.
      exists (split sep v), [], m. rewrite app_nil_r. auto.
  - intros c a b r s Ha Hb Hc.
    assert (G : forall c a r, In (c ++ a :: r) (map (split sep) (map snd (pairs (normalize conns)))) -> c <> [] -> In (c ++ a :: r) (map (split sep) ps)).
    { clear -Hso Hchain. intros c a r Hi Hc. apply in_map_iff in Hi as [v [E Hv]]. apply in_map_iff in Hv as [[k v'] [E' Hv]]. simpl in E'. subst v'.
      destruct (chain_target sep modules conns ps Hchain k v Hv) as [ -> |Hp].
      - rewrite split_no_sep_id in E by exact Hso. destruct c as [|x [|y c]]; [congruence|discriminate|discriminate].
      - rewrite <- E. apply in_map. exact Hp. }
    apply (HU c a b r s); auto.
Qed.
End ChainCompile.

(** the sequential model to the graph model, without assuming that the latter compiles *)
Theorem sequential_chain_full {A Rng M} (call : M -> tree A -> tree A -> bool -> tree A -> Rng -> result (tree A * tree A))
    (split_rng : Rng -> nat -> list Rng) :
  (forall r n, length (split_rng r n) = n) ->
  (forall m mp d training ms r1 r2, call m mp d training ms r1 = call m mp d training ms r2) ->
  forall (sep : ascii), is_digit_char sep = false -> no_sep sep "input" = true -> no_sep sep "output" = true ->
  forall (uuid : nat -> string), (forall n, isdigit (uuid n) = false) ->
  forall (modules : tree M) (conns : dict cval) (ps : list string),
  good_network sep uuid modules conns ->
  chain sep modules conns ps ->
  (forall k c, In (k, c) conns -> k = "input" \/ In k ps) ->
  uniform (map (split sep) ps) ->
  forall (params data state : tree A) (training : bool) (ms : list M) (mps mss : list (tree A)),
  Forall2 (fun p m => walk modules (split sep p) = Some (Leaf m)) ps ms ->
  at_paths sep params ps mps -> at_paths sep state ps mss ->
  forall (rng rng' : Rng) (out sts : tree A),
  (forall p, In p ps -> settable state (split sep p)) ->
  Forall (fun p => p <> NoneT) mps ->
  seq_callable call split_rng (Lst (map Leaf ms)) (Lst mps) data training (Lst mss) rng' = Ok (out, sts) ->
  exists st', nonseq_model sep call uuid modules conns params data training state rng = Ok (out, st') /\
    exists nss, sts = Lst nss /\ at_paths sep st' ps nss.
Proof.
  intros Hsplit Hrng sep Hsep Hsi Hso uuid Hname modules conns ps Hg Hc Hs HU params data state training ms mps mss H1 H2 H3 rng rng' out sts Hset Hn H.
  destruct (compile_ok sep Hsep Hsi Hso uuid Hname modules conns Hg ltac:(eapply chain_ends; eauto) ltac:(eapply chain_flow; eauto) A) as [order [cal [deps [od [slots [E1 E2]]]]]].
  eapply sequential_chain; eauto.
Qed.
