From Coq Require Import Permutation Sorted Ring_theory.
From Verif Require Import Base BaseLemmas TreeUtil TreeSpec TreeProofs MutableProofs NonSeqSpec NonSeqProofs Seq SerialSpec SeqProofs TrainArgs TrainArgsProofs NdArray OneHot OneHotProofs ScalerProofs ReshapeProofs ReshapeMain Einsum EinsumSpec EinsumProofs EinsumMain EinsumCompute EinsumBatch MatMul MatMulSpec MatMulCore PathOrder MatMulMain.
Local Open Scope string_scope.
Local Open Scope list_scope.
Local Open Scope nat_scope.

(* ---- related trees ---- *)
Lemma trel_child {X Y} (R : X -> Y -> Prop) t u k v : wf_tree t -> trel R t u -> child t k = Some v -> exists w, child u k = Some w /\ trel R v w.
Proof.
  intros W T H. destruct T as [x y HR| |l m F|l m F|d e e' P F]; cbn in *; try discriminate.
  - destruct (isdigit k); [|discriminate]. pose proof (F2_nth _ _ _ (int_of k) F) as G. rewrite H in G. destruct (nth_error m (int_of k)) as [w|]; [|destruct G]. exists w. tauto.
  - destruct (isdigit k); [|discriminate]. pose proof (F2_nth _ _ _ (int_of k) F) as G. rewrite H in G. destruct (nth_error m (int_of k)) as [w|]; [|destruct G]. exists w. tauto.
  - pose proof (F2_dget _ _ _ k F) as G. rewrite H in G. pose proof (trel_keys _ _ _ F) as K. inversion W as [| |? ND _| |]; subst.
    rewrite <- (dget_perm e' e k P) by (rewrite <- K; exact ND). destruct (dget e' k) as [w|]; [|destruct G]. exists w. tauto.
Qed.
Lemma trel_walk {X Y} (R : X -> Y -> Prop) ks : forall t u v, wf_tree t -> trel R t u -> walk t ks = Some v -> exists w, walk u ks = Some w /\ trel R v w.
Proof.
  induction ks as [|k ks IH]; intros t u v W T H; cbn in *; [injection H as <-; eauto|].
  destruct (child t k) as [c|] eqn:E; [|discriminate]. destruct (trel_child R t u k c W T E) as (w & Ew & Tw). rewrite Ew. eapply IH; [|exact Tw|exact H].
  eapply SeqOrder.wf_child; eassumption.
Qed.
Lemma named_trel {X Y} (R : X -> Y -> Prop) t u : wf_tree t -> trel R t u -> named_dicts t -> named_dicts u.
Proof.
  intros W T N ks e k v Hw Hg. pose proof (trel_wf _ _ _ T W) as Wu. pose proof (trel_flip _ _ _ T) as T'.
  destruct (trel_walk _ (ks ++ [k]) u t v Wu T') as (w & Hw' & _).
  { rewrite walk_app, Hw. cbn. rewrite Hg. reflexivity. }
  destruct (trel_walk _ ks u t (Dict e) Wu T' Hw) as (z & Hz & Tz). inversion Tz as [| | | |? e1 e2 P F]; subst.
  rewrite walk_app, Hz in Hw'. cbn in Hw'. destruct (dget e1 k) as [w'|] eqn:Ek; [|discriminate]. eapply N; [exact Hz|exact Ek].
Qed.

(* ---- places ---- *)
Lemma distinct_nodup l : distinct l = true -> NoDup l.
Proof.
  induction l as [|s l IH]; intros H; cbn in H; [constructor|]. apply andb_true_iff in H as [H1 H2]. constructor; [|apply IH; exact H2].
  intros Hin. apply negb_true_iff in H1. assert (E : existsb (String.eqb s) l = true) by (apply existsb_exists; exists s; split; [exact Hin|apply String.eqb_refl]). congruence.
Qed.
Lemma in_numbered {A} (l : list A) : forall s x i, In (x, i) (combine l (seq s (length l))) <-> s <= i /\ nth_error l (i - s) = Some x.
Proof.
  induction l as [|y l IH]; intros s x i; cbn [length seq combine In].
  - split; [intros []|]. intros [_ H]. rewrite nth_error_nil in H. discriminate.
  - rewrite IH. split.
    + intros [E|[H1 H2]]; [injection E as -> ->; rewrite Nat.sub_diag; split; [lia|reflexivity]|]. split; [lia|]. replace (i - s) with (S (i - S s)) by lia. exact H2.
    + intros [H1 H2]. destruct (Nat.eq_dec i s) as [ -> |Hne]; [rewrite Nat.sub_diag in H2; injection H2 as ->; left; reflexivity|]. right. split; [lia|].
      replace (i - s) with (S (i - S s)) in H2 by lia. exact H2.
Qed.
Lemma numbered_nodup {A} (f : A * nat -> bool) (l : list A) : forall s, NoDup (map snd (filter f (combine l (seq s (length l))))).
Proof.
  induction l as [|y l IH]; intros s; cbn [length seq combine filter map]; [constructor|]. destruct (f (y, s)); [|apply IH]. cbn [map]. constructor; [|apply IH].
  cbn [snd]. intros Hin. apply in_map_iff in Hin as ([x i] & E & Hin). cbn in E. subst i. apply filter_In in Hin as [Hin _]. apply in_numbered in Hin. lia.
Qed.
Section Places.
Context {V : Type} (m : matmul V).
Lemma in_places ps p i : In (p, i) (places m ps) <-> nth_error ps i = Some p /\ p <> double_sep m.
Proof.
  unfold places. rewrite filter_In, in_numbered. rewrite Nat.sub_0_r. cbn [fst]. destruct (String.eqb_spec p (double_sep m)); cbn [negb]; split; intros; intuition; try congruence; lia.
Qed.
Lemma places_slots ps (l : list (option (list nat))) : Forall2 (fun p o => o = None <-> p = double_sep m) ps l -> length (places m ps) = length (filter is_some l).
Proof.
  unfold places. generalize 0. intros s F. revert s. induction F as [|p o ps l E F IH]; intros s; [reflexivity|]. cbn [length seq combine filter fst].
  destruct (String.eqb_spec p (double_sep m)) as [Ep|Ep]; cbn [negb].
  - rewrite (proj2 E Ep). cbn [is_some]. apply IH.
  - destruct o as [x|]; [|exfalso; apply Ep, E; reflexivity]. cbn [is_some length]. f_equal. apply IH.
Qed.
Lemma order_perm ps (l : list (option (list nat))) t : NoDup ps -> Forall2 (fun p o => o = None <-> p = double_sep m) ps l ->
  Permutation t (map snd (places m ps)) ->
  match none_index l with Some i => Permutation (i :: t) (seq 0 (length l)) | None => Permutation t (seq 0 (length l)) end.
Proof.
  intros ND F P. pose proof (F2_len _ _ _ F) as HL.
  assert (Hin : forall i, In i (map snd (places m ps)) <-> exists p, nth_error ps i = Some p /\ p <> double_sep m).
  { intros i. rewrite in_map_iff. split.
    - intros ([p j] & E & Hj). cbn in E. subst j. apply in_places in Hj. eauto.
    - intros (p & Hp). exists (p, i). split; [reflexivity|]. apply in_places. exact Hp. }
  assert (NP : NoDup (map snd (places m ps))) by (apply (numbered_nodup (fun pi => negb (String.eqb (fst pi) (double_sep m))) ps 0)).
  assert (Hlt : forall i p, nth_error ps i = Some p -> i < length l) by (intros i p Hp; rewrite <- HL; apply nth_error_Some; congruence).
  destruct (none_index l) as [i|] eqn:Ei.
  - rewrite P. apply NoDup_Permutation; [|apply seq_NoDup|].
    + constructor; [|exact NP]. rewrite Hin. intros (p & Hp & Hne). apply none_index_first in Ei. pose proof (F2_nth _ _ _ i F) as G. rewrite Hp, Ei in G. destruct G as [_ G]. apply Hne, G. reflexivity.
    + intros j. rewrite in_seq. cbn [In]. rewrite Hin. pose proof (none_index_first _ _ Ei) as E1. pose proof (F2_nth _ _ _ i F) as G. rewrite E1 in G.
      destruct (nth_error ps i) as [p|] eqn:Ep; [|destruct G]. destruct G as [_ G]. assert (p = double_sep m) as -> by (apply G; reflexivity). split.
      * intros [ <- |(p & Hp & _)]; [split; [lia|]; exact (Hlt _ _ Ep)|split; [lia|]; exact (Hlt _ _ Hp)].
      * intros [_ Hj]. cbn in Hj. destruct (nth_error ps j) as [p|] eqn:Epj; [|apply nth_error_None in Epj; lia].
        destruct (String.eqb_spec p (double_sep m)) as [ -> |Hne]; [left|right; eauto].
        eapply (proj1 (NoDup_nth_error ps) ND); [apply nth_error_Some; congruence|congruence].
  - rewrite P. apply NoDup_Permutation; [exact NP|apply seq_NoDup|]. intros j. rewrite in_seq, Hin. split.
    + intros (p & Hp & _). split; [lia|exact (Hlt _ _ Hp)].
    + intros [_ Hj]. cbn in Hj. destruct (nth_error ps j) as [p|] eqn:Epj; [|apply nth_error_None in Epj; lia]. exists p. split; [reflexivity|].
      intros Hp. apply none_index_none in Ei. rewrite Forall_forall in Ei. pose proof (F2_nth _ _ _ j F) as G. rewrite Epj in G.
      destruct (nth_error l j) as [o|] eqn:Eo; [|destruct G]. destruct G as [_ G]. apply (Ei o); [eapply nth_error_In; exact Eo|]. apply G. exact Hp.
Qed.
End Places.

Lemma F2_exists {A B} (R : A -> B -> Prop) l : (forall a, In a l -> exists b, R a b) -> exists m, Forall2 R l m.
Proof.
  induction l as [|a l IH]; intros H; [exists []; constructor|]. destruct (H a (or_introl eq_refl)) as (b & Hb). destruct IH as (m & Hm); [intros x Hx; apply H; right; exact Hx|].
  exists (b :: m). constructor; assumption.
Qed.
Lemma path_keys_full sep p : full_path sep p -> path_keys sep p = split sep p.
Proof. unfold full_path, path_keys, trim_end. intros H. destruct (String.eqb_spec (last (split sep p) "") ""); [congruence|reflexivity]. Qed.

Lemma pars_list {V} (o : option (arr V)) : par_list (pars_of o) = match o with Some a => [a] | None => [] end.
Proof. destruct o; reflexivity. Qed.

Section Final.
Context {V : Type} (zero one : V) (add mul : V -> V -> V) (SR : semi_ring_theory zero one add mul eq).

Theorem matmul_product (m : matmul V) normal sh data p r :
  wf_tree sh -> leaves sh <> [] -> trel (fun s d => exists n, shp d = n :: s) sh data ->
  length (leaves sh) + (if has_par m then 1 else 0) <= 25 ->
  (forall ps, mm_order m = Some ps -> named_dicts data /\ forall q, In q ps -> q <> double_sep m -> full_path (mm_sep m) q) ->
  matmul_run zero one add mul m normal sh data = Ok (p, r) ->
  exists par, p = pars_of par /\
    match mm_par m with Some a => par = Some a | None => if mm_train m then exists s, par = Some (normal s) else par = None end /\
    forall beta x, beta < hd 0 (shp r) -> trel (sample_of zero beta) data x ->
    exists ops a, chosen (mm_sep m) (mm_order m) par x ops /\ compatible ops /\ is_product zero add mul ops a /\ (exists n, shp r = n :: shp a) /\
       forall idx, valid (shp a) idx -> cell zero r (beta :: idx) = cell zero a idx.
Proof.
  intros Wsh Hne TD H25 Hord H. pose proof (trel_wf _ _ _ TD Wsh) as Wd.
  assert (LD : length (leaves sh) = length (leaves data)) by (eapply F2_len, leaves_trel; [exact Wsh|exact TD]).
  destruct (run_inv _ _ _ _ _ _ _ _ _ H) as (l & q & perm & E2 & E3 & E6). pose proof (param_slot_ok _ _ _ E3) as Q.
  pose proof E2 as S2. unfold slots in S2. pose proof E6 as S6. unfold operand_order in S6.
  destruct (mm_order m) as [ps|] eqn:Eo.
  - (* paths *)
    destruct (Hord ps eq_refl) as [Hnamed Hfull]. clear Hord.
    apply rbind_ok in S2 as (u & Hd & S2). apply require_ok, distinct_nodup in Hd. apply rbind_ok in S2 as (l0 & Hl & S2).
    apply rbind_ok in S2 as (u' & Hc & S2). injection S2 as ->. apply require_ok, Nat.eqb_eq in Hc.
    apply rbind_ok in S6 as (t & Ht & S6). injection S6 as <-.
    apply rmapM_ok in Hl.
    assert (FL : Forall2 (fun p o => (o = None <-> p = double_sep m) /\ (forall s, o = Some s -> walk sh (path_keys (mm_sep m) p) = Some (Leaf s))) ps l).
    { eapply F2_impl'; [|exact Hl]. intros p0 o Hp. cbv beta in Hp. destruct (String.eqb_spec p0 (double_sep m)) as [Ep|Ep].
      - injection Hp as <-. split; [tauto|discriminate].
      - apply rbind_ok in Hp as ([u0 rest] & Hg & Hp). cbn [fst] in Hp. destruct u0 as [s| | | |]; try discriminate. injection Hp as <-. split; [split; [discriminate|congruence]|].
        intros s' E. injection E as <-. apply (getitem_full_walk (mm_sep m) sh p0 (Leaf s)). rewrite Hg. f_equal. f_equal.
        rewrite getitem_split in Hg. destruct (getp false sh (split (mm_sep m) p0)) as [[u0 r0]|] eqn:Eg; [|discriminate]. apply getp_false_rem in Eg. subst r0. cbn in Hg. injection Hg as _ <-. reflexivity. }
    assert (FN : Forall2 (fun p o => o = None <-> p = double_sep m) ps l) by (eapply F2_impl'; [|exact FL]; cbv beta; tauto).
    pose proof (places_slots m ps l FN) as Lpl. pose proof (F2_len _ _ _ FN) as Lps.
    (* the tree of places, for any tree like the data *)
    assert (PL : forall (Y : Type) (R : list nat -> Y -> Prop) (x : tree Y), trel R sh x -> Permutation (leaves t) (map snd (places m ps)) /\
        Forall2 (fun i y => exists p, nth_error ps i = Some p /\ p <> double_sep m /\ walk x (path_keys (mm_sep m) p) = Some (Leaf y)) (leaves t) (leaves x)).
    { intros Y R x TX. pose proof (trel_wf _ _ _ TX Wsh) as Wx.
      assert (Nx : named_dicts x).
      { eapply named_trel; [exact Wd| |exact Hnamed]. eapply (trel_comp _ R (fun _ _ => True)); [|apply trel_flip; exact TD|exact TX]. auto. }
      assert (Lx : length (leaves x) = length (leaves sh)) by (symmetry; eapply F2_len, leaves_trel; [exact Wsh|exact TX]).
      assert (Hlead : Forall (leads (mm_sep m) x) (map fst (places m ps))).
      { apply Forall_forall. intros p0 Hp0. apply in_map_iff in Hp0 as ([p1 i] & E & Hp). cbn in E. subst p1. apply in_places in Hp as [Hp Hne'].
        pose proof (Hfull p0 (nth_error_In _ _ Hp) Hne') as Hfp. split; [intros ->; apply Hfp; reflexivity|].
        pose proof (F2_nth _ _ _ i FL) as G. rewrite Hp in G. destruct (nth_error l i) as [o|] eqn:Eoi; [|destruct G]. destruct G as (_ & G1 & G2).
        destruct o as [s|]; [|exfalso; apply Hne', G1; reflexivity]. specialize (G2 s eq_refl).
        destruct (trel_walk _ _ _ _ _ Wsh TX G2) as (w & Hw & Tw). inversion Tw as [? y _| | | |]; subst. exists y. rewrite <- path_keys_full by exact Hfp. exact Hw. }
      unfold place_tree in Ht.
      replace (map (fun pi => Leaf (snd pi)) (places m ps)) with (map (@Leaf nat) (map snd (places m ps))) in Ht by (rewrite map_map; reflexivity).
      destruct (placed (mm_sep m) (map fst (places m ps)) (map snd (places m ps)) t x) as [P1 P2].
      - exact Nx.
      - exact Wx.
      - apply (numbered_nodup (fun pi => negb (String.eqb (fst pi) (double_sep m))) ps 0).
      - intros E. apply Hne. destruct (places m ps); [|discriminate]. cbn in Lpl. destruct (leaves sh); [reflexivity|]. cbn in Hc. lia.
      - exact Hlead.
      - rewrite !map_length. reflexivity.
      - rewrite map_length. lia.
      - exact Ht.
      - split; [exact P1|]. eapply F2_impl'; [|exact P2]. intros i y (k & p0 & K1 & K2 & K3). 
        rewrite nth_error_map in K1, K2. destruct (nth_error (places m ps) k) as [[p1 i1]|] eqn:Ek; [|discriminate]. cbn in K1, K2. injection K1 as ->. injection K2 as ->.
        apply nth_error_In, in_places in Ek as [Ek1 Ek2]. exists p0. split; [exact Ek1|]. split; [exact Ek2|].
        rewrite path_keys_full; [exact K3|]. apply Hfull; [eapply nth_error_In; exact Ek1|exact Ek2]. }
    pose proof (order_perm m ps l (leaves t) Hd FN (proj1 (PL _ eq sh (trel_refl _)))) as OP.
    assert (Hperm : Permutation (match q with Some (i, _) => [i] | None => [] end ++ leaves t) (seq 0 (length l))).
    { destruct q as [[i s]|]; [destruct Q as (_ & Qi & _)|destruct Q as [_ Qi]]; rewrite Qi in OP; exact OP. }
    assert (Hlen : length l = length (leaves sh) + (if has_par m then 1 else 0)).
    { pose proof (Permutation_length Hperm) as L1. rewrite seq_length, app_length in L1.
      pose proof (Permutation_length (proj1 (PL _ eq sh (trel_refl _)))) as L2. rewrite map_length in L2.
      destruct q as [[i s]|]; [destruct Q as (Qh & _)|destruct Q as [Qh _]]; rewrite Qh; cbn in L1; lia. }
    destruct (run_product zero one add mul SR m normal sh data p r l q _ Hne LD H25 E2 E3 E6 Hlen) as (par & Ep & Hw & HR); [| | |exact H|].
    + intros s Hs. apply In_nth_error in Hs as (k & Hk). pose proof (F2_nth _ _ _ k FL) as G. rewrite Hk in G. destruct (nth_error ps k) as [p0|]; [|destruct G].
      destruct G as (_ & _ & G). specialize (G s eq_refl). apply leaves_has_leaf. eapply ConcatProofs.leaf_at. exact G.
    + exact Hperm.
    + intros Hh. destruct q as [[i s]|]; [|destruct Q; congruence]. destruct Q as (_ & Qi & _). exists (leaves t), i. split; [exact Qi|reflexivity].
    + exists par. split; [exact Ep|]. split; [exact Hw|]. intros beta x Hbeta TX.
      pose proof (leaves_trel _ _ Wd x TX) as FX.
      assert (TSX : trel (fun _ _ => True) sh x) by (eapply trel_comp; [|exact TD|exact TX]; auto).
      destruct (PL _ _ x TSX) as [_ PX].
      destruct (F2_exists (fun p0 a => if String.eqb p0 (double_sep m) then par = Some a else walk x (path_keys (mm_sep m) p0) = Some (Leaf a)) ps) as (ops & Hops).
      { intros p0 Hp0. destruct (String.eqb_spec p0 (double_sep m)) as [E|E].
        - destruct q as [[i s]|].
          + destruct Q as (Qh & _). unfold has_par in Qh. destruct (mm_par m) as [a|]; [exists a; exact Hw|]. destruct (mm_train m); [|discriminate]. destruct Hw as (s' & Hw). eauto.
          + destruct Q as (_ & Qn). exfalso. apply none_index_none in Qn. rewrite Forall_forall in Qn. apply In_nth_error in Hp0 as (k & Hk).
            pose proof (F2_nth _ _ _ k FN) as G. rewrite Hk in G. destruct (nth_error l k) as [o|] eqn:Ek; [|destruct G]. apply (Qn o); [eapply nth_error_In; exact Ek|]. apply G. exact E.
        - apply In_nth_error in Hp0 as (k & Hk). pose proof (F2_nth _ _ _ k FL) as G. rewrite Hk in G. destruct (nth_error l k) as [o|] eqn:Ek; [|destruct G].
          destruct G as (_ & G1 & G2). destruct o as [s|]; [|exfalso; apply E, G1; reflexivity]. specialize (G2 s eq_refl).
          destruct (trel_walk _ _ _ _ _ Wsh TSX G2) as (w & Hw' & Tw). inversion Tw as [? y _| | | |]; subst. eauto. }
      set (d := mk_arr (V := V) [] []).
      destruct (HR d beta (leaves x) Hbeta FX ops) as (a & A1 & A2 & A3 & _ & A4).
      * rewrite <- (F2_len _ _ _ Hops). exact Lps.
      * rewrite map_app. f_equal.
        -- rewrite Ep, pars_list. destruct q as [[i s]|]; cbn [map].
           ++ destruct Q as (Qh & Qi & _). apply none_index_first in Qi. pose proof (F2_nth _ _ _ i FN) as G. rewrite Qi in G. destruct (nth_error ps i) as [p0|] eqn:Epi; [|destruct G].
              assert (p0 = double_sep m) as -> by (apply G; reflexivity). pose proof (F2_nth _ _ _ i Hops) as G2. rewrite Epi in G2. destruct (nth_error ops i) as [b|] eqn:Eb; [|destruct G2].
              destruct G2 as [_ G2]. rewrite String.eqb_refl in G2. rewrite (nth_error_nth _ _ d Eb). rewrite G2. reflexivity.
           ++ destruct Q as (Qh & _). unfold has_par in Qh. apply orb_false_iff in Qh as [Q1 Q2]. rewrite Q1 in Hw. destruct (mm_par m); [discriminate|]. rewrite Hw. reflexivity.
        -- rewrite <- (map_id (leaves x)). eapply F2_map_eq; [|exact PX]. intros i y _ (p0 & K1 & K2 & K3). pose proof (F2_nth _ _ _ i Hops) as G. rewrite K1 in G.
           destruct (nth_error ops i) as [b|] eqn:Eb; [|destruct G]. destruct G as [_ G]. destruct (String.eqb_spec p0 (double_sep m)); [congruence|]. rewrite K3 in G. injection G as ->.
           apply nth_error_nth. exact Eb.
      * exists ops, a. repeat split; [exact Hops|exact A1|exact A2|exact A3|exact A4].
  - (* no paths *)
    injection S2 as <-. injection S6 as <-. fold (has_par m) in *.
    assert (Hl : length ((if has_par m then [None] else []) ++ map Some (leaves sh)) = length (leaves sh) + (if has_par m then 1 else 0)).
    { rewrite app_length, map_length. destruct (has_par m); cbn; lia. }
    destruct (run_product zero one add mul SR m normal sh data p r _ q _ Hne LD H25 E2 E3 E6 Hl) as (par & Ep & Hw & HR); [| | |exact H|].
    + intros s Hs. apply in_app_or in Hs as [Hs|Hs]; [destruct (has_par m); [destruct Hs as [E|[]]; discriminate|destruct Hs]|].
      apply in_map_iff in Hs as (s' & E & Hs). injection E as ->. exact Hs.
    + reflexivity.
    + intros Hh. rewrite Hh. cbn [app length seq none_index]. eauto.
    + exists par. split; [exact Ep|]. split; [exact Hw|]. intros beta x Hbeta TX.
      pose proof (leaves_trel _ _ Wd x TX) as FX. set (d := mk_arr (V := V) [] []).
      assert (Eops : par_list p ++ leaves x = match par with Some a => [a] | None => [] end ++ leaves x) by (rewrite Ep, pars_list; reflexivity).
      destruct (HR d beta (leaves x) Hbeta FX (par_list p ++ leaves x)) as (a & A1 & A2 & A3 & _ & A4).
      * rewrite Hl, app_length, LD, (F2_len _ _ _ FX), Ep, pars_list. unfold has_par. destruct (mm_par m) as [a|].
        -- subst par. rewrite orb_true_r. cbn. lia.
        -- rewrite orb_false_r. destruct (mm_train m); [destruct Hw as (s & ->)|subst par]; cbn; lia.
      * assert (EL : length ((if has_par m then [None] else []) ++ map Some (leaves sh)) = length (par_list p ++ leaves x)).
        { rewrite Hl, app_length, LD, (F2_len _ _ _ FX), Ep, pars_list. unfold has_par. destruct (mm_par m) as [a|].
          - subst par. rewrite orb_true_r. cbn. lia.
          - rewrite orb_false_r. destruct (mm_train m); [destruct Hw as (s & ->)|subst par]; cbn; lia. }
        rewrite EL. clear. induction (par_list p ++ leaves x) as [|b l IH]; [reflexivity|]. cbn [length seq map nth]. f_equal. rewrite <- seq_shift, map_map. exact IH.
      * exists (par_list p ++ leaves x), a. repeat split; [exact Eops|exact A1|exact A2|exact A3|exact A4].
Qed.
End Final.
