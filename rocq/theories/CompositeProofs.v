From Coq Require Import ZArith.
From Verif Require Import Base BaseLemmas TreeUtil Serial Modules ModulesProofs Eigen Composite CompositeSpec.
Local Open Scope string_scope.
Local Open Scope list_scope.
Local Open Scope nat_scope.

Lemma nat_of_opt n : nat_of_v (opt_nat (Some n)) = Some n.
Proof. exact (nat_of_opt' n). Qed.

Section Run.
Context (herm : arr -> bool).

(** * The modules between construction and compilation *)
Definition kept (g u : option arr) : Prop := forall a, g = Some a -> u = Some a.
Definition ksize (s : msize) (n : option nat) : Prop := forall k, s = SInt k -> n = Some k.

Inductive bias_made (a : obs_args) : list child -> Prop :=
| bm_off : o_bias a = false -> bias_made a []
| bm_on v : o_bias a = true -> bias_made a [CBias (bias_obj v (o_mag a) true false true)].

Inductive made : pmm_args -> list child -> Prop :=
| md_obs a n Ms l q Ds last :
    ksize (o_size a) n -> kept (o_Ms a) Ms ->
    (forall x, o_secondaries a = Some x -> l = Some x) -> (forall x, o_out a = Some x -> q = Some x) -> kept (o_Ds a) Ds ->
    bias_made a last ->
    made (AObs a)
      (CMat (ahm_obj n (zero_if_none (o_smooth a)) (o_affine_bias a) Ms (o_mag a) true) ::
       CVec (o_num a) (lower (which_of a)) ::
       CSum (o_expect a) (evs_obj l q Ds (o_mag a) (o_centered a) true) :: last)
| md_eig a n Ms :
    ksize (e_size a) n -> kept (e_Ms a) Ms ->
    made (AEig a)
      [CMat (ahm_obj n (zero_if_none (e_smooth a)) (e_bias a) Ms (e_mag a) true);
       CVal (e_num a) (lower (e_which a))].

Lemma mat_init_made n sm Ms mag bias c :
  mat_init herm n sm Ms mag bias = Ok c ->
  exists n', c = CMat (ahm_obj n' (zero_if_none sm) bias Ms mag true) /\ ksize n n'.
Proof.
  unfold mat_init. fold (zero_if_none sm). destruct n as [|k|l]; [| |discriminate]; intros H.
  - apply rbind_ok in H as (o & H & E). injection E as <-. cbn in H. destruct Ms as [m|].
    + destruct (a_shape m) as [|x [|y r]]; try discriminate.
      destruct (negb (str_list_eqb (x :: y :: r) [x; y; y])); [discriminate|]. destruct (herm m); [|discriminate]. injection H as <-.
      eexists; split; [reflexivity|]. intros k E; discriminate.
    + injection H as <-. eexists; split; [reflexivity|]. intros k E; discriminate.
  - apply rbind_ok in H as (o & H & E). injection E as <-. cbn in H. destruct k as [|k]; [discriminate|]. destruct Ms as [m|].
    + destruct (a_shape m) as [|x [|y r]]; try discriminate.
      destruct (negb (str_list_eqb (x :: y :: r) [x; S k; S k])); [discriminate|]. destruct (herm m); [|discriminate]. injection H as <-.
      eexists; split; [reflexivity|]. intros j E; injection E as <-; reflexivity.
    + injection H as <-. eexists; split; [reflexivity|]. intros j E; injection E as <-; reflexivity.
Qed.

Lemma sum_init_made a c :
  sum_init herm a = Ok c ->
  exists l q, c = CSum (o_expect a) (evs_obj l q (o_Ds a) (o_mag a) (o_centered a) true) /\
    (forall x, o_secondaries a = Some x -> l = Some x) /\ (forall x, o_out a = Some x -> q = Some x).
Proof.
  unfold sum_init. intros H. apply rbind_ok in H as (o & H & E). injection E as <-. unfold evs_init in H.
  destruct (o_Ds a) as [m|].
  - destruct (a_shape m) as [|x [|y [|z [|w [|? ?]]]]]; try discriminate.
    destruct (z =? w); [|discriminate]. destruct (herm m); [|discriminate].
    destruct (opt_is (o_secondaries a) y) eqn:E1; [|discriminate]. destruct (opt_is (o_out a) x) eqn:E2; [|discriminate].
    injection H as <-. exists (Some y), (Some x). split; [reflexivity|].
    split; intros v Hv; [rewrite Hv in E1; cbn in E1; apply Nat.eqb_eq in E1|rewrite Hv in E2; cbn in E2; apply Nat.eqb_eq in E2]; congruence.
  - injection H as <-. eexists _, _; split; [reflexivity|]. auto.
Qed.

Lemma which_rule a : rule a (which_of a).
Proof.
  unfold rule, which_of, given. split; [intros w ->; reflexivity|]. split.
  - intros -> [ -> | -> ]; reflexivity.
  - intros -> x -> N. destruct x as [|[|x]]; [reflexivity|contradiction|reflexivity].
Qed.
Lemma build_made a old l : build herm a old = (l, Ok tt) -> made a l.
Proof.
  destruct a as [a|a]; unfold build; intros H.
  - match type of H with match ?X with _ => _ end = _ => destruct X as [l0|] eqn:E; [|discriminate] end.
    apply rbind_ok in E as (m & Hm & E). apply rbind_ok in E as (v & Hv & E). injection E as <-.
    destruct (sum_init herm a) as [s|] eqn:Hs; [|discriminate]. injection H as <-.
    apply mat_init_made in Hm as (n & -> & Hn). apply sum_init_made in Hs as (lq & q & -> & Hl & Hq).
    unfold vec_init in Hv. destruct (eig_ok (o_num a) (which_of a)); [|discriminate]. injection Hv as <-.
    cbn [app]. constructor; auto; try (intros x Hx; exact Hx).
    destruct (o_bias a) eqn:Eb; constructor; auto.
  - match type of H with match ?X with _ => _ end = _ => destruct X as [l0|] eqn:E; [|discriminate] end.
    apply rbind_ok in E as (m & Hm & E). apply rbind_ok in E as (v & Hv & E). injection E as <-. injection H as <-.
    apply mat_init_made in Hm as (n & -> & Hn).
    unfold val_init in Hv. destruct (eig_ok (e_num a) (e_which a)); [|discriminate]. injection Hv as <-.
    constructor; auto. intros x Hx; exact Hx.
Qed.
Lemma build_result a old old' : snd (build herm a old) = snd (build herm a old').
Proof.
  destruct a as [a|a]; cbn -[mat_init sum_init vec_init val_init].
  - match goal with |- context [match ?X with _ => _ end] => destruct X; [|reflexivity] end.
    destruct (sum_init herm a); reflexivity.
  - match goal with |- context [match ?X with _ => _ end] => destruct X; reflexivity end.
Qed.

(** * Compiling one module *)
Lemma mat_compile draw n sm bt Ms mag t d o :
  ahm_compile draw (ahm_obj n sm bt Ms mag t) d = Ok o ->
  exists Ms', o = ahm_obj n sm bt (Some Ms') mag t /\ (forall m, Ms = Some m -> Ms' = m).
Proof.
  unfold ahm_compile. cbn -[nat_of_v Nat.eqb]. destruct Ms as [m|]; cbn -[nat_of_v Nat.eqb].
  - destruct (Nat.eqb _ _); [|discriminate]. intros H; injection H as <-. eexists; split; [reflexivity|]. congruence.
  - destruct (nat_of_v (opt_nat n)) as [k|]; [|discriminate]. intros H; injection H as <-.
    eexists; split; [reflexivity|]. discriminate.
Qed.
Lemma sum_compile draw l q Ds mag ce t n o :
  evs_compile draw (evs_obj l q Ds mag ce t) n = Ok o ->
  exists Ds' l' q', o = evs_obj l q (Some Ds') mag ce t /\ (forall m, Ds = Some m -> Ds' = m) /\ l = Some l' /\ q = Some q'.
Proof.
  unfold evs_compile. cbn -[nat_of_v Nat.eqb].
  destruct l as [l|]; [|discriminate]. rewrite nat_of_opt.
  destruct q as [q|]; [|discriminate]. rewrite nat_of_opt. destruct Ds as [m|]; cbn -[nat_of_v Nat.eqb].
  - destruct (a_shape m) as [|? [|? [|c [|d [|? ?]]]]]; try discriminate. destruct (_ && _); [|discriminate].
    intros H; injection H as <-. eexists _, _, _. repeat split; congruence.
  - intros H; injection H as <-. eexists _, _, _. repeat split; congruence.
Qed.
Lemma pv_tree_some (v : tree arr) : leaves v <> [] -> pv_tree v <> VNone.
Proof. destruct v; cbn; congruence. Qed.
Lemma jmapM_leafy {X Y} (f : X -> result Y) t v : jmapM f t = Ok v -> t <> NoneT -> v <> NoneT.
Proof. destruct t; cbn; intros H Hn; [destruct (f a); [|discriminate] | congruence | | | ];
  try (apply rbind_ok in H as (? & ? & H)); injection H as <-; discriminate. Qed.
Lemma bias_compiles draw v mag t o :
  bias_compile draw (bias_obj v mag true false true) t = Ok o -> exists v', o = bias_obj v' mag true false true /\ (t <> NoneT -> v' <> VNone).
Proof.
  unfold bias_compile. cbn -[nat_of_v Nat.eqb jmapM same_struct combine].
  destruct v as [| | | | | |a| | | |]; cbn -[jmapM same_struct combine]; intros H;
    try (apply rbind_ok in H as (w & Hw & H)).
  { injection H as <-. exists (pv_tree w). split; [reflexivity|]. intros Ht.
    pose proof (jmapM_leafy _ _ _ Hw Ht). destruct w; cbn; congruence. }
  6: { destruct (_ || _); [injection H as <-; eexists; split; [reflexivity|discriminate]|].
       destruct (any_shape_differs _ _); [discriminate|]. injection H as <-; eexists; split; [reflexivity|discriminate]. }
  all: destruct (same_struct _ _ && _); [|discriminate]; injection H as <-; eexists; split; [reflexivity|discriminate].
Qed.

Lemma single_not_none t s : single_leaf t = Some s -> t <> NoneT.
Proof. intros H ->. discriminate. Qed.

(** * Compiling the list of modules *)
Definition finished (a : pmm_args) (l : list child) : Prop := exists last, pipeline a l last /\ bias_part a last.

Lemma compile_mods_cons draw i c l t :
  compile_mods draw i (c :: l) t =
    match compile_child (draw i) c t with
    | Err _ => (c :: l, Err RuntimeError)
    | Ok c' => match out_of c' t with
               | Err e => (c' :: l, Err e)
               | Ok t' => let (r, o) := compile_mods draw (S i) l t' in (c' :: r, o)
               end
    end.
Proof. reflexivity. Qed.

Lemma compile_last draw i a last t r o :
  bias_made a last -> compile_mods draw i last t = (r, o) ->
  bias_made a r /\ (forall t', o = Ok t' -> t <> NoneT -> bias_part (AObs a) r).
Proof.
  intros Hb H. inversion Hb as [Eb Hl|v Eb Hl]; subst last.
  - injection H as <- <-. split; [constructor; auto|]. intros t' _ _. cbn. rewrite Eb. reflexivity.
  - rewrite compile_mods_cons in H. cbn [compile_child] in H.
    destruct (bias_compile (draw i) (bias_obj v (o_mag a) true false true) t) as [b|] eqn:E; cbn [rbind] in H.
    + apply bias_compiles in E as (v' & -> & Hv). cbn [out_of compile_mods] in H. injection H as <- <-.
      split; [constructor; auto|]. intros t' _ Ht. cbn. rewrite Eb. exists v'. auto.
    + injection H as <- <-. split; [constructor; auto|]. discriminate.
Qed.

Lemma compile_made draw a l t r o :
  made a l -> compile_mods draw 0 l t = (r, o) ->
  made a r /\ (forall t', o = Ok t' -> finished a r).
Proof.
  intros Hm H. destruct Hm as [a n Ms lq q Ds last Hn HM Hl Hq HD Hlast|a n Ms Hn HM].
  - rewrite compile_mods_cons in H. cbn [compile_child] in H.
    destruct (single_leaf t) as [[|d [|? ?]]|] eqn:Es; try (injection H as <- <-; split; [constructor; auto|discriminate]).
    destruct (ahm_compile (draw 0) _ d) as [om|] eqn:Em; cbn [rbind] in H; [|injection H as <- <-; split; [constructor; auto|discriminate]].
    apply mat_compile in Em as (Ms' & -> & HMs).
    assert (HM' : kept (o_Ms a) (Some Ms')) by (intros x Hx; rewrite (HMs _ (HM _ Hx)); reflexivity).
    destruct (out_of _ t) as [t1|] eqn:E1; [|injection H as <- <-; split; [constructor; auto|discriminate]].
    assert (Hsz : exists k, n = Some k).
    { cbn -[nat_of_v] in E1. rewrite Es in E1. cbn -[nat_of_v] in E1. destruct n; [eauto|discriminate]. }
    destruct Hsz as [k ->].
    destruct (compile_mods draw 1 _ t1) as [r1 o1] eqn:C1. injection H as <- <-.
    rewrite compile_mods_cons in C1. cbn [compile_child] in C1.
    destruct (validate (o_num a) t1) as [[]|]; cbn [rbind] in C1; [|injection C1 as <- <-; split; [constructor; auto|discriminate]].
    destruct (out_of _ t1) as [t2|] eqn:E2; [|injection C1 as <- <-; split; [constructor; auto|discriminate]].
    destruct (compile_mods draw 2 _ t2) as [r2 o2] eqn:C2. injection C1 as <- <-.
    rewrite compile_mods_cons in C2. cbn [compile_child] in C2.
    destruct (single_leaf t2) as [[|d2 [|? [|? ?]]]|] eqn:Es2; try (injection C2 as <- <-; split; [constructor; auto|discriminate]).
    destruct (evs_compile (draw 2) _ d2) as [os|] eqn:Esum; cbn [rbind] in C2; [|injection C2 as <- <-; split; [constructor; auto|discriminate]].
    apply sum_compile in Esum as (Ds' & l' & q' & -> & HDs & -> & ->).
    assert (HD' : kept (o_Ds a) (Some Ds')) by (intros x Hx; rewrite (HDs _ (HD _ Hx)); reflexivity).
    destruct (out_of _ t2) as [t3|] eqn:E3; [|injection C2 as <- <-; split; [constructor; auto|discriminate]].
    destruct (compile_mods draw 3 _ t3) as [r3 o3] eqn:C3. injection C2 as <- <-.
    destruct (compile_last _ _ _ _ _ _ _ Hlast C3) as [Hlast' Hp].
    split; [constructor; auto|]. intros t' ->. exists r3. split.
    + constructor.
      * apply which_rule.
      * intros x Hx. specialize (Hn _ Hx). congruence.
      * intros x Hx. specialize (HM' _ Hx). congruence.
      * intros x Hx. specialize (Hl _ Hx). congruence.
      * intros x Hx. specialize (Hq _ Hx). congruence.
      * intros x Hx. specialize (HD' _ Hx). congruence.
    + apply (Hp t' eq_refl). cbn -[nat_of_v] in E3. rewrite Es2 in E3. cbn -[nat_of_v] in E3.
      change (VInt (Z.of_nat q')) with (opt_nat (Some q')) in E3. rewrite nat_of_opt in E3.
      exact (jmapM_leafy _ _ _ E3 (single_not_none _ _ Es2)).
  - rewrite compile_mods_cons in H. cbn [compile_child] in H.
    destruct (single_leaf t) as [[|d [|? ?]]|] eqn:Es; try (injection H as <- <-; split; [constructor; auto|discriminate]).
    destruct (ahm_compile (draw 0) _ d) as [om|] eqn:Em; cbn [rbind] in H; [|injection H as <- <-; split; [constructor; auto|discriminate]].
    apply mat_compile in Em as (Ms' & -> & HMs).
    assert (HM' : kept (e_Ms a) (Some Ms')) by (intros x Hx; rewrite (HMs _ (HM _ Hx)); reflexivity).
    destruct (out_of _ t) as [t1|] eqn:E1; [|injection H as <- <-; split; [constructor; auto|discriminate]].
    assert (Hsz : exists k, n = Some k).
    { cbn -[nat_of_v] in E1. rewrite Es in E1. cbn -[nat_of_v] in E1. destruct n; [eauto|discriminate]. }
    destruct Hsz as [k ->].
    destruct (compile_mods draw 1 _ t1) as [r1 o1] eqn:C1. injection H as <- <-.
    rewrite compile_mods_cons in C1. cbn [compile_child] in C1.
    destruct (validate (e_num a) t1) as [[]|]; cbn [rbind] in C1; [|injection C1 as <- <-; split; [constructor; auto|discriminate]].
    destruct (out_of _ t1) as [t2|] eqn:E2; injection C1 as <- <-; (split; [constructor; auto|]); [|discriminate].
    intros t' _. exists []. split; [|reflexivity]. constructor.
    + intros x Hx. specialize (Hn _ Hx). congruence.
    + intros x Hx. specialize (HM' _ Hx). congruence.
Qed.

(** * Histories of compile calls *)
Definition sound (m : comp) : Prop :=
  c_in m <> None -> made (c_args m) (c_mods m) /\ snd (build herm (c_args m) []) = Ok tt.

Lemma seq_compile_made draw m t m' r :
  made (c_args m) (c_mods m) -> seq_compile draw m t = (m', r) ->
  c_args m' = c_args m /\ made (c_args m') (c_mods m') /\ (r = Ok tt -> finished (c_args m') (c_mods m')).
Proof.
  intros Hm. unfold seq_compile. destruct (compile_mods draw 0 (c_mods m) t) as [l o] eqn:E.
  destruct (compile_made _ _ _ _ _ _ Hm E) as [H1 H2]. destruct o as [t'|e]; intros H.
  - inversion H; subst; clear H. cbn. split; [reflexivity|]. split; [exact H1|]. intros _. exact (H2 t' eq_refl).
  - inversion H; subst; clear H. cbn. split; [reflexivity|]. split; [exact H1|]. discriminate.
Qed.
Lemma compile_step draw m t m' r :
  sound m -> compile herm draw m t = (m', r) ->
  sound m' /\ c_args m' = c_args m /\ (r = Ok tt -> finished (c_args m') (c_mods m')).
Proof.
  intros Hs. unfold compile. destruct (single_leaf t) as [sl|]; [|intros H; injection H as <- <-; split; [exact Hs|split; [reflexivity|discriminate]]].
  destruct (has_size (c_args m)); cbn [negb]; [|intros H; injection H as <- <-; split; [exact Hs|split; [reflexivity|discriminate]]].
  destruct (match c_in m with Some t' => shape_eqb t t' | None => false end) eqn:Ein.
  - assert (Hi : c_in m <> None) by (intros E; rewrite E in Ein; discriminate).
    destruct (Hs Hi) as [Hm Hb]. intros H. destruct (seq_compile_made _ _ _ _ _ Hm H) as (H1 & H2 & H3).
    split; [intros _; rewrite H1 in *; auto|]. auto.
  - destruct (build herm (c_args m) (c_mods m)) as [l o] eqn:Eb. destruct o as [[]|e]; intros H.
    + pose proof (build_made _ _ _ Eb) as Hm.
      destruct (seq_compile_made _ (mk_comp (c_args m) l (c_in m) (c_out m)) _ _ _ Hm H) as (H1 & H2 & H3). cbn in H1.
      split; [|auto]. intros _. split; [exact H2|]. rewrite H1, (build_result _ [] (c_mods m)), Eb. reflexivity.
    + injection H as <- <-. split; [|split; [reflexivity|discriminate]].
      intros Hi. destruct (Hs Hi) as [_ Hb]. exfalso. rewrite (build_result _ [] (c_mods m)), Eb in Hb. discriminate.
Qed.
Lemma compiles_sound h : forall m, sound m -> sound (compiles herm m h) /\ c_args (compiles herm m h) = c_args m.
Proof.
  induction h as [|[d t] h IH]; intros m Hm; cbn; [auto|]. unfold compiles in *. cbn.
  destruct (compile herm d m t) as [m' r] eqn:E. destruct (compile_step _ _ _ _ _ Hm E) as (H1 & H2 & _).
  cbn. destruct (IH m' H1). split; [auto|congruence].
Qed.

(** Whatever was compiled before, whether it failed or not: after a
    successful compile the pipeline is there with the supplied matrices. *)
Theorem supplied_used a h draw t m' :
  compile herm draw (compiles herm (new a) h) t = (m', Ok tt) ->
  exists last, pipeline a (c_mods m') last /\ bias_part a last.
Proof.
  intros H. destruct (compiles_sound h (new a)) as [Hs Ha]; [intros E; cbn in E; congruence|].
  destruct (compile_step _ _ _ _ _ Hs H) as (_ & H2 & H3). specialize (H3 eq_refl). rewrite H2, Ha in H3. exact H3.
Qed.

(** * The supplied bias is never looked at *)
Lemma build_b b a old : build herm (with_b b a) old = build herm a old.
Proof. destruct a as [a|a]; reflexivity. Qed.
Definition com_b (b : option arr) (m : comp) : comp := mk_comp (with_b b (c_args m)) (c_mods m) (c_in m) (c_out m).
Lemma seq_compile_b b draw m t :
  seq_compile draw (com_b b m) t = (com_b b (fst (seq_compile draw m t)), snd (seq_compile draw m t)).
Proof. unfold seq_compile. cbn. destruct (compile_mods draw 0 (c_mods m) t) as [l [t'|e]]; reflexivity. Qed.
Lemma compile_b b draw m t :
  compile herm draw (com_b b m) t = (com_b b (fst (compile herm draw m t)), snd (compile herm draw m t)).
Proof.
  unfold compile. destruct (single_leaf t) as [sl|]; [|reflexivity].
  replace (has_size (c_args (com_b b m))) with (has_size (c_args m)) by (destruct m as [[|] ? ? ?]; reflexivity).
  destruct (has_size (c_args m)); [|reflexivity]. cbn [negb]. change (c_in (com_b b m)) with (c_in m).
  destruct (match c_in m with Some t' => shape_eqb t t' | None => false end); [apply seq_compile_b|].
  change (c_args (com_b b m)) with (with_b b (c_args m)). change (c_mods (com_b b m)) with (c_mods m).
  rewrite build_b. destruct (build herm (c_args m) (c_mods m)) as [l [[]|e]]; [|reflexivity].
  exact (seq_compile_b b draw (mk_comp (c_args m) l (c_in m) (c_out m)) t).
Qed.
Lemma compiles_b b h : forall m, compiles herm (com_b b m) h = com_b b (compiles herm m h).
Proof.
  induction h as [|[d t] h IH]; intros m; [reflexivity|]. unfold compiles in *. cbn. rewrite compile_b. cbn. apply IH.
Qed.
Theorem b_ignored a b h : c_mods (compiles herm (new (with_b b a)) h) = c_mods (compiles herm (new a) h).
Proof. change (new (with_b b a)) with (com_b b (new a)). rewrite compiles_b. reflexivity. Qed.

End Run.
