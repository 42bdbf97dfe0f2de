(** The sequential forward pass (C16, C17, C20). *)
From Verif Require Import Base BaseLemmas TreeUtil TreeSpec TreeProofs ExtendProofs MutableProofs NonSeqSpec NonSeqProofs NonSeqRun NonSeqShape Seq SeqSpec ConnProofs SeqProofs SeqOrder.
From Coq Require Import Permutation Sorted.
Local Open Scope list_scope.

Lemma flat_map_leaf {X} (l : list X) : flat_map (fun r => match r with Leaf k => [k] | _ => [] end) (map Leaf l) = l.
Proof. induction l; simpl; congruence. Qed.

Lemma Forall2_fun {X Y} (R : X -> Y -> Prop) l m m' :
  (forall x y y', R x y -> R x y' -> y = y') -> Forall2 R l m -> Forall2 R l m' -> m = m'.
Proof.
  intros Hf H. revert m'. induction H as [|x y l m H _ IH]; intros m' H'; inversion H'; subst; [reflexivity|].
  f_equal; eauto.
Qed.

Lemma Forall2_imp {X Y} (R S : X -> Y -> Prop) l m : (forall x y, R x y -> S x y) -> Forall2 R l m -> Forall2 S l m.
Proof. intros H. induction 1; constructor; auto. Qed.

(** kinds of a filled tree *)
Lemma filled_kind {X Y} (R : X -> tree Y -> Prop) (t : tree X) u ks a :
  filled R t u -> walk t ks = Some a -> atomic a = false ->
  exists b, walk u ks = Some b /\ kind_of b = kind_of a.
Proof.
  revert t u. induction ks as [|k ks IH]; intros t u H Hw Ha.
  - injection Hw as ->. exists u. split; [reflexivity|]. inversion H as [x y Hx|Hn|l m HF E1 E2|l m HF E1 E2|d e HF E1 E2]; subst; try discriminate Ha; try reflexivity; simpl.
    + f_equal. symmetry. eapply Forall2_len; eauto.
    + f_equal. symmetry. eapply Forall2_len; eauto.
    + f_equal. unfold dkeys. clear -HF. induction HF as [|a b d e [E _] _ IH]; [reflexivity|]. simpl. rewrite E, IH. reflexivity.
  - cbn [walk] in Hw. destruct (child t k) as [t'|] eqn:Ec; [|discriminate].
    assert (G : exists u', child u k = Some u' /\ filled R t' u').
    { inversion H as [x y Hx|Hn|l m HF E1 E2|l m HF E1 E2|d e HF E1 E2]; subst; try discriminate; simpl in *.
      - destruct (isdigit k); [|discriminate]. clear -HF Ec. revert Ec. generalize (int_of k). clear k.
        induction HF as [|x y l m Hxy _ IH]; intros [|n] E; simpl in *; try discriminate; [|auto].
        injection E as ->. exists y. auto.
      - destruct (isdigit k); [|discriminate]. clear -HF Ec. revert Ec. generalize (int_of k). clear k.
        induction HF as [|x y l m Hxy _ IH]; intros [|n] E; simpl in *; try discriminate; [|auto].
        injection E as ->. exists y. auto.
      - clear -HF Ec. induction HF as [|[a x] [b y] d e [E Hxy] _ IH]; simpl in *; [discriminate|]. subst b.
        destruct (String.eqb k a); [injection Ec as ->; exists y; auto|auto]. }
    destruct G as [u' [Eu Hu]]. cbn [walk]. rewrite Eu. eapply IH; eauto.
Qed.

Section Main.
Context {A Rng M : Type}.
Variable call : M -> tree A -> tree A -> bool -> tree A -> Rng -> result (tree A * tree A).
Variable split_rng : Rng -> nat -> list Rng.
Hypothesis split_len : forall r n, length (split_rng r n) = n.

(** the plain form of the forward pass *)
Lemma seq_callable_eq modules params data training state rng : wf_tree modules ->
  seq_callable call split_rng modules params data training state rng =
  (let* ps := flatten_up_to (treedef modules) params in
   let* ss := flatten_up_to (treedef modules) state in
   let* (out, news) := rfold (seq_step call training)
      (combine (leaves modules) (combine ps (combine ss (split_rng rng (length (leaves modules)))))) (data, []) in
   let* st := unflatten (treedef modules) news in
   Ok (out, st)).
Proof.
  intros Hwf. unfold seq_callable. rewrite <- leaves_treedef.
  destruct (unflatten_ok (treedef modules) (map Leaf (split_rng rng (length (leaves modules)))) [])
    as [u [U1 [_ U2]]]; [rewrite map_length, split_len, leaves_treedef; reflexivity|].
  rewrite app_nil_r in U1. unfold unflatten at 1. rewrite U1. cbn [rbind].
  rewrite (U2 (treedef_wf _ Hwf)).
  destruct (flatten_up_to (treedef modules) params) as [ps|]; [|reflexivity]. cbn [rbind].
  destruct (flatten_up_to (treedef modules) state) as [ss|]; [|reflexivity]. cbn [rbind].
  rewrite flat_map_leaf. reflexivity.
Qed.

Definition not_none (t : tree A) : Prop := t <> NoneT.

Lemma seq_step_ok training d0 acc m mp ms r d1 acc1 :
  seq_step call training (d0, acc) (m, (mp, (ms, r))) = Ok (d1, acc1) <->
  mp <> NoneT /\ exists ns, call m mp d0 training ms r = Ok (d1, ns) /\ acc1 = acc ++ [ns].
Proof.
  unfold seq_step. cbn [fst snd]. destruct mp; (split; [intros H; try discriminate H|intros [Hn [ns [H ->]]]; try congruence]);
    try (apply rbind_ok in H as [[o ns] [H1 H2]]; injection H2 as <- <-; split; [discriminate|eauto]);
    try (rewrite H; reflexivity).
Qed.

(** running the steps along positions *)
Lemma run_sound modules params state training : forall pos ms ps ss rs d0 acc out news,
  Forall2 (fun p x => walk modules p = Some (Leaf x)) pos ms ->
  Forall2 (fun p y => walk params p = Some y) pos ps ->
  Forall2 (fun p y => walk state p = Some y) pos ss ->
  length rs = length pos -> NoDup pos ->
  rfold (seq_step call training) (combine ms (combine ps (combine ss rs))) (d0, acc) = Ok (out, news) ->
  exists nl, news = acc ++ nl /\ length nl = length pos /\
    forall ns : list string -> tree A, Forall2 (fun p n => ns p = n) pos nl ->
      composed call modules params state training ns pos rs d0 out.
Proof.
  induction pos as [|p pos IH]; intros ms ps ss rs d0 acc out news Hm Hp Hs Hr Hnd H;
    inversion Hm as [|? m ? ms' Hm1 Hm2]; inversion Hp as [|? mp ? ps' Hp1 Hp2]; inversion Hs as [|? s ? ss' Hs1 Hs2]; subst;
    (destruct rs as [|r rs]; try discriminate).
  - simpl in H. injection H as <- <-. exists []. rewrite app_nil_r. split; [reflexivity|]. split; [reflexivity|].
    intros ns _. constructor.
  - cbn [combine rfold] in H. apply rbind_ok in H as [[d1 acc1] [H1 H]].
    apply seq_step_ok in H1 as [Hn [n1 [H1 ->]]]. apply NoDup_cons_iff in Hnd as [Hnp Hnd].
    destruct (IH ms' ps' ss' rs d1 (acc ++ [n1]) out news) as [nl [E1 [E2 E3]]]; auto.
    exists (n1 :: nl). split; [rewrite E1, <- app_assoc; reflexivity|]. split; [simpl; congruence|].
    intros ns Hns. inversion Hns as [|? ? ? ? Hn1 Hns']; subst. econstructor; eauto.
Qed.

Lemma run_complete modules params state training ns : forall pos rs d0 out,
  composed call modules params state training ns pos rs d0 out ->
  forall ms ps ss acc,
  Forall2 (fun p x => walk modules p = Some (Leaf x)) pos ms ->
  Forall2 (fun p y => walk params p = Some y) pos ps ->
  Forall2 (fun p y => walk state p = Some y) pos ss ->
  Forall (fun y => y <> NoneT) ps ->
  rfold (seq_step call training) (combine ms (combine ps (combine ss rs))) (d0, acc) = Ok (out, acc ++ map ns pos).
Proof.
  induction 1 as [d|p pos r rs m mp s d d1 out Wm Wp Ws Hc _ IH]; intros ms0 ps0 ss0 acc Hm Hp Hs Hnn;
    inversion Hm as [|? m' ? ms' Hm1 Hm2]; inversion Hp as [|? mp' ? ps' Hp1 Hp2]; inversion Hs as [|? s' ? ss' Hs1 Hs2]; subst.
  - simpl. rewrite app_nil_r. reflexivity.
  - apply Forall_cons_iff in Hnn as [Hn1 Hn2]. cbn [combine rfold].
    assert (m' = m) as -> by congruence. assert (mp' = mp) as -> by congruence. assert (s' = s) as -> by congruence.
    replace (seq_step call training (d, acc) (m, (mp, (s, r)))) with (Ok (d1, acc ++ [ns p])).
    + cbn [rbind]. rewrite IH by assumption. rewrite <- app_assoc. reflexivity.
    + symmetry. apply seq_step_ok. split; [exact Hn1|]. eauto.
Qed.

Lemma ordered_NoDup {X} (R : X -> X -> Prop) (Has : forall x y, R x y -> ~ R y x) l : ordered R l -> NoDup l.
Proof.
  induction 1 as [|x l Hx _ IH]; constructor; [|exact IH]. intros Hi. eapply Has; apply Hx; exact Hi.
Qed.

Lemma Forall2_map_id {X Y} (f : X -> Y) l : Forall2 (fun x y => f x = y) l (map f l).
Proof. induction l; simpl; constructor; auto. Qed.

Lemma exists_fun pos (nl : list (tree A)) : NoDup pos -> length nl = length pos ->
  exists ns : list string -> tree A, Forall2 (fun p n => ns p = n) pos nl.
Proof.
  revert nl. induction pos as [|p pos IH]; intros [|n nl] Hnd Hl; try discriminate.
  - exists (fun _ => NoneT). constructor.
  - apply NoDup_cons_iff in Hnd as [Hp Hnd]. destruct (IH nl Hnd ltac:(simpl in Hl; lia)) as [ns Hns].
    exists (fun q => if list_eq_dec string_dec q p then n else ns q). constructor.
    + destruct (list_eq_dec string_dec p p); congruence.
    + clear -Hns Hp. assert (G : forall q, In q pos -> q <> p) by (intros q Hq ->; contradiction).
      clear Hp. induction Hns as [|q m pos nl H _ IH]; constructor.
      * destruct (list_eq_dec string_dec q p) as [->|]; [exfalso; apply (G p); [left; reflexivity|reflexivity]|exact H].
      * apply IH. intros r Hr. apply G. right; exact Hr.
Qed.

Theorem seq_sound modules params data training state rng out st' :
  wf_tree modules ->
  seq_callable call split_rng modules params data training state rng = Ok (out, st') ->
  exists pos ns,
    in_sequence modules pos /\
    composed call modules params state training ns pos (split_rng rng (length pos)) data out /\
    (forall p, In p pos -> walk st' p = Some (ns p)) /\
    (forall ks a, walk modules ks = Some a -> atomic a = false ->
       exists b, walk st' ks = Some b /\ same_kind (kind_of a) (kind_of b)).
Proof.
  intros Hwf H. rewrite seq_callable_eq in H by exact Hwf.
  apply rbind_ok in H as [ps [Hp H]]. apply rbind_ok in H as [ss [Hs H]].
  apply rbind_ok in H as [[o news] [Hr H]]. apply rbind_ok in H as [st [Hu H]]. injection H as <- <-.
  set (pos := poss (treedef modules)) in *.
  assert (Hseq : in_sequence modules pos) by (apply treedef_sequence; exact Hwf).
  assert (HwT := treedef_wf _ Hwf).
  assert (Hnd : NoDup pos) by (eapply ordered_NoDup; [apply (before_asym modules)|apply Hseq]).
  assert (Hm : Forall2 (fun p x => walk modules p = Some (Leaf x)) pos (leaves modules)).
  { rewrite leaves_treedef. eapply Forall2_imp; [|apply (def_leaves_poss _ HwT)].
    intros p x Hx. cbv beta in Hx. rewrite walk_treedef in Hx by exact Hwf.
    destruct (walk modules p) as [a|]; [|discriminate]. injection Hx as Hx. destruct a; try discriminate. simpl in Hx. congruence. }
  assert (Hlen : length (leaves modules) = length pos) by (symmetry; eapply Forall2_len; exact Hm).
  rewrite Hlen in Hr.
  destruct (run_sound modules params state training pos _ _ _ _ _ _ _ _ Hm (flatten_pos _ _ _ Hp) (flatten_pos _ _ _ Hs)
    ltac:(apply split_len) Hnd Hr) as [nl [E [Hl Hc]]]. simpl in E. subst news.
  destruct (exists_fun pos nl Hnd Hl) as [ns Hns]. exists pos, ns. split; [exact Hseq|]. split; [apply Hc; exact Hns|].
  destruct (unflatten_ok (treedef modules) nl []) as [u [U1 [U2 U3]]].
  { rewrite Hl, <- Hlen, leaves_treedef. reflexivity. }
  rewrite app_nil_r in U1. unfold unflatten in Hu. rewrite U1 in Hu. cbn [rbind] in Hu. injection Hu as <-.
  specialize (U3 HwT). apply flatten_pos in U3. split.
  - intros p Hpin. clear -U3 Hns Hpin. fold pos in U3. revert Hpin. induction Hns as [|q n pos' nl' Hn _ IH]; [intros []|].
    inversion U3; subst. intros [<-|Hi]; [congruence|auto].
  - intros ks a Hw Ha.
    destruct (filled_kind _ (treedef modules) u ks (treedef a) U2) as [b [Hb Hk]].
    + rewrite walk_treedef, Hw by exact Hwf. reflexivity.
    + destruct a; try discriminate; reflexivity.
    + exists b. split; [exact Hb|]. rewrite Hk. destruct a as [x| |d|l|l]; try discriminate; simpl.
      * intros k. unfold dkeys.
        split; intros Hi.
        -- eapply Permutation_in; [apply Permutation_map, Permutation_sym, sort_kvs_perm|]. rewrite map_map. exact Hi.
        -- apply (Permutation_in _ (Permutation_map fst (sort_kvs_perm _))) in Hi. rewrite map_map in Hi. exact Hi.
      * symmetry. apply map_length.
      * symmetry. apply map_length.
Qed.

Lemma fits_flatten {X Y} (t : tree X) : forall u : tree Y, wf_tree t -> fits t u -> exists us, flatten_up_to (treedef t) u = Ok us.
Proof.
  induction t as [x| |d IH|l IH|l IH] using tree_ind2; intros u Hwf H; inversion H as [| |l' m HF|l' m HF|d' e Hl HF]; subst;
    inversion Hwf as [| |? Hnd Hfd|? Hfd|? Hfd]; subst.
  - simpl. eauto.
  - simpl. eauto.
  - rewrite treedef_dict. rewrite flatten_dct. rewrite map_length, (Permutation_length (sort_kvs_perm d)), Hl, Nat.eqb_refl. cbn [negb].
    assert (G : Forall (fun kv => exists y us, dget e (fst kv) = Some y /\ flatten_up_to (treedef (snd kv)) y = Ok us) (sort_kvs d)).
    { apply (Permutation_Forall (Permutation_sym (sort_kvs_perm d))). rewrite Forall_forall in *. intros kv Hi.
      destruct (HF kv Hi) as [y [E Hy]]. destruct (IH kv Hi y (Hfd kv Hi) Hy) as [us Hus]. eauto. }
    clear -G. induction G as [|[k x] s [y [us [E1 E2]]] _ [vs IH]]; [exists []; reflexivity|].
    exists (us ++ vs). cbn [map]. unfold tdkv at 1. cbn [fst snd]. cbn [flat_dict]. simpl in E1, E2. 
    change (flat_dict e ((k, treedef x) :: map tdkv s)) with
      (match dget e k with Some y => let* a := flatten_up_to (treedef x) y in let* b := flat_dict e (map tdkv s) in Ok (a ++ b) | None => Err ValueError end).
    rewrite E1, E2. cbn [rbind]. rewrite IH. reflexivity.
  - simpl treedef. rewrite flatten_lst. clear H Hwf. revert m HF. induction IH as [|x l Hx _ IHl]; intros m HF; inversion HF as [|? y ? m' Hxy HF']; subst; [exists []; reflexivity|].
    apply Forall_cons_iff in Hfd as [Hw1 Hw2]. destruct (Hx y Hw1 Hxy) as [us Hus]. destruct (IHl Hw2 m' HF') as [vs Hvs].
    exists (us ++ vs). cbn [map flat_list]. rewrite Hus. cbn [rbind]. rewrite Hvs. reflexivity.
  - simpl treedef. rewrite flatten_tup. clear H Hwf. revert m HF. induction IH as [|x l Hx _ IHl]; intros m HF; inversion HF as [|? y ? m' Hxy HF']; subst; [exists []; reflexivity|].
    apply Forall_cons_iff in Hfd as [Hw1 Hw2]. destruct (Hx y Hw1 Hxy) as [us Hus]. destruct (IHl Hw2 m' HF') as [vs Hvs].
    exists (us ++ vs). cbn [map flat_list]. rewrite Hus. cbn [rbind]. rewrite Hvs. reflexivity.
Qed.

Lemma pos_leaves {X} (modules : tree X) : wf_tree modules -> forall pos, in_sequence modules pos ->
  pos = poss (treedef modules) /\ Forall2 (fun p x => walk modules p = Some (Leaf x)) pos (leaves modules).
Proof.
  intros Hwf pos Hseq. assert (E := in_sequence_unique _ _ _ Hseq (treedef_sequence _ Hwf)).
  split; [exact E|]. rewrite E, leaves_treedef. eapply Forall2_imp; [|apply (def_leaves_poss _ (treedef_wf _ Hwf))].
  intros p x Hx. cbv beta in Hx. rewrite walk_treedef in Hx by exact Hwf.
  destruct (walk modules p) as [a|]; [|discriminate]. injection Hx as Hx. destruct a; try discriminate. simpl in Hx. congruence.
Qed.

Theorem seq_complete modules params data training state rng out pos ns :
  wf_tree modules -> fits modules params -> fits modules state ->
  in_sequence modules pos ->
  (forall p, In p pos -> walk params p <> Some NoneT) ->
  composed call modules params state training ns pos (split_rng rng (length pos)) data out ->
  exists st', seq_callable call split_rng modules params data training state rng = Ok (out, st') /\
    (forall p, In p pos -> walk st' p = Some (ns p)).
Proof.
  intros Hwf Hfp Hfs Hseq Hnn Hc. rewrite seq_callable_eq by exact Hwf.
  destruct (fits_flatten modules params Hwf Hfp) as [ps Hp]. destruct (fits_flatten modules state Hwf Hfs) as [ss Hs].
  rewrite Hp, Hs. cbn [rbind]. destruct (pos_leaves modules Hwf pos Hseq) as [E Hm].
  assert (Hlen : length (leaves modules) = length pos) by (symmetry; eapply Forall2_len; exact Hm).
  rewrite Hlen. assert (Hpp := flatten_pos _ _ _ Hp). assert (Hss := flatten_pos _ _ _ Hs). rewrite <- E in Hpp, Hss.
  rewrite (run_complete _ _ _ _ _ _ _ _ _ Hc _ ps ss [] Hm Hpp Hss).
  2: { clear -Hpp Hnn. induction Hpp as [|p y pos ps H _ IH]; constructor.
       - intros ->. apply (Hnn p); [left; reflexivity|exact H].
       - apply IH. intros q Hq. apply Hnn. right; exact Hq. }
  cbn [rbind app].
  destruct (unflatten_ok (treedef modules) (map ns pos) []) as [u [U1 [U2 U3]]].
  { rewrite map_length, <- Hlen, leaves_treedef. reflexivity. }
  rewrite app_nil_r in U1. unfold unflatten. rewrite U1. cbn [rbind]. exists u. split; [reflexivity|].
  specialize (U3 (treedef_wf _ Hwf)). apply flatten_pos in U3. rewrite <- E in U3.
  intros p Hi. clear -U3 Hi. remember (map ns pos) as l eqn:El. revert pos El U3 Hi.
  induction l as [|a l IH]; intros [|q pos] El U3 Hi; try discriminate; [destruct Hi|].
  injection El as -> El. inversion U3; subst. destruct Hi as [<-|Hi]; [assumption|eauto].
Qed.

(** only the sequence matters, not the nesting *)
Theorem seq_nesting modules1 modules2 params1 params2 data training state1 state2 rng out st1 pos1 pos2 :
  wf_tree modules1 -> wf_tree modules2 ->
  fits modules2 params2 -> fits modules2 state2 ->
  in_sequence modules1 pos1 -> in_sequence modules2 pos2 ->
  Forall2 (fun p q => walk modules1 p = walk modules2 q /\ walk params1 p = walk params2 q /\ walk state1 p = walk state2 q) pos1 pos2 ->
  seq_callable call split_rng modules1 params1 data training state1 rng = Ok (out, st1) ->
  exists st2, seq_callable call split_rng modules2 params2 data training state2 rng = Ok (out, st2) /\
    Forall2 (fun p q => walk st1 p = walk st2 q) pos1 pos2.
Proof.
  intros W1 W2 Fp Fs S1 S2 HF H.
  assert (Hnn : forall p, In p pos1 -> walk params1 p <> Some NoneT).
  { rewrite seq_callable_eq in H by exact W1.
    apply rbind_ok in H as [ps [Hp H]]. apply rbind_ok in H as [ss [Hs H]].
    apply rbind_ok in H as [[o news] [Hr _]]. destruct (pos_leaves _ W1 _ S1) as [E Hm].
    assert (Hlen : length (leaves modules1) = length pos1) by (symmetry; eapply Forall2_len; exact Hm).
    assert (Hpp := flatten_pos _ _ _ Hp). assert (Hss := flatten_pos _ _ _ Hs). rewrite <- E in Hpp, Hss.
    assert (Hk : length (split_rng rng (length (leaves modules1))) = length pos1) by (rewrite split_len; exact Hlen).
    revert Hr Hk. generalize (split_rng rng (length (leaves modules1))) (data, @nil (tree A)). clear -Hpp Hss Hm.
    revert ps ss Hpp Hss. induction Hm as [|p m pos ms Hm1 _ IH]; intros ps ss Hpp Hss rs acc Hr Hk q Hq; [destruct Hq|].
    inversion Hpp as [|? mp ? ps' Hp1 Hp2]; subst. inversion Hss as [|? s ? ss' Hs1 Hs2]; subst.
    destruct rs as [|r rs]; [discriminate|]. cbn [combine rfold] in Hr. apply rbind_ok in Hr as [[d1 acc1] [H1 Hr]].
    destruct acc as [d0 acc]. apply seq_step_ok in H1 as [Hn _]. destruct Hq as [<-|Hq]; [congruence|].
    eapply IH; eauto. }
  destruct (seq_sound _ _ _ _ _ _ _ _ W1 H) as [pos [ns [Hs [Hc [Hst _]]]]].
  assert (pos = pos1) as -> by (eapply in_sequence_unique; eauto).
  assert (N2 : NoDup pos2) by (eapply ordered_NoDup; [apply (before_asym modules2)|apply S2]).
  destruct (exists_fun pos2 (map ns pos1) N2 ltac:(rewrite map_length; eapply Forall2_len; exact HF)) as [ns2 Hns2].
  destruct (seq_complete modules2 params2 data training state2 rng out pos2 ns2) as [st2 [H2 Hst2]]; auto.
  - intros q Hq. assert (G : exists p, In p pos1 /\ walk params1 p = walk params2 q).
    { clear -HF Hq. induction HF as [|p q' l m [_ [E _]] _ IH]; [destruct Hq|].
      destruct Hq as [->|Hq]; [exists p; simpl; auto|]. destruct (IH Hq) as [p' [? ?]]. exists p'; simpl; auto. }
    destruct G as [p [Hp E]]. rewrite <- E. apply Hnn. exact Hp.
  - rewrite <- (Forall2_len _ _ _ HF). clear -HF Hc Hns2. remember (split_rng rng (length pos1)) as rs. clear Heqrs.
    revert pos2 HF Hns2. induction Hc as [d|p pos r rs m mp s d d1 out Wm Wp Ws Hc _ IH]; intros pos2 HF Hns2;
      inversion HF as [|? q ? pos2' [E1 [E2 E3]] HF']; subst; [constructor|].
    inversion Hns2 as [|? ? ? ? Hn Hns2']; subst. econstructor.
    + rewrite <- E1. exact Wm.
    + rewrite <- E2. exact Wp.
    + rewrite <- E3. exact Ws.
    + rewrite Hn. exact Hc.
    + apply IH; assumption.
  - exists st2. split; [exact H2|]. clear -HF Hst Hst2 Hns2.
    assert (G1 : forall p, In p pos1 -> walk st1 p = Some (ns p)) by exact Hst. clear Hst.
    revert Hns2 G1 Hst2. induction HF as [|p q l m _ _ IH]; intros Hns2 G1 G2; constructor.
    + rewrite (G1 p), (G2 q) by (left; reflexivity). inversion Hns2; subst. congruence.
    + inversion Hns2; subst. apply IH; [assumption| |]; intros; [apply G1|apply G2]; right; assumption.
Qed.

(* ---- shapes ---- *)
Context {Sh : Type}.
Variable shape : A -> Sh.
Variable out_shape : M -> tree Sh -> result (tree Sh).
Variable enough : tree Sh -> bool.

Lemma composed_shapes modules params state training ns : forall pos rs d out,
  composed call modules params state training ns pos rs d out ->
  forall ms o, Forall2 (fun p x => walk modules p = Some (Leaf x)) pos ms ->
  (forall m, In m ms -> honest shape call out_shape m) ->
  rfold (fun s m => out_shape m s) ms (tmap shape d) = Ok o -> o = tmap shape out.
Proof.
  induction 1 as [d|p pos r rs m mp s d d1 out Wm Wp Ws Hc _ IH]; intros ms o Hm Hh H;
    inversion Hm as [|? m' ? ms' Hm1 Hm2]; subst.
  - simpl in H. congruence.
  - assert (m' = m) as -> by congruence. cbn [rfold] in H. apply rbind_ok in H as [o1 [H1 H]].
    rewrite <- (Hh m (or_introl eq_refl) _ _ _ _ _ _ _ _ Hc H1) in H.
    eapply IH; eauto. intros m'' Hi. apply Hh. right; exact Hi.
Qed.

Theorem seq_shapes_agree modules params data training state rng out st' o :
  wf_tree modules ->
  (forall p m, walk modules p = Some (Leaf m) -> honest shape call out_shape m) ->
  seq_callable call split_rng modules params data training state rng = Ok (out, st') ->
  seq_shapes out_shape enough modules (tmap shape data) = Ok o ->
  o = tmap shape out.
Proof.
  intros Hwf Hh H Hs. destruct (seq_sound _ _ _ _ _ _ _ _ Hwf H) as [pos [ns [Hseq [Hc _]]]].
  unfold seq_shapes in Hs. apply rbind_ok in Hs as [o' [Hs Ho]]. destruct (enough o'); [|discriminate]. injection Ho as <-.
  destruct (pos_leaves _ Hwf _ Hseq) as [_ Hm].
  eapply composed_shapes; [exact Hc|exact Hm| |exact Hs].
  intros m Hi. destruct (Forall2_In_r _ _ _ _ Hm Hi) as [p [_ Hp]]. eapply Hh; eauto.
Qed.
End Main.
