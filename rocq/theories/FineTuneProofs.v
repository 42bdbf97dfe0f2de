(** Saving, loading and freezing around training. *)
From Coq Require Import ZArith Permutation Sorted.
From Verif Require Import Base BaseLemmas TreeUtil TreeSpec NonSeqSpec NonSeqProofs MutableProofs Batch BatchSpec Train TrainSpec TrainProofs TrainSteps TrainArgs TrainArgsProofs
  SerialSpec ScalerProofs ScalerFileProofs ReshapeProofs ReshapeMain ShapesProofs EinsumSpec EinsumProofs EinsumMain Seq SeqProofs SeqOrder Params ParamsSpec ParamsProofs TrainModel FineTune FineTuneSpec.
Local Open Scope list_scope.
Local Open Scope nat_scope.

(* ------------------------------------------------------------------ *)
(** * Rebuilding a tree from its leaves *)
Lemma forall2_split {X Y} (R : X -> Y -> Prop) l1 l2 m : Forall2 R (l1 ++ l2) m -> exists m1 m2, m = m1 ++ m2 /\ Forall2 R l1 m1 /\ Forall2 R l2 m2.
Proof. intros H. apply Forall2_app_inv_l in H as (m1 & m2 & H1 & H2 & ->). eauto. Qed.
Lemma sorted_keys {V W} (d : list (string * V)) : StronglySorted kv_le d -> forall e : list (string * W), map fst d = map fst e -> StronglySorted kv_le e.
Proof.
  induction 1 as [|kv d H IH HF]; intros [|kw e] E; try discriminate; [constructor|]. injection E as E1 E2. constructor; [auto|].
  apply Forall_forall. intros y Hy. apply (in_map fst) in Hy. rewrite <- E2 in Hy. apply in_map_iff in Hy as (z & Ez & Hz).
  rewrite Forall_forall in HF. specialize (HF z Hz). unfold kv_le in *. rewrite <- E1, <- Ez. exact HF.
Qed.
Lemma rebuild_part {X Y} (R : X -> Y -> Prop) (t : tree X) : forall (vs : list Y) rest, Forall2 R (leaves t) vs ->
  exists u, unflatten_part (treedef t) (map Leaf vs ++ rest) = Ok (u, rest) /\ leaves u = vs /\ trel R t u.
Proof.
  assert (L : forall l, Forall (fun t => forall (vs : list Y) rest, Forall2 R (leaves t) vs ->
      exists u, unflatten_part (treedef t) (map Leaf vs ++ rest) = Ok (u, rest) /\ leaves u = vs /\ trel R t u) l ->
    forall vs rest, Forall2 R (concat (map leaves l)) vs ->
      exists us, unfl_list (map treedef l) (map Leaf vs ++ rest) = Ok (us, rest) /\ concat (map leaves us) = vs /\ Forall2 (trel R) l us).
  { clear t. induction 1 as [|t l Ht _ IH]; intros vs rest F; cbn [map concat] in F.
    - inversion F; subst. exists []. repeat split. constructor.
    - apply forall2_split in F as (v1 & v2 & -> & F1 & F2). destruct (Ht v1 (map Leaf v2 ++ rest) F1) as (u & U1 & U2 & U3).
      destruct (IH v2 rest F2) as (us & W1 & W2 & W3). exists (u :: us). cbn [map unfl_list]. rewrite map_app, <- app_assoc, U1. cbn [rbind]. rewrite W1. cbn [rbind map concat].
      split; [reflexivity|]. split; [congruence|constructor; assumption]. }
  induction t as [x| |d IH|l IH|l IH] using tree_ind2; intros vs rest F.
  - cbn [leaves] in F. inversion F as [|? v ? vs' HR F']; subst. inversion F'; subst. exists (Leaf v). split; [reflexivity|]. split; [reflexivity|constructor; exact HR].
  - inversion F; subst. exists NoneT. split; [reflexivity|]. split; [reflexivity|constructor].
  - rewrite treedef_dict, unflatten_dct.
    assert (F' : Forall2 R (concat (map (fun kv => leaves (snd kv)) (sort_kvs d))) vs).
    { cbn [leaves] in F. rewrite (sort_kvs_map (fun kv : string * tree X => (fst kv, leaves (snd kv)))) in F by reflexivity. rewrite map_map in F. exact F. }
    assert (IH' : Forall (fun kv => forall (vs : list Y) rest, Forall2 R (leaves (snd kv)) vs ->
      exists u, unflatten_part (treedef (snd kv)) (map Leaf vs ++ rest) = Ok (u, rest) /\ leaves u = vs /\ trel R (snd kv) u) (sort_kvs d)).
    { eapply Permutation_Forall; [apply Permutation_sym, sort_kvs_perm|exact IH]. }
    assert (G : forall s, Forall (fun kv => forall (vs : list Y) rest, Forall2 R (leaves (snd kv)) vs ->
        exists u, unflatten_part (treedef (snd kv)) (map Leaf vs ++ rest) = Ok (u, rest) /\ leaves u = vs /\ trel R (snd kv) u) s ->
      forall vs rest, Forall2 R (concat (map (fun kv => leaves (snd kv)) s)) vs ->
      exists e, unfl_dict (map tdkv s) (map Leaf vs ++ rest) = Ok (e, rest) /\ concat (map (fun kv => leaves (snd kv)) e) = vs /\ Forall2 (fun a b => fst a = fst b /\ trel R (snd a) (snd b)) s e).
    { clear. induction 1 as [|[k t] s Ht _ IH]; intros vs rest F; cbn [map concat snd] in F.
      - inversion F; subst. exists []. repeat split. constructor.
      - apply forall2_split in F as (v1 & v2 & -> & F1 & F2). destruct (Ht v1 (map Leaf v2 ++ rest) F1) as (u & U1 & U2 & U3). cbn [snd] in U1, U3.
        destruct (IH v2 rest F2) as (e & W1 & W2 & W3). exists ((k, u) :: e). cbn [map]. unfold tdkv at 1. cbn [fst snd unfl_dict]. rewrite map_app, <- app_assoc, U1. cbn [rbind]. rewrite W1. cbn [rbind map concat snd].
        split; [reflexivity|]. split; [congruence|constructor; auto]. }
    destruct (G _ IH' vs rest F') as (e & E1 & E2 & E3). exists (Dict e). rewrite E1. cbn [rbind]. split; [reflexivity|].
    assert (K : map fst (sort_kvs d) = map fst e) by (clear -E3; induction E3 as [|a b s e [H _] _ IH]; cbn; congruence).
    split.
    + cbn [leaves]. rewrite sort_kvs_id.
      * rewrite map_map. exact E2.
      * eapply sorted_keys; [apply (sort_kvs_sorted d)|]. rewrite map_map. exact K.
    + apply trel_flip with (R := fun y x => R x y). eapply tr_dict; [apply sort_kvs_perm|].
      clear -E3. induction E3 as [|a b s e [H1 H2] _ IH]; constructor; auto. split; [auto|]. apply trel_flip. exact H2.
  - cbn [treedef]. rewrite unflatten_lst. destruct (L l IH vs rest F) as (us & E1 & E2 & E3). exists (Lst us). rewrite E1. split; [reflexivity|]. split; [exact E2|constructor; exact E3].
  - cbn [treedef]. rewrite unflatten_tup. destruct (L l IH vs rest F) as (us & E1 & E2 & E3). exists (Tup us). rewrite E1. split; [reflexivity|]. split; [exact E2|constructor; exact E3].
Qed.
Lemma rebuild_ok {X Y} (R : X -> Y -> Prop) (t : tree X) (vs : list Y) : Forall2 R (leaves t) vs ->
  exists u, rebuild t vs = Ok u /\ leaves u = vs /\ trel R t u.
Proof.
  intros F. destruct (rebuild_part R t vs [] F) as (u & U1 & U2 & U3). exists u. split; [|auto]. unfold rebuild, unflatten. rewrite app_nil_r in U1. rewrite U1. reflexivity.
Qed.
Lemma forall2_true {X Y} (l : list X) : forall (m : list Y), length l = length m -> Forall2 (fun _ _ => True) l m.
Proof. induction l as [|x l IH]; intros [|y m] H; try discriminate; constructor; auto. Qed.
Lemma forall2_length {X Y} (R : X -> Y -> Prop) l m : Forall2 R l m -> length l = length m.
Proof. induction 1; cbn; congruence. Qed.

(* ------------------------------------------------------------------ *)
(** * Nets *)
Section Nets.
Context {M : Type}.
Lemma nrel_refl (R : M -> M -> Prop) n : (forall a, atom_in n a -> R a a) -> nrel R n n.
Proof.
  induction n as [a|t IH] using net_ind2; intros H; constructor; [apply H; constructor|].
  eapply trel_leaf_impl; [|apply trel_refl]. cbn. intros x y Hx <-. apply IH; [exact Hx|]. intros a Ha. apply H. econstructor; eauto.
Qed.
Lemma nrel_comp (R S Q : M -> M -> Prop) : (forall a b c, R a b -> S b c -> Q a c) -> forall n n' n'', nrel R n n' -> nrel S n' n'' -> nrel Q n n''.
Proof.
  intros H. induction n as [a|t IH] using net_ind2; intros n' n'' N1 N2; inversion N1 as [? b H1|? u H1]; subst; inversion N2 as [? c H2|? v H2]; subst; constructor; [eauto|].
  eapply (trel_comp (fun x y => has_leaf t x /\ nrel R x y) (nrel S)); [|eapply trel_leaf_impl; [|exact H1]; cbn; auto|exact H2]. cbn. intros x y z [Hx Hy] Hz. eapply IH; eauto.
Qed.
Lemma nrel_atoms (R : M -> M -> Prop) n : forall n' b, nrel R n n' -> atom_in n' b -> exists a, atom_in n a /\ R a b.
Proof.
  induction n as [a|t IH] using net_ind2; intros n' b N Hb; inversion N as [? c H|? u H]; subst; inversion Hb as [|? x ? Hx Hxb]; subst.
  - exists a. split; [constructor|exact H].
  - apply trel_flip in H. destruct (trel_leafless _ _ _ _ H Hx) as (y & Hy & HN). destruct (IH y Hy _ _ HN Hxb) as (a & Ha & HR). exists a. split; [econstructor; eauto|exact HR].
Qed.
Lemma nrel_wfn (R : M -> M -> Prop) n : forall n', nrel R n n' -> wfn n -> wfn n'.
Proof.
  induction n as [a|t IH] using net_ind2; intros n' N W; inversion N as [? c H|? u H]; subst; constructor; inversion W as [|? W1 W2]; subst.
  - eapply trel_wf; eauto.
  - intros x Hx. pose proof (trel_flip _ _ _ H) as H'. destruct (trel_leafless _ _ _ _ H' Hx) as (y & Hy & HN). eapply IH; eauto.
Qed.
Lemma tsub_trel {X Y A B} (S : X -> Y -> Prop) (K : A -> B -> Prop) (g : X -> tree A) (h : Y -> tree B) (t : tree X) :
  forall u, trel S t u -> (forall x y, has_leaf t x -> S x y -> trel K (g x) (h y)) -> trel K (tsub g t) (tsub h u).
Proof.
  assert (L : forall l, Forall (fun t => forall u, trel S t u -> (forall x y, has_leaf t x -> S x y -> trel K (g x) (h y)) -> trel K (tsub g t) (tsub h u)) l ->
    forall m, Forall2 (trel S) l m -> (forall t x y, In t l -> has_leaf t x -> S x y -> trel K (g x) (h y)) -> Forall2 (trel K) (map (tsub g) l) (map (tsub h) m)).
  { clear t. induction 1 as [|t l Ht _ IH]; intros m F H; inversion F; subst; cbn [map]; constructor.
    - apply Ht; [assumption|]. intros x1 y1 Hx. apply (H t); [left; reflexivity|exact Hx].
    - apply IH; [assumption|]. intros t1 x1 y1 Hi. apply H. right. exact Hi. }
  induction t as [x| |d IH|l IH|l IH] using tree_ind2; intros u T H; inversion T as [? w HR| |? m F|? m F|? e e' Pe F]; subst; cbn [tsub].
  - apply H; [constructor|exact HR].
  - constructor.
  - apply (tr_dict K _ _ (map (fun kv => (fst kv, tsub h (snd kv))) e')); [apply Permutation_map; exact Pe|].
    assert (H' : forall k t x y, In (k, t) d -> has_leaf t x -> S x y -> trel K (g x) (h y)) by (intros k0 t0 x0 y0 Hi Hx; apply H; econstructor; eauto).
    clear T H Pe. induction F as [|[k t] [k' v] d e' [F1 F2] F IHF]; cbn [map]; constructor.
    + cbn [fst snd] in *. split; [exact F1|]. apply Forall_inv in IH. apply IH; [exact F2|]. intros x y. apply (H' k t). left. reflexivity.
    + apply IHF; [exact (Forall_inv_tail IH)|]. intros k0 t0 x y Hi. apply (H' k0 t0). right. exact Hi.
  - constructor. apply L; auto. intros t x y Hi Hx. apply H. econstructor; eauto.
  - constructor. apply L; auto. intros t x y Hi Hx. apply H. econstructor; eauto.
Qed.
Lemma nrel_get {P} (m_get : M -> tree P) n : forall n', nrel (fun a a' => trel eq (m_get a) (m_get a')) n n' -> trel eq (get m_get n) (get m_get n').
Proof.
  induction n as [a|t IH] using net_ind2; intros n' N; inversion N as [? c H|? u H]; subst; cbn [get]; [exact H|].
  eapply tsub_trel; [exact H|]. cbn. intros x y Hx HN. apply IH; assumption.
Qed.
Lemma tsub_wf {X Y} (g : X -> tree Y) (t : tree X) : wf_tree t -> (forall x, has_leaf t x -> wf_tree (g x)) -> wf_tree (tsub g t).
Proof.
  induction t as [x| |d IH|l IH|l IH] using tree_ind2; intros W H; cbn [tsub].
  - apply H. constructor.
  - constructor.
  - inversion W as [| |? N Wd| |]; subst. constructor.
    + unfold dkeys in *. rewrite map_map. exact N.
    + rewrite Forall_forall in *. intros kv Hi. apply in_map_iff in Hi as ([k v] & <- & Hi). cbn. apply (IH _ Hi); [apply (Wd _ Hi)|]. intros x Hx. apply H. econstructor; eauto.
  - inversion W as [| | |? Wl|]; subst. constructor. rewrite Forall_forall in *. intros y Hi. apply in_map_iff in Hi as (v & <- & Hi). apply IH; auto. intros x Hx. apply H. econstructor; eauto.
  - inversion W as [| | | |? Wl]; subst. constructor. rewrite Forall_forall in *. intros y Hi. apply in_map_iff in Hi as (v & <- & Hi). apply IH; auto. intros x Hx. apply H. econstructor; eauto.
Qed.
Lemma get_wf {P} (m_get : M -> tree P) n : wfn n -> (forall a, atom_in n a -> wf_tree (m_get a)) -> wf_tree (get m_get n).
Proof.
  induction n as [a|t IH] using net_ind2; intros W H; cbn [get]; [apply H; constructor|]. inversion W as [|? W1 W2]; subst.
  apply tsub_wf; [exact W1|]. intros x Hx. apply IH; auto. intros a Ha. apply H. econstructor; eauto.
Qed.
(** flags beside the parameters *)
Lemma flagged_params {P} (m_get : M -> tree P) m_train t : trel (fun bp p => snd bp = p) (flagged m_get m_train t) (get m_get (Nest t)).
Proof.
  unfold flagged. cbn [get]. eapply tsub_trel; [apply trel_refl|]. cbn. intros x y _ <-. apply trel_flip with (R := fun p bp => snd bp = p).
  eapply trel_impl; [|apply tmap_trel]. cbn. intros p bp ->. reflexivity.
Qed.
End Nets.
Lemma tmapM_id {X} (f : X -> result X) t : (forall x, has_leaf t x -> f x = Ok x) -> tmapM f t = Ok t.
Proof.
  assert (L : forall l, Forall (fun t => (forall x, has_leaf t x -> f x = Ok x) -> tmapM f t = Ok t) l -> (forall t x, In t l -> has_leaf t x -> f x = Ok x) ->
    (fix go l := match l with [] => Ok [] | x :: l' => let* y := tmapM f x in let* m := go l' in Ok (y :: m) end) l = Ok l).
  { clear t. induction 1 as [|t l Ht _ IH]; intros H; [reflexivity|]. rewrite Ht by (intros x Hx; apply (H t); [left; reflexivity|exact Hx]). cbn [rbind]. rewrite IH; [reflexivity|]. intros t' x Hi. apply H. right. exact Hi. }
  induction t as [x| |d IH|l IH|l IH] using tree_ind2; intros H; cbn [tmapM].
  - rewrite H by constructor. reflexivity.
  - reflexivity.
  - assert (G : forall s, (forall kv, In kv s -> In kv d) -> (fix go d := match d with [] => Ok [] | (k, x) :: d' => let* y := tmapM f x in let* e := go d' in Ok ((k, y) :: e) end) s = Ok s).
    { induction s as [|[k v] s IHs]; intros Hs; [reflexivity|]. rewrite Forall_forall in IH. assert (Hi : In (k, v) d) by (apply Hs; left; reflexivity).
      pose proof (IH _ Hi) as IHv. cbn [snd] in IHv. rewrite IHv by (intros x Hx; apply H; econstructor; eauto). cbn [rbind]. rewrite IHs; [reflexivity|]. intros kv Hk. apply Hs. right. exact Hk. }
    rewrite (G d) by auto. reflexivity.
  - rewrite L; [reflexivity|exact IH|]. intros t x Hi Hx. apply H. econstructor; eauto.
  - rewrite L; [reflexivity|exact IH|]. intros t x Hi Hx. apply H. econstructor; eauto.
Qed.

(* ------------------------------------------------------------------ *)
(** * The loop keeps the number of arrays *)
Section Loop.
Context {S1 S2 S3 P G MV MSt Rng F : Type}.
Notation OS := (ostate P MV).
Context (update : G -> OS -> OS)
  (dloss : nat -> @batch S1 S2 S3 -> bool -> MSt -> Rng -> list P -> result ((nat -> G) * MSt))
  (vloss : nat -> @batch S1 S2 S3 -> MSt -> Rng -> list P -> result F)
  (split2 : Rng -> Rng * Rng) (perm : Rng -> nat -> list nat)
  (fzero : F) (fadd fsub : F -> F -> F) (fdivn : F -> nat -> F) (flt fle : F -> F -> bool).
Notation erel := (epoch_rel update dloss vloss split2 perm fzero fadd fdivn).

Lemma epoch_length cf D DV e s k s' : keeps_frozen cf -> length (c_flags cf) = length (fst (fst (snd s))) ->
  erel cf D DV e s k s' -> length (fst (fst (snd s'))) = length (c_flags cf) /\ length (fst (fst (fst k))) = length (c_flags cf).
Proof.
  intros Hk Hl (rng1 & Hw & Ha). destruct s as [r0 c0]. cbn [fst snd] in Hw, Hl |- *. unfold epoch_work in Hw. destruct (split2 r0) as [r1 k1].
  apply rbind_ok in Hw as (c1 & Hs & Hw). destruct c1 as [[a1 st1] m1]. destruct (split2 r1) as [r2 k2].
  apply rbind_ok in Hw as (v & Hv & Hw). injection Hw as -> Ek _.
  destruct (epoch_steps_any _ _ _ _ _ _ _ _ _ _ _ Hs) as (n & l & _ & _ & Hst).
  pose proof (steps_length _ _ _ _ _ _ _ _ Hl Hst) as Hl1. cbn [fst] in Hl1.
  destruct k as [[[ka ks] km] kv]. cbn [fst snd] in *. injection Ek as <- <- <-.
  destruct s' as [r' c']. pose proof (Hk rng1 e (map ox a1) 0) as [Hc1 _]. rewrite map_length in Hc1.
  destruct (after_epoch_spec _ _ _ _ _ _ _ _ (eq_sym Hl1) Hc1 Ha) as (a' & -> & Hl' & HI). cbn [fst snd]. split; [congruence|exact Hl1].
Qed.
Lemma history_length cf D DV : keeps_frozen cf ->
  forall e s ks s', history (erel cf D DV) e s ks s' -> length (c_flags cf) = length (fst (fst (snd s))) ->
  Forall (fun k => length (fst (fst (fst k))) = length (c_flags cf)) ks.
Proof.
  intros Hk. induction 1 as [e s|e s k s1 ks s2 H0 H IH]; intros Hl; [constructor|].
  destruct (epoch_length _ _ _ _ _ _ _ Hk Hl H0) as (H1 & H2). constructor; auto.
Qed.
Theorem train_length isnan cf D DV rng start adams st0 rng0 c' fe bv be :
  fl_order isnan flt fle -> keeps_frozen cf -> length (c_flags cf) = length adams ->
  train_loop update dloss vloss split2 perm fzero fadd fsub fdivn flt fle cf D DV rng start adams st0 rng0 = Ok (c', fe, bv, be) ->
  length (fst (fst c')) = length adams.
Proof.
  intros HO Hk Hl H. destruct (train_spec _ _ _ _ _ _ _ _ _ _ _ _ HO _ _ _ _ _ _ _ _ _ _ _ _ H)
    as (mrng & key & v0 & ks & s' & _ & _ & Hh & _ & (j & _ & Hj & _) & _).
  pose proof (history_length _ _ _ Hk _ _ _ _ Hh Hl) as HF.
  destruct j as [|j]; cbn in Hj; [injection Hj as <- _; reflexivity|].
  apply nth_error_In in Hj. rewrite Forall_forall in HF. rewrite <- Hl. exact (HF _ Hj).
Qed.
End Loop.

(* ------------------------------------------------------------------ *)
(** * The same structure of optimiser states *)
Lemma treedef_eq {X} (t : tree X) : wf_tree t -> forall u, trel eq t u -> treedef t = treedef u.
Proof.
  assert (L : forall l, Forall (fun t => wf_tree t -> forall u, trel eq t u -> treedef t = treedef u) l -> Forall wf_tree l ->
    forall m, Forall2 (trel (@eq X)) l m -> map treedef l = map treedef m).
  { clear t. induction 1 as [|t l Ht _ IH]; intros W m F; inversion F; subst; [reflexivity|]. inversion W; subst. cbn [map]. f_equal; auto. }
  induction t as [x| |d IH|l IH|l IH] using tree_ind2; intros W u T; inversion T as [? w HR| |? m F|? m F|? e e' Pe F]; subst.
  - reflexivity.
  - reflexivity.
  - inversion W as [| |? N Wd| |]; subst. cbn [treedef]. f_equal.
    assert (E : map (fun kv => (fst kv, treedef (snd kv))) d = map (fun kv => (fst kv, treedef (snd kv))) e').
    { clear T N Pe W. induction F as [|a b d e' [F1 F2] F IHF]; [reflexivity|]. cbn [map]. inversion IH; subst. inversion Wd; subst. f_equal; [|auto]. rewrite F1. f_equal. auto. }
    rewrite E. apply sort_perm_eq; [apply Permutation_map; exact Pe|]. unfold dkeys. rewrite map_map. cbn.
    replace (map (fun x => fst x) e') with (map fst d); [exact N|]. clear -F. induction F as [|a b d e' [F1 F2] F IHF]; cbn; congruence.
  - inversion W as [| | |? Wl|]; subst. cbn [treedef]. f_equal. apply L; auto.
  - inversion W as [| | | |? Wl]; subst. cbn [treedef]. f_equal. apply L; auto.
Qed.
Lemma rebuild_same {X Y} (t u : tree X) (vs : list Y) : wf_tree t -> trel eq t u -> rebuild t vs = rebuild u vs.
Proof. intros W T. unfold rebuild. rewrite (treedef_eq t W u T). reflexivity. Qed.
Lemma forall2_eq {X} (l m : list X) : Forall2 eq l m -> l = m.
Proof. induction 1; congruence. Qed.
Lemma truthy_trel {X Y} (R : X -> Y -> Prop) t u : trel R t u -> truthy t = truthy u.
Proof.
  intros T. inversion T as [? w HR| |? m F|? m F|? e e' Pe F]; subst; try reflexivity; cbn.
  - inversion F; reflexivity.
  - inversion F; reflexivity.
  - apply forall2_length in F. apply Permutation_length in Pe. rewrite Pe in F. destruct d as [|p d], e as [|q e]; try discriminate; reflexivity.
Qed.
Lemma truthy_sub {X Y} (g : X -> tree Y) t : some_modules t -> truthy (tsub g t) = true.
Proof. destruct t as [x| |[|? ?]|[|? ?]|[|? ?]]; cbn; intros H; try discriminate; try reflexivity. destruct H. Qed.
Lemma some_trel {X Y} (R : X -> Y -> Prop) t u : trel R t u -> some_modules t -> some_modules u.
Proof. intros T H. pose proof (truthy_trel R t u T) as E. inversion T; subst; cbn [some_modules] in *; congruence. Qed.

(* ------------------------------------------------------------------ *)
(** * Setting parameters *)
Section Put.
Context {M P : Type} (m_get : M -> tree P) (m_set : M -> tree P -> M * result unit) (m_train : M -> bool).
Notation get := (get m_get). Notation put := (put m_set).
Lemma put_own m : wfn m -> (forall a, atom_in m a -> m_set a (m_get a) = (a, Ok tt)) -> put m (get m) = (m, Ok tt).
Proof.
  induction m as [a|t IH] using net_ind2; intros W HM.
  - cbn. rewrite HM by constructor. reflexivity.
  - inversion W as [|? W1 W2]; subst. rewrite put_nest. cbn [Params.get]. replace (prefix t _) with true.
    + rewrite (walk_id put); [reflexivity|exact W1|]. intros x Hx. apply IH; auto. intros a Ha. apply HM. econstructor; eauto.
    + symmetry. apply (prefix_fits t W1). eapply parts_impl; [|apply trel_sub_refl]. cbn. auto.
Qed.
Lemma put_nested t p : exists t', fst (put (Nest t) p) = Nest t'.
Proof. rewrite put_nest. destruct (prefix t p); [|eexists; reflexivity]. destruct (walk put t p) as [t' r]. eexists; reflexivity. Qed.
Lemma frozen_put t p m' : honest_modules m_get m_set m_train -> wfn (Nest t) ->
  trel (fun bx y => fst bx = false -> y = snd bx) (flagged m_get m_train t) p -> put (Nest t) p = (m', Ok tt) ->
  nrel (fun a a' => (exists q, m_set a q = (a', Ok tt)) /\
    ((forall x, has_leaf t x -> unmixed m_get m_train x) -> m_train a = false -> trel eq (m_get a) (m_get a'))) (Nest t) m'.
Proof.
  intros HM W Et E. unfold flagged in Et. apply parts_of_trel in Et.
  inversion W as [|? W1 W2]; subst. rewrite put_nest in E. destruct (prefix t p) eqn:Ep; [|discriminate]. destruct (walk put t p) as [t' r] eqn:Ew. injection E as <- ->.
  assert (Et' : parts (fun x q => has_leaf t x /\ trel (fun p y => is_trainable m_get m_train x = false -> y = p) (get x) q) t p).
  { eapply parts_impl; [|exact Et]. cbn. intros x q Hl HT. split; [exact Hl|]. apply trel_tmap in HT. exact HT. }
  destruct (walk_ok put _ t W1 p t' Et' Ew) as [T _].
  constructor. eapply trel_impl; [|exact T]. cbn. intros x x' (q & [Hl HT] & Hp). eapply nrel_impl; [|eapply put_related; [apply W2; exact Hl|exact HT|exact Hp]].
  cbn. intros a a' (Ha & qa & Hq & Es). split; [eauto|]. intros HU Hf. destruct (HM _ _ _ Es) as [H1 _].
  apply (trel_comp eq eq eq _ qa); [intros; congruence| |exact H1]. eapply trel_leaf_impl; [|exact Hq]. cbn. intros v w Hv Hvw.
  destruct (HU x Hl) as [Ht|Hn].
  - destruct (Ht a Ha) as [E|E]; [congruence|]. apply leaves_has_leaf in Hv. rewrite E in Hv. destruct Hv.
  - symmetry. apply Hvw. unfold is_trainable. destruct (trainable m_train x) eqn:Etr; [|reflexivity]. exfalso. apply trainable_iff in Etr as (b & Hb & Eb). rewrite (Hn b Hb) in Eb. discriminate.
Qed.
End Put.
