From Coq Require Import Arith Permutation.
From Verif Require Import Base BaseLemmas TreeUtil TreeSpec TreeProofs MutableProofs NonSeqSpec NonSeqProofs NdArray Serial SerialSpec SerialProofs Scaler ScalerProofs
  EigenProofs TrainArgs TrainArgsProofs Reshape ReshapeSpec ReshapeProofs ReshapeMain Einsum EinsumProofs EinsumMain ReshapeSpec Layers LayersSpec.
Local Open Scope list_scope.
Local Open Scope nat_scope.

(* ------------------------------------------------------------------ *)
(** * Trees *)
Lemma F2_nth {X Y} (R : X -> Y -> Prop) l m : Forall2 R l m -> forall i x, nth_error l i = Some x -> exists y, nth_error m i = Some y /\ R x y.
Proof. induction 1 as [|a b l m H F IH]; intros [|i] x E; cbn in *; try discriminate; [injection E as <-; eauto|eauto]. Qed.
Lemma trel_child {X Y} (R : X -> Y -> Prop) t u k t' : wf_tree u -> trel R t u -> child t k = Some t' -> exists u', child u k = Some u' /\ trel R t' u'.
Proof.
  intros Wu T C. inversion T as [x y HR| |l m F|l m F|d e e' P F]; subst; cbn [child] in *; try discriminate.
  - destruct (isdigit k); [|discriminate]. eapply F2_nth; eauto.
  - destruct (isdigit k); [|discriminate]. eapply F2_nth; eauto.
  - apply dget_In in C. inversion Wu as [| |? ND WF| |]; subst.
    assert (G : exists u', In (k, u') e' /\ trel R t' u').
    { clear -F C. induction F as [|a b d e [E1 E2] F IH]; [destruct C|]. destruct C as [ -> |C].
      - destruct b as [k' u']. cbn in *. subst k'. exists u'. auto.
      - destruct (IH C) as (u' & H1 & H2). exists u'. split; [right; exact H1|exact H2]. }
    destruct G as (u' & H1 & H2). exists u'. split; [|exact H2]. apply In_dget; [exact ND|]. eapply Permutation_in; eauto.
Qed.
Lemma child_wf {X} (t : tree X) k t' : wf_tree t -> child t k = Some t' -> wf_tree t'.
Proof.
  intros W C. inversion W as [| |d ND F|l F|l F]; subst; cbn [child] in C; try discriminate.
  - apply dget_In in C. rewrite Forall_forall in F. exact (F _ C).
  - destruct (isdigit k); [|discriminate]. apply nth_error_In in C. rewrite Forall_forall in F. exact (F _ C).
  - destruct (isdigit k); [|discriminate]. apply nth_error_In in C. rewrite Forall_forall in F. exact (F _ C).
Qed.
Lemma trel_walk {X Y} (R : X -> Y -> Prop) ks : forall t u, wf_tree u -> trel R t u -> forall x, leaf_at t ks x -> exists y, leaf_at u ks y /\ R x y.
Proof.
  unfold leaf_at. induction ks as [|k ks IH]; intros t u Wu T x H; cbn [walk] in *.
  - injection H as ->. inversion T as [? y HR| | | |]; subst. eauto.
  - destruct (child t k) as [t'|] eqn:C; [|discriminate]. destruct (trel_child R t u k t' Wu T C) as (u' & C' & T'). rewrite C'.
    eapply IH; eauto. eapply child_wf; eauto.
Qed.
Lemma leaf_has {X} ks : forall (t : tree X) x, leaf_at t ks x -> has_leaf t x.
Proof.
  unfold leaf_at. induction ks as [|k ks IH]; intros t x H; cbn [walk] in H; [injection H as ->; constructor|].
  destruct (child t k) as [t'|] eqn:C; [|discriminate]. apply IH in H. destruct t as [a| |d|l|l]; cbn [child] in C; try discriminate.
  - econstructor; [apply dget_In; exact C|exact H].
  - destruct (isdigit k); [|discriminate]. econstructor; [eapply nth_error_In; exact C|exact H].
  - destruct (isdigit k); [|discriminate]. econstructor; [eapply nth_error_In; exact C|exact H].
Qed.

(** equal trees of shapes *)
Lemma same_shape_eq s t : same_shape s t = true <-> s = t.
Proof. unfold same_shape. destruct (list_eq_dec Nat.eq_dec s t); split; congruence. Qed.
Lemma eqb_trel {X} (eqb : X -> X -> bool) (R : X -> X -> Prop) (HE : forall x y, eqb x y = true -> R x y) t :
  wf_tree t -> forall u, tree_eqb eqb t u = true -> trel R t u.
Proof.
  assert (L : forall l, Forall (fun t => wf_tree t -> forall u, tree_eqb eqb t u = true -> trel R t u) l -> Forall wf_tree l ->
     forall m, (fix all2 (l m : list (tree X)) {struct l} : bool :=
     match l, m with
     | [], [] => true
     | x :: l', y :: m' => tree_eqb eqb x y && all2 l' m'
     | _, _ => false
     end) l m = true -> Forall2 (trel R) l m).
  { clear t. induction 1 as [|t l Ht _ IH]; intros W m E; destruct m as [|u m]; try discriminate; [constructor|].
    apply andb_true_iff in E as [E1 E2]. inversion W; subst. constructor; auto. }
  induction t as [x| |d IH|l IH|l IH] using tree_ind2; intros W u E; destruct u as [y| |e|m|m]; cbn [tree_eqb] in E; try discriminate;
    inversion W as [| |? ND WF|? WF|? WF]; subst.
  - constructor; auto.
  - constructor.
  - apply andb_true_iff in E as [Len E]. apply Nat.eqb_eq in Len.
    assert (G : forall d', Forall (fun kv => wf_tree (snd kv) -> forall u, tree_eqb eqb (snd kv) u = true -> trel R (snd kv) u) d' ->
        Forall (fun kv => wf_tree (snd kv)) d' ->
        (fix alld (l : list (string * tree X)) : bool :=
           match l with
           | [] => true
           | (k, x) :: l' => match dget e k with Some y => tree_eqb eqb x y | None => false end && alld l'
           end) d' = true ->
        exists e', Forall2 (fun a b => fst a = fst b /\ trel R (snd a) (snd b)) d' e' /\ incl e' e).
    { induction d' as [|[k x] d' IHd]; intros FI FW HA; [exists []; split; [constructor|intros a []]|].
      inversion FI as [|? ? FI1 FI2]; inversion FW as [|? ? FW1 FW2]; subst.
      apply andb_true_iff in HA as [HA1 HA2]. destruct (dget e k) as [y|] eqn:G; [|discriminate].
      destruct (IHd FI2 FW2 HA2) as (e' & F & Hi). exists ((k, y) :: e'). split.
      - constructor; [|exact F]. split; [reflexivity|]. apply FI1; [exact FW1|exact HA1].
      - intros z [ <- |Hz]; [apply dget_In; exact G|apply Hi; exact Hz]. }
    destruct (G d IH WF E) as (e' & F & Hi). apply tr_dict with e'; [|exact F].
    pose proof (trel_keys _ _ _ F) as K. apply NoDup_Permutation_bis.
    + apply NoDup_map_inv with (f := fst). fold (dkeys e'). rewrite <- K. exact ND.
    + rewrite <- Len, (F2_length _ _ _ F). lia.
    + exact Hi.
  - constructor. auto.
  - constructor. auto.
Qed.

(* ------------------------------------------------------------------ *)
(** * The type check *)
Lemma check_batch_ok {V} n (ins outs : tree (arr V)) : (forall a, has_leaf ins a -> leading a = Some n) -> (forall a, has_leaf outs a -> leading a = Some n) ->
  check_batch ins outs = Ok tt.
Proof.
  intros H1 H2. assert (H : forall a, In a (leaves ins ++ leaves outs) -> leading a = Some n).
  { intros a Ha. apply in_app_iff in Ha as [Ha|Ha]; apply leaves_has_leaf in Ha; auto. }
  unfold check_batch. destruct (leaves ins ++ leaves outs) as [|a l]; [reflexivity|]. rewrite (H a) by (left; reflexivity).
  replace (forallb _ l) with true; [reflexivity|]. symmetry. apply forallb_forall. intros b Hb. rewrite (H b) by (right; exact Hb). apply Nat.eqb_refl.
Qed.
Lemma batch_leading {V} n shapes (data : tree (arr V)) : trel (batch_of n) shapes data -> forall a, has_leaf data a -> leading a = Some n.
Proof.
  intros T a Ha. apply trel_flip in T. destruct (map_has_leaf _ _ _ T a Ha) as (s & _ & E). unfold batch_of in E. unfold leading. rewrite E. reflexivity.
Qed.
Lemma check_batch_rel {V} n s1 s2 (ins outs : tree (arr V)) : trel (batch_of n) s1 ins -> trel (batch_of n) s2 outs -> check_batch ins outs = Ok tt.
Proof. intros T1 T2. eapply check_batch_ok; eapply batch_leading; eauto. Qed.

(* ------------------------------------------------------------------ *)
(** * Broadcasting one array against a batch *)
Section Arrays.
Context {V : Type} (zero : V).

Lemma bshape_batch n s : bshape (n :: s) s = Ok (n :: s).
Proof.
  unfold bshape. cbn [length]. rewrite Nat.max_l by lia. replace (pad (S (length s)) (n :: s)) with (n :: s) by (unfold pad; cbn [length]; rewrite Nat.sub_diag; reflexivity).
  replace (pad (S (length s)) s) with (1 :: s). 2:{ unfold pad. replace (S (length s) - length s) with 1 by lia. reflexivity. }
  cbn [bdims]. rewrite bdims_refl. cbn [rbind]. destruct (Nat.eqb_spec n 1) as [ -> |]; [reflexivity|]. cbn. reflexivity.
Qed.
Lemma pad_batch s : pad (S (length s)) s = 1 :: s.
Proof. unfold pad. replace (S (length s) - length s) with 1 by lia. reflexivity. Qed.

Lemma map_seq_nth {X} (f : nat -> X) n k d : k < n -> nth k (map f (seq 0 n)) d = f k.
Proof. intros H. rewrite nth_indep with (d' := f 0) by (rewrite map_length, seq_length; exact H). rewrite map_nth, seq_nth by exact H. reflexivity. Qed.

Lemma abin_batch (f : V -> V -> V) n s x a : shp x = n :: s -> shp a = s ->
  exists y, abin zero zero f x a = Ok y /\ shp y = n :: s /\
    forall i idx, valid (n :: s) (i :: idx) -> entry zero y (i :: idx) = f (entry zero x (i :: idx)) (entry zero a idx).
Proof.
  intros Hx Ha. unfold abin. rewrite Hx, Ha, bshape_batch. cbn [rbind]. eexists. split; [reflexivity|]. split; [reflexivity|].
  intros i idx Hv. unfold entry. cbn [shp dat length]. rewrite map_seq_nth by (apply ravel_bound; exact Hv).
  rewrite unravel_ravel by exact Hv. rewrite pad_batch. replace (pad (S (length s)) (n :: s)) with (n :: s) by (symmetry; apply (pad_id (n :: s))).
  rewrite (clip_valid _ _ Hv). rewrite Hx, Ha. f_equal. inversion Hv as [|? ? ? ? Hi Hr]; subst. cbn [clip]. rewrite clip_valid by exact Hr. reflexivity.
Qed.

Lemma pad_one s k : one_number s = true -> 1 <= k -> pad k s = repeat 1 k.
Proof.
  unfold one_number, pad. destruct s as [|m [|? ?]]; intros H Hk; try discriminate.
  - rewrite app_nil_r. f_equal. cbn. lia.
  - apply Nat.eqb_eq in H. subst m. cbn [length]. destruct k; [lia|]. replace (S k - 1) with k by lia.
    change [1] with (repeat 1 1). rewrite <- repeat_app. f_equal. lia.
Qed.
Lemma bdims_ones t : bdims t (repeat 1 (length t)) = Ok t.
Proof.
  induction t as [|m t IH]; cbn [length repeat bdims]; [reflexivity|]. rewrite IH. cbn [rbind].
  destruct (Nat.eqb_spec m 1) as [ -> |]; [reflexivity|]. reflexivity.
Qed.
Lemma ravel_ones k : forall idx, ravel (repeat 1 k) (clip (repeat 1 k) idx) = 0.
Proof. induction k as [|k IH]; intros [|i idx]; cbn [repeat clip ravel]; try reflexivity. cbn [Nat.eqb]. rewrite IH. reflexivity. Qed.
Lemma bshape_one n s t : one_number t = true -> bshape (n :: s) t = Ok (n :: s).
Proof.
  intros H. unfold bshape. assert (Hl : length t <= 1) by (destruct t as [|? [|? ?]]; cbn in *; try discriminate; lia).
  rewrite Nat.max_l by (cbn; lia). rewrite pad_id. rewrite pad_one by (auto; cbn; lia). rewrite bdims_ones. reflexivity.
Qed.
Lemma nth0 (l : list V) : nth 0 l zero = hd zero l.
Proof. destruct l; reflexivity. Qed.
Lemma abin_one (f : V -> V -> V) n s x a : shp x = n :: s -> one_number (shp a) = true ->
  exists y, abin zero zero f x a = Ok y /\ shp y = n :: s /\
    forall i idx, valid (n :: s) (i :: idx) -> entry zero y (i :: idx) = f (entry zero x (i :: idx)) (hd zero (dat a)).
Proof.
  intros Hx Ha. unfold abin. rewrite Hx, (bshape_one n s _ Ha). cbn [rbind]. eexists. split; [reflexivity|]. split; [reflexivity|].
  intros i idx Hv. unfold entry. cbn [shp dat]. rewrite map_seq_nth by (apply ravel_bound; exact Hv).
  rewrite unravel_ravel by exact Hv. rewrite pad_id. rewrite (clip_valid _ _ Hv). rewrite Hx. f_equal.
  rewrite pad_one by (auto; cbn; lia). rewrite ravel_ones. apply nth0.
Qed.
Lemma one_number_everywhere a idx : one_number (shp a) = true -> everywhere zero a idx = hd zero (dat a).
Proof. unfold everywhere, one_number. destruct (shp a) as [|[|[|m]] [|? ?]]; intros H; try discriminate; reflexivity. Qed.
Lemma full_everywhere a idx : valid (shp a) idx -> everywhere zero a idx = entry zero a idx.
Proof.
  intros H. unfold everywhere, entry. destruct (shp a) as [|m s] eqn:E.
  - inversion H; subst. cbn. symmetry. apply nth0.
  - destruct m as [|[|m]]; destruct s; try reflexivity; []. inversion H as [|i ? ? ? Hi Hr]; subst. inversion Hr; subst. destruct i; [|lia]. cbn. symmetry. apply nth0.
Qed.

Lemma repeated_entry n (c : arr V) i idx : valid (n :: shp c) (i :: idx) -> entry zero (repeated zero n c) (i :: idx) = entry zero c idx.
Proof.
  intros Hv. inversion Hv as [|? ? ? ? Hi Hr]; subst. unfold entry, repeated. cbn [shp dat ravel].
  pose proof (ravel_bound _ _ Hr) as Hb. rewrite map_seq_nth by nia. f_equal. rewrite Nat.add_comm, Nat.mod_add by lia. apply Nat.mod_small. exact Hb.
Qed.
End Arrays.
