(** Lemmas about the uncertainty heuristic. *)
From Coq Require Import Reals Lra Lia Permutation Bool.
From Verif Require Import Base BaseLemmas TreeUtil TreeSpec NonSeqSpec NonSeqProofs TrainArgsProofs NdArray Serial SerialSpec SerialProofs Scaler ScalerProofs
  Conformal ReshapeProofs ReshapeMain EigenProofs BatchProofs ReshapeSpec LayersSpec LayersProofs StrataProofs StrataMain Uncertainty UncertaintySpec.
Local Open Scope R_scope.
Local Open Scope list_scope.

Lemma nth_block {X} (d : X) l i m k : (k < m)%nat -> nth k (firstn m (skipn (i * m) l)) d = nth (i * m + k) l d.
Proof.
  intros H.
  assert (E : forall a b (l0 : list X), nth a (skipn b l0) d = nth (b + a) l0 d).
  { intros a b. induction b as [|b IH]; intros [|x l0]; cbn; try reflexivity; [destruct a; reflexivity|apply IH]. }
  rewrite <- E. generalize (skipn (i * m) l) as l0. clear E. revert m H. induction k as [|k IH]; intros [|m] H [|x l0]; cbn; try reflexivity; try lia.
  apply IH. lia.
Qed.
Lemma total_cons {X} (f : X -> R) x l : total f (x :: l) = f x + total f l.
Proof. reflexivity. Qed.
Lemma rsum_cons x l : rsum (x :: l) = x + rsum l.
Proof. reflexivity. Qed.
Lemma rsum_total {X} (f : X -> R) l : rsum (map f l) = total f l.
Proof. induction l as [|x l IH]; [reflexivity|]. cbn [map]. rewrite rsum_cons, total_cons, IH. reflexivity. Qed.
Lemma total_ext {X} (f g : X -> R) l : (forall x, In x l -> f x = g x) -> total f l = total g l.
Proof. induction l as [|x l IH]; intros H; [reflexivity|]. rewrite !total_cons, (H x (or_introl eq_refl)), IH; [reflexivity|]. intros; apply H; right; assumption. Qed.
Lemma total_map {X Y} (h : X -> Y) (f : Y -> R) l : total f (map h l) = total (fun x => f (h x)) l.
Proof. induction l as [|x l IH]; [reflexivity|]. cbn [map]. rewrite !total_cons, IH. reflexivity. Qed.
Lemma total_zero {X} (f : X -> R) l : (forall x, In x l -> f x = 0) -> total f l = 0.
Proof. induction l as [|x l IH]; intros H; [reflexivity|]. rewrite total_cons, (H x (or_introl eq_refl)), IH; [lra|]. intros; apply H; right; assumption. Qed.
Lemma total_nonneg {X} (f : X -> R) l : (forall x, In x l -> 0 <= f x) -> 0 <= total f l.
Proof. induction l as [|x l IH]; intros H; [unfold total; cbn; lra|]. rewrite total_cons. pose proof (H x (or_introl eq_refl)). assert (0 <= total f l) by (apply IH; intros; apply H; right; assumption). lra. Qed.

Lemma ravel_app o : forall s oi k, valid o oi -> ravel (o ++ s) (oi ++ k) = (ravel o oi * prod s + ravel s k)%nat.
Proof.
  induction o as [|m o IH]; intros s oi k H; inversion H as [|i ? oi' ? Hi Hr]; subst; [reflexivity|].
  cbn [app ravel]. rewrite IH by exact Hr. rewrite prod_app. nia.
Qed.
Lemma valid_app o s oi k : valid o oi -> valid s k -> valid (o ++ s) (oi ++ k).
Proof. intros H1 H2. apply Forall2_app; assumption. Qed.
Lemma valid_split o : forall s idx, valid (o ++ s) idx -> exists oi k, idx = oi ++ k /\ valid o oi /\ valid s k.
Proof.
  induction o as [|m o IH]; intros s idx H; cbn [app] in H; [exists [], idx; repeat split; [constructor|exact H]|].
  inversion H as [|i ? idx' ? Hi Hr]; subst. destruct (IH _ _ Hr) as (oi & k & -> & H1 & H2). exists (i :: oi), k. repeat split; [constructor; assumption|exact H2].
Qed.

(** Broadcasting over leading axes. *)
Lemma bdims_prefix o s : bdims (o ++ s) (repeat 1%nat (length o) ++ s) = Ok (o ++ s).
Proof.
  induction o as [|m o IH]; cbn [app length repeat]; [apply bdims_refl|]. cbn [bdims]. rewrite IH. cbn [rbind]. destruct (Nat.eqb_spec m 1) as [ -> |]; reflexivity.
Qed.
Lemma bshape_prefix o s : bshape (o ++ s) s = Ok (o ++ s).
Proof.
  unfold bshape. rewrite app_length. rewrite Nat.max_l by lia. rewrite <- app_length, pad_id. unfold pad. rewrite app_length.
  replace (length o + length s - length s)%nat with (length o) by lia. rewrite bdims_prefix. reflexivity.
Qed.
Lemma ravel_pad k : forall s oi r, length oi = k -> ravel (repeat 1%nat k ++ s) (clip (repeat 1%nat k ++ s) (oi ++ r)) = ravel s (clip s r).
Proof.
  induction k as [|k IH]; intros s [|i oi] r H; cbn [length] in H; try discriminate; [reflexivity|]. cbn [repeat app clip ravel Nat.eqb]. rewrite IH by lia. reflexivity.
Qed.
Lemma abin_prefix {V W X} dv dw dx (f : V -> W -> X) o s x a : shp x = o ++ s -> shp a = s ->
  exists y, abin dv dw f x a = Ok y /\ shp y = o ++ s /\ wf_arr y /\
    forall oi k, valid o oi -> valid s k -> ReshapeSpec.entry dx y (oi ++ k) = f (ReshapeSpec.entry dv x (oi ++ k)) (ReshapeSpec.entry dw a k).
Proof.
  intros Ex Ea. unfold abin. rewrite Ex, Ea, bshape_prefix. cbn [rbind]. eexists. split; [reflexivity|]. cbn [shp dat]. split; [reflexivity|].
  split; [unfold wf_arr; cbn [shp dat]; rewrite map_length, seq_length; reflexivity|].
  intros oi k H1 H2. unfold ReshapeSpec.entry at 1. cbn [shp dat]. pose proof (valid_app _ _ _ _ H1 H2) as HV.
  rewrite map_seq_nth by (apply ravel_bound; exact HV). rewrite unravel_ravel by exact HV. rewrite pad_id, clip_valid by exact HV.
  unfold ReshapeSpec.entry. rewrite Ex, Ea. f_equal. unfold pad. rewrite app_length. replace (length o + length s - length s)%nat with (length o) by lia.
  rewrite ravel_pad by (apply F2_length in H1; exact H1). rewrite clip_valid by exact H2. reflexivity.
Qed.

Lemma abin_equal {V W X} dv dw dx (f : V -> W -> X) s x a : shp x = s -> shp a = s ->
  exists y, abin dv dw f x a = Ok y /\ shp y = s /\ wf_arr y /\
    forall k, valid s k -> ReshapeSpec.entry dx y k = f (ReshapeSpec.entry dv x k) (ReshapeSpec.entry dw a k).
Proof.
  intros E1 E2. destruct (abin_prefix dv dw dx f [] s x a E1 E2) as (y & H1 & H2 & H3 & H4). exists y. split; [exact H1|]. split; [exact H2|]. split; [exact H3|].
  intros k Hk. apply (H4 [] k); [constructor|exact Hk].
Qed.
(** (n, k) and (n, 1). *)
Lemma abin_column (f : R -> R -> R) n m x d : shp x = [n; m] -> length d = n ->
  exists y, abin 0 0 f x (mk_arr [n; 1%nat] d) = Ok y /\ shp y = [n; m] /\ wf_arr y /\
    forall i j, (i < n)%nat -> (j < m)%nat -> ReshapeSpec.entry 0 y [i; j] = f (ReshapeSpec.entry 0 x [i; j]) (nth i d 0).
Proof.
  intros E L. assert (B : bshape [n; m] [n; 1%nat] = Ok [n; m]).
  { unfold bshape. cbn [length Nat.max]. unfold pad. cbn [length Nat.sub repeat app bdims rbind]. destruct (Nat.eqb_spec m 1) as [ -> |N]; rewrite ?Nat.eqb_refl; cbn [rbind]; rewrite ?Nat.eqb_refl; reflexivity. }
  unfold abin. rewrite E. cbn [shp]. rewrite B. cbn [rbind]. eexists. split; [reflexivity|]. cbn [shp dat]. split; [reflexivity|]. split; [unfold wf_arr; cbn [shp dat]; rewrite map_length, seq_length; reflexivity|].
  intros i j Hi Hj. assert (HV : valid [n; m] [i; j]) by (repeat constructor; assumption). unfold ReshapeSpec.entry at 1. cbn [shp dat]. rewrite map_seq_nth by (apply ravel_bound; exact HV).
  rewrite unravel_ravel by exact HV. cbn [length]. change (pad 2 [n; m]) with [n; m]. change (pad 2 [n; 1%nat]) with [n; 1%nat]. rewrite clip_valid by exact HV. unfold ReshapeSpec.entry. rewrite E. f_equal.
  cbn [clip Nat.eqb ravel]. destruct (Nat.eqb_spec n 1) as [ -> |N]; f_equal; cbn; nia.
Qed.
Lemma pad_entry {X Y} (h : X -> Y) d (a : arr X) idx : ReshapeSpec.entry (h d) (amap h a) idx = h (ReshapeSpec.entry d a idx).
Proof. unfold ReshapeSpec.entry, amap. cbn [shp dat]. apply map_nth. Qed.

Lemma slice_entry n s a i idx : shp a = n :: s -> valid s idx -> ReshapeSpec.entry 0 (slice i a) idx = ReshapeSpec.entry 0 a (i :: idx).
Proof. intros E H. unfold slice, ReshapeSpec.entry. rewrite E. cbn [tl shp dat ravel]. apply nth_block. apply ravel_bound. exact H. Qed.

Lemma block_map l i m : (i * m + m <= length l)%nat -> firstn m (skipn (i * m) l) = map (fun j => nth (i * m + j) l 0) (seq 0 m).
Proof.
  intros H. apply (nth_ext _ _ 0 0); [rewrite firstn_length, skipn_length, map_length, seq_length; lia|]. intros k Hk. rewrite firstn_length, skipn_length in Hk.
  rewrite nth_block by lia. rewrite map_seq_nth by lia. reflexivity.
Qed.
Lemma firstn_app_exact {X} (l m : list X) : firstn (length (l ++ m) - length m) (l ++ m) = l.
Proof. rewrite app_length. replace (length l + length m - length m)%nat with (length l) by lia. rewrite firstn_app, Nat.sub_diag, firstn_all. cbn. apply app_nil_r. Qed.
Lemma skipn_app_exact {X} (l m : list X) : skipn (length (l ++ m) - length m) (l ++ m) = m.
Proof. rewrite app_length. replace (length l + length m - length m)%nat with (length l) by lia. rewrite skipn_app, Nat.sub_diag, skipn_all. reflexivity. Qed.
Lemma sum_last_ok o s a : shp a = o ++ s -> wf_arr a ->
  exists y, sum_last (length s) a = Ok y /\ shp y = o /\ wf_arr y /\ forall oi, valid o oi -> ReshapeSpec.entry 0 y oi = total (fun k => ReshapeSpec.entry 0 a (oi ++ k)) (indices s).
Proof.
  intros E W. unfold sum_last. rewrite E. destruct (Nat.ltb_spec (length (o ++ s)) (length s)) as [H|_]; [rewrite app_length in H; lia|].
  rewrite firstn_app_exact, skipn_app_exact. eexists. split; [reflexivity|]. cbn [shp dat]. split; [reflexivity|]. split; [unfold wf_arr; cbn [shp dat]; rewrite map_length, seq_length; reflexivity|].
  intros oi Ho. unfold ReshapeSpec.entry at 1. cbn [shp dat]. pose proof (ravel_bound _ _ Ho) as Hb. rewrite map_seq_nth by exact Hb.
  unfold wf_arr in W. rewrite E, prod_app in W. rewrite block_map by nia. rewrite rsum_total. unfold indices. rewrite total_map. apply total_ext. intros j Hj. apply in_seq in Hj.
  unfold ReshapeSpec.entry. rewrite E, ravel_app by exact Ho. rewrite ravel_unravel by lia. reflexivity.
Qed.
Lemma add_all_ok s l : forall a, shp a = s -> wf_arr a -> (forall b, In b l -> shp b = s) ->
  exists y, add_all a l = Ok y /\ shp y = s /\ wf_arr y /\ forall k, valid s k -> ReshapeSpec.entry 0 y k = ReshapeSpec.entry 0 a k + total (fun b => ReshapeSpec.entry 0 b k) l.
Proof.
  induction l as [|b l IH]; intros a Ea Wa H; cbn [add_all].
  - exists a. split; [reflexivity|]. split; [exact Ea|]. split; [exact Wa|]. intros k _. unfold total. cbn. lra.
  - destruct (abin_equal 0 0 0 Rplus s a b Ea (H b (or_introl eq_refl))) as (c & E1 & S1 & W1 & H1). unfold radd. rewrite E1. cbn [rbind].
    destruct (IH c S1 W1) as (y & E2 & S2 & W2 & H2); [intros; apply H; right; assumption|]. exists y. split; [exact E2|]. split; [exact S2|]. split; [exact W2|].
    intros k Hk. rewrite H2, H1 by exact Hk. rewrite total_cons. lra.
Qed.
Lemma each_ok {X Y} (f : X -> result Y) (Q : X -> Y -> Prop) l : (forall x, In x l -> exists y, f x = Ok y /\ Q x y) -> exists ys, each f l = Ok ys /\ Forall2 Q l ys.
Proof.
  induction l as [|x l IH]; intros H; cbn [each]; [exists []; split; [reflexivity|constructor]|].
  destruct (H x (or_introl eq_refl)) as (y & E & Qy). destruct IH as (ys & E2 & F); [intros; apply H; right; assumption|]. rewrite E. cbn [rbind]. rewrite E2. cbn [rbind].
  exists (y :: ys). split; [reflexivity|]. constructor; assumption.
Qed.
Lemma nth_concat m (ls : list (list R)) i k : (forall l, In l ls -> length l = m) -> (k < m)%nat -> nth (i * m + k) (concat ls) 0 = nth k (nth i ls []) 0.
Proof.
  revert i. induction ls as [|l ls IH]; intros i H Hk; cbn [concat].
  - destruct i, k; cbn; try reflexivity; destruct (_ + _)%nat; reflexivity.
  - pose proof (H l (or_introl eq_refl)) as L. destruct i as [|i]; cbn [nth Nat.mul].
    + rewrite app_nth1 by lia. reflexivity.
    + rewrite app_nth2 by lia. replace (m + i * m + k - length l)%nat with (i * m + k)%nat by lia. apply IH; [intros; apply H; right; assumption|exact Hk].
Qed.
Lemma concat_uniform m (ls : list (list R)) : (forall l, In l ls -> length l = m) -> length (concat ls) = (length ls * m)%nat.
Proof. induction ls as [|l ls IH]; intros H; cbn; [reflexivity|]. rewrite app_length, IH, (H l (or_introl eq_refl)); [reflexivity|]. intros; apply H; right; assumption. Qed.
Lemma stack_ok s l : l <> [] -> (forall a, In a l -> shp a = s /\ wf_arr a) ->
  exists y, stack l = Ok y /\ shp y = length l :: s /\ wf_arr y /\ forall i k, (i < length l)%nat -> valid s k -> ReshapeSpec.entry 0 y (i :: k) = ReshapeSpec.entry 0 (nth i l (mk_arr [] [])) k.
Proof.
  intros N H. unfold stack. destruct l as [|a l]; [contradiction|]. set (l0 := a :: l) in *. destruct (H a (or_introl eq_refl)) as [Sa _]. rewrite Sa. eexists. split; [reflexivity|]. cbn [shp dat].
  assert (U : forall d, In d (map dat l0) -> length d = prod s). { intros d Hd. apply in_map_iff in Hd as (b & <- & Hb). destruct (H b Hb) as [Sb Wb]. rewrite Wb, Sb. reflexivity. }
  split; [reflexivity|]. split; [unfold wf_arr; cbn [shp dat]; rewrite (concat_uniform (prod s)) by exact U; rewrite map_length; reflexivity|].
  intros i k Hi Hk. unfold ReshapeSpec.entry. cbn [shp dat ravel]. rewrite nth_concat; [|exact U|apply ravel_bound; exact Hk]. rewrite (map_nth_lt _ _ (mk_arr [] [])) by exact Hi.
  destruct (H (nth i l0 (mk_arr [] []))) as [Sn _]; [apply nth_In; exact Hi|]. rewrite Sn. reflexivity.
Qed.

(** Two relations to one tree. *)
Lemma same_keys_eq {V} (d : list (string * V)) : forall e, NoDup (dkeys e) -> (forall x, In x d -> In x e) -> dkeys d = dkeys e -> d = e.
Proof.
  induction d as [|[k v] d IH]; intros [|[k' v'] e] ND H E; try discriminate; [reflexivity|]. cbn in E. injection E as <- E. cbn in ND. inversion ND as [|? ? N ND']; subst.
  assert (v = v'). { destruct (H (k, v) (or_introl eq_refl)) as [Q|Q]; [congruence|]. exfalso. apply N. exact (in_map fst _ _ Q). } subst v'. f_equal. apply IH; [exact ND'| |exact E].
  intros [k2 v2] Hx. destruct (H _ (or_intror Hx)) as [Q|Q]; [|exact Q]. exfalso. injection Q as <- <-. apply N. rewrite <- E. exact (in_map fst _ _ Hx).
Qed.
Lemma F2_both {X Y} (R S : X -> Y -> Prop) l m : Forall2 R l m -> Forall2 S l m -> Forall2 (fun x y => R x y /\ S x y) l m.
Proof. induction 1; intros F2; inversion F2; subst; constructor; auto. Qed.
Lemma trel_both {X Y} (R S : X -> Y -> Prop) t : forall u, wf_tree u -> trel R t u -> trel S t u -> trel (fun x y => R x y /\ S x y) t u.
Proof.
  assert (L : forall l, Forall (fun t => forall u, wf_tree u -> trel R t u -> trel S t u -> trel (fun x y => R x y /\ S x y) t u) l ->
    forall m, Forall wf_tree m -> Forall2 (trel R) l m -> Forall2 (trel S) l m -> Forall2 (trel (fun x y => R x y /\ S x y)) l m).
  { induction 1 as [|t0 l Ht Hl IH]; intros m W F G; inversion F; subst; inversion G; subst; inversion W; subst; constructor; auto. }
  induction t as [x| |d IH|l IH|l IH] using tree_ind2; intros u W T1 T2; inversion T1; subst; inversion T2; subst; inversion W; subst.
  - constructor. auto.
  - constructor.
  - match goal with P1 : Permutation ?e1 e, P2 : Permutation ?e2 e, F1 : Forall2 _ d ?e1, F2 : Forall2 _ d ?e2, N : NoDup _, FW : Forall _ e |- _ =>
      assert (Q : e1 = e2) by (apply same_keys_eq; [eapply Permutation_NoDup; [apply Permutation_map; symmetry; exact P2|exact N]
         |intros x Hx; eapply Permutation_in; [symmetry; exact P2|]; eapply Permutation_in; [exact P1|exact Hx]
         |rewrite <- (trel_keys _ _ _ F1), <- (trel_keys _ _ _ F2); reflexivity]); subst e2;
      apply tr_dict with (e' := e1); [exact P1|]; assert (FW1 : Forall (fun kv => wf_tree (snd kv)) e1) by (eapply Permutation_Forall; [symmetry; exact P1|exact FW]); clear - IH F1 F2 FW1;
      revert F2 FW1; induction F1 as [|a b dl el (K & Ta) G1 IH1]; intros G2 GW; [constructor|] end.
    inversion G2 as [|? ? ? ? (_ & Tb) G3]; subst. inversion GW; subst. inversion IH; subst. constructor; [split; [exact K|]; auto|auto].
  - apply tr_lst. apply L; auto.
  - apply tr_tup. apply L; auto.
Qed.
