From Coq Require Import Permutation Lia.
From Verif Require Import Base BaseLemmas TreeUtil TreeSpec NonSeqSpec NonSeqProofs MutableProofs Serial SerialSpec SerialProofs TrainArgsProofs ScalerTyped ScalerTypedProofs ScalerFile ScalerShare ScalerShareSpec ScalerShareProofs.
Local Open Scope list_scope.
Local Open Scope nat_scope.

Section Fit.
Context {K St A : Type} (num : A -> nat) (fit1 : K -> tree A -> result St).
Notation heap := (heap K St).

(** Only statistics differ. *)
Definition kindred (h h' : heap) : Prop :=
  forall q, match nth_error h q with
            | Some (Plain k _) => exists s, nth_error h' q = Some (Plain k s)
            | o => nth_error h' q = o
            end.
Lemma kindred_refl h : kindred h h.
Proof. intros q. destruct (nth_error h q) as [[k s|t]|] eqn:E; eauto. Qed.
Lemma kindred_trans h1 h2 h3 : kindred h1 h2 -> kindred h2 h3 -> kindred h1 h3.
Proof.
  intros H1 H2 q. specialize (H1 q). specialize (H2 q). destruct (nth_error h1 q) as [[k s|t]|].
  - destruct H1 as (s' & E). rewrite E in H2. exact H2.
  - rewrite H1 in H2. exact H2.
  - rewrite H1 in H2. exact H2.
Qed.
Lemma kindred_mixed h h' r t : kindred h h' -> nth_error h r = Some (Mixed t) -> nth_error h' r = Some (Mixed t).
Proof. intros H E. specialize (H r). rewrite E in H. exact H. Qed.
Lemma kindred_mixed' h h' r t : kindred h h' -> nth_error h' r = Some (Mixed t) -> nth_error h r = Some (Mixed t).
Proof.
  intros H E. specialize (H r). destruct (nth_error h r) as [[k s|t']|].
  - destruct H as (s' & H). congruence.
  - congruence.
  - congruence.
Qed.
Lemma kindred_place h h' : kindred h h' -> forall r p q k, place h r p q k -> place h' r p q k.
Proof.
  intros H r p q k P. induction P as [r k s E|r t p r' p' q k E Ha P IH].
  - pose proof (H r) as Q. rewrite E in Q. destruct Q as (s' & E'). exact (here h' r k s' E').
  - exact (under h' r t p r' p' q k (kindred_mixed _ _ _ _ H E) Ha IH).
Qed.
Lemma kindred_back h h' : kindred h h' -> forall r p q k, place h' r p q k -> place h r p q k.
Proof.
  intros H r p q k P. induction P as [r k s E|r t p r' p' q k E Ha P IH].
  - pose proof (H r) as Q. destruct (nth_error h r) as [[k' s'|t]|] eqn:E'.
    + destruct Q as (s2 & E2). rewrite E in E2. injection E2 as <- _. exact (here h r k s' E').
    + congruence.
    + congruence.
  - exact (under h r t p r' p' q k (kindred_mixed' _ _ _ _ H E) Ha IH).
Qed.
Lemma kindred_wf h h' : kindred h h' -> wf_heap h -> wf_heap h'.
Proof. intros H W r t E. exact (W r t (kindred_mixed' _ _ _ _ H E)). Qed.
Lemma kindred_out h h' : kindred h h' -> forall r p, left_out h r p -> left_out h' r p.
Proof.
  intros H r p P. induction P as [r E|r t p E Ha|r t p r' p' E Ha P IH].
  - exact (out_all h' r (kindred_mixed _ _ _ _ H E)).
  - exact (out_none h' r t p (kindred_mixed _ _ _ _ H E) Ha).
  - exact (out_under h' r t p r' p' (kindred_mixed _ _ _ _ H E) Ha IH).
Qed.

Lemma upd_same (h : heap) : forall r o, r < length h -> nth_error (upd h r o) r = Some o.
Proof.
  induction h as [|a h IH]; intros r o L; [cbn in L; lia|]. destruct r as [|r]; [reflexivity|]. cbn in L. unfold upd in *. cbn. apply IH. lia.
Qed.
Lemma upd_other (h : heap) : forall r q o, q <> r -> nth_error (upd h r o) q = nth_error h q.
Proof.
  induction h as [|a h IH]; intros r q o N; unfold upd in *; [destruct r; reflexivity|]. destruct r as [|r], q as [|q]; cbn; try reflexivity; [lia|]. apply IH. lia.
Qed.

(** What a call may do. *)
Definition local (h : heap) (r : nat) (h' : heap) : Prop :=
  kindred h h' /\ forall q, (forall p k, ~ place h r p q k) -> nth_error h' q = nth_error h q.
Lemma each_local (f : heap -> nat -> tree A -> heap * result unit) : (forall h r X h' e, wf_heap h -> f h r X = (h', e) -> local h r h') ->
  forall l h h' e, wf_heap h -> each f h l = (h', e) -> kindred h h' /\ forall q, (forall r X p k, In (r, X) l -> ~ place h r p q k) -> nth_error h' q = nth_error h q.
Proof.
  intros F. induction l as [|[r X] l IH]; intros h h' e W E; cbn in E.
  - injection E as <- <-. split; [apply kindred_refl|reflexivity].
  - destruct (f h r X) as [h1 [u|e1]] eqn:E1; destruct (F _ _ _ _ _ W E1) as [K1 L1].
    + destruct (IH _ _ _ (kindred_wf _ _ K1 W) E) as [K2 L2]. split; [exact (kindred_trans _ _ _ K1 K2)|]. intros q H. rewrite L2.
      * apply L1. intros p k. apply (H r X). left; reflexivity.
      * intros r' X' p k Hin P. exact (H r' X' p k (or_intror Hin) (kindred_back _ _ K1 _ _ _ _ P)).
    + injection E as <- <-. split; [exact K1|]. intros q H. apply L1. intros p k. apply (H r X). left; reflexivity.
Qed.
Lemma fit_local fuel : forall h r X h' e, wf_heap h -> fit num fit1 fuel h r X = (h', e) -> local h r h'.
Proof.
  induction fuel as [|fuel IH]; intros h r X h' e W E; cbn [fit] in E.
  - injection E as <- <-. split; [apply kindred_refl|reflexivity].
  - destruct (nth_error h r) as [[k s|[t|]]|] eqn:G.
    + destruct (fit1 k X) as [s'|er]; injection E as <- <-; [|split; [apply kindred_refl|reflexivity]]. assert (L : r < length h) by (apply nth_error_Some; congruence). split.
      * intros q. destruct (Nat.eq_dec q r) as [->|N]; [rewrite G; exists (Some s'); apply upd_same; exact L|]. rewrite (upd_other h r q _ N). exact (kindred_refl h q).
      * intros q H. apply upd_other. intros ->. exact (H [] k (here h r k s G)).
    + destruct (one_number _); [|injection E as <- <-; split; [apply kindred_refl|reflexivity]].
      destruct (pairs t X) as [l|er] eqn:P; [|injection E as <- <-; split; [apply kindred_refl|reflexivity]].
      destruct (each_local _ IH l h h' e W E) as [K1 L1]. split; [exact K1|]. intros q H. apply L1. intros r' Y p k Hin Pl.
      destruct (pairs_placed t (W _ _ G) X l P) as (L & E1 & _ & E3). rewrite <- E1 in Hin. apply in_map_iff in Hin as ([p0 [r0 Y0]] & Eq & Hin). cbn in Eq. injection Eq as -> ->.
      apply E3 in Hin as [Ha _]. exact (H (p0 ++ p) k (under h r t p0 r' p q k G Ha Pl)).
    + destruct (one_number _); injection E as <- <-; (split; [apply kindred_refl|reflexivity]).
    + injection E as <- <-. split; [apply kindred_refl|reflexivity].
Qed.

Lemma at_app {B} p : forall (t : tree B) p', at_path t (p ++ p') = match at_path t p with Some u => at_path u p' | None => None end.
Proof. induction p as [|k p IH]; intros t p'; cbn; [reflexivity|]. destruct (down t k); [apply IH|reflexivity]. Qed.
(** Leaves are at the ends of paths. *)
Lemma leaf_prefix {B} (t : tree B) p p0 r r0 : at_path t p = Some (Leaf r) -> at_path t p0 = Some (Leaf r0) -> forall a b, p ++ a = p0 ++ b -> p = p0.
Proof.
  revert t p0. induction p as [|k p IH]; intros t p0 H H0 a b E.
  - destruct p0 as [|k0 p0]; [reflexivity|]. cbn in H. injection H as ->. discriminate.
  - destruct p0 as [|k0 p0]; [cbn in H0; injection H0 as ->; discriminate|]. cbn in E. injection E as <- E. cbn [at_path] in H, H0. destruct (down t k) as [u|]; [|discriminate]. f_equal. exact (IH _ _ H H0 _ _ E).
Qed.
Lemma each_app f l1 : forall h l2, each (K := K) (St := St) (A := A) f h (l1 ++ l2) = match each f h l1 with (h1, Ok _) => each f h1 l2 | (h1, Err e) => (h1, Err e) end.
Proof. induction l1 as [|[r X] l1 IH]; intros h l2; cbn; [reflexivity|]. destruct (f h r X) as [h1 [u|e]]; [apply IH|reflexivity]. Qed.

Lemma fit_stats fuel : forall h r X h' p q k, wf_heap h -> fit num fit1 fuel h r X = (h', Ok tt) -> place h r p q k ->
  (forall p' k', place h r p' q k' -> p' = p) ->
  exists X' s, at_path X p = Some X' /\ fit1 k X' = Ok s /\ nth_error h' q = Some (Plain k (Some s)).
Proof.
  induction fuel as [|fuel IH]; intros h r X h' p q k W E P U; cbn [fit] in E; [discriminate|].
  inversion P as [r0 k0 s0 G|r0 t p0 r' p' q0 k0 G Ha P']; subst; rewrite G in E.
  - destruct (fit1 k X) as [s|er] eqn:F; [|discriminate]. injection E as <-. exists X, s. split; [reflexivity|]. split; [exact F|]. apply upd_same. apply nth_error_Some. congruence.
  - destruct (one_number _); [|discriminate]. destruct (pairs t X) as [l|er] eqn:Q; [|discriminate]. destruct (pairs_placed t (W _ _ G) X l Q) as (L & E1 & N & E3).
    assert (HX : exists Y, In (p0, (r', Y)) L).
    { destruct (pairs_at p0 t X l r' (W _ _ G) Q Ha) as (Y & HY). exists Y. apply E3. auto. }
    destruct HX as (Y & Hin). pose proof (proj1 (E3 _ _ _) Hin) as [_ HY]. destruct (in_split _ _ Hin) as (L1 & L2 & EL). subst L. rewrite <- E1 in E. rewrite map_app in E. cbn [map snd] in E. rewrite each_app in E.
    destruct (each (fit num fit1 fuel) h (map snd L1)) as [h1 [u|er]] eqn:EA; [|discriminate]. cbn [each] in E. destruct (fit num fit1 fuel h1 r' Y) as [h2 [u'|er]] eqn:EB; [|discriminate].
    destruct (each_local _ (fit_local fuel) _ _ _ _ W EA) as [K1 _]. pose proof (kindred_wf _ _ K1 W) as W1. destruct u'.
    destruct (IH h1 r' Y h2 p' q k W1 EB (kindred_place _ _ K1 _ _ _ _ P')) as (X' & s & H1 & H2 & H3).
    { intros p'' k' P''. apply (kindred_back _ _ K1) in P''. pose proof (U _ _ (under h r t p0 r' p'' q k' G Ha P'')) as Eq. apply app_inv_head in Eq. exact Eq. }
    destruct (fit_local fuel _ _ _ _ _ W1 EB) as [K2 _]. pose proof (kindred_trans _ _ _ K1 K2) as K3. destruct (each_local _ (fit_local fuel) _ _ _ _ (kindred_wf _ _ K2 W1) E) as [_ L3].
    exists X', s. split; [rewrite at_app, HY; exact H1|]. split; [exact H2|]. rewrite L3; [exact H3|].
    intros r2 X2 p2 k2 Hin2 P2. apply (kindred_back _ _ K3) in P2. apply in_map_iff in Hin2 as ([p3 [r3 X3]] & Eq & Hin2). cbn in Eq. injection Eq as -> ->.
    assert (Hin3 : In (p3, (r2, X2)) (L1 ++ (p0, (r', Y)) :: L2)) by (apply in_or_app; right; right; exact Hin2). apply E3 in Hin3 as [Hb _].
    pose proof (U _ _ (under h r t p3 r2 p2 q k2 G Hb P2)) as Eq. pose proof (leaf_prefix t p3 p0 r2 r' Hb Ha _ _ Eq). subst p3.
    rewrite map_app in N. cbn [map fst] in N. apply NoDup_remove_2 in N. apply N. apply in_or_app. right. apply in_map_iff. exists (p0, (r2, X2)). auto.
Qed.

(** The data have the structure of the mixed scalers. *)
Fixpoint fits (fuel : nat) (h : heap) (r : nat) (X : tree A) : Prop :=
  match fuel with
  | 0 => False
  | S fuel =>
      match nth_error h r with
      | Some (Plain _ _) | Some (Mixed None) => True
      | Some (Mixed (Some t)) => exists l, pairs t X = Ok l /\ forall r' Y, In (r', Y) l -> fits fuel h r' Y
      | None => False
      end
  end.
Lemma kindred_fits fuel : forall h h' r X, kindred h h' -> fits fuel h' r X -> fits fuel h r X.
Proof.
  induction fuel as [|fuel IH]; intros h h' r X H F; [exact F|]. cbn [fits] in *. pose proof (H r) as Q. destruct (nth_error h r) as [[k s|[t|]]|].
  - exact I.
  - rewrite Q in F. destruct F as (l & E & F). exists l. split; [exact E|]. intros r' Y Hin. exact (IH _ _ _ _ H (F r' Y Hin)).
  - exact I.
  - rewrite Q in F. exact F.
Qed.
Lemma kindred_fits' fuel : forall h h' r X, kindred h h' -> fits fuel h r X -> fits fuel h' r X.
Proof.
  induction fuel as [|fuel IH]; intros h h' r X H F; [exact F|]. cbn [fits] in *. pose proof (H r) as Q. destruct (nth_error h r) as [[k s|[t|]]|].
  - destruct Q as (s' & ->). exact I.
  - rewrite Q. destruct F as (l & E & F). exists l. split; [exact E|]. intros r' Y Hin. exact (IH _ _ _ _ H (F r' Y Hin)).
  - rewrite Q. exact I.
  - destruct F.
Qed.
Lemma fit_fits fuel : forall h r X h', wf_heap h -> fit num fit1 fuel h r X = (h', Ok tt) -> fits fuel h r X.
Proof.
  induction fuel as [|fuel IH]; intros h r X h' W E; cbn [fit fits] in *; [discriminate|]. destruct (nth_error h r) as [[k s|[t|]]|]; try exact I; [|discriminate].
  destruct (one_number _); [|discriminate]. destruct (pairs t X) as [l|er]; [|discriminate]. exists l. split; [reflexivity|]. clear t X. revert h W E. induction l as [|[r1 X1] l IHl]; intros h W E r' Y Hin; [destruct Hin|].
  cbn [each] in E. destruct (fit num fit1 fuel h r1 X1) as [h1 [u|er]] eqn:E1; [|discriminate]. destruct u. destruct Hin as [[= -> ->]|Hin]; [exact (IH _ _ _ _ W E1)|].
  destruct (fit_local fuel _ _ _ _ _ W E1) as [K1 _]. exact (kindred_fits _ _ _ _ _ K1 (IHl _ (kindred_wf _ _ K1 W) E r' Y Hin)).
Qed.

Lemma call_inv {B C} (na : B -> nat) (nb : C -> nat) f X Y : call na nb f X = Ok Y -> f X = Ok Y.
Proof. unfold call. destruct (one_number _); [|discriminate]. destruct (f X) as [Y'|e]; [|discriminate]. cbn. destruct (one_number _); congruence. Qed.
Lemma call_ext {B C} (na : B -> nat) (nb : C -> nat) f g X : f X = g X -> call na nb f X = call na nb g X.
Proof. intros E. unfold call. rewrite E. reflexivity. Qed.

(** The number of samples of all arrays. *)
Definition counted (c : nat) (X : tree A) : Prop := forall a, has_leaf X a -> num a = c.
Lemma down_leaf (X V : tree A) k a : down X k = Some V -> has_leaf V a -> has_leaf X a.
Proof.
  destruct X as [x| |d|l|l], k as [n|i]; cbn; try discriminate; intros E H.
  - apply dget_In in E. eapply hl_dict; eauto.
  - apply nth_error_In in E. eapply hl_lst; eauto.
  - apply nth_error_In in E. eapply hl_tup; eauto.
Qed.
Lemma at_leaf p : forall (X V : tree A) a, at_path X p = Some V -> has_leaf V a -> has_leaf X a.
Proof.
  induction p as [|k p IH]; intros X V a E H; cbn in E; [injection E as ->; exact H|]. destruct (down X k) as [U|] eqn:D; [|discriminate]. exact (down_leaf X U k a D (IH U V a E H)).
Qed.
Lemma pre_counts (f : nat -> tree A -> result (tree A)) c (t : tree nat) : wf_tree t -> forall Y Z, pre f t Y = Ok Z -> counted c Y ->
  (forall p r Y' Z', at_path t p = Some (Leaf r) -> at_path Y p = Some Y' -> f r Y' = Ok Z' -> counted c Z') -> counted c Z.
Proof.
  clear fit1.
  assert (LL : forall (l : list (tree nat)) (Y : tree A) m (t' : tree nat), (t' = Lst l /\ is_lst (length l) Y = true \/ t' = Tup l /\ is_tup (length l) Y = true) ->
    Forall (fun t : tree nat => wf_tree t -> forall Y Z, pre f t Y = Ok Z -> counted c Y -> (forall p r Y' Z', at_path t p = Some (Leaf r) -> at_path Y p = Some Y' -> f r Y' = Ok Z' -> counted c Z') -> counted c Z) l ->
    Forall wf_tree l -> counted c Y -> (forall p r Y' Z', at_path t' p = Some (Leaf r) -> at_path Y p = Some Y' -> f r Y' = Ok Z' -> counted c Z') ->
    seq_list (map (fun j => pre f (nth j l NoneT) (elem j Y)) (seq 0 (length l))) = Ok m -> Forall (counted c) m).
  { intros l Y m t' T IH WL CY H E. apply seq_list_ok in E. apply F2_map_l in E. apply Forall_forall. intros V HV. apply In_nth_error in HV as (i & Ei).
    assert (Gx : exists j, nth_error (seq 0 (length l)) i = Some j /\ pre f (nth j l NoneT) (elem j Y) = Ok V).
    { clear -E Ei. revert i Ei. induction E as [|x y l0 m0 Ex E IHE]; intros [|i] Ei; try discriminate; cbn in *; [injection Ei as <-; eauto|auto]. }
    destruct Gx as (j & Ej & EV). assert (Lj : j < length l) by (apply nth_error_In in Ej; apply in_seq in Ej; lia).
    assert (D : down Y (Pos j) = Some (elem j Y)) by (destruct T as [[_ T]|[_ T]]; [exact (elem_lst _ _ _ T Lj)|exact (elem_tup _ _ _ T Lj)]).
    pose proof (nth_In l NoneT Lj) as Hin. rewrite Forall_forall in IH, WL. apply (IH _ Hin (WL _ Hin) _ _ EV).
    - intros a Ha. apply CY. exact (down_leaf _ _ _ _ D Ha).
    - intros p r Y' Z' Ha Hb Hf. apply (H (Pos j :: p) r Y' Z'); [|cbn [at_path]; rewrite D; exact Hb|exact Hf].
      assert (Dt : down t' (Pos j) = Some (nth j l NoneT)) by (destruct T as [[-> _]|[-> _]]; apply nth_error_nth'; exact Lj). cbn [at_path]. rewrite Dt. exact Ha. }
  induction t as [r| |d IH|l IH|l IH] using tree_ind2; intros W Y Z E CY H.
  - exact (H [] r Y Z eq_refl eq_refl E).
  - cbn in E. injection E as <-. exact CY.
  - rewrite pre_dict in E. destruct (has_keys d Y) eqn:K1; [|discriminate]. destruct (seq_dict _) as [m|e] eqn:S; [|discriminate]. cbn in E. injection E as <-.
    apply seq_dict_ok in S. apply F2_map_l in S. intros a Ha. inversion Ha as [|? k V ? Hin Hl| |]; subst.
    assert (Gx : exists v, In (k, v) (sort_kvs d) /\ pre f v (child k Y) = Ok V).
    { clear -S Hin. induction S as [|[k1 v1] [k2 y] l m [E1 E2] S IHS]; [destruct Hin|]. cbn in E1, E2. subst k2. destruct Hin as [[= <- <-]|Hin]; [exists v1; split; [left; reflexivity|exact E2]|].
      destruct (IHS Hin) as (v & H1 & H2). exists v. split; [right; exact H1|exact H2]. }
    destruct Gx as (v & Hv & EV). apply (Permutation_in _ (sort_kvs_perm _)) in Hv. inversion W as [| |? N WF| |]; subst. rewrite Forall_forall in IH, WF.
    pose proof (has_keys_in d Y k v K1 Hv) as D. apply (IH _ Hv (WF _ Hv) _ _ EV); [| |exact Hl].
    + intros b Hb. apply CY. exact (down_leaf _ _ _ _ D Hb).
    + intros p r Y' Z' Ha' Hb Hf. apply (H (Name k :: p) r Y' Z'); [cbn [at_path down]; rewrite (In_dget _ _ _ N Hv); exact Ha'|cbn [at_path]; rewrite D; exact Hb|exact Hf].
  - rewrite pre_lst in E. destruct (is_lst (length l) Y) eqn:K1; [|discriminate]. destruct (seq_list _) as [m|e] eqn:S; [|discriminate]. cbn in E. injection E as <-.
    inversion W; subst. pose proof (LL l Y m (Lst l) (or_introl (conj eq_refl K1)) IH ltac:(assumption) CY H S) as Q. rewrite Forall_forall in Q. intros a Ha. inversion Ha; subst. eapply Q; eauto.
  - rewrite pre_tup in E. destruct (is_tup (length l) Y) eqn:K1; [|discriminate]. destruct (seq_list _) as [m|e] eqn:S; [|discriminate]. cbn in E. injection E as <-.
    inversion W; subst. pose proof (LL l Y m (Tup l) (or_intror (conj eq_refl K1)) IH ltac:(assumption) CY H S) as Q. rewrite Forall_forall in Q. intros a Ha. inversion Ha; subst. eapply Q; eauto.
Qed.

Section Run.
Context (use : K -> St -> tree A -> result (tree A)).
Lemma run_places fuel : forall h r Y Z, wf_heap h -> run num use fuel h r Y = Ok Z ->
  (forall p q k, place h r p q k -> exists s Y' Z', nth_error h q = Some (Plain k (Some s)) /\ at_path Y p = Some Y' /\ at_path Z p = Some Z' /\ use k s Y' = Ok Z') /\
  (forall p, left_out h r p -> exists V, at_path Y p = Some V /\ at_path Z p = Some V).
Proof.
  induction fuel as [|fuel IH]; intros h r Y Z W E; cbn [run] in E; [discriminate|]. destruct (nth_error h r) as [[k [s|]|[t|]]|] eqn:G; try discriminate.
  - split.
    + intros p q k0 P. inversion P as [r0 k1 s0 G0|r0 t0 p0 r' p' q0 k1 G0 Ha P']; subst; [|congruence]. rewrite G in G0. injection G0 as <- <-. exists s, Y, Z. auto.
    + intros p O. inversion O; congruence.
  - apply call_inv in E. destruct (pre_carried _ t (W _ _ G) Y Z E) as [C1 C2]. split.
    + intros p q k0 P. inversion P as [r0 k1 s0 G0|r0 t0 p0 r' p' q0 k1 G0 Ha P']; subst; [congruence|]. rewrite G in G0. injection G0 as <-.
      destruct (C1 _ _ Ha) as (Y1 & Z1 & H1 & H2 & H3). destruct (IH _ _ _ _ W H3) as [I1 _]. destruct (I1 _ _ _ P') as (s & Y' & Z' & J1 & J2 & J3 & J4).
      exists s, Y', Z'. rewrite !at_app, H1, H2. auto.
    + intros p O. inversion O as [r0 G0|r0 t0 p0 G0 Ha|r0 t0 p0 r' p' G0 Ha O']; subst; [congruence| |]; rewrite G in G0; injection G0 as <-; [exact (C2 _ Ha)|].
      destruct (C1 _ _ Ha) as (Y1 & Z1 & H1 & H2 & H3). destruct (IH _ _ _ _ W H3) as [_ I2]. destruct (I2 _ O') as (V & J1 & J2). exists V. rewrite !at_app, H1, H2. auto.
  - apply call_inv in E. injection E as <-. split.
    + intros p q k0 P. inversion P; congruence.
    + intros p O. inversion O; subst; try congruence. exists Y. auto.
Qed.
Lemma at_rel p : forall (X Y : tree A) X' Y', wf_tree X -> trel (fun _ _ => True) X Y -> at_path X p = Some X' -> at_path Y p = Some Y' -> wf_tree X' /\ trel (fun _ _ => True) X' Y'.
Proof.
  induction p as [|k p IH]; intros X Y X' Y' W T H1 H2; [cbn in *; injection H1 as <-; injection H2 as <-; auto|]. cbn [at_path] in *. destruct (down X k) as [U|] eqn:D1; [|discriminate]. destruct (down Y k) as [V|] eqn:D2; [|discriminate].
  apply (IH U V X' Y'); auto.
  - destruct X as [x| |d|l|l], k as [n|i]; try discriminate; cbn [down] in D1; inversion W as [| |? N WF|? WF|? WF]; subst; rewrite Forall_forall in WF; [apply dget_In in D1; exact (WF _ D1)| |]; apply nth_error_In in D1; auto.
  - inversion T as [? y HR| |? m F|? m F|? e e' Pe F]; subst; destruct k as [n|i]; try discriminate; cbn [down] in D1, D2.
    + destruct (F2_nth _ _ _ F i _ D1) as (y & G & R). congruence.
    + destruct (F2_nth _ _ _ F i _ D1) as (y & G & R). congruence.
    + inversion W as [| |? N WF| |]; subst. destruct (ScalerFileProofs.dict_rel _ _ _ T N) as [_ H]. specialize (H n). rewrite D1, D2 in H. exact H.
Qed.
Lemma run_ok c fuel : forall h r X Y, wf_heap h -> fits fuel h r X -> wf_tree X -> trel (fun _ _ => True) X Y -> counted c Y ->
  (forall p q k Y', place h r p q k -> at_path Y p = Some Y' -> exists s Z', nth_error h q = Some (Plain k (Some s)) /\ use k s Y' = Ok Z' /\ counted c Z') ->
  exists Z, run num use fuel h r Y = Ok Z /\ counted c Z.
Proof.
  induction fuel as [|fuel IH]; intros h r X Y W F WX T CY H; [destruct F|]. cbn [fits run] in *. destruct (nth_error h r) as [[k s|[t|]]|] eqn:G.
  - destruct (H [] r k Y (here h r k s G) eq_refl) as (s' & Z & E & U). rewrite G in E. injection E as ->. exists Z. exact U.
  - destruct F as (l & P & F). assert (Q : forall p r' Y', at_path t p = Some (Leaf r') -> at_path Y p = Some Y' -> exists Z', run num use fuel h r' Y' = Ok Z' /\ counted c Z').
    { intros p r' Y' Ha Hb. destruct (pairs_at p t X l r' (W _ _ G) P Ha) as (X' & Hc).
      destruct (at_rel p X Y X' Y' WX T Hc Hb) as [W' T']. apply (IH h r' X' Y' W); auto.
      - apply F. destruct (pairs_placed t (W _ _ G) X l P) as (L & E1 & _ & E3). rewrite <- E1. apply in_map_iff. exists (p, (r', X')). split; [reflexivity|]. apply E3. auto.
      - intros a Ha'. apply CY. exact (at_leaf p Y Y' a Hb Ha').
      - intros p' q k Y2 Pl Hd. apply (H (p ++ p') q k Y2); [exact (under h r t p r' p' q k G Ha Pl)|]. rewrite at_app, Hb. exact Hd. }
    destruct (pre_ok (run num use fuel h) t (W _ _ G) X Y l WX T P) as (Z & EZ).
    { intros p r' Y' Ha Hb. destruct (Q p r' Y' Ha Hb) as (Z' & E & _). eauto. }
    assert (CZ : counted c Z).
    { apply (pre_counts _ c t (W _ _ G) Y Z EZ CY). intros p r' Y' Z' Ha Hb E. destruct (Q p r' Y' Ha Hb) as (Z2 & E2 & C2). rewrite E in E2. injection E2 as ->. exact C2. }
    exists Z. split; [|exact CZ]. exact (call_ok num num _ Y Z c CY CZ EZ).
  - exists Y. split; [|exact CY]. exact (call_ok num num _ Y Y c CY CY eq_refl).
  - destruct F.
Qed.
(** Nothing else is read. *)
Lemma run_same fuel : forall h h' r Y, wf_heap h -> kindred h h' -> (forall p q k, place h r p q k -> nth_error h' q = nth_error h q) -> run num use fuel h' r Y = run num use fuel h r Y.
Proof.
  induction fuel as [|fuel IH]; intros h h' r Y W H S; [reflexivity|]. cbn [run]. pose proof (H r) as Q. destruct (nth_error h r) as [[k s|[t|]]|] eqn:G.
  - rewrite (S [] r k (here h r k s G)), G. reflexivity.
  - rewrite Q. apply call_ext. apply (pre_ext _ _ t (W _ _ G)). intros p r' Y' Ha. apply (IH h h' r' Y' W H). intros p' q k Pl. exact (S _ q k (under h r t p r' p' q k G Ha Pl)).
  - rewrite Q. reflexivity.
  - rewrite Q. reflexivity.
Qed.
End Run.
End Fit.
