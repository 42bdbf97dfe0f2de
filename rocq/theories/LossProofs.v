(** Lemmas on the loss functions. *)
From Coq Require Import Reals Permutation Lra Psatz.
From Verif Require Import Base BaseLemmas TreeUtil TreeSpec NonSeqSpec NonSeqProofs MutableProofs NdArray BatchSpec TrainArgsProofs Loss LossSpec.
Local Open Scope list_scope.

(** ** trees of the same structure, in the same order *)
Inductive samest {V W} : tree (arr V) -> tree (arr W) -> Prop :=
| ss_leaf a b : wf_arr a -> wf_arr b -> shp a = shp b -> samest (Leaf a) (Leaf b)
| ss_none : samest NoneT NoneT
| ss_dict d e : Forall2 (fun kx ky => fst kx = fst ky /\ samest (snd kx) (snd ky)) d e -> samest (Dict d) (Dict e)
| ss_lst l m : Forall2 samest l m -> samest (Lst l) (Lst m)
| ss_tup l m : Forall2 samest l m -> samest (Tup l) (Tup m).

Lemma F2_len {A B} (R : A -> B -> Prop) l m : Forall2 R l m -> length l = length m.
Proof. induction 1; cbn; congruence. Qed.

Lemma samest_alike_l {V W Z} (P : tree (arr V)) : forall (Q : tree (arr W)) (U : tree (arr Z)), samest P Q -> alike P U -> alike Q U.
Proof.
  assert (HL : forall l, Forall (fun P => forall (Q : tree (arr W)) (U : tree (arr Z)), samest P Q -> alike P U -> alike Q U) l ->
    forall (m : list (tree (arr W))) (u : list (tree (arr Z))), Forall2 samest (l : list (tree (arr V))) m -> Forall2 alike l u -> Forall2 alike m u).
  { induction 1 as [|P0 l HP _ IH]; intros m u H1 H2; inversion H1; subst; inversion H2; subst; constructor; eauto. }
  induction P as [a| |d IH|l IH|l IH] using tree_ind2; intros Q U HS HA; inversion HS as [? b Ha Hb Es| |? e HF|? m HF|? m HF]; subst;
    inversion HA as [? c Hc Hd Et| |? e' Hl HG|? m' HG|? m' HG]; subst.
  - constructor; [assumption|assumption|congruence].
  - constructor.
  - constructor; [rewrite <- Hl; symmetry; eapply F2_len; eassumption|].
    clear Hl HS HA. induction HF as [|[k x] [k' z] d e [E1 E2] _ IHF]; [constructor|]. cbn [fst snd] in *. subst k'.
    inversion IH as [|? ? I1 I2]; subst. inversion HG as [|? ? (y & G1 & G1') G2]; subst. cbn [fst snd] in *. constructor; [|apply IHF; assumption].
    cbn [fst snd]. exists y. split; [exact G1|]. eapply I1; eassumption.
  - constructor. eapply HL; eassumption.
  - constructor. eapply HL; eassumption.
Qed.
Lemma samest_alike_r {V W Z} (P : tree (arr V)) : forall (Y : tree (arr W)) (U : tree (arr Z)), alike P Y -> samest Y U -> alike P U.
Proof.
  assert (HL : forall l, Forall (fun P => forall (Y : tree (arr W)) (U : tree (arr Z)), alike P Y -> samest Y U -> alike P U) l ->
    forall (m : list (tree (arr W))) (u : list (tree (arr Z))), Forall2 alike (l : list (tree (arr V))) m -> Forall2 samest m u -> Forall2 alike l u).
  { induction 1 as [|P0 l HP _ IH]; intros m u H1 H2; inversion H1; subst; inversion H2; subst; constructor; eauto. }
  induction P as [a| |d IH|l IH|l IH] using tree_ind2; intros Y U HA HS;
    inversion HA as [? c Hc Hd Et| |? e' Hl HG|? m' HG|? m' HG]; subst; inversion HS as [? b Ha Hb Es| |? e HF|? m HF|? m HF]; subst.
  - constructor; [assumption|assumption|congruence].
  - constructor.
  - constructor; [rewrite Hl; eapply F2_len; eassumption|].
    rewrite Forall_forall in *. intros [k x] Hin. destruct (HG _ Hin) as (y & G1 & G2). cbn [fst snd] in *.
    assert (HD : exists z, dget e k = Some z /\ samest y z).
    { clear - HF G1. induction HF as [|[k1 y1] [k2 z1] e' e [E1 E2] _ IHF]; [discriminate|]. cbn [fst snd dget] in *. subst k2.
      destruct (String.eqb_spec k k1) as [->|]; [injection G1 as ->; exists z1; auto|auto]. }
    destruct HD as (z & Z1 & Z2). exists z. split; [exact Z1|]. eapply (IH _ Hin); eassumption.
  - constructor. eapply HL; eassumption.
  - constructor. eapply HL; eassumption.
Qed.
Lemma samest_leaf {V W} (P : tree (arr V)) : forall (Q : tree (arr W)) c, samest P Q -> has_leaf Q c ->
  exists a, has_leaf P a /\ shp c = shp a.
Proof.
  assert (HL : forall l, Forall (fun P => forall (Q : tree (arr W)) c, samest P Q -> has_leaf Q c -> exists a, has_leaf P a /\ shp c = shp a) l ->
    forall m : list (tree (arr W)), Forall2 samest (l : list (tree (arr V))) m -> forall t c, In t m -> has_leaf t c -> exists x a, In x l /\ has_leaf x a /\ shp c = shp a).
  { induction 1 as [|P0 l HP _ IH]; intros m H1 t c Ht Hc; inversion H1 as [|? y ? m' G1 G2]; subst; [destruct Ht|].
    destruct Ht as [->|Ht]; [destruct (HP _ _ G1 Hc) as (a & Ha & E); exists P0, a; cbn; auto|].
    destruct (IH _ G2 _ _ Ht Hc) as (x & a & Hx & Ha). exists x, a. cbn. tauto. }
  induction P as [a| |d IH|l IH|l IH] using tree_ind2; intros Q c HS HC; inversion HS as [? b Ha Hb Es| |? e HF|? m HF|? m HF]; subst;
    inversion HC as [|d' k t' x' Hin Hlf|l' t' x' Hin Hlf|l' t' x' Hin Hlf]; subst.
  - exists a. split; [constructor|congruence].
  - clear HS HC. assert (HX : exists k x a, In (k, x) d /\ has_leaf x a /\ shp c = shp a).
    { induction HF as [|[k1 x1] [k2 y1] d e [E1 E2] _ IHF]; [destruct Hin|]. cbn [fst snd] in *. inversion IH as [|? ? I1 I2]; subst.
      destruct Hin as [E|Hin]; [injection E as -> ->; destruct (I1 _ _ E2 Hlf) as (a & Ha & E); exists k, x1, a; cbn; auto|].
      destruct (IHF I2 Hin) as (k0 & x0 & a & G). exists k0, x0, a. cbn. tauto. }
    destruct HX as (k0 & x0 & a & G1 & G2 & G3). exists a. split; [econstructor; eassumption|exact G3].
  - destruct (HL l IH m HF _ _ Hin Hlf) as (x & a & G1 & G2 & G3). exists a. split; [econstructor; eassumption|exact G3].
  - destruct (HL l IH m HF _ _ Hin Hlf) as (x & a & G1 & G2 & G3). exists a. split; [econstructor; eassumption|exact G3].
Qed.
Lemma samest_wf {V W} (P : tree (arr V)) : forall (Q : tree (arr W)), samest P Q -> wf_tree P -> wf_tree Q.
Proof.
  assert (HL : forall l, Forall (fun P => forall (Q : tree (arr W)), samest P Q -> wf_tree P -> wf_tree Q) l ->
    forall m : list (tree (arr W)), Forall2 samest (l : list (tree (arr V))) m -> Forall wf_tree l -> Forall wf_tree m).
  { induction 1 as [|P0 l HP _ IH]; intros m H1 H2; inversion H1; subst; inversion H2; subst; constructor; eauto. }
  induction P as [a| |d IH|l IH|l IH] using tree_ind2; intros Q HS HW; inversion HS as [? b Ha Hb Es| |? e HF|? m HF|? m HF]; subst;
    inversion HW as [| |? Hnd HWd|? HWl|? HWl]; subst; constructor; eauto.
  - replace (dkeys e) with (dkeys d); [exact Hnd|]. clear - HF. induction HF as [|? ? ? ? [E _] _ IH]; [reflexivity|]. unfold dkeys in *. cbn. congruence.
  - clear - HF IH HWd. induction HF as [|? ? ? ? [_ E] _ IHF]; [constructor|]. inversion IH; subst. inversion HWd; subst. constructor; eauto.
Qed.
Lemma alike_arr {V W} (P : tree (arr V)) : forall (Y : tree (arr W)) a, alike P Y -> has_leaf P a -> wf_arr a.
Proof.
  assert (HL : forall l, Forall (fun P => forall (Y : tree (arr W)) a, alike P Y -> has_leaf P a -> wf_arr a) l ->
    forall m : list (tree (arr W)), Forall2 alike (l : list (tree (arr V))) m -> forall t a, In t l -> has_leaf t a -> wf_arr a).
  { induction 1 as [|P0 l HP _ IH]; intros m H1 t a Ht Ha; inversion H1; subst; [destruct Ht|destruct Ht as [->|Ht]; eauto]. }
  induction P as [a| |d IH|l IH|l IH] using tree_ind2; intros Y x HA HC; inversion HA as [? c Hc Hd Et| |? e' Hl HG|? m' HG|? m' HG]; subst;
    inversion HC as [|d' k t' x' Hin Hlf|l' t' x' Hin Hlf|l' t' x' Hin Hlf]; subst.
  - assumption.
  - rewrite Forall_forall in *. destruct (HG _ Hin) as (y & _ & G). eapply (IH _ Hin); eassumption.
  - eapply HL; eassumption.
  - eapply HL; eassumption.
Qed.
Lemma samest_map {V W} (f : V -> W) (P : tree (arr V)) : (forall a, has_leaf P a -> wf_arr a) -> samest P (tmap1 (amap f) P).
Proof.
  induction P as [a| |d IH|l IH|l IH] using tree_ind2; intros H; cbn [tmap1]; constructor.
  - apply H. constructor.
  - unfold wf_arr, amap. cbn [dat shp]. rewrite map_length. apply H. constructor.
  - reflexivity.
  - assert (H' : forall k x a, In (k, x) d -> has_leaf x a -> wf_arr a) by (intros; apply H; econstructor; eassumption). clear H.
    induction d as [|[k x] d IHd]; cbn [map]; constructor; inversion IH; subst; [cbn [fst snd]; split; [reflexivity|]; eauto with datatypes|].
    apply IHd; [assumption|]. intros; eapply H'; [right|]; eassumption.
  - assert (H' : forall x a, In x l -> has_leaf x a -> wf_arr a) by (intros; apply H; econstructor; eassumption). clear H.
    induction l as [|x l IHl]; cbn [map]; constructor; inversion IH; subst; [eauto with datatypes|]. apply IHl; [assumption|]. intros; eapply H'; [right|]; eassumption.
  - assert (H' : forall x a, In x l -> has_leaf x a -> wf_arr a) by (intros; apply H; econstructor; eassumption). clear H.
    induction l as [|x l IHl]; cbn [map]; constructor; inversion IH; subst; [eauto with datatypes|]. apply IHl; [assumption|]. intros; eapply H'; [right|]; eassumption.
Qed.
Lemma alike_sym {V W} (P : tree (arr V)) : forall (Y : tree (arr W)), wf_tree P -> wf_tree Y -> alike P Y -> alike Y P.
Proof.
  assert (HL : forall l, Forall (fun P => forall (Y : tree (arr W)), wf_tree P -> wf_tree Y -> alike P Y -> alike Y P) l ->
    forall m : list (tree (arr W)), Forall wf_tree l -> Forall wf_tree m -> Forall2 alike (l : list (tree (arr V))) m -> Forall2 alike m l).
  { induction 1 as [|P0 l HP _ IH]; intros m W1 W2 H1; inversion H1; subst; inversion W1; subst; inversion W2; subst; constructor; eauto. }
  induction P as [a| |d IH|l IH|l IH] using tree_ind2; intros Y W1 W2 HA; inversion HA as [? c Hc Hd Et| |? e Hl HG|? m HG|? m HG]; subst;
    inversion W1 as [| |? Hnd HWd|? HWl|? HWl]; subst; inversion W2 as [| |? Hne HWe|? HWm|? HWm]; subst.
  - constructor; congruence.
  - constructor.
  - constructor; [congruence|]. rewrite Forall_forall in *. intros [k y] Hin. cbn [fst snd].
    assert (HI : incl (dkeys e) (dkeys d)).
    { apply NoDup_length_incl; [exact Hnd|unfold dkeys; rewrite !map_length; lia|].
      intros k' Hk. unfold dkeys in Hk. apply in_map_iff in Hk as ([k1 x1] & <- & Hin1). destruct (HG _ Hin1) as (y1 & G1 & _).
      cbn [fst] in *. apply dget_In in G1. unfold dkeys. apply in_map_iff. exists (k1, y1). auto. }
    specialize (HI k). assert (Hk : In k (dkeys e)) by (unfold dkeys; apply in_map_iff; exists (k, y); auto).
    specialize (HI Hk). unfold dkeys in HI. apply in_map_iff in HI as ([k1 x] & E & Hx). cbn [fst] in E. subst k1.
    exists x. split; [apply In_dget; assumption|]. destruct (HG _ Hx) as (y1 & G1 & G2). cbn [fst snd] in *.
    apply (In_dget e k y Hne) in Hin as Hy. rewrite Hy in G1. injection G1 as <-.
    apply (IH _ Hx); [apply (HWd _ Hx)|apply (HWe _ Hin)|exact G2].
  - constructor. eapply HL; eassumption.
  - constructor. eapply HL; eassumption.
Qed.

(** ** two trees entry by entry *)
Section Two.
Context {V W X : Type}.
Variable f : V -> W -> X.
Variable g : arr V -> arr W -> result (arr X).
Hypothesis Hg : forall a b, wf_arr a -> wf_arr b -> shp a = shp b ->
  g a b = Ok (mk_arr (shp a) (map2 f (dat a) (dat b))).

Fixpoint tmap2_list (l : list (tree (arr V))) (m : list (tree (arr W))) : result (list (tree (arr X))) :=
  match l, m with
  | [], [] => Ok []
  | x :: l', y :: m' => let* z := tmap2 g x y in let* r := tmap2_list l' m' in Ok (z :: r)
  | _, _ => Err TypeError
  end.
Definition tmap2_dict (e : list (string * tree (arr W))) :=
  fix gd (l : list (string * tree (arr V))) : result (list (string * tree (arr X))) :=
  match l with
  | [] => Ok []
  | (k, x) :: l' =>
      match dget e k with
      | Some y => let* z := tmap2 g x y in let* r := gd l' in Ok ((k, z) :: r)
      | None => Err TypeError
      end
  end.
Lemma tmap2_lst l m : tmap2 g (Lst l) (Lst m) = (let* r := tmap2_list l m in Ok (Lst r)).
Proof. reflexivity. Qed.
Lemma tmap2_tup l m : tmap2 g (Tup l) (Tup m) = (let* r := tmap2_list l m in Ok (Tup r)).
Proof. reflexivity. Qed.
Lemma tmap2_dct d e : tmap2 g (Dict d) (Dict e) =
  (if length d =? length e then let* r := tmap2_dict e d in Ok (Dict r) else Err TypeError).
Proof. reflexivity. Qed.

Definition good2 (P : tree (arr V)) (Y : tree (arr W)) (Q : tree (arr X)) : Prop :=
  tmap2 g P Y = Ok Q /\ samest P Q /\
  forall path i, at_pos Q path i = lift2 f (at_pos P path i) (at_pos Y path i).

Lemma nth_error_map2 (l : list V) : forall (m : list W) i, length l = length m ->
  nth_error (map2 f l m) i = lift2 f (nth_error l i) (nth_error m i).
Proof.
  induction l as [|a l IH]; intros [|b m] [|i] H; cbn in *; try discriminate; try reflexivity. apply IH. lia.
Qed.

Lemma good2_list l : Forall (fun P => forall Y, alike P Y -> exists Q, good2 P Y Q) l ->
  forall m, Forall2 alike l m ->
  exists r, tmap2_list l m = Ok r /\ Forall2 samest l r /\
    forall n q i, match nth_error r n with Some x => at_pos x q i | None => None end =
      lift2 f (match nth_error l n with Some x => at_pos x q i | None => None end)
              (match nth_error m n with Some x => at_pos x q i | None => None end).
Proof.
  induction l as [|P l IHl]; intros HF m HA; inversion HA as [|? Y ? m' H1 H2]; subst.
  - exists []. split; [reflexivity|]. split; [constructor|]. intros [|n] q i; reflexivity.
  - inversion HF as [|? ? HP Hl]; subst. destruct (HP Y H1) as (Q & E & A1 & A3).
    destruct (IHl Hl m' H2) as (r & Er & B1 & B3). exists (Q :: r). cbn [tmap2_list]. rewrite E. cbn [rbind]. rewrite Er. cbn [rbind].
    split; [reflexivity|]. split; [constructor; assumption|].
    intros [|n] q i; cbn [nth_error]; [apply A3|apply B3].
Qed.

Lemma alike_map2 P : forall Y, alike P Y -> exists Q, good2 P Y Q.
Proof.
  induction P as [a| |d IH|l IH|l IH] using tree_ind2; intros Y HA; inversion HA as [? b Ha Hb Es| |? e Hl HF|? m HF|? m HF]; subst.
  - exists (Leaf (mk_arr (shp a) (map2 f (dat a) (dat b)))). unfold good2. cbn [tmap2]. rewrite (Hg a b Ha Hb Es). cbn [rbind].
    assert (EL : length (dat a) = length (dat b)) by (unfold wf_arr in *; congruence).
    split; [reflexivity|]. split.
    { constructor; [exact Ha| |reflexivity]. unfold wf_arr. cbn [dat shp]. rewrite map2_length by exact EL. exact Ha. }
    intros [|s q] i; [|destruct s; reflexivity]. cbn [at_pos dat]. apply nth_error_map2. exact EL.
  - exists NoneT. unfold good2. split; [reflexivity|]. split; [constructor|]. intros [|[] q] i; reflexivity.
  - assert (HR : forall d', Forall (fun kv => forall Y, alike (snd kv) Y -> exists Q, good2 (snd kv) Y Q) d' ->
        Forall (fun kx => exists y, dget e (fst kx) = Some y /\ alike (snd kx) y) d' ->
        exists r, tmap2_dict e d' = Ok r /\
          Forall2 (fun kx kz => fst kx = fst kz /\ samest (snd kx) (snd kz)) d' r /\
          forall k q i, match dget r k with Some x => at_pos x q i | None => None end =
             lift2 f (match dget d' k with Some x => at_pos x q i | None => None end)
               (match dget e k with Some x => at_pos x q i | None => None end)).
    { clear. induction d' as [|[k x] d' IHd]; intros HI HF.
      - exists []. split; [reflexivity|]. split; [constructor|]. intros; reflexivity.
      - inversion HI as [|? ? HI1 HI2]; subst. inversion HF as [|? ? HF1 HF2]; subst. cbn [fst snd] in *.
        destruct HF1 as (y & Ey & Hy). destruct (HI1 y Hy) as (Q & E1 & E2 & E4).
        destruct (IHd HI2 HF2) as (r & R1 & R4 & R5). exists ((k, Q) :: r).
        cbn [tmap2_dict]. rewrite Ey, E1. cbn [rbind]. rewrite R1. cbn [rbind]. split; [reflexivity|].
        split; [constructor; [split; [reflexivity|exact E2]|exact R4]|].
        intros k' q i. cbn [dget]. destruct (String.eqb_spec k' k) as [->|Hk]; [rewrite Ey; apply E4|apply R5]. }
    destruct (HR d IH HF) as (r & R1 & R4 & R5). exists (Dict r). unfold good2. rewrite tmap2_dct, Hl, Nat.eqb_refl, R1. cbn [rbind].
    split; [reflexivity|]. split; [constructor; exact R4|].
    intros [|[k|n] q] i; try reflexivity. cbn [at_pos]. apply R5.
  - destruct (good2_list l IH m HF) as (r & R1 & R2 & R4). exists (Lst r). unfold good2. rewrite tmap2_lst, R1. cbn [rbind].
    split; [reflexivity|]. split; [constructor; exact R2|].
    intros [|[k|n] q] i; try reflexivity. cbn [at_pos]. apply R4.
  - destruct (good2_list l IH m HF) as (r & R1 & R2 & R4). exists (Tup r). unfold good2. rewrite tmap2_tup, R1. cbn [rbind].
    split; [reflexivity|]. split; [constructor; exact R2|].
    intros [|[k|n] q] i; try reflexivity. cbn [at_pos]. apply R4.
Qed.
End Two.

(** ** one tree entry by entry *)
Lemma at_pos_map {V W} (f : V -> W) (t : tree (arr V)) : forall path i,
  at_pos (tmap1 (amap f) t) path i = option_map f (at_pos t path i).
Proof.
  intros path. revert t. induction path as [|[k|n] q IH]; intros [a| |d|l|l] i; try reflexivity.
  - cbn [tmap1 at_pos amap dat]. rewrite nth_error_map. reflexivity.
  - cbn [tmap1 at_pos]. rewrite dget_map_snd. destruct (dget d k); cbn [option_map]; [apply IH|reflexivity].
  - cbn [tmap1 at_pos]. rewrite nth_error_map. destruct (nth_error l n); cbn [option_map]; [apply IH|reflexivity].
  - cbn [tmap1 at_pos]. rewrite nth_error_map. destruct (nth_error l n); cbn [option_map]; [apply IH|reflexivity].
Qed.
Lemma wf_map {V W} (f : V -> W) (t : tree V) : wf_tree t -> wf_tree (tmap1 f t).
Proof.
  induction t as [a| |d IH|l IH|l IH] using tree_ind2; intros Hw; inversion Hw; subst; cbn [tmap1]; constructor.
  - rewrite dkeys_map_snd. assumption.
  - rewrite Forall_map. cbn [snd]. rewrite Forall_forall in *. auto.
  - rewrite Forall_map. rewrite Forall_forall in *. auto.
  - rewrite Forall_map. rewrite Forall_forall in *. auto.
Qed.
Lemma has_leaf_map {V W} (f : V -> W) (t : tree V) b : has_leaf (tmap1 f t) b -> exists a, has_leaf t a /\ b = f a.
Proof.
  induction t as [a| |d IH|l IH|l IH] using tree_ind2; cbn [tmap1]; intros H; inversion H as [|d' k t' x' Hin Hlf|l' t' x' Hin Hlf|l' t' x' Hin Hlf]; subst.
  - exists a. split; [constructor|reflexivity].
  - apply in_map_iff in Hin as ([k0 t0] & E & Hin). cbn [fst snd] in E. injection E as <- <-.
    rewrite Forall_forall in IH. destruct (IH _ Hin Hlf) as (a & Ha & E). exists a. split; [econstructor; eassumption|exact E].
  - apply in_map_iff in Hin as (t0 & <- & Hin).
    rewrite Forall_forall in IH. destruct (IH _ Hin Hlf) as (a & Ha & E). exists a. split; [econstructor; eassumption|exact E].
  - apply in_map_iff in Hin as (t0 & <- & Hin).
    rewrite Forall_forall in IH. destruct (IH _ Hin Hlf) as (a & Ha & E). exists a. split; [econstructor; eassumption|exact E].
Qed.
Lemma has_leaf_map_conv {V W} (f : V -> W) (t : tree V) a : has_leaf t a -> has_leaf (tmap1 f t) (f a).
Proof.
  intros H. induction H; cbn [tmap1].
  - constructor.
  - econstructor; [|eassumption]. apply in_map_iff. eexists (_, _). cbn [fst snd]. split; [reflexivity|eassumption].
  - econstructor; [|eassumption]. apply in_map. eassumption.
  - econstructor; [|eassumption]. apply in_map. eassumption.
Qed.

(** ** all entries of a tree *)
Lemma concat_perm {A} (l l' : list (list A)) : Permutation l l' -> Permutation (concat l) (concat l').
Proof.
  induction 1; cbn [concat]; [constructor|apply Permutation_app_head; assumption| |etransitivity; eassumption].
  rewrite !app_assoc. apply Permutation_app_tail, Permutation_app_comm.
Qed.

Lemma NoDup_app' {A} (l m : list A) : NoDup l -> NoDup m -> (forall x, In x l -> ~ In x m) -> NoDup (l ++ m).
Proof.
  induction 1 as [|x l Hx _ IH]; intros Hm H; [exact Hm|]. cbn [app]. constructor.
  - rewrite in_app_iff. intros [G|G]; [contradiction|]. apply (H x); [left; reflexivity|exact G].
  - apply IH; [exact Hm|]. intros y Hy. apply H. right. exact Hy.
Qed.

Definition flat {V} (t : tree (arr V)) : list V := concat (map dat (leaves t)).
Definition enum {V} (t : tree (arr V)) (ps : list (list step * nat * V)) : Prop :=
  NoDup (map fst ps) /\ (forall path i v, In (path, i, v) ps <-> at_pos t path i = Some v) /\
  Permutation (map snd ps) (flat t).

Lemma enum_children {V} (cs : list (step * tree (arr V))) : NoDup (map fst cs) ->
  Forall (fun st => exists ps, enum (snd st) ps) cs ->
  exists ps, NoDup (map fst ps) /\
    (forall path i v, In (path, i, v) ps <-> exists s q t, path = s :: q /\ In (s, t) cs /\ at_pos t q i = Some v) /\
    Permutation (map snd ps) (concat (map (fun st => flat (snd st)) cs)).
Proof.
  induction cs as [|[s t] cs IH]; intros Hnd HF.
  - exists []. split; [constructor|]. split; [|constructor]. intros path i v. split; [intros []|]. intros (s & q & t & _ & [] & _).
  - cbn [map fst] in Hnd. inversion Hnd as [|? ? Hni Hnd']; subst. inversion HF as [|? ? (ps & N & I & P) HF']; subst. cbn [fst snd] in *.
    destruct (IH Hnd' HF') as (qs & N' & I' & P').
    set (add := fun pv : list step * nat * V => ((s :: fst (fst pv), snd (fst pv)), snd pv)).
    exists (map add ps ++ qs). split; [|split].
    + rewrite map_app. assert (Hadd : map fst (map add ps) = map (fun pi : list step * nat => (s :: fst pi, snd pi)) (map fst ps)).
      { rewrite !map_map. reflexivity. }
      rewrite Hadd. clear Hadd. apply NoDup_app'; [|exact N'|].
      * apply FinFun.Injective_map_NoDup; [|exact N]. intros [q1 i1] [q2 i2] E. cbn [fst snd] in E. congruence.
      * intros [path i] Hin Hin'. apply in_map_iff in Hin as ([q1 i1] & E & _). cbn [fst snd] in E. injection E as <- <-.
        apply in_map_iff in Hin' as ([[q2 i2] v2] & E & Hin'). cbn [fst] in E. injection E as -> ->.
        apply I' in Hin' as (s' & q & t' & E & Hc & _). injection E as <- <-. apply Hni. apply in_map_iff. exists (s, t'). auto.
    + intros path i v. rewrite in_app_iff, in_map_iff, I'. split.
      * intros [([[q i'] v'] & E & Hin)|(s' & q & t' & -> & Hin & E)].
        -- unfold add in E. cbn [fst snd] in E. injection E as <- <- <-. exists s, q, t. split; [reflexivity|]. split; [left; reflexivity|]. apply I. exact Hin.
        -- exists s', q, t'. split; [reflexivity|]. split; [right; exact Hin|exact E].
      * intros (s' & q & t' & -> & [E0|Hin] & E); [injection E0 as <- <-; left; exists (q, i, v); split; [reflexivity|apply I; exact E]|right; eauto 6].
    + rewrite map_app, map_map. cbn [map concat fst snd]. apply Permutation_app; [|exact P'].
      erewrite map_ext; [exact P|]. reflexivity.
Qed.

Lemma concat_map_flat {V} (l : list (tree (arr V))) : concat (map dat (concat (map leaves l))) = concat (map flat l).
Proof. unfold flat. induction l as [|t l IH]; [reflexivity|]. cbn [map concat]. rewrite map_app, concat_app, IH. reflexivity. Qed.

Lemma in_combine_seq {V} (l : list V) : forall m n x, In (Idx n, x) (combine (map Idx (seq m (length l))) l) <-> m <= n /\ nth_error l (n - m) = Some x.
Proof.
  induction l as [|a l IH]; intros m n x; cbn [length seq map combine].
  - split; [intros []|]. intros [_ H]. destruct (n - m); discriminate H.
  - cbn [In]. rewrite IH. split.
    + intros [E|[H1 H2]]; [injection E as -> ->; split; [lia|]; rewrite Nat.sub_diag; reflexivity|].
      split; [lia|]. replace (n - m) with (S (n - S m)) by lia. exact H2.
    + intros [H1 H2]. destruct (Nat.eq_dec n m) as [->|Hne]; [rewrite Nat.sub_diag in H2; injection H2 as ->; left; reflexivity|].
      right. split; [lia|]. replace (n - m) with (S (n - S m)) in H2 by lia. exact H2.
Qed.
Lemma map_fst_combine {A B} (l : list A) : forall m : list B, length l = length m -> map fst (combine l m) = l.
Proof. induction l as [|a l IH]; intros [|b m] H; cbn in *; try discriminate; f_equal; auto. Qed.
Lemma map_snd_combine {A B} (l : list A) : forall m : list B, length l = length m -> map snd (combine l m) = m.
Proof. induction l as [|a l IH]; intros [|b m] H; cbn in *; try discriminate; f_equal; auto. Qed.

Lemma enum_list {V} (l : list (tree (arr V))) : Forall (fun t => exists ps, enum t ps) l ->
  exists ps, NoDup (map fst ps) /\
    (forall path i v, In (path, i, v) ps <-> match path with Idx n :: q => match nth_error l n with Some x => at_pos x q i = Some v | None => False end | _ => False end) /\
    Permutation (map snd ps) (concat (map flat l)).
Proof.
  intros HF. set (cs := combine (map Idx (seq 0 (length l))) l).
  assert (EL : length (map Idx (seq 0 (length l))) = length l) by (rewrite map_length, seq_length; reflexivity).
  destruct (enum_children cs) as (ps & N & I & P).
  - unfold cs. rewrite map_fst_combine by exact EL. apply FinFun.Injective_map_NoDup; [intros x y E; congruence|apply seq_NoDup].
  - rewrite Forall_forall in *. intros [s t] Hin. cbn [snd]. apply HF. eapply in_combine_r. exact Hin.
  - exists ps. split; [exact N|]. split.
    + intros path i v. rewrite I. split.
      * intros (s & q & t & -> & Hin & E). destruct s as [k|n].
        { apply in_combine_l in Hin. apply in_map_iff in Hin as (? & ? & _). discriminate. }
        apply in_combine_seq in Hin as [_ Hn]. rewrite Nat.sub_0_r in Hn. rewrite Hn. exact E.
      * destruct path as [|[k|n] q]; [intros []|intros []|]. destruct (nth_error l n) as [t|] eqn:E; [|intros []]. intros H.
        exists (Idx n), q, t. split; [reflexivity|]. split; [|exact H]. apply in_combine_seq. rewrite Nat.sub_0_r. split; [lia|exact E].
    + etransitivity; [exact P|]. rewrite <- (map_map snd flat). unfold cs. rewrite (map_snd_combine _ l EL). apply Permutation_refl.
Qed.

Lemma enum_exists {V} (t : tree (arr V)) : wf_tree t -> exists ps, enum t ps.
Proof.
  induction t as [a| |d IH|l IH|l IH] using tree_ind2; intros HW.
  - exists (combine (map (fun i => ([], i)) (seq 0 (length (dat a)))) (dat a)).
    assert (EL : length (map (fun i => ([] : list step, i)) (seq 0 (length (dat a)))) = length (dat a)) by (rewrite map_length, seq_length; reflexivity).
    split; [|split].
    + rewrite map_fst_combine by exact EL. apply FinFun.Injective_map_NoDup; [intros x y E; congruence|apply seq_NoDup].
    + assert (HC : forall (l : list V) m path i v, In (path, i, v) (combine (map (fun i => ([] : list step, i)) (seq m (length l))) l) <->
        path = [] /\ m <= i /\ nth_error l (i - m) = Some v).
      { clear. induction l as [|a l IH]; intros m path i v; cbn [length seq map combine].
        - split; [intros []|]. intros (_ & _ & H). destruct (i - m); discriminate H.
        - cbn [In]. rewrite IH. split.
          + intros [E|(-> & H1 & H2)]; [injection E as <- -> ->; split; [reflexivity|]; split; [lia|]; rewrite Nat.sub_diag; reflexivity|].
            split; [reflexivity|]. split; [lia|]. replace (i - m) with (S (i - S m)) by lia. exact H2.
          + intros (-> & H1 & H2). destruct (Nat.eq_dec i m) as [->|Hne]; [rewrite Nat.sub_diag in H2; injection H2 as ->; left; reflexivity|].
            right. split; [reflexivity|]. split; [lia|]. replace (i - m) with (S (i - S m)) in H2 by lia. exact H2. }
      intros path i v. rewrite HC, Nat.sub_0_r. split; [intros (-> & _ & H); exact H|]. destruct path as [|[] ?]; try discriminate. intros H. split; [reflexivity|]. split; [lia|exact H].
    + rewrite map_snd_combine by exact EL. unfold flat. cbn. rewrite app_nil_r. apply Permutation_refl.
  - exists []. split; [constructor|]. split; [|constructor]. intros [|[] ?] i v; cbn; split; try discriminate; intros [].
  - inversion HW as [| |? Hnd HWd| |]; subst. set (cs := map (fun kt : string * tree (arr V) => (Key (fst kt), snd kt)) d).
    destruct (enum_children cs) as (ps & N & I & P).
    + unfold cs. rewrite map_map. cbn [fst]. rewrite <- (map_map fst Key). apply FinFun.Injective_map_NoDup; [intros x y E; congruence|exact Hnd].
    + unfold cs. rewrite Forall_map. cbn [snd]. rewrite Forall_forall in *. auto.
    + exists ps. split; [exact N|]. split.
      * intros path i v. rewrite I. split.
        -- intros (s & q & t & -> & Hin & E). unfold cs in Hin. apply in_map_iff in Hin as ([k t'] & E' & Hin). cbn [fst snd] in E'. injection E' as <- <-.
           cbn [at_pos]. rewrite (In_dget d k t' Hnd Hin). exact E.
        -- destruct path as [|[k|n] q]; cbn [at_pos]; try discriminate. destruct (dget d k) as [t|] eqn:E; [|discriminate]. intros H.
           exists (Key k), q, t. split; [reflexivity|]. split; [|exact H]. unfold cs. apply in_map_iff. exists (k, t). split; [reflexivity|apply dget_In; exact E].
      * etransitivity; [exact P|]. unfold cs. rewrite map_map. cbn [snd]. unfold flat at 2. cbn [leaves].
        etransitivity; [|apply concat_perm, Permutation_map, Permutation_sym, concat_perm, Permutation_map, sort_kvs_perm].
        rewrite map_map. cbn [snd]. rewrite <- (map_map snd leaves), concat_map_flat, map_map. apply Permutation_refl.
  - inversion HW as [| | |? HWl|]; subst. assert (HF : Forall (fun t => exists ps, enum t ps) l) by (rewrite Forall_forall in *; auto).
    destruct (enum_list l HF) as (ps & N & I & P). exists ps. split; [exact N|]. split.
    + intros path i v. rewrite I. destruct path as [|[k|n] q]; cbn [at_pos]; try (split; [intros []|discriminate]).
      destruct (nth_error l n); [reflexivity|split; [intros []|discriminate]].
    + unfold flat. cbn [leaves]. rewrite concat_map_flat. exact P.
  - inversion HW as [| | | |? HWl]; subst. assert (HF : Forall (fun t => exists ps, enum t ps) l) by (rewrite Forall_forall in *; auto).
    destruct (enum_list l HF) as (ps & N & I & P). exists ps. split; [exact N|]. split.
    + intros path i v. rewrite I. destruct path as [|[k|n] q]; cbn [at_pos]; try (split; [intros []|discriminate]).
      destruct (nth_error l n); [reflexivity|split; [intros []|discriminate]].
    + unfold flat. cbn [leaves]. rewrite concat_map_flat. exact P.
Qed.

(** ** the mean *)
Lemma osum_perm l l' : Permutation l l' -> osum l = osum l'.
Proof.
  induction 1 as [|x l l' _ IH|x y l|l l' l'' _ IH1 _ IH2]; cbn [osum]; [reflexivity|rewrite IH; reflexivity| |congruence].
  destruct x, y, (osum l); cbn; try reflexivity. f_equal. ring.
Qed.
Lemma osum_some l : osum (map Some l) = Some (Rsum l).
Proof. induction l as [|x l IH]; [reflexivity|]. cbn [map osum Rsum]. rewrite IH. reflexivity. Qed.

Lemma list_eqb_refl s : list_eqb s s = true.
Proof. unfold list_eqb. destruct (list_eq_dec Nat.eq_dec s s); congruence. Qed.
Lemma one_shape_ok {V} s (t : tree (arr V)) : all_shape s t -> one_shape t = true.
Proof.
  intros H. unfold one_shape. assert (HL : forall a, In a (leaves t) -> shp a = s) by (intros a Ha; apply H, leaves_has_leaf, Ha).
  destruct (leaves t) as [|a l]; [reflexivity|]. apply forallb_forall. intros b Hb. rewrite (HL a) by (left; reflexivity). rewrite (HL b) by (right; exact Hb). apply list_eqb_refl.
Qed.

Lemma tmean_spec (t : tree (arr (option R))) s ps vals : wf_tree t -> all_shape s t -> NoDup ps ->
  (forall path i, In (path, i) ps <-> at_pos t path i <> None) ->
  Forall2 (fun (pos : list step * nat) v => at_pos t (fst pos) (snd pos) = Some (Some v)) ps vals -> ps <> [] ->
  tmean t = Ok (Some (Rsum vals / INR (length vals)))%R.
Proof.
  intros HW HS HN HI HF Hne. destruct (enum_exists t HW) as (qs & N & I & P).
  unfold tmean, checked. rewrite (one_shape_ok s t HS). fold (flat t).
  assert (EL : length ps = length (map Some vals)) by (rewrite map_length; eapply F2_len; exact HF).
  assert (HP : Permutation (flat t) (map Some vals)).
  { etransitivity; [apply Permutation_sym; exact P|]. rewrite <- (map_snd_combine ps (map Some vals) EL). apply Permutation_map.
    apply NoDup_Permutation.
    - eapply NoDup_map_inv. exact N.
    - eapply (NoDup_map_inv fst). rewrite map_fst_combine by exact EL. exact HN.
    - assert (HC : forall pos v, In (pos, v) (combine ps (map Some vals)) -> at_pos t (fst pos) (snd pos) = Some v).
      { clear - HF. induction HF as [|p x ps vals H _ IH]; intros pos v; cbn [combine map]; [intros []|]. intros [E|Hin]; [injection E as <- <-; exact H|auto]. }
      assert (HC' : forall pos, In pos ps -> exists v, In (pos, v) (combine ps (map Some vals))).
      { clear - EL. revert EL. generalize (map Some vals). induction ps as [|p ps IH]; intros [|x l] EL pos Hin; cbn in *; try discriminate; [destruct Hin|].
        destruct Hin as [->|Hin]; [eauto|]. destruct (IH l ltac:(lia) pos Hin) as (v & Hv). eauto. }
      intros [[path i] v]. split; intros H.
      + apply I in H. destruct (HC' (path, i)) as (v' & Hv'); [apply HI; rewrite H; discriminate|].
        pose proof (HC _ _ Hv') as E. cbn [fst snd] in E. rewrite H in E. injection E as ->. exact Hv'.
      + apply I. apply (HC _ _ H). }
  rewrite (Permutation_length HP), map_length, (osum_perm _ _ HP), osum_some. cbn [option_map].
  destruct vals as [|v vals]; [|reflexivity]. inversion HF; subst. contradiction.
Qed.
