(** Lemmas about comparisons of shapes. *)
From Coq Require Import ZArith Lia Bool.
From Verif Require Import Base BaseLemmas TreeUtil TreeSpec NonSeqSpec NonSeqProofs Serial SerialSpec SerialProofs Scaler ScalerProofs TrainArgs TrainArgsProofs
  ReshapeProofs ReshapeMain EinsumSpec EinsumProofs EinsumMain Shapes ShapesSpec.
Local Open Scope list_scope.

Lemma nth_err (s : list nat) i v : nth_error s i = Some v <-> (i < length s /\ nth i s 0 = v).
Proof.
  split.
  - intros H. split; [apply nth_error_Some; congruence|]. apply nth_error_nth with (d := 0) in H. exact H.
  - intros [H <-]. apply nth_error_nth'. exact H.
Qed.
Lemma index_spec s z v : index s z = Ok v <-> entry_at s z v.
Proof.
  unfold index, entry_at. destruct (Z.ltb_spec z 0) as [Hz|Hz].
  - destruct (Z.leb_spec 0 (z + Z.of_nat (length s)));[destruct (Z.ltb_spec (z + Z.of_nat (length s)) (Z.of_nat (length s))); [|lia]|]; cbn [andb].
    + assert (E : forall v, nth_error s (Z.to_nat (z + Z.of_nat (length s))) = Some v <-> nth_error (rev s) (Z.to_nat (- z - 1)) = Some v).
      { intros w. rewrite !nth_err, rev_length. split; intros [H1 <-]; (split; [lia|]).
        - rewrite rev_nth by lia. f_equal. lia.
        - rewrite rev_nth by lia. f_equal. lia. }
      destruct (nth_error s _) as [w|] eqn:Ew.
      * split; [intros H1; injection H1 as <-; right; split; [lia|apply E; reflexivity]|]. intros [[? _]|[_ H1]]; [lia|]. apply E in H1. injection H1 as ->. reflexivity.
      * split; [discriminate|]. intros [[? _]|[_ H1]]; [lia|]. apply E in H1. discriminate.
    + split; [discriminate|]. intros [[? _]|[_ H1]]; [lia|]. apply nth_err in H1 as [H1 _]. rewrite rev_length in H1. lia.
  - destruct (Z.leb_spec 0 z); [|lia]. destruct (Z.ltb_spec z (Z.of_nat (length s))) as [Hl|Hl]; cbn [andb].
    + destruct (nth_error s (Z.to_nat z)) as [w|] eqn:Ew.
      * split; [intros H1; injection H1 as <-; left; auto|]. intros [[_ H1]|[? _]]; [|lia]. congruence.
      * split; [discriminate|]. intros [[_ H1]|[? _]]; [|lia]. congruence.
    + split; [discriminate|]. intros [[_ H1]|[? _]]; [|lia]. apply nth_err in H1 as [H1 _]. lia.
Qed.

Lemma sliced_det n lo hi i s r : sliced n lo hi i s r -> forall q, sliced n lo hi i s q -> r = q.
Proof. induction 1 as [i|i x s r H1 H2 _ IH|i x s r H1 _ IH]; intros q H; inversion H; subst; try tauto; [f_equal|]; auto. Qed.
Lemma cut_part s lo hi : part_of lo hi s (cut s lo hi).
Proof.
  unfold part_of, cut. set (n := length s). set (a := match lo with Some z => clamp n z | None => 0 end). set (b := match hi with Some z => clamp n z | None => n end).
  assert (Ha : forall i, i < n -> (from n lo i <-> a <= i)).
  { intros i Hi. unfold from, a. destruct lo as [z|]; [|split; [lia|trivial]]. unfold clamp. destruct (Z.ltb_spec z 0); lia. }
  assert (Hb : forall i, i < n -> (before n hi i <-> i < b)).
  { intros i Hi. unfold before, b. destruct hi as [z|]; [|split; [lia|trivial]]. unfold clamp. destruct (Z.ltb_spec z 0); lia. }
  assert (G : forall q i, i + length q = n -> sliced n lo hi i q (firstn (b - Nat.max a i) (skipn (a - i) q))).
  { induction q as [|x q IH]; intros i Hi; [rewrite skipn_nil, firstn_nil; constructor|]. cbn [length] in Hi. specialize (IH (S i) ltac:(lia)).
    destruct (Nat.le_gt_cases a i) as [H1|H1].
    - replace (a - i) with 0 by lia. replace (a - S i) with 0 in IH by lia. cbn [skipn] in *. replace (Nat.max a i) with i by lia. replace (Nat.max a (S i)) with (S i) in IH by lia.
      destruct (Nat.lt_ge_cases i b) as [H2|H2].
      + replace (b - i) with (S (b - S i)) by lia. cbn [firstn]. constructor; [apply Ha; lia|apply Hb; lia|exact IH].
      + replace (b - i) with 0 by lia. replace (b - S i) with 0 in IH by lia. cbn [firstn] in *. apply sl_out; [|exact IH]. intros [_ H3]. apply Hb in H3; lia.
    - replace (a - i) with (S (a - S i)) by lia. cbn [skipn]. replace (Nat.max a i) with (Nat.max a (S i)) by lia. apply sl_out; [|exact IH]. intros [H3 _]. apply Ha in H3; lia. }
  specialize (G s 0 eq_refl). rewrite Nat.sub_0_r in G. rewrite Nat.max_0_r in G. exact G.
Qed.
Lemma part_cut s lo hi q : part_of lo hi s q <-> q = cut s lo hi.
Proof. split; [intros H; exact (sliced_det _ _ _ _ _ _ H _ (cut_part s lo hi))|intros ->; apply cut_part]. Qed.

Lemma list_eqb_spec s r : list_eqb s r = true <-> s = r.
Proof. unfold list_eqb. destruct (list_eq_dec Nat.eq_dec s r); split; congruence. Qed.

Lemma entry_det s z v w : entry_at s z v -> entry_at s z w -> v = w.
Proof. rewrite <- !index_spec. congruence. Qed.
Lemma each_axis_spec s r l : each_axis s r l = Ok true <-> forall z, In z l -> exists v, entry_at s z v /\ entry_at r z v.
Proof.
  induction l as [|z l IH]; cbn [each_axis]; [split; [intros _ z []|reflexivity]|]. split.
  - intros H. apply rbind_ok in H as (a & Ea & H). apply rbind_ok in H as (b & Eb & H). destruct (Nat.eqb_spec a b) as [->|]; [|discriminate].
    intros z' [<-|Hz]; [exists b; rewrite <- !index_spec; auto|]. apply IH; assumption.
  - intros H. destruct (H z (or_introl eq_refl)) as (v & H1 & H2). apply index_spec in H1, H2. rewrite H1. cbn [rbind]. rewrite H2. cbn [rbind]. rewrite Nat.eqb_refl. apply IH. intros z' Hz. apply H. right. exact Hz.
Qed.
Lemma each_axis_total s r l : (forall z, In z l -> exists v, entry_at s z v) -> (forall z, In z l -> exists v, entry_at r z v) -> exists b, each_axis s r l = Ok b.
Proof.
  induction l as [|z l IH]; intros H1 H2; cbn [each_axis]; [eauto|].
  destruct (H1 z (or_introl eq_refl)) as (v & Hv). destruct (H2 z (or_introl eq_refl)) as (w & Hw). apply index_spec in Hv, Hw. rewrite Hv. cbn [rbind]. rewrite Hw. cbn [rbind].
  destruct (v =? w)%nat; [|eauto]. apply IH; intros; [apply H1|apply H2]; right; assumption.
Qed.
Lemma along_spec ax s r : same_along ax s r = Ok true <-> agree ax s r.
Proof.
  destruct ax as [|z|l|lo hi]; cbn [same_along agree].
  - rewrite <- list_eqb_spec. split; [injection 1; auto|intros ->; reflexivity].
  - rewrite each_axis_spec. split; [intros H; apply (H z); left; reflexivity|intros H z' [<-|[]]; exact H].
  - apply each_axis_spec.
  - split.
    + intros H. injection H as H. apply list_eqb_spec in H. exists (cut s lo hi). rewrite !part_cut. auto.
    + intros (q & H1 & H2). apply part_cut in H1, H2. f_equal. apply list_eqb_spec. congruence.
Qed.
Lemma along_total ax s r : has_axes ax s -> has_axes ax r -> exists b, same_along ax s r = Ok b.
Proof.
  destruct ax as [|z|l|lo hi]; cbn [same_along has_axes]; intros H1 H2; eauto.
  - apply each_axis_total; intros z' [<-|[]]; assumption.
  - apply each_axis_total; assumption.
Qed.
Lemma agree_sym ax s r : agree ax s r -> agree ax r s.
Proof. destruct ax as [|z|l|lo hi]; cbn [agree]; [auto|intros (v & ? & ?); eauto|intros H z Hz; destruct (H z Hz) as (v & ? & ?); eauto|intros (q & ? & ?); eauto]. Qed.
Lemma agree_trans ax s r q : agree ax s r -> agree ax r q -> agree ax s q.
Proof.
  destruct ax as [|z|l|lo hi]; cbn [agree]; [congruence| | |].
  - intros (v & H1 & H2) (w & H3 & H4). rewrite (entry_det _ _ _ _ H3 H2) in *. eauto.
  - intros G1 G2 z Hz. destruct (G1 z Hz) as (v & H1 & H2). destruct (G2 z Hz) as (w & H3 & H4). rewrite (entry_det _ _ _ _ H3 H2) in *. eauto.
  - intros (v & H1 & H2) (w & H3 & H4). apply part_cut in H2, H3. subst. eauto.
Qed.
Lemma agree_axes ax s r : agree ax s r -> has_axes ax s.
Proof. destruct ax as [|z|l|lo hi]; cbn; trivial; [intros (v & ? & ?); eauto|intros H z Hz; destruct (H z Hz) as (v & ? & ?); eauto]. Qed.
Lemma agree_refl ax s : has_axes ax s -> agree ax s s.
Proof. destruct ax as [|z|l|lo hi]; cbn; auto; [intros (v & ?); eauto|intros H z Hz; destruct (H z Hz) as (v & ?); eauto|]. intros _. eauto using cut_part. Qed.

Lemma all_along_spec ax r l : all_along ax r l = Ok true <-> Forall (fun s => agree ax s r) l.
Proof.
  induction l as [|s l IH]; cbn [all_along]; [split; [constructor|reflexivity]|]. split.
  - intros H. apply rbind_ok in H as (b & Eb & H). destruct b; [|discriminate]. apply along_spec in Eb. constructor; [exact Eb|]. apply IH. exact H.
  - intros H. inversion H as [|? ? H1 H2]; subst. apply along_spec in H1. rewrite H1. cbn [rbind]. apply IH. exact H2.
Qed.
Lemma all_along_total ax r l : has_axes ax r -> Forall (has_axes ax) l -> exists b, all_along ax r l = Ok b.
Proof.
  intros Hr. induction 1 as [|s l H _ IH]; cbn [all_along]; [eauto|]. destruct (along_total ax s r H Hr) as (b & ->). cbn [rbind]. destruct b; eauto.
Qed.
Theorem uniform_spec ax t : has_uniform ax t = Ok true <-> (length (leaves t) <= 1 \/ forall s r, has_leaf t s -> has_leaf t r -> agree ax s r).
Proof.
  unfold has_uniform. split.
  - intros H. destruct (leaves t) as [|r0 l] eqn:E; [left; cbn; lia|]. destruct l as [|s0 l]; [left; cbn; lia|]. right. apply all_along_spec in H.
    assert (G : forall s, has_leaf t s -> agree ax s r0).
    { intros s Hs. apply leaves_has_leaf in Hs. rewrite E in Hs. destruct Hs as [<-|Hs].
      - inversion H as [|? ? H1 _]; subst. apply agree_refl. apply (agree_axes ax r0 s0). apply agree_sym. exact H1.
      - rewrite Forall_forall in H. apply H. exact Hs. }
    intros s r Hs Hr. eapply agree_trans; [apply G; exact Hs|]. apply agree_sym. apply G. exact Hr.
  - intros H. destruct (leaves t) as [|r0 l] eqn:E; [reflexivity|]. apply all_along_spec. rewrite Forall_forall. intros s Hs. destruct H as [H|H].
    + destruct l; [destruct Hs|cbn in H; lia].
    + apply H; apply leaves_has_leaf; rewrite E; [right; exact Hs|left; reflexivity].
Qed.
Theorem uniform_total ax t : (forall s, has_leaf t s -> has_axes ax s) -> exists b, has_uniform ax t = Ok b.
Proof.
  intros H. unfold has_uniform. destruct (leaves t) as [|r l] eqn:E; [eauto|]. apply all_along_total.
  - apply H, leaves_has_leaf. rewrite E. left. reflexivity.
  - rewrite Forall_forall. intros s Hs. apply H, leaves_has_leaf. rewrite E. right. exact Hs.
Qed.
Lemma has_leaf_not_empty {X} (t : tree X) : (exists s, has_leaf t s) <-> leaves t <> [].
Proof.
  split; [intros (s & Hs) E; apply leaves_has_leaf in Hs; rewrite E in Hs; exact Hs|]. intros H. destruct (leaves t) as [|s l] eqn:E; [congruence|]. exists s. apply leaves_has_leaf. rewrite E. left. reflexivity.
Qed.
Theorem uniform_equal_spec ax t u : uniform_equal ax t u = Ok true <->
  ((exists s, has_leaf t s) /\ (exists r, has_leaf u r) /\ forall s r, has_leaf t s \/ has_leaf u s -> has_leaf t r \/ has_leaf u r -> agree ax s r).
Proof.
  rewrite !has_leaf_not_empty. unfold uniform_equal. split.
  - intros H. apply rbind_ok in H as (a & Ea & H). destruct a; [|discriminate]. apply rbind_ok in H as (b & Eb & H). destruct b; [|discriminate]. cbn [negb] in H.
    unfold has_uniform in Ea, Eb. destruct (leaves t) as [|s0 l] eqn:Et; [discriminate|]. destruct (leaves u) as [|r0 m] eqn:Eu; [discriminate|].
    split; [discriminate|]. split; [discriminate|]. apply along_spec in H. apply all_along_spec in Ea, Eb. rewrite Forall_forall in Ea, Eb.
    assert (G : forall s, has_leaf t s \/ has_leaf u s -> agree ax s s0).
    { intros s [Hs|Hs]; apply leaves_has_leaf in Hs; [rewrite Et in Hs|rewrite Eu in Hs]; destruct Hs as [<-|Hs].
      - eapply agree_refl, agree_axes; exact H.
      - apply Ea; exact Hs.
      - apply agree_sym; exact H.
      - eapply agree_trans; [apply Eb; exact Hs|]. apply agree_sym; exact H. }
    intros s r Hs Hr. eapply agree_trans; [apply G; exact Hs|]. apply agree_sym. apply G. exact Hr.
  - intros (Nt & Nu & H). assert (E1 : has_uniform ax t = Ok true) by (apply uniform_spec; right; auto). assert (E2 : has_uniform ax u = Ok true) by (apply uniform_spec; right; auto).
    rewrite E1. cbn [rbind negb]. rewrite E2. cbn [rbind negb]. destruct (leaves t) as [|s0 l] eqn:Et; [congruence|]. destruct (leaves u) as [|r0 m] eqn:Eu; [congruence|].
    apply along_spec, H; [left|right]; apply leaves_has_leaf; [rewrite Et|rewrite Eu]; left; reflexivity.
Qed.
Theorem uniform_equal_total ax t u : (exists s, has_leaf t s) -> (exists s, has_leaf u s) -> (forall s, has_leaf t s \/ has_leaf u s -> has_axes ax s) -> exists b, uniform_equal ax t u = Ok b.
Proof.
  rewrite !has_leaf_not_empty. intros Nt Nu H. unfold uniform_equal. destruct (uniform_total ax t ltac:(auto)) as (a & ->). cbn [rbind]. destruct a; cbn [negb]; [|eauto].
  destruct (uniform_total ax u ltac:(auto)) as (b & ->). cbn [rbind]. destruct b; cbn [negb]; [|eauto].
  destruct (leaves t) as [|s0 l] eqn:Et; [congruence|]. destruct (leaves u) as [|r0 m] eqn:Eu; [congruence|].
  apply along_total; apply H; [left|right]; apply leaves_has_leaf; [rewrite Et|rewrite Eu]; left; reflexivity.
Qed.

Lemma zip_along_spec ax l : forall m, length l = length m -> zip_along ax l m = Ok true <-> Forall2 (agree ax) l m.
Proof.
  induction l as [|s l IH]; intros [|r m] L; try discriminate; cbn [zip_along]; [split; [constructor|reflexivity]|]. injection L as L. split.
  - intros H. apply rbind_ok in H as (b & Eb & H). destruct b; [|discriminate]. apply along_spec in Eb. constructor; [exact Eb|]. apply IH; assumption.
  - intros H. inversion H as [|? ? ? ? H1 H2]; subst. apply along_spec in H1. rewrite H1. cbn [rbind]. apply IH; assumption.
Qed.
Lemma zip_along_total ax l m : Forall (has_axes ax) l -> Forall (has_axes ax) m -> exists b, zip_along ax l m = Ok b.
Proof.
  intros H. revert m. induction H as [|s l H _ IH]; intros m Hm; [exists true; reflexivity|]. destruct Hm as [|r m Hr Hm]; [exists true; reflexivity|]. cbn [zip_along].
  destruct (along_total ax s r H Hr) as (b & ->). cbn [rbind]. destruct b; eauto.
Qed.
(** a tree is related to another when the structures are the same and the leaves
    are, in their order *)
Lemma trel_of_leaves {X Y} (R : X -> Y -> Prop) t u : wf_tree t -> trel (fun _ _ => True) t u -> Forall2 R (leaves t) (leaves u) -> trel R t u.
Proof.
  intros W T F. destruct (trel_pair _ _ _ T) as (y & Y1 & Y2 & Wy). specialize (Wy W).
  pose proof (leaves_trel _ _ Wy _ Y1) as F1. pose proof (leaves_trel _ _ Wy _ Y2) as F2.
  assert (G : forall q, has_leaf y q -> R (fst q) (snd q)).
  { intros q Hq. apply leaves_has_leaf in Hq. revert F F1 F2 Hq. generalize (leaves t) (leaves u) (leaves y). clear. intros lt lu ly. revert lt lu. induction ly as [|p ly IH]; intros lt lu F F1 F2 Hq; [destruct Hq|destruct Hq as [ -> |Hq]].
    - inversion F1 as [|? ? ? ? E1 F1']; subst. inversion F2 as [|? ? ? ? E2 F2']; subst. inversion F; subst. destruct E2 as [<- _]. assumption.
    - inversion F1 as [|? ? ? ? E1 F1']; subst. inversion F2 as [|? ? ? ? E2 F2']; subst. inversion F; subst. eapply IH; eauto. }
  pose proof (trel_leaf_prop _ (fun q => R (fst q) (snd q)) _ _ G Y2) as T2. eapply trel_comp; [|apply trel_flip; exact Y1|exact T2].
  cbn. intros x q y0 <- [[<- _] H]. exact H.
Qed.
Theorem shapes_equal_spec ax t u : wf_tree t -> wf_tree u -> shapes_equal ax t u = Ok true <-> trel (agree ax) t u.
Proof.
  intros W W'. unfold shapes_equal. split.
  - intros H. destruct (same_struct t u) eqn:E; [|discriminate]. pose proof (struct_alike t W u E) as T.
    apply trel_of_leaves; [exact W|exact T|]. apply zip_along_spec; [|exact H]. eapply F2_length, leaves_trel; [exact W|exact T].
  - intros T. assert (T' : alike t u) by (eapply trel_impl; [|exact T]; auto). rewrite (alike_struct t u W' T').
    pose proof (leaves_trel _ _ W _ T) as F. apply zip_along_spec; [eapply F2_length; exact F|exact F].
Qed.
Theorem shapes_equal_total ax t u : (forall s, has_leaf t s \/ has_leaf u s -> has_axes ax s) -> exists b, shapes_equal ax t u = Ok b.
Proof.
  intros H. unfold shapes_equal. destruct (same_struct t u); [|eauto]. apply zip_along_total; rewrite Forall_forall; intros s Hs; apply H; [left|right]; apply leaves_has_leaf; exact Hs.
Qed.

(** ** the comparisons used by training are these *)
Lemma collect_spec (s : list nat) l q : collect (index s) l = Ok q <-> Forall2 (entry_at s) l q.
Proof.
  revert q. induction l as [|z l IH]; intros q; cbn [collect].
  - split; [injection 1 as <-; constructor|intros H; inversion H; reflexivity].
  - split.
    + intros H. apply rbind_ok in H as (v & Ev & H). apply rbind_ok in H as (r & Er & H). injection H as <-. constructor; [apply index_spec; exact Ev|apply IH; exact Er].
    + intros H. inversion H as [|? v ? r H1 H2]; subst. apply index_spec in H1. apply IH in H2. rewrite H1. cbn [rbind]. rewrite H2. reflexivity.
Qed.
Section Training.
Context {A : Type} (shape : A -> list nat).
Lemma train_uniform (t : tree A) (u : tree (list nat)) : leaves u = map shape (leaves t) -> has_uniform_0 shape t = has_uniform (At 0) u.
Proof.
  intros E. unfold has_uniform_0, has_uniform. rewrite E. destruct (leaves t) as [|a l]; [reflexivity|]. cbn [map].
  assert (IX : forall s, index s 0 = match s with n :: _ => Ok n | [] => Err IndexError end) by (intros [|n s]; [reflexivity|cbn; reflexivity]).
  assert (F0 : forall l, rfold (fun (acc : bool) b => if acc then let* m := dim0 shape b in let* n := dim0 shape a in Ok (m =? n) else Ok false) l false = Ok false).
  { clear l E. induction l as [|b l IH]; [reflexivity|exact IH]. }
  clear E. induction l as [|b l IH]; [reflexivity|]. cbn [rfold map all_along same_along each_axis]. rewrite !IX. unfold dim0 at 1 2.
  destruct (shape b) as [|m sb]; [reflexivity|]. cbn [rbind]. destruct (shape a) as [|n sa] eqn:Ea; [reflexivity|]. cbn [rbind]. destruct (m =? n); [|apply F0]. exact IH.
Qed.
End Training.
