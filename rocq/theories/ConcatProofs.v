(** Proofs about ConcatenateLeaves. *)
From Coq Require Import ZArith Permutation.
From Verif Require Import Base BaseLemmas TreeUtil TreeSpec TreeProofs NonSeqSpec NonSeqProofs NdArray Serial SerialSpec SerialProofs Scaler ScalerProofs EigenProofs TrainArgsProofs Reshape ReshapeSpec ReshapeProofs ReshapeMain.
Local Open Scope list_scope.
Local Open Scope nat_scope.

Lemma ravel_app s : forall t i j, length i = length s -> ravel (s ++ t) (i ++ j) = ravel s i * prod t + ravel t j.
Proof.
  induction s as [|n s IH]; intros t [|x i] j H; cbn in H; try lia; [reflexivity|]. cbn [app ravel]. rewrite IH by lia. rewrite prod_app. nia.
Qed.
Lemma valid_length s i : valid s i -> length i = length s.
Proof. intros H. induction H; cbn; congruence. Qed.

(** Blocks of equal length. *)
Lemma concat_blocks {V} (d : V) (B : nat) (l : list (list V)) : (forall x, In x l -> length x = B) ->
  length (concat l) = length l * B /\ forall p r, p < length l -> r < B -> nth (p * B + r) (concat l) d = nth r (nth p l []) d.
Proof.
  induction l as [|x l IH]; intros H; [split; [reflexivity|cbn; intros; lia]|]. destruct IH as [L N]; [intros y Hy; apply H; right; exact Hy|].
  pose proof (H x (or_introl eq_refl)) as Hx. cbn [concat length]. rewrite app_length, L, Hx. split; [lia|]. intros [|p] r Hp Hr.
  - rewrite app_nth1 by lia. reflexivity.
  - rewrite app_nth2 by nia. replace (S p * B + r - length x) with (p * B + r) by nia. cbn [nth]. apply N; [cbn in Hp; lia|exact Hr].
Qed.
(** Blocks of different lengths. *)
Lemma concat_parts {V} (d : V) (l : list (list V)) : forall i x r, nth_error l i = Some x -> r < length x ->
  nth (list_sum (firstn i (map (@length V) l)) + r) (concat l) d = nth r x d.
Proof.
  induction l as [|y l IH]; intros [|i] x r E H; try discriminate; cbn in E.
  - injection E as ->. cbn. rewrite app_nth1 by exact H. reflexivity.
  - cbn [map firstn list_sum fold_right concat]. rewrite app_nth2 by lia. rewrite <- (IH i x r E H). f_equal. unfold list_sum. lia.
Qed.
Lemma concat_len {V} (l : list (list V)) : length (concat l) = list_sum (map (@length V) l).
Proof. induction l as [|x l IH]; [reflexivity|]. cbn [concat map]. rewrite app_length, IH. reflexivity. Qed.
Lemma chunk_length {V} n p (l : list V) : (S p) * n <= length l -> length (chunk n p l) = n.
Proof. intros H. unfold chunk. rewrite firstn_length, skipn_length. nia. Qed.
Lemma nth_skipn {V} (d : V) a : forall l r, nth r (skipn a l) d = nth (a + r) l d.
Proof. induction a as [|a IH]; intros [|x l] r; cbn; try reflexivity; [destruct r; reflexivity|apply IH]. Qed.
Lemma nth_firstn {V} (d : V) n : forall l r, r < n -> nth r (firstn n l) d = nth r l d.
Proof. induction n as [|n IH]; intros [|x l] [|r] H; cbn; try lia; try reflexivity. apply IH. lia. Qed.
Lemma chunk_nth {V} (d : V) n p l r : r < n -> nth r (chunk n p l) d = nth (p * n + r) l d.
Proof. intros H. unfold chunk. rewrite nth_firstn by exact H. apply nth_skipn. Qed.
Lemma sum_scale Q l : list_sum (map (fun n => n * Q) l) = list_sum l * Q.
Proof. induction l as [|n l IH]; [reflexivity|]. change (n * Q + list_sum (map (fun n => n * Q) l) = (n + list_sum l) * Q). rewrite IH. nia. Qed.
Lemma sum_split (sizes : list nat) : forall J, J < list_sum sizes -> exists i n j, nth_error sizes i = Some n /\ j < n /\ J = list_sum (firstn i sizes) + j.
Proof.
  induction sizes as [|n l IH]; intros J H; [cbn in H; lia|]. change (list_sum (n :: l)) with (n + list_sum l) in H. destruct (Nat.lt_ge_cases J n) as [L|L].
  - exists 0, n, J. cbn. auto.
  - destruct (IH (J - n)) as (i & m & j & E & Hj & HJ); [lia|]. exists (S i), m, j. split; [exact E|]. split; [exact Hj|]. cbn [firstn]. change (list_sum (n :: firstn i l)) with (n + list_sum (firstn i l)). lia.
Qed.

(** The shape of the result does not depend on the entries. *)
Definition cshape (k : nat) (l : list (list nat)) : result (list nat) :=
  match l with
  | [] => Err ValueError
  | s0 :: _ =>
      if length s0 <=? k then Err ValueError
      else let pre := firstn k s0 in let post := skipn (S k) s0 in
           if forallb (fun s => list_nat_eqb s (pre ++ nth k s 0 :: post)) l
           then Ok (pre ++ list_sum (map (fun s => nth k s 0) l) :: post) else Err TypeError
  end.
Lemma forallb_map {A B} (f : A -> B) p l : forallb p (map f l) = forallb (fun x => p (f x)) l.
Proof. induction l as [|x l IH]; cbn; [reflexivity|]. rewrite IH. reflexivity. Qed.
Lemma concat_cshape {V} k (ars : list (arr V)) :
  (forall c, concat_axis k ars = Ok c -> cshape k (map shp ars) = Ok (shp c)) /\ (forall s, cshape k (map shp ars) = Ok s -> exists c, concat_axis k ars = Ok c /\ shp c = s).
Proof.
  unfold concat_axis, cshape. destruct ars as [|a0 ars']; [split; discriminate|]. cbn [map]. cbv zeta.
  change (shp a0 :: map shp ars') with (map shp (a0 :: ars')). rewrite forallb_map. destruct (length (shp a0) <=? k); [split; discriminate|].
  destruct (forallb _ (a0 :: ars')); [|split; discriminate]. cbn [map]. rewrite map_map. split; [intros c [= <-]; reflexivity|]. intros s [= <-]. eexists. split; reflexivity.
Qed.
Lemma forallb_ext {A} (f g : A -> bool) l : (forall x, f x = g x) -> forallb f l = forallb g l.
Proof. intros H. induction l as [|x l IH]; cbn; [reflexivity|]. rewrite H, IH. reflexivity. Qed.
Lemma eqb_cons b s t : list_nat_eqb (b :: s) (b :: t) = list_nat_eqb s t.
Proof. unfold list_nat_eqb. destruct (list_eq_dec Nat.eq_dec s t) as [ -> |N]; destruct (list_eq_dec Nat.eq_dec (b :: _) (b :: _)) as [E|E]; try reflexivity; [contradiction|]. injection E as E. contradiction. Qed.
Lemma cshape_batch k b l : cshape (S k) (map (cons b) l) = match cshape k l with Ok s => Ok (b :: s) | Err e => Err e end.
Proof.
  unfold cshape. destruct l as [|s0 l']; [reflexivity|]. cbn [map]. cbv zeta. change ((b :: s0) :: map (cons b) l') with (map (cons b) (s0 :: l')). rewrite forallb_map.
  cbn [length firstn skipn Nat.leb]. destruct (length s0 <=? k); [reflexivity|].
  rewrite (forallb_ext _ (fun s => list_nat_eqb s (firstn k s0 ++ nth k s 0 :: skipn (S k) s0))); [|intros s; cbn [app nth]; apply eqb_cons].
  destruct (forallb _ (s0 :: l')); [|reflexivity]. cbn [map]. rewrite map_map. reflexivity.
Qed.

Theorem concat_joined {V} (d : V) k (ars : list (arr V)) c : Forall wf_arr ars -> concat_axis k ars = Ok c -> joined d k ars c.
Proof.
  intros W E. unfold concat_axis in E. destruct ars as [|a0 ars'] eqn:EA; [discriminate|]. rewrite <- EA in *. clear ars' EA.
  destruct (Nat.leb_spec (length (shp a0)) k) as [|Hk]; [discriminate|]. set (pre := firstn k (shp a0)) in *. set (post := skipn (S k) (shp a0)) in *.
  destruct (forallb _ ars) eqn:F; [|discriminate]. injection E as <-. rewrite forallb_forall in F.
  set (sz := fun a : arr V => nth k (shp a) 0) in *. assert (Hs : forall a, In a ars -> shp a = pre ++ sz a :: post).
  { intros a Ha. specialize (F a Ha). unfold list_nat_eqb in F. destruct (list_eq_dec Nat.eq_dec (shp a) (pre ++ nth k (shp a) 0 :: post)) as [E|]; [exact E|discriminate]. }
  assert (Lp : length pre = k) by (unfold pre; rewrite firstn_length; lia). clearbody pre post.
  set (Q := prod post). set (P := prod pre). set (sizes := map sz ars).
  set (blk := fun p => concat (map (fun a => chunk (nth k (shp a) 0 * Q) p (dat a)) ars)).
  assert (Wa : forall a, In a ars -> length (dat a) = P * (sz a * Q)).
  { intros a Ha. rewrite Forall_forall in W. specialize (W a Ha). unfold wf_arr in W. rewrite (Hs a Ha) in W. rewrite prod_app, prod_cons in W. exact W. }
  assert (Lc : forall p a, p < P -> In a ars -> length (chunk (sz a * Q) p (dat a)) = sz a * Q).
  { intros p a Hp Ha. apply chunk_length. rewrite (Wa a Ha). apply Nat.mul_le_mono_r. lia. }
  assert (Lm : forall p, p < P -> map (@length V) (map (fun a => chunk (sz a * Q) p (dat a)) ars) = map (fun n => n * Q) sizes).
  { intros p Hp. unfold sizes. rewrite !map_map. apply map_ext_in. intros a Ha. apply Lc; assumption. }
  assert (Lb : forall x, In x (map blk (seq 0 P)) -> length x = list_sum sizes * Q).
  { intros x Hx. apply in_map_iff in Hx as (p & <- & Hp). apply in_seq in Hp. unfold blk.
    rewrite <- sum_scale, <- (Lm p) by lia. apply concat_len. }
  destruct (concat_blocks d (list_sum sizes * Q) (map blk (seq 0 P)) Lb) as [CL CN]. rewrite map_length, seq_length in CL, CN.
  exists pre, post, sizes. split; [exact Lp|]. split.
  { unfold sizes. clear -Hs. induction ars as [|a l IH]; cbn; constructor; [apply Hs; left; reflexivity|]. apply IH. intros b Hb. apply Hs. right; exact Hb. }
  split; [reflexivity|]. split; [unfold wf_arr; cbn [shp dat]; fold Q P; fold blk; rewrite CL, prod_app, prod_cons; reflexivity|]. split; [|apply sum_split].
  intros i a n Ea En ip j iq Vp Hj Vq. pose proof (nth_error_In _ _ Ea) as Ha.
  assert (n = sz a) as ->. { unfold sizes in En. rewrite (map_nth_error sz i ars Ea) in En. congruence. }
  unfold entry. cbn [shp dat]. rewrite (Hs a Ha). rewrite !ravel_app by (apply valid_length; exact Vp). cbn [ravel]. rewrite !prod_cons. fold Q P blk.
  pose proof (ravel_bound _ _ Vp) as Bp. pose proof (ravel_bound _ _ Vq) as Bq. fold P in Bp. fold Q in Bq. set (p := ravel pre ip) in *. set (q := ravel post iq) in *.
  assert (Hi : list_sum (firstn i sizes) + sz a <= list_sum sizes).
  { clear -En. revert i En. generalize (sz a) as n. induction sizes as [|m l IH]; intros n [|i] E; try discriminate; cbn [nth_error firstn] in *; change (list_sum (m :: l)) with (m + list_sum l).
    - injection E as ->. cbn. lia.
    - specialize (IH n i E). change (list_sum (m :: firstn i l)) with (m + list_sum (firstn i l)). lia. }
  rewrite CN; [|exact Bp|nia].
  change (@nil V) with (@concat V []). rewrite (nth_indep _ _ (blk 0)) by (rewrite map_length, seq_length; exact Bp). rewrite map_nth, seq_nth by exact Bp. cbn [plus].
  replace ((list_sum (firstn i sizes) + j) * Q + q) with (list_sum (firstn i (map (fun n => n * Q) sizes)) + (j * Q + q)) by (rewrite firstn_map, sum_scale; ring).
  unfold blk. rewrite <- (Lm p Bp).
  rewrite (concat_parts d _ i (chunk (sz a * Q) p (dat a))).
  - rewrite chunk_nth by nia. reflexivity.
  - apply (map_nth_error (fun a => chunk (sz a * Q) p (dat a))). exact Ea.
  - rewrite Lc by assumption. nia.
Qed.

(* ------------------------------------------------------------------ *)
(** * The module *)
Definition twin {V W} (b c : nat) (x : arr V) (y : arr W) : Prop := exists s, shp x = b :: s /\ shp y = c :: s.

Lemma flat_batch {V} b s (a : arr V) : 1 <= b -> shp a = b :: s -> flat_leaf a = Ok (one_row a).
Proof.
  intros Hb Hs. unfold flat_leaf. rewrite (reshape_fits b s [(-1)%Z] [prod s]); auto.
  - unfold one_row. rewrite Hs. reflexivity.
  - split; [repeat constructor|cbn; lia].
  - intros [|i] [|j] Hi Hj; cbn in Hi, Hj; try reflexivity; try (destruct i; discriminate); destruct j; discriminate.
  - intros _ [E|[]]; discriminate.
Qed.
Lemma flat_all {V} b (ls : list (arr V)) : 1 <= b -> Forall (fun a => exists s, shp a = b :: s) ls -> rmapM flat_leaf ls = Ok (map one_row ls).
Proof. intros Hb. induction 1 as [|a l (s & Hs) _ IH]; cbn [rmapM map]; [reflexivity|]. rewrite (flat_batch b s a Hb Hs), IH. reflexivity. Qed.

Lemma join_axis {V} axis b (ls : list (arr V)) : inner axis -> 1 <= b -> Forall (fun a => exists s, shp a = b :: s) ls ->
  join_leaves axis ls = concat_axis (inner_axis axis) (prepared axis ls).
Proof.
  intros Ha Hb H. destruct axis as [z|]; cbn [join_leaves inner_axis prepared inner] in *.
  - unfold np_concatenate. destruct ls as [|a l]; [reflexivity|]. destruct (Z.ltb_spec (z + 1) 0); [lia|]. destruct (Z.ltb_spec (z + 1) 0); [lia|].
    replace (Z.to_nat (z + 1)) with (S (Z.to_nat z)) by lia. reflexivity.
  - rewrite (flat_all b) by assumption. cbn [rbind]. unfold np_concatenate. destruct ls as [|a l]; reflexivity.
Qed.
Lemma twin_shapes {V W} b c axis (l : list (arr V)) (m : list (arr W)) : Forall2 (twin b c) l m ->
  exists ss, map shp (prepared axis l) = map (cons b) ss /\ map shp (prepared axis m) = map (cons c) ss.
Proof.
  induction 1 as [|x y l m (s & E1 & E2) F (ss & I1 & I2)]; [exists []; destruct axis; split; reflexivity|].
  destruct axis; cbn [prepared map] in *.
  - exists (s :: ss). rewrite E1, E2, I1, I2. split; reflexivity.
  - exists ([prod s] :: ss). cbn [map one_row shp hd tl]. rewrite I1, I2, E1, E2. split; reflexivity.
Qed.
Lemma twin_left {V W} b c (l : list (arr V)) (m : list (arr W)) : Forall2 (twin b c) l m -> Forall (fun a => exists s, shp a = b :: s) l /\ Forall (fun a => exists s, shp a = c :: s) m.
Proof. induction 1 as [|x y l m (s & E1 & E2) F [I1 I2]]; split; constructor; eauto. Qed.

Lemma join_twins {V W} axis b c (l : list (arr V)) (m : list (arr W)) r : inner axis -> 1 <= b -> 1 <= c -> Forall2 (twin b c) l m ->
  join_leaves axis l = Ok r -> exists r', join_leaves axis m = Ok r' /\ twin b c r r'.
Proof.
  intros Ha Hb Hc F E. destruct (twin_left _ _ _ _ F) as [L1 L2]. rewrite (join_axis axis b) in E by assumption. rewrite (join_axis axis c) by assumption.
  destruct (twin_shapes b c axis l m F) as (ss & E1 & E2). apply concat_cshape in E. rewrite E1 in E.
  assert (K : exists k, inner_axis axis = S k) by (destruct axis; cbn; eauto). destruct K as (k & Hk). rewrite Hk in *.
  rewrite cshape_batch in E. destruct (cshape k ss) as [s|] eqn:Es; [|discriminate]. injection E as E.
  destruct (proj2 (concat_cshape (S k) (prepared axis m)) (c :: s)) as (r' & Er & Hr); [rewrite E2, cshape_batch, Es; reflexivity|].
  exists r'. split; [exact Er|]. exists s. split; congruence.
Qed.

Lemma pick_rel {V W} sep b c path_order (t : tree (arr V)) (u : tree (arr W)) ts : wf_tree t -> solid t -> trel (twin b c) t u ->
  pick_leaves sep path_order t = Ok ts -> exists us, pick_leaves sep path_order u = Ok us /\ Forall2 (trel (twin b c)) ts us.
Proof.
  intros Wt S T E. destruct path_order as [ps|]; cbn [pick_leaves] in *.
  - revert ts E. induction ps as [|p ps IH]; intros ts E; cbn [rmapM] in *; [injection E as <-; exists []; split; [reflexivity|constructor]|].
    apply rbind_ok in E as (x & E1 & E). apply rbind_ok in E as (xs & E2 & E). injection E as <-.
    destruct (IH xs E2) as (us & Eu & Fu). apply rbind_ok in E1 as ([x' r] & E1 & Ex). injection Ex as <-.
    assert (G : answers (twin b c) (getitem sep (fun _ => false) false t p) (getitem sep (fun _ => false) false u p)) by (eapply getitem_rel; eauto; discriminate).
    rewrite E1 in G. destruct (getitem sep (fun _ => false) false u p) as [[y r']|]; [|destruct G]. destruct G as [_ G]. cbn [rbind fst]. rewrite Eu. cbn [rbind]. exists (y :: us). split; [reflexivity|constructor; assumption].
  - injection E as <-. exists (map Leaf (leaves u)). split; [reflexivity|]. pose proof (leaves_trel _ _ Wt _ T) as F. clear -F. induction F; cbn; constructor; auto. constructor. assumption.
Qed.
Lemma arrays_rel {V W} b c (ts : list (tree (arr V))) (us : list (tree (arr W))) ls : Forall2 (trel (twin b c)) ts us -> rmapM as_array ts = Ok ls ->
  exists ms, rmapM as_array us = Ok ms /\ Forall2 (twin b c) ls ms.
Proof.
  intros F. revert ls. induction F as [|t u ts us H F IH]; intros ls E; cbn [rmapM] in *; [injection E as <-; exists []; split; [reflexivity|constructor]|].
  apply rbind_ok in E as (x & E1 & E). apply rbind_ok in E as (xs & E2 & E). injection E as <-. destruct (IH xs E2) as (ms & Em & Fm).
  destruct t; try discriminate. cbn in E1. injection E1 as <-. inversion H; subst. cbn [as_array rbind]. rewrite Em. eexists. split; [reflexivity|constructor; assumption].
Qed.
Lemma call_twins {V W} sep axis path_order b c (t : tree (arr V)) (u : tree (arr W)) r : inner axis -> 1 <= b -> 1 <= c -> wf_tree t -> solid t -> trel (twin b c) t u ->
  concat_call sep axis path_order t = Ok r -> exists r', concat_call sep axis path_order u = Ok r' /\ twin b c r r'.
Proof.
  intros Ha Hb Hc Wt S T E. unfold concat_call in *. apply rbind_ok in E as (ts & E1 & E). apply rbind_ok in E as (ls & E2 & E).
  destruct (pick_rel sep b c path_order t u ts Wt S T E1) as (us & -> & F). cbn [rbind]. destruct (arrays_rel b c ts us ls F E2) as (ms & -> & Fm). cbn [rbind].
  eapply join_twins; eauto.
Qed.

Lemma shape_call sep axis path_order shapes s : concat_shape sep axis path_order shapes = Ok s <->
  exists dummy r, jmapM (fun s => Ok (zeros s)) shapes = Ok dummy /\ concat_call sep axis path_order dummy = Ok r /\ s = skipn 1 (shp r).
Proof.
  unfold concat_shape, concat_call, value_error. destruct (jmapM (fun s => Ok (zeros s)) shapes) as [dummy|]; cbn [rbind]; [|split; [discriminate|intros (? & ? & ? & _); discriminate]].
  split.
  - intros E. exists dummy. destruct (pick_leaves sep path_order dummy) as [ts|]; [|discriminate]. cbn [rbind] in *. destruct (rmapM as_array ts) as [ls|]; [|discriminate]. cbn [rbind] in *.
    destruct (join_leaves axis ls) as [r|]; [|discriminate]. injection E as <-. eauto.
  - intros (dm & r & [= <-] & E & ->). destruct (pick_leaves sep path_order dummy) as [ts|]; [|discriminate]. cbn [rbind] in *. destruct (rmapM as_array ts) as [ls|]; [|discriminate]. cbn [rbind] in *.
    rewrite E. reflexivity.
Qed.

(** Announced and evaluated shapes agree, for every number of samples, and the
    same inputs are rejected. *)
Theorem concat_shapes {V} sep axis path_order b shapes (data : tree (arr V)) : inner axis -> 1 <= b -> wf_tree shapes -> solid shapes -> trel (batch_of b) shapes data ->
  (forall s, concat_shape sep axis path_order shapes = Ok s -> exists c, concat_call sep axis path_order data = Ok c /\ shp c = b :: s) /\
  (forall c, concat_call sep axis path_order data = Ok c -> exists s, concat_shape sep axis path_order shapes = Ok s /\ shp c = b :: s).
Proof.
  intros Ha Hb W S D.
  destruct (jm_from eq shapes shapes (trel_refl shapes) (fun s => Ok (zeros s)) (batch_of 1)) as (dummy & Ed & Td); [intros x y _ <-; eexists; split; reflexivity|].
  assert (T : trel (twin 1 b) dummy data) by (eapply trel_join; [|exact Td|exact D]; intros s x y H1 H2; exists s; auto).
  assert (T' : trel (twin b 1) data dummy) by (eapply trel_join; [|exact D|exact Td]; intros s x y H1 H2; exists s; auto).
  split.
  - intros s E. apply shape_call in E as (dm & r & E1 & E2 & ->). rewrite Ed in E1. injection E1 as <-.
    destruct (call_twins sep axis path_order 1 b dummy data r Ha ltac:(lia) Hb (trel_wf _ _ _ Td W) (trel_solid _ _ _ Td S) T E2) as (c & Ec & (s & H1 & H2)).
    exists c. split; [exact Ec|]. rewrite H1, H2. reflexivity.
  - intros c E. destruct (call_twins sep axis path_order b 1 data dummy c Ha Hb ltac:(lia) (trel_wf _ _ _ D W) (trel_solid _ _ _ D S) T' E) as (r & Er & (s & H1 & H2)).
    exists s. split; [|exact H1]. apply shape_call. exists dummy, r. rewrite H2. auto.
Qed.

(** Which arrays, and where their entries go. *)
Lemma picked {V} sep path_order (data : tree (arr V)) ts ls : pick_leaves sep path_order data = Ok ts -> rmapM as_array ts = Ok ls -> chosen_leaves sep path_order data ls.
Proof.
  destruct path_order as [ps|]; cbn [pick_leaves chosen_leaves].
  - revert ts ls. induction ps as [|p ps IH]; intros ts ls E1 E2; cbn [rmapM] in E1.
    + injection E1 as <-. injection E2 as <-. constructor.
    + apply rbind_ok in E1 as (x & Ex & E1). apply rbind_ok in E1 as (xs & Exs & E1). injection E1 as <-. cbn [rmapM] in E2.
      apply rbind_ok in E2 as (a & Ea & E2). apply rbind_ok in E2 as (l & El & E2). injection E2 as <-. constructor; [|eapply IH; eauto].
      apply rbind_ok in Ex as ([x' r] & Ex & E). injection E as <-. cbn [fst] in *. destruct x'; try discriminate. injection Ea as <-.
      change (fun _ : tree (arr V) => false) with (@no_leaf (arr V)) in Ex. apply (getitem_full_walk sep data p).
      assert (r = EmptyString) as ->; [|exact Ex]. rewrite getitem_split in Ex. destruct (getp false data (split sep p)) as [[u q]|] eqn:G; [|discriminate]. cbn in Ex.
      apply getp_false_rem in G. subst q. injection Ex as _ <-. reflexivity.
  - intros [= <-]. revert ls. induction (leaves data) as [|a l IH]; intros ls E; cbn in E; [injection E as <-; reflexivity|].
    destruct (rmapM as_array (map Leaf l)) as [m|]; [|discriminate]. injection E as <-. f_equal. apply IH. reflexivity.
Qed.
Lemma leaf_at {A} (t : tree A) : forall ks a, walk t ks = Some (Leaf a) -> has_leaf t a.
Proof.
  intros ks. revert t. induction ks as [|k ks IH]; intros t a E; cbn in E; [injection E as ->; constructor|].
  destruct (child t k) as [u|] eqn:C; [|discriminate]. specialize (IH u a E). destruct t as [x| |d|l|l]; cbn in C; try discriminate.
  - apply (hl_dict _ k u); [apply dget_In; exact C|exact IH].
  - destruct (isdigit k); [|discriminate]. apply (hl_lst _ u); [eapply nth_error_In; eauto|exact IH].
  - destruct (isdigit k); [|discriminate]. apply (hl_tup _ u); [eapply nth_error_In; eauto|exact IH].
Qed.
Lemma chosen_from {V} sep path_order (data : tree (arr V)) ls : chosen_leaves sep path_order data ls -> Forall (has_leaf data) ls.
Proof.
  destruct path_order as [ps|]; cbn.
  - induction 1 as [|p a ps l H F IH]; constructor; auto. eapply leaf_at; eauto.
  - intros ->. apply Forall_forall. intros a Ha. apply leaves_has_leaf. exact Ha.
Qed.
Theorem concat_entries {V} (d : V) sep axis path_order b shapes (data : tree (arr V)) c : inner axis -> 1 <= b -> trel (batch_of b) shapes data ->
  (forall a, has_leaf data a -> wf_arr a) -> concat_call sep axis path_order data = Ok c ->
  exists ls, chosen_leaves sep path_order data ls /\ joined d (inner_axis axis) (prepared axis ls) c.
Proof.
  intros Ha Hb D W E. unfold concat_call in E. apply rbind_ok in E as (ts & E1 & E). apply rbind_ok in E as (ls & E2 & E). exists ls.
  pose proof (picked sep path_order data ts ls E1 E2) as P. split; [exact P|]. pose proof (chosen_from _ _ _ _ P) as L.
  assert (B : Forall (fun a => exists s, shp a = b :: s) ls).
  { eapply Forall_impl; [|exact L]. intros a Hl. apply trel_flip in D. destruct (map_has_leaf _ _ _ D a Hl) as (s & _ & Hs). exists s. exact Hs. }
  rewrite (join_axis axis b) in E by assumption. apply concat_joined; [|exact E].
  assert (Wl : Forall wf_arr ls) by (eapply Forall_impl; [exact W|exact L]). destruct axis; cbn [prepared]; [exact Wl|].
  clear -Wl B. induction Wl as [|a l Wa Wl IH]; cbn; constructor; inversion B as [|? ? (s & Hs) B']; subst; auto.
  unfold wf_arr, one_row in *. cbn [shp dat]. rewrite Wa, Hs. cbn. lia.
Qed.
