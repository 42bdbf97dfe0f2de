From Coq Require Import Permutation Sorted Ring_theory Setoid Ring.
From Verif Require Import Base BaseLemmas TreeUtil TreeSpec NdArray OneHot OneHotProofs Einsum EinsumSpec EinsumProofs EinsumMain EinsumCompute EinsumBatch MatMulSpec.
Local Open Scope string_scope.
Local Open Scope list_scope.
Local Open Scope nat_scope.

(* ---- the letters ---- *)
Definition ch (i : nat) : ascii := nth i alphabet "?"%char.
Lemma alphabet_length : length alphabet = 52.
Proof. reflexivity. Qed.
Lemma alphabet_nodup : NoDup alphabet.
Proof. apply nodup_length_eq. vm_compute. reflexivity. Qed.
Lemma ch_inj i j : i < 52 -> j < 52 -> ch i = ch j -> i = j.
Proof. intros Hi Hj E. eapply NoDup_nth; [exact alphabet_nodup|exact Hi|exact Hj|exact E]. Qed.
Lemma ch_eqb i j : i < 52 -> j < 52 -> Ascii.eqb (ch i) (ch j) = (i =? j).
Proof.
  intros Hi Hj. destruct (Ascii.eqb_spec (ch i) (ch j)) as [E|E]; destruct (Nat.eqb_spec i j) as [E'|E']; try reflexivity.
  - apply ch_inj in E; [congruence|assumption..].
  - subst. congruence.
Qed.
Lemma ch_nat i : i < 26 -> nat_of_ascii (ch i) = 97 + i.
Proof. intros H. do 26 (destruct i as [|i]; [reflexivity|]). lia. Qed.

Opaque ch.

(** the letters of operand [i] of [n] *)
Definition tm (vec : bool) (n i : nat) : list ascii := if vec && (S i =? n) then [ch i] else [ch i; ch (S i)].
Definition last_letter (vec : bool) (n : nat) : nat := if vec then n - 1 else n.
Definition outl (vec : bool) (n : nat) : list ascii := if vec then [ch 0] else [ch 0; ch n].

Lemma tm_letters vec n c : 1 <= n -> (exists w, In w (map (tm vec n) (seq 0 n)) /\ In c w) <-> exists i, i <= last_letter vec n /\ c = ch i.
Proof.
  intros Hn. unfold last_letter. split.
  - intros (w & Hw & Hc). apply in_map_iff in Hw as (i & <- & Hi). apply in_seq in Hi. unfold tm in Hc. destruct vec; cbn [andb] in Hc.
    + destruct (Nat.eqb_spec (S i) n); destruct Hc as [ <- |Hc].
      * exists i. split; [lia|reflexivity].
      * destruct Hc.
      * exists i. split; [lia|reflexivity].
      * destruct Hc as [ <- |[]]. exists (S i). split; [lia|reflexivity].
    + destruct Hc as [ <- |[ <- |[]]]; [exists i|exists (S i)]; (split; [lia|reflexivity]).
  - intros (i & Hi & ->). destruct (Nat.eq_dec i n) as [->|Hne].
    + destruct vec; [exists (tm true n (n - 1))|exists (tm false n (n - 1))]; (split; [apply in_map, in_seq; lia|]); [exfalso; clear -Hi Hn; cbv iota in Hi; lia|].
      unfold tm. cbn [andb]. right. left. f_equal. lia.
    + exists (tm vec n i). split; [apply in_map, in_seq; destruct vec; cbv iota in Hi; lia|]. unfold tm. destruct (vec && _); left; reflexivity.
Qed.

(** the summed letters *)
Lemma ch_sorted q : forall s, s + q <= 26 -> StronglySorted (fun a b => nat_of_ascii a < nat_of_ascii b) (map ch (seq s q)).
Proof.
  induction q as [|q IH]; intros s H; cbn; constructor; [apply IH; lia|]. rewrite Forall_forall. intros x Hx.
  apply in_map_iff in Hx as (i & <- & Hi). apply in_seq in Hi. rewrite !ch_nat by lia. lia.
Qed.
Lemma in_perm_terms {A} (g : nat -> list A) perm n c : Permutation perm (seq 0 n) ->
  (exists w, In w (map g perm) /\ In c w) <-> (exists w, In w (map g (seq 0 n)) /\ In c w).
Proof.
  intros P. apply (Permutation_map g) in P. split; intros (w & Hw & Hc); exists w; split; auto.
  - eapply Permutation_in; eassumption.
  - eapply Permutation_in; [apply Permutation_sym; exact P|exact Hw].
Qed.
Lemma summed_chain vec n perm : 1 <= n -> last_letter vec n < 26 -> Permutation perm (seq 0 n) ->
  summed_of (map (tm vec n) perm) (outl vec n) = map ch (seq 1 (n - 1)).
Proof.
  intros Hn HL P. apply strict_unique; [apply summed_sorted|apply ch_sorted; unfold last_letter in HL; destruct vec; lia|].
  intros c. rewrite summed_In, (in_perm_terms _ _ _ _ P), (tm_letters vec n c Hn). rewrite in_map_iff. unfold last_letter, outl in *. split.
  - intros [(i & Hi & ->) Hno]. exists i. split; [reflexivity|]. apply in_seq.
    assert (i <> 0) by (intros ->; apply Hno; destruct vec; left; reflexivity).
    destruct vec; [lia|]. assert (i <> n) by (intros ->; apply Hno; right; left; reflexivity). lia.
  - intros (i & <- & Hi). apply in_seq in Hi. split; [exists i; split; [destruct vec; lia|reflexivity]|].
    destruct vec; intros H.
    + destruct H as [H|[]]. apply ch_inj in H; lia.
    + destruct H as [H|[H|[]]]; apply ch_inj in H; lia.
Qed.

(* ---- counting letters ---- *)
Definition itm (vec : bool) (n i : nat) : list nat := if vec && (S i =? n) then [i] else [i; S i].
Lemma tm_itm vec n i : tm vec n i = map ch (itm vec n i).
Proof. unfold tm, itm. destruct (vec && _); reflexivity. Qed.
Lemma count_ch l i : i < 52 -> (forall x, In x l -> x < 52) -> count_occ ascii_dec (map ch l) (ch i) = count_occ Nat.eq_dec l i.
Proof.
  intros Hi. induction l as [|x l IH]; intros H; [reflexivity|]. cbn [map count_occ]. rewrite IH by (intros y Hy; apply H; right; exact Hy).
  assert (Hx : x < 52) by (apply H; left; reflexivity).
  destruct (ascii_dec (ch x) (ch i)) as [E|E]; destruct (Nat.eq_dec x i) as [E'|E']; try reflexivity.
  - apply ch_inj in E; [congruence|assumption..].
  - subst. congruence.
Qed.
Lemma count_chain q : forall s x, count_occ Nat.eq_dec (concat (map (fun i => [i; S i]) (seq s q))) x =
  (if (s <=? x) && (x <? s + q) then 1 else 0) + (if (s <? x) && (x <=? s + q) then 1 else 0).
Proof.
  induction q as [|q IH]; intros s x.
  - cbn [seq map concat count_occ]. destruct (Nat.leb_spec s x), (Nat.ltb_spec x (s + 0)), (Nat.ltb_spec s x), (Nat.leb_spec x (s + 0)); cbn [andb]; lia.
  - cbn [seq map concat app]. cbn [count_occ]. rewrite IH. 
    destruct (Nat.eq_dec s x), (Nat.eq_dec (S s) x), (Nat.leb_spec (S s) x), (Nat.ltb_spec x (S s + q)), (Nat.ltb_spec (S s) x), (Nat.leb_spec x (S s + q)),
      (Nat.leb_spec s x), (Nat.ltb_spec x (s + S q)), (Nat.ltb_spec s x), (Nat.leb_spec x (s + S q)); cbn [andb]; lia.
Qed.
Lemma itm_concat vec n : 1 <= n -> concat (map (itm vec n) (seq 0 n)) =
  if vec then concat (map (fun i => [i; S i]) (seq 0 (n - 1))) ++ [n - 1] else concat (map (fun i => [i; S i]) (seq 0 n)).
Proof.
  intros Hn. destruct vec.
  - replace (seq 0 n) with (seq 0 (n - 1) ++ [n - 1]) by (replace n with (n - 1 + 1) at 3 by lia; rewrite seq_app; reflexivity).
    rewrite map_app, concat_app. f_equal.
    + f_equal. apply map_ext_in. intros i Hi. apply in_seq in Hi. unfold itm. cbn [andb]. destruct (Nat.eqb_spec (S i) n); [lia|reflexivity].
    + cbn [map concat]. unfold itm. cbn [andb]. destruct (Nat.eqb_spec (S (n - 1)) n); [reflexivity|lia].
  - f_equal.
Qed.
Lemma once_outl vec n perm : 1 <= n -> last_letter vec n < 26 -> Permutation perm (seq 0 n) ->
  once (concat (map (tm vec n) perm)) = outl vec n.
Proof.
  intros Hn HL P. apply strict_unique; [apply once_sorted| |].
  - unfold outl, last_letter in *. destruct vec; repeat constructor. rewrite !ch_nat by lia. lia.
  - intros c. rewrite once_In. unfold count.
    assert (PC : Permutation (concat (map (tm vec n) perm)) (map ch (concat (map (itm vec n) (seq 0 n))))).
    { rewrite concat_map, map_map. rewrite (map_ext (fun i => map ch (itm vec n i)) (tm vec n)) by (intros i; symmetry; apply tm_itm).
      rewrite <- !flat_map_concat_map. apply Permutation_flat_map. exact P. }
    rewrite (proj1 (Permutation_count_occ ascii_dec _ _) PC). rewrite itm_concat by exact Hn.
    assert (HB : forall x, In x (concat (map (itm vec n) (seq 0 n))) -> x < 52).
    { intros x Hx. apply in_concat in Hx as (w & Hw & Hx). apply in_map_iff in Hw as (i & <- & Hi). apply in_seq in Hi. unfold itm in Hx. unfold last_letter in HL.
      destruct vec; cbn [andb] in Hx; [destruct (S i =? n)|]; cbn in Hx; lia. }
    rewrite itm_concat in HB by exact Hn.
    assert (HC : forall i, i < 52 -> count_occ ascii_dec (map ch (if vec then concat (map (fun i => [i; S i]) (seq 0 (n - 1))) ++ [n - 1] else concat (map (fun i => [i; S i]) (seq 0 n)))) (ch i) =
        if vec then (if i <? n - 1 then 1 else 0) + (if (0 <? i) && (i <=? n - 1) then 1 else 0) + (if i =? n - 1 then 1 else 0)
        else (if i <? n then 1 else 0) + (if (0 <? i) && (i <=? n) then 1 else 0)).
    { intros i Hi. rewrite count_ch by assumption. destruct vec.
      - rewrite count_occ_app, count_chain. cbn [count_occ Nat.add]. rewrite Nat.eqb_sym. destruct (Nat.eq_dec (n - 1) i), (Nat.eqb_spec (n - 1) i); cbn [andb Nat.leb]; lia.
      - rewrite count_chain. cbn [Nat.leb andb Nat.add]. reflexivity. }
    unfold outl, last_letter in *. split.
    + intros H1. assert (Hin : In c (map ch (if vec then concat (map (fun i => [i; S i]) (seq 0 (n - 1))) ++ [n - 1] else concat (map (fun i => [i; S i]) (seq 0 n))))).
      { apply (count_occ_In ascii_dec). lia. }
      apply in_map_iff in Hin as (i & <- & Hi). specialize (HB i Hi). rewrite HC in H1 by exact HB. destruct vec.
      * destruct (Nat.ltb_spec i (n - 1)), (Nat.ltb_spec 0 i), (Nat.leb_spec i (n - 1)), (Nat.eqb_spec i (n - 1)); cbn [andb] in H1; try lia; left; f_equal; lia.
      * destruct (Nat.ltb_spec i n), (Nat.ltb_spec 0 i), (Nat.leb_spec i n); cbn [andb] in H1; try lia; [left; f_equal; lia|right; left; f_equal; lia].
    + intros Hin. destruct vec.
      * destruct Hin as [ <- |[]]. rewrite HC by lia. destruct (Nat.ltb_spec 0 (n - 1)), (Nat.eqb_spec 0 (n - 1)); cbn [andb Nat.ltb Nat.leb]; lia.
      * destruct Hin as [ <- |[ <- |[]]]; rewrite HC by lia.
        -- destruct (Nat.ltb_spec 0 n); cbn; lia.
        -- destruct (Nat.ltb_spec n n), (Nat.ltb_spec 0 n), (Nat.leb_spec n n); cbn [andb]; lia.
Qed.

(* ---- sums and products ---- *)
Section Ring.
Context {V : Type} (zero one : V) (add mul : V -> V -> V) (SR : semi_ring_theory zero one add mul eq).
Notation vsum := (vsum zero add).
Notation vprod := (vprod one mul).
Notation sum_over := (sum_over zero add).
Notation total := (total zero add).
Notation product := (product zero add mul).
Notation mat := (mat zero).
Notation entry := (entry zero).

Lemma vprod_app' l m : vprod (l ++ m) = mul (vprod l) (vprod m).
Proof. apply vprod_app; [exact (SRmul_assoc SR)|exact (SRmul_1_l SR)]. Qed.
Lemma vprod_perm l m : Permutation l m -> vprod l = vprod m.
Proof.
  induction 1 as [|x l m _ IH|x y l|l m k _ IH1 _ IH2]; cbn; [reflexivity|rewrite IH; reflexivity| |congruence].
  rewrite !(SRmul_assoc SR), (SRmul_comm SR y x). reflexivity.
Qed.
Lemma vsum_total f n : forall s, vsum (map f (seq s n)) = total (fun i => f (s + i)) n.
Proof.
  revert f. induction n as [|n IH]; intros f s; [reflexivity|]. cbn [seq map Einsum.vsum MatMulSpec.total].
  rewrite Nat.add_0_r. f_equal. rewrite IH.
  assert (E : forall g h m, (forall i, g i = h i) -> total g m = total h m).
  { clear. intros g h m. revert g h. induction m as [|m IH]; intros g h H; [reflexivity|]. cbn. rewrite H. f_equal. apply IH. intros i. apply H. }
  apply E. intros i. f_equal. lia.
Qed.
Lemma total_ext f g n : (forall i, i < n -> f i = g i) -> total f n = total g n.
Proof. revert f g. induction n as [|n IH]; intros f g H; [reflexivity|]. cbn. rewrite H by lia. f_equal. apply IH. intros i Hi. apply H. lia. Qed.
Lemma total_mul x f n : mul x (total f n) = total (fun i => mul x (f i)) n.
Proof.
  revert f. induction n as [|n IH]; intros f; cbn.
  - rewrite (SRmul_comm SR). apply (SRmul_0_l SR).
  - rewrite (SRmul_comm SR x), (SRdistr_l SR), !(SRmul_comm SR _ x), IH. reflexivity.
Qed.
Lemma total_add f g n : total (fun i => add (f i) (g i)) n = add (total f n) (total g n).
Proof.
  revert f g. induction n as [|n IH]; intros f g; cbn; [symmetry; apply (SRadd_0_l SR)|]. rewrite IH.
  rewrite <- !(SRadd_assoc SR). f_equal. rewrite !(SRadd_assoc SR). f_equal. apply (SRadd_comm SR).
Qed.
Lemma total_zero n : total (fun _ => zero) n = zero.
Proof. induction n as [|n IH]; cbn; [reflexivity|]. rewrite IH. apply (SRadd_0_l SR). Qed.
Lemma total_swap f n m : total (fun i => total (fun j => f i j) m) n = total (fun j => total (fun i => f i j) n) m.
Proof.
  revert f. induction n as [|n IH]; intros f; cbn; [symmetry; apply total_zero|]. rewrite IH, total_add. reflexivity.
Qed.

(** products may be bracketed anywhere *)
Theorem product_app l1 l2 i j a : l1 <> [] -> l2 <> [] -> nth_error l1 (length l1 - 1) = Some a ->
  product (l1 ++ l2) i j = total (fun k => mul (product l1 i k) (product l2 k j)) (cols a).
Proof.
  revert i. induction l1 as [|b l1 IH]; intros i N1 N2 Ha; [congruence|]. destruct l1 as [|b' l1].
  - cbn in Ha. injection Ha as ->. destruct l2 as [|c l2]; [congruence|]. reflexivity.
  - assert (Ha' : nth_error (b' :: l1) (length (b' :: l1) - 1) = Some a).
    { rewrite <- Ha. cbn [length]. replace (S (S (length l1)) - 1) with (S (S (length l1) - 1)) by lia. reflexivity. }
    change ((b :: b' :: l1) ++ l2) with (b :: b' :: (l1 ++ l2)).
    change (total (fun k => mul (mat b i k) (product ((b' :: l1) ++ l2) k j)) (cols b) =
            total (fun k => mul (total (fun k' => mul (mat b i k') (product (b' :: l1) k' k)) (cols b)) (product l2 k j)) (cols a)).
    transitivity (total (fun k => total (fun k' => mul (mat b i k) (mul (product (b' :: l1) k k') (product l2 k' j))) (cols a)) (cols b)).
    { apply total_ext. intros k _. rewrite IH by (try discriminate; assumption). apply total_mul. }
    rewrite total_swap. apply total_ext. intros k _. rewrite (SRmul_comm SR (total _ _)), total_mul. apply total_ext. intros k' _.
    rewrite (SRmul_comm SR (product l2 k j)), (SRmul_assoc SR). reflexivity.
Qed.

(* ---- the chain ---- *)
(** value of operand [t] at the indices *)
Variable cellv : nat -> nat -> nat -> V.
Variable f : ascii -> nat.
Fixpoint chain (s q i j : nat) : V :=
  match q with 0 => cellv s i j | S q' => total (fun k => mul (cellv s i k) (chain (S s) q' k j)) (f (ch (S s))) end.
Definition body (n : nat) (e : sizes) : V := vprod (map (fun t => cellv t (index_in e (ch t)) (index_in e (ch (S t)))) (seq 0 n)).
Lemma chain_sum n : n < 52 -> forall q m e, 1 <= m -> m + q = n ->
  sum_over (map (fun c => (c, f c)) (map ch (seq m q))) e (body n) =
  mul (vprod (map (fun t => cellv t (index_in e (ch t)) (index_in e (ch (S t)))) (seq 0 (m - 1))))
      (chain (m - 1) q (index_in e (ch (m - 1))) (index_in e (ch n))).
Proof.
  intros Hn. induction q as [|q IH]; intros m e Hm Hq.
  - cbn [seq map Einsum.sum_over chain]. unfold body. replace n with (m - 1 + 1) by lia. rewrite seq_app, map_app, vprod_app'. f_equal.
    cbn [seq map Einsum.vprod]. rewrite (SRmul_comm SR), (SRmul_1_l SR). replace (0 + (m - 1)) with (m - 1) by lia.
    replace (m - 1 + 1) with (S (m - 1)) by lia. reflexivity.
  - cbn [seq map Einsum.sum_over]. rewrite vsum_total. cbn [Nat.add].
    cbn [chain]. rewrite total_mul. replace (S (m - 1)) with m by lia. apply total_ext. intros k Hk.
    rewrite IH by lia.
    assert (Em : S m - 1 = S (m - 1)) by lia. rewrite Em.
    replace (seq 0 (S (m - 1))) with (seq 0 (m - 1) ++ [m - 1]) by (rewrite <- (Nat.add_1_r (m - 1)), seq_app; reflexivity).
    rewrite map_app, vprod_app'. cbn [map Einsum.vprod]. rewrite (SRmul_comm SR (cellv _ _ _) one), (SRmul_1_l SR).
    assert (Ek : forall x, x < 52 -> index_in ((ch m, k) :: e) (ch x) = if x =? m then k else index_in e (ch x)).
    { intros x Hx. rewrite index_cons, ch_eqb by lia. reflexivity. }
    replace (S (m - 1)) with m by lia. rewrite !Ek by lia. rewrite Nat.eqb_refl.
    destruct (Nat.eqb_spec (m - 1) m); [lia|]. destruct (Nat.eqb_spec n m); [lia|].
    rewrite <- (SRmul_assoc SR). f_equal. f_equal. apply map_ext_in. intros t Ht. apply in_seq in Ht. rewrite !Ek by lia.
    destruct (Nat.eqb_spec t m); [lia|]. destruct (Nat.eqb_spec (S t) m); [lia|]. reflexivity.
Qed.
End Ring.

Lemma sum_over_ext {V} zero add (b1 b2 : sizes -> V) ls : (forall e, b1 e = b2 e) -> forall e, sum_over zero add ls e b1 = sum_over zero add ls e b2.
Proof.
  intros H. induction ls as [|[c n] ls IH]; intros e; cbn [sum_over]; [apply H|]. f_equal. apply map_ext. intros i. apply IH.
Qed.
Lemma combine_map2 {A B C} (g : A -> B) (h : A -> C) l : combine (map g l) (map h l) = map (fun x => (g x, h x)) l.
Proof. induction l as [|x l IH]; cbn; [reflexivity|]. rewrite IH. reflexivity. Qed.
Lemma skipn_nth {A} (l : list A) d : forall s, s < length l -> skipn s l = nth s l d :: skipn (S s) l.
Proof. induction l as [|x l IH]; intros s H; cbn in H; [lia|]. destruct s as [|s]; [reflexivity|]. cbn. apply (IH s). lia. Qed.
Lemma compatible_nth {V} (d : arr V) l :
  (forall i, S i < length l -> length (shp (nth i l d)) = 2 /\ cols (nth i l d) = rows (nth (S i) l d)) ->
  (l <> [] -> length (shp (nth (length l - 1) l d)) = 2 \/ length (shp (nth (length l - 1) l d)) = 1) -> compatible l.
Proof.
  induction l as [|a l IH]; intros H1 H2; [exact I|]. destruct l as [|b l].
  - apply H2. discriminate.
  - destruct (H1 0 ltac:(cbn; lia)) as [E1 E2]. split; [exact E1|]. split; [exact E2|]. apply IH.
    + intros i Hi. apply (H1 (S i)). cbn in *. lia.
    + intros _. specialize (H2 ltac:(discriminate)). cbn [length] in H2. replace (S (S (length l)) - 1) with (S (S (length l) - 1)) in H2 by lia. exact H2.
Qed.

Section Core.
Context {V : Type} (zero one : V) (add mul : V -> V -> V) (SR : semi_ring_theory zero one add mul eq).
Notation product := (product zero add mul).
Notation mat := (mat zero).
Variable d : arr V.

Theorem chain_einsum vec (ops : list (arr V)) perm a :
  1 <= length ops -> last_letter vec (length ops) < 26 -> Permutation perm (seq 0 (length ops)) ->
  np_einsum zero one add mul (map (tm vec (length ops)) perm) (outl vec (length ops)) (map (fun i => nth i ops d) perm) = Ok a ->
  compatible ops /\ is_product zero add mul ops a /\ wf_arr a.
Proof.
  set (n := length ops). intros Hn HL P H. destruct (np_einsum_ok _ _ _ _ _ _ _ _ H) as (f & _ & HF & _ & _ & Hs & Hwf & HE).
  rewrite combine_map2 in HF. rewrite Forall_forall in HF.
  assert (HA : forall i, i < n -> shp (nth i ops d) = map f (tm vec n i)).
  { intros i Hi. assert (Hp : In i perm) by (eapply Permutation_in; [apply Permutation_sym; exact P|apply in_seq; lia]).
    apply (HF (tm vec n i, nth i ops d)). apply (in_map (fun x => (tm vec n x, nth x ops d))). exact Hp. }
  assert (Hn52 : n < 52) by (unfold last_letter in HL; destruct vec; lia).
  assert (Hmid : forall i, S i < n -> shp (nth i ops d) = [f (ch i); f (ch (S i))]).
  { intros i Hi. rewrite HA by lia. unfold tm. destruct (Nat.eqb_spec (S i) n); [lia|]. rewrite andb_false_r. reflexivity. }
  assert (Hlast : shp (nth (n - 1) ops d) = if vec then [f (ch (n - 1))] else [f (ch (n - 1)); f (ch n)]).
  { rewrite HA by lia. unfold tm. destruct vec; cbn [andb map].
    - destruct (Nat.eqb_spec (S (n - 1)) n); [reflexivity|lia].
    - replace (S (n - 1)) with n by lia. reflexivity. }
  assert (Hrow : forall i, i < n -> rows (nth i ops d) = f (ch i)).
  { intros i Hi. unfold rows. rewrite HA by exact Hi. unfold tm. destruct (vec && _); reflexivity. }
  assert (HC : forall q s i j, s + q = n - 1 -> chain zero add mul (fun t => mat (nth t ops d)) f s q i j = product (skipn s ops) i j).
  { induction q as [|q IH]; intros s i j Hq; rewrite (skipn_nth ops d) by (fold n; lia).
    - cbn [chain]. rewrite skipn_all2 by (fold n; lia). reflexivity.
    - cbn [chain]. rewrite (skipn_nth ops d (S s)) by (fold n; lia).
      change (product (nth s ops d :: nth (S s) ops d :: skipn (S (S s)) ops) i j) with
        (total zero add (fun k => mul (mat (nth s ops d) i k) (product (nth (S s) ops d :: skipn (S (S s)) ops) k j)) (cols (nth s ops d))).
      assert (Ec : cols (nth s ops d) = f (ch (S s))) by (unfold cols; rewrite Hmid by lia; reflexivity). rewrite Ec.
      apply total_ext. intros k _. f_equal. rewrite IH by lia. rewrite (skipn_nth ops d (S s)) by (fold n; lia). reflexivity. }
  assert (HV : forall idx, valid (map f (outl vec n)) idx -> entry zero a idx =
     product ops (index_in (combine (outl vec n) idx) (ch 0)) (index_in (combine (outl vec n) idx) (ch n))).
  { intros idx Hv. rewrite (HE idx Hv). rewrite summed_chain by assumption.
    rewrite sum_over_ext with (b2 := body one mul (fun t => mat (nth t ops d)) n).
    - rewrite (chain_sum zero one add mul SR _ f n Hn52 (n - 1) 1) by lia. cbn [Nat.sub seq map vprod]. rewrite (SRmul_1_l SR).
      rewrite HC by lia. reflexivity.
    - intros e. unfold term. rewrite combine_map2, map_map. cbn [fst snd]. unfold body.
      erewrite vprod_perm; [|exact SR|apply Permutation_map; exact P].
      f_equal. apply map_ext_in. intros t Ht. apply in_seq in Ht. unfold MatMulSpec.mat. rewrite HA by lia. unfold tm.
      destruct (vec && _); cbn [map]; reflexivity. }
  split; [|split; [|exact Hwf]].
  - apply compatible_nth with (d := d); fold n.
    + intros i Hi. rewrite Hmid by exact Hi. split; [reflexivity|]. unfold cols. rewrite Hmid by exact Hi. rewrite Hrow by exact Hi. reflexivity.
    + intros _. rewrite Hlast. destruct vec; [right|left]; reflexivity.
  - exists (nth 0 ops d), (nth (n - 1) ops d).
    assert (NE : forall i, i < n -> nth_error ops i = Some (nth i ops d)) by (intros i Hi; apply nth_error_nth'; exact Hi).
    split; [apply NE; lia|]. split; [apply NE; lia|]. rewrite Hrow by lia. rewrite Hs. unfold cols. rewrite Hlast.
    assert (Ei : forall x i, index_in [(ch x, i)] (ch x) = i) by (intros x i; rewrite index_cons, Ascii.eqb_refl; reflexivity).
    destruct vec; cbn [outl map].
    + split; [reflexivity|]. intros i Hi. change (cell zero a [i]) with (entry zero a [i]). rewrite HV by (constructor; [exact Hi|constructor]).
      cbn [outl combine]. rewrite Ei, index_cons, ch_eqb by lia. destruct (Nat.eqb_spec n 0); [lia|]. reflexivity.
    + split; [reflexivity|]. intros i j Hi Hj. cbn [nth] in Hj. change (cell zero a [i; j]) with (entry zero a [i; j]).
      rewrite HV by (constructor; [exact Hi|constructor; [exact Hj|constructor]]).
      cbn [outl combine]. rewrite !index_cons, !ch_eqb by lia. rewrite Nat.eqb_refl. destruct (Nat.eqb_spec n 0); [lia|]. rewrite Nat.eqb_refl. reflexivity.
Qed.
End Core.
