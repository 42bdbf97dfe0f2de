(** Proofs about concretize_paths (C06). *)
From Verif Require Import Base BaseLemmas TreeUtil Resolve Connections ConcretizeSpec.
From Coq Require Import Permutation.
Open Scope list_scope.

(* ---------------- grouping ---------------- *)
Definition picked {X V} (kf : X -> string) (vf : X -> V) (l : list X) (k : string) : list V :=
  map vf (filter (fun x => String.eqb (kf x) k) l).

Lemma dget_group {X V} (kf : X -> string) (vf : X -> V) l : forall g k,
  dget (fold_left (fun g x => dpush g (kf x) (vf x)) l g) k =
  match dget g k with
  | Some m => Some (m ++ picked kf vf l k)
  | None => match picked kf vf l k with [] => None | ms => Some ms end
  end.
Proof.
  induction l as [|x l IH]; intros g k.
  - simpl. destruct (dget g k); [rewrite app_nil_r|]; reflexivity.
  - cbn [fold_left]. rewrite IH. unfold dpush, picked. cbn [filter].
    destruct (String.eqb_spec (kf x) k) as [->|Hne].
    + rewrite dget_dset_same. cbn [map]. destruct (dget g k); [rewrite <- app_assoc|]; reflexivity.
    + rewrite dget_dset_other by exact Hne. reflexivity.
Qed.

Lemma NoDup_group {X V} (kf : X -> string) (vf : X -> V) l : forall g,
  NoDup (dkeys g) -> NoDup (dkeys (fold_left (fun g x => dpush g (kf x) (vf x)) l g)).
Proof.
  induction l as [|x l IH]; intros g H; [exact H|]. cbn [fold_left]. apply IH.
  unfold dpush. apply NoDup_dset. exact H.
Qed.

Lemma In_group {X V} (kf : X -> string) (vf : X -> V) l k ms :
  In (k, ms) (fold_left (fun g x => dpush g (kf x) (vf x)) l []) ->
  ms = picked kf vf l k /\ ms <> [].
Proof.
  intros H. apply In_dget in H; [|apply NoDup_group; constructor].
  rewrite dget_group in H. simpl in H. destruct (picked kf vf l k); [discriminate|].
  injection H as <-. split; [reflexivity|discriminate].
Qed.

Lemma group_exists {X V} (kf : X -> string) (vf : X -> V) l x :
  In x l -> In (kf x, picked kf vf l (kf x)) (fold_left (fun g x => dpush g (kf x) (vf x)) l []).
Proof.
  intros H. apply dget_In. rewrite dget_group. simpl.
  assert (Hin : In (vf x) (picked kf vf l (kf x))).
  { apply in_map. apply filter_In. split; [exact H|apply String.eqb_refl]. }
  destruct (picked kf vf l (kf x)); [destruct Hin|reflexivity].
Qed.

Lemma In_enum {X} (l : list X) : forall k i x,
  In (i, x) (combine (seq k (length l)) l) <-> k <= i /\ nth_error l (i - k) = Some x.
Proof.
  induction l as [|y l IH]; intros k i x; simpl.
  - rewrite nth_error_nil. split; [intros []|intros [_ H]; discriminate].
  - rewrite IH. split.
    + intros [H|[H1 H2]].
      * injection H as -> ->. rewrite Nat.sub_diag. split; [lia|reflexivity].
      * split; [lia|]. replace (i - k) with (S (i - S k)) by lia. exact H2.
    + intros [H1 H2]. destruct (Nat.eq_dec i k) as [->|Hne].
      * rewrite Nat.sub_diag in H2. injection H2 as ->. auto.
      * right. split; [lia|]. replace (i - k) with (S (i - S k)) in H2 by lia. exact H2.
Qed.

Lemma NoDup_enum_fst {X} (l : list X) k : map fst (combine (seq k (length l)) l) = seq k (length l).
Proof. revert k; induction l as [|y l IH]; intros k; simpl; [reflexivity|]. rewrite IH. reflexivity. Qed.

(** increasing lists of numbers *)
Fixpoint increasing (l : list nat) : Prop :=
  match l with [] => True | x :: l' => (forall y, In y l' -> x < y) /\ increasing l' end.
Lemma increasing_ext l : forall m, increasing l -> increasing m -> (forall x, In x l <-> In x m) -> l = m.
Proof.
  induction l as [|x l IH]; intros [|y m] Hl Hm H.
  - reflexivity.
  - exfalso. apply (H y). left. reflexivity.
  - exfalso. apply (H x). left. reflexivity.
  - destruct Hl as [Hl1 Hl2]. destruct Hm as [Hm1 Hm2].
    assert (x = y) as ->.
    { assert (Hx : In x (y :: m)) by (apply H; left; reflexivity). assert (Hy : In y (x :: l)) by (apply H; left; reflexivity).
      destruct Hx as [ <- |Hx]; [reflexivity|]. destruct Hy as [ -> |Hy]; [reflexivity|]. specialize (Hm1 x Hx). specialize (Hl1 y Hy). lia. }
    f_equal. apply IH; [exact Hl2|exact Hm2|]. intros z. split; intros Hz.
    + assert (Hz' : In z (y :: m)) by (apply H; right; exact Hz). destruct Hz' as [ <- |Hz']; [exfalso; specialize (Hl1 y Hz); lia|exact Hz'].
    + assert (Hz' : In z (y :: l)) by (apply H; right; exact Hz). destruct Hz' as [ <- |Hz']; [exfalso; specialize (Hm1 y Hz); lia|exact Hz'].
Qed.
Lemma filter_seq_increasing f n : forall s, increasing (filter f (seq s n)).
Proof.
  induction n as [|n IH]; intros s; [exact I|]. cbn [seq filter]. destruct (f s); [|apply IH]. split; [|apply IH].
  intros y Hy. apply filter_In in Hy as [Hy _]. apply in_seq in Hy. lia.
Qed.
Lemma filter_seq_rank f n m i : nth_error (filter f (seq 0 n)) m = Some i -> length (filter f (seq 0 i)) = m.
Proof.
  assert (G : forall s, nth_error (filter f (seq s n)) m = Some i -> s <= i /\ length (filter f (seq s (i - s))) = m).
  { revert m. induction n as [|n IH]; intros m s H; [destruct m; discriminate|]. cbn [seq filter] in H. destruct (f s) eqn:Ef.
    - destruct m as [|m]; [injection H as ->; rewrite Nat.sub_diag; auto|]. cbn in H. destruct (IH m (S s) H) as [H1 H2]. split; [lia|].
      replace (i - s) with (S (i - S s)) by lia. cbn [seq filter]. rewrite Ef. cbn. f_equal. exact H2.
    - destruct (IH m (S s) H) as [H1 H2]. split; [lia|]. replace (i - s) with (S (i - S s)) by lia. cbn [seq filter]. rewrite Ef. exact H2. }
  intros H. destruct (G 0 H) as [_ G2]. rewrite Nat.sub_0_r in G2. exact G2.
Qed.

Section Concretize.
Variable sep : ascii.
Variable uuid : nat -> string.
Hypothesis Hsep : is_digit_char sep = false.

(** the group of path [i]: same joined prefix *)
Definition pkey (c : nat) (p : list string) : string := join sep (firstn c p).

Definition members (c : nat) (paths : list (list string)) (k : string) : group :=
  picked (fun ip : nat * list string => pkey c (snd ip)) (fun ip => (skipn c (snd ip), fst ip))
         (combine (seq 0 (length paths)) paths) k.

Lemma In_members c paths k r i :
  In (r, i) (members c paths k) <->
  exists p, nth_error paths i = Some p /\ pkey c p = k /\ r = skipn c p.
Proof.
  unfold members, picked. rewrite in_map_iff. split.
  - intros [[i' p] [E H]]. simpl in E. injection E as <- ->.
    apply filter_In in H as [H1 H2]. apply In_enum in H1 as [_ H1]. rewrite Nat.sub_0_r in H1.
    exists p. split; [exact H1|]. split; [apply String.eqb_eq; exact H2|reflexivity].
  - intros [p [H1 [H2 ->]]]. exists (i, p). split; [reflexivity|]. apply filter_In. split.
    + apply In_enum. rewrite Nat.sub_0_r. split; [lia|exact H1].
    + simpl. apply String.eqb_eq. exact H2.
Qed.

Lemma NoDup_filter_map {X Y} (f : X -> Y) (g : X -> bool) l : NoDup (map f l) -> NoDup (map f (filter g l)).
Proof.
  induction l as [|x l IH]; simpl; intros H; [constructor|]. inversion H as [|? ? H1 H2]; subst.
  destruct (g x); [|auto]. simpl. constructor; [|auto]. intros Hin. apply H1.
  apply in_map_iff in Hin as [y [E Hy]]. apply filter_In in Hy as [Hy _]. rewrite <- E. apply in_map. exact Hy.
Qed.

Lemma NoDup_members c paths k : NoDup (map snd (members c paths k)).
Proof.
  unfold members, picked. rewrite map_map. simpl. apply (NoDup_filter_map fst).
  rewrite NoDup_enum_fst. apply seq_NoDup.
Qed.

Lemma In_make_groups c paths k ms :
  In (k, ms) (make_groups sep c paths) -> ms = members c paths k /\ ms <> [].
Proof. intros H. apply In_group in H. exact H. Qed.

Lemma make_groups_exists c paths i p :
  nth_error paths i = Some p -> In (pkey c p, members c paths (pkey c p)) (make_groups sep c paths).
Proof.
  intros H.
  apply (group_exists (fun ip : nat * list string => pkey c (snd ip)) (fun ip => (skipn c (snd ip), fst ip))
           (combine (seq 0 (length paths)) paths) (i, p)).
  apply In_enum. rewrite Nat.sub_0_r. split; [lia|exact H].
Qed.

Lemma NoDup_make_groups c paths : NoDup (dkeys (make_groups sep c paths)).
Proof. apply NoDup_group. constructor. Qed.

(* ---------------- assignment ---------------- *)
Lemma assign_spec : forall idx keys paths,
  NoDup idx -> (forall i, In i idx -> i < length paths) -> length idx <= length keys ->
  exists paths', assign paths idx keys = Ok paths' /\ length paths' = length paths /\
    (forall i, ~ In i idx -> nth_error paths' i = nth_error paths i) /\
    (forall m i k, nth_error idx m = Some i -> nth_error keys m = Some k ->
       exists p, nth_error paths i = Some p /\ nth_error paths' i = Some (p ++ [k])).
Proof.
  induction idx as [|i idx IH]; intros keys paths Hnd Hr Hl.
  - exists paths. split; [reflexivity|]. split; [reflexivity|]. split; [reflexivity|].
    intros m j k H. rewrite nth_error_nil in H. discriminate.
  - destruct keys as [|k keys]; [simpl in Hl; lia|].
    inversion Hnd as [|? ? Hi Hnd']; subst.
    assert (Hil : i < length paths) by (apply Hr; left; reflexivity).
    destruct (IH keys (upd paths i (nth i paths [] ++ [k])) Hnd') as [paths' [E [Hlen [Hout Hin]]]].
    + intros j Hj. rewrite upd_length. apply Hr. right; exact Hj.
    + simpl in Hl. lia.
    + exists paths'. split; [exact E|]. split; [rewrite Hlen; apply upd_length|]. split.
      * intros j Hj. rewrite Hout by (intros H; apply Hj; right; exact H).
        apply nth_upd_other. intros ->. apply Hj. left; reflexivity.
      * intros m j k' Hm Hk. destruct m as [|m].
        -- simpl in Hm, Hk. injection Hm as <-. injection Hk as <-.
           exists (nth i paths []). split; [apply nth_error_nth'; exact Hil|].
           rewrite Hout by exact Hi. apply nth_upd_same. exact Hil.
        -- simpl in Hm, Hk. destruct (Hin m j k' Hm Hk) as [p [H1 H2]]. exists p. split; [|exact H2].
           rewrite nth_upd_other in H1; [exact H1|].
           intros ->. apply Hi. eapply nth_error_In; eauto.
Qed.

Lemma mem_nat_In n l : mem_nat n l = true <-> In n l.
Proof.
  induction l as [|m l IH]; simpl; [split; [discriminate|intros []]|].
  rewrite orb_true_iff, Nat.eqb_eq, IH. intuition.
Qed.

Lemma filter_partition {X} (f : X -> bool) l :
  length (filter f l) + length (filter (fun x => negb (f x)) l) = length l.
Proof. induction l as [|x l IH]; simpl; [reflexivity|]. destruct (f x); simpl; lia. Qed.

Lemma blank_existing_length (g : group) : length (blank g) + length (existing g) = length g.
Proof.
  unfold blank, existing. rewrite map_length.
  induction g as [|[r i] g IH]; simpl; [reflexivity|]. destruct r; simpl; lia.
Qed.

Lemma available_enough (g : group) : length (blank g) <= length (available g).
Proof.
  unfold available. set (L := map int_of (existing g)).
  assert (H := filter_partition (fun n => mem_nat n L) (seq 0 (length g))).
  rewrite seq_length in H.
  assert (Hle : length (filter (fun n => mem_nat n L) (seq 0 (length g))) <= length L).
  { apply NoDup_incl_length; [apply NoDup_filter, seq_NoDup|].
    intros n Hn. apply filter_In in Hn as [_ Hn]. apply mem_nat_In; exact Hn. }
  assert (HL : length L = length (existing g)) by apply map_length.
  assert (Hb := blank_existing_length g). cbn beta in *. lia.
Qed.

Lemma NoDup_available (g : group) : NoDup (available g).
Proof. apply NoDup_filter, seq_NoDup. Qed.

Definition active (ms : group) : Prop := 2 <= length ms /\ blank ms <> [].

Definition good_key (ms : group) (k : string) : Prop :=
  ~ In k (existing ms) /\ no_sep sep k = true /\ k <> EmptyString /\
  (forallb isdigit (existing ms) = true ->
     exists m, k = str_of m /\ m < length ms /\ forall e, In e (existing ms) -> int_of e <> m) /\
  (forallb isdigit (existing ms) = false -> exists m, k = uuid m).

(** numbers are handed out in increasing order *)
Definition numbered (ms : group) (keys : list string) : Prop :=
  forallb isdigit (existing ms) = true -> keys = map str_of (available ms).

Hypothesis Huinj : forall m n, uuid m = uuid n -> m = n.
Hypothesis Husep : forall n, no_sep sep (uuid n) = true /\ uuid n <> EmptyString.

Lemma existsb_negb_forallb {X} (f : X -> bool) l : existsb (fun x => negb (f x)) l = negb (forallb f l).
Proof. induction l as [|x l IH]; simpl; [reflexivity|]. rewrite IH. destruct (f x); reflexivity. Qed.

Lemma existsb_blank (g : group) : existsb (fun m => is_nil (fst m)) g = negb (is_nil (blank g)).
Proof.
  unfold blank. induction g as [|[r i] g IH]; simpl; [reflexivity|]. destruct r; simpl; [reflexivity|exact IH].
Qed.

Lemma In_blank (g : group) i : In i (blank g) <-> In ([], i) g.
Proof.
  unfold blank. rewrite in_map_iff. split.
  - intros [[r i'] [E H]]. simpl in E. subst i'. apply filter_In in H as [H1 H2].
    simpl in H2. destruct r; [exact H1|discriminate].
  - intros H. exists ([], i). split; [reflexivity|]. apply filter_In. split; [exact H|reflexivity].
Qed.

Lemma NoDup_blank (g : group) : NoDup (map snd g) -> NoDup (blank g).
Proof. apply NoDup_filter_map. Qed.

(** one group *)
Lemma process_group_spec n paths k ms :
  NoDup (map snd ms) -> (forall i, In i (map snd ms) -> i < length paths) ->
  (forall m, ~ In (uuid m) (existing ms)) ->
  exists n' paths', process_group uuid (n, paths) (k, ms) = Ok (n', paths') /\
    length paths' = length paths /\
    (forall i, ~ In i (blank ms) -> nth_error paths' i = nth_error paths i) /\
    (~ active ms -> paths' = paths) /\
    (active ms -> exists keys, NoDup keys /\ (Forall (good_key ms) keys /\ numbered ms keys) /\
       length (blank ms) <= length keys /\
       forall m i key, nth_error (blank ms) m = Some i -> nth_error keys m = Some key ->
         exists p, nth_error paths i = Some p /\ nth_error paths' i = Some (p ++ [key])).
Proof.
  intros Hnd Hr Hu. unfold process_group. cbn [snd].
  destruct ((length ms <=? 1) || negb (existsb (fun m => is_nil (fst m)) ms)) eqn:Eact.
  - exists n, paths. split; [reflexivity|]. split; [reflexivity|]. split; [reflexivity|].
    split; [reflexivity|]. intros [H1 H2]. exfalso.
    rewrite existsb_blank, negb_involutive in Eact. apply orb_true_iff in Eact as [E|E].
    + apply Nat.leb_le in E. lia.
    + destruct (blank ms); [congruence|discriminate].
  - rewrite existsb_blank, negb_involutive in Eact. apply orb_false_iff in Eact as [E1 E2].
    assert (Hact : active ms).
    { split; [apply Nat.leb_gt in E1; lia|]. intros H. rewrite H in E2. discriminate. }
    assert (Hbr : forall i, In i (blank ms) -> i < length paths).
    { intros i Hi. apply Hr. apply In_blank in Hi. apply (in_map snd) in Hi. exact Hi. }
    rewrite existsb_negb_forallb. destruct (forallb isdigit (existing ms)) eqn:Ed; cbn [negb].
    + destruct (assign_spec (blank ms) (map str_of (available ms)) paths) as [paths' [E [Hl [Ho Hi]]]].
      * apply NoDup_blank; exact Hnd.
      * exact Hbr.
      * rewrite map_length. apply available_enough.
      * rewrite E. cbn [rbind]. exists n, paths'. split; [reflexivity|]. split; [exact Hl|].
        split; [exact Ho|]. split; [tauto|]. intros _. exists (map str_of (available ms)).
        split; [|split; [|split]].
        -- apply FinFun.Injective_map_NoDup; [|apply NoDup_available].
           intros a b Hab. apply str_of_inj; exact Hab.
        -- split; [|intros _; reflexivity].
           apply Forall_forall. intros key Hkey. apply in_map_iff in Hkey as [m [<- Hm]].
           unfold available in Hm. apply filter_In in Hm as [Hm1 Hm2]. apply in_seq in Hm1.
           apply negb_true_iff in Hm2.
           assert (Hnot : forall e, In e (existing ms) -> int_of e <> m).
           { intros e He Hem. assert (Ht : mem_nat m (map int_of (existing ms)) = true); [|congruence].
             apply mem_nat_In. rewrite <- Hem. apply in_map. exact He. }
           split; [|split; [|split; [|split]]].
           ++ intros He. apply (Hnot _ He). apply int_of_str_of.
           ++ apply all_digits_no_sep; [exact Hsep|]. apply isdigit_all, isdigit_str_of.
           ++ apply isdigit_nonempty, isdigit_str_of.
           ++ intros _. exists m. split; [reflexivity|]. split; [lia|exact Hnot].
           ++ rewrite Ed. discriminate.
        -- rewrite map_length. apply available_enough.
        -- exact Hi.
    + set (keys := map uuid (seq n (length (blank ms)))).
      destruct (assign_spec (blank ms) keys paths) as [paths' [E [Hl [Ho Hi]]]].
      * apply NoDup_blank; exact Hnd.
      * exact Hbr.
      * unfold keys. rewrite map_length, seq_length. lia.
      * rewrite E. cbn [rbind]. exists (n + length (blank ms)), paths'.
        split; [reflexivity|]. split; [exact Hl|].
        split; [exact Ho|]. split; [tauto|]. intros _. exists keys.
        split; [|split; [|split]].
        -- apply FinFun.Injective_map_NoDup; [|apply seq_NoDup]. intros a b; apply Huinj.
        -- split; [|intros F; rewrite Ed in F; discriminate].
           apply Forall_forall. intros key Hkey. apply in_map_iff in Hkey as [m [<- Hm]].
           split; [apply Hu|]. split; [apply Husep|]. split; [apply Husep|]. split.
           ++ rewrite Ed; discriminate.
           ++ intros _. exists m; reflexivity.
        -- unfold keys. rewrite map_length, seq_length. lia.
        -- exact Hi.
Qed.

(** all groups of a level *)
Lemma process_groups_spec gs : forall n paths,
  NoDup (dkeys gs) ->
  (forall k ms, In (k, ms) gs -> NoDup (map snd ms)) ->
  (forall k ms i, In (k, ms) gs -> In i (map snd ms) -> i < length paths) ->
  (forall k ms m, In (k, ms) gs -> ~ In (uuid m) (existing ms)) ->
  (forall k1 ms1 k2 ms2 i, In (k1, ms1) gs -> In (k2, ms2) gs ->
      In i (map snd ms1) -> In i (map snd ms2) -> k1 = k2) ->
  exists n' paths', rfold (process_group uuid) gs (n, paths) = Ok (n', paths') /\
    length paths' = length paths /\
    (forall i, (forall k ms, In (k, ms) gs -> ~ (active ms /\ In i (blank ms))) ->
        nth_error paths' i = nth_error paths i) /\
    (forall k ms, In (k, ms) gs -> active ms ->
       exists keys, NoDup keys /\ (Forall (good_key ms) keys /\ numbered ms keys) /\ length (blank ms) <= length keys /\
       forall m i key, nth_error (blank ms) m = Some i -> nth_error keys m = Some key ->
         exists p, nth_error paths i = Some p /\ nth_error paths' i = Some (p ++ [key])).
Proof.
  induction gs as [|[k ms] gs IH]; intros n paths Hnd H1 H2 H3 H4.
  - exists n, paths. split; [reflexivity|]. split; [reflexivity|]. split; [reflexivity|]. intros k ms [].
  - cbn [rfold].
    destruct (process_group_spec n paths k ms) as [n1 [paths1 [E [Hl [Ho [Hna Ha]]]]]].
    { apply (H1 k). left; reflexivity. }
    { intros i Hi. apply (H2 k ms i); [left; reflexivity|exact Hi]. }
    { intros m. apply (H3 k). left; reflexivity. }
    rewrite E. cbn [rbind]. simpl in Hnd. inversion Hnd as [|? ? Hk Hnd']; subst.
    destruct (IH n1 paths1 Hnd') as [n2 [paths2 [E2 [Hl2 [Ho2 Ha2]]]]].
    { intros k' ms' H. apply (H1 k'). right; exact H. }
    { intros k' ms' i H Hi. rewrite Hl. apply (H2 k' ms'); [right; exact H|exact Hi]. }
    { intros k' ms' m H. apply (H3 k'). right; exact H. }
    { intros k1 ms1 k2 ms2 i Hi1 Hi2. apply (H4 k1 ms1 k2 ms2 i); right; assumption. }
    (* members of the first group are not touched by the others *)
    assert (Hsep1 : forall i, In i (map snd ms) -> nth_error paths2 i = nth_error paths1 i).
    { intros i Hi. apply Ho2. intros k' ms' Hin [_ Hb]. apply Hk.
      replace k with k'; [apply (in_map fst) in Hin; exact Hin|].
      apply (H4 k' ms' k ms i); [right; exact Hin|left; reflexivity| |exact Hi].
      apply In_blank in Hb. apply (in_map snd) in Hb. exact Hb. }
    assert (Hsep2 : forall k' ms' i, In (k', ms') gs -> In i (map snd ms') ->
                nth_error paths1 i = nth_error paths i).
    { intros k' ms' i Hin Hi. apply Ho. intros Hb. apply Hk.
      replace k with k'; [apply (in_map fst) in Hin; exact Hin|].
      apply (H4 k' ms' k ms i); [right; exact Hin|left; reflexivity|exact Hi|].
      apply In_blank in Hb. apply (in_map snd) in Hb. exact Hb. }
    exists n2, paths2. split; [exact E2|]. split; [congruence|]. split.
    + intros i Hi. rewrite Ho2.
      * destruct (in_dec Nat.eq_dec i (blank ms)) as [Hb|Hb]; [|apply Ho; exact Hb].
        rewrite Hna; [reflexivity|]. intros Hact. apply (Hi k ms); [left; reflexivity|auto].
      * intros k' ms' Hin. apply (Hi k' ms'). right; exact Hin.
    + intros k' ms' [Eq|Hin] Hact.
      * injection Eq as <- <-. destruct (Ha Hact) as [keys [K1 [K2 [K3 K4]]]].
        exists keys. split; [exact K1|]. split; [exact K2|]. split; [exact K3|].
        intros m i key Hm Hkey. destruct (K4 m i key Hm Hkey) as [p [P1 P2]].
        exists p. split; [exact P1|]. rewrite Hsep1; [exact P2|].
        apply nth_error_In, In_blank in Hm. apply (in_map snd) in Hm. exact Hm.
      * destruct (Ha2 k' ms' Hin Hact) as [keys [K1 [K2 [K3 K4]]]].
        exists keys. split; [exact K1|]. split; [exact K2|]. split; [exact K3|].
        intros m i key Hm Hkey. destruct (K4 m i key Hm Hkey) as [p [P1 P2]].
        exists p. split; [|exact P2]. rewrite (Hsep2 k' ms') in P1; [exact P1|exact Hin|].
        apply nth_error_In, In_blank in Hm. apply (in_map snd) in Hm. exact Hm.
Qed.

(* ---------------- order ---------------- *)
Lemma blank_increasing c paths k : increasing (blank (members c paths k)).
Proof.
  unfold members, picked. generalize 0 at 1. induction paths as [|p paths IH]; intros s; [exact I|].
  cbn [length seq combine filter map snd fst]. destruct (String.eqb (pkey c p) k); [|apply IH]. cbn [map fst snd]. unfold blank. cbn [filter fst].
  assert (G : forall x, In x (map snd (filter (fun m : list string * nat => is_nil (fst m))
      (map (fun ip : nat * list string => (skipn c (snd ip), fst ip)) (filter (fun x => String.eqb (pkey c (snd x)) k) (combine (seq (S s) (length paths)) paths))))) -> s < x).
  { intros x Hx. apply in_map_iff in Hx as [[r y] [E Hx]]. simpl in E. subst y. apply filter_In in Hx as [Hx _]. apply in_map_iff in Hx as [[a b] [E Hx]].
    injection E as _ ->. apply filter_In in Hx as [Hx _]. apply In_enum in Hx as [Hx _]. lia. }
  destruct (is_nil (skipn c p)); [|apply IH]. cbn [map snd]. split; [exact G|apply IH].
Qed.

(* ---------------- levels ---------------- *)
(** index [i] is not on the way to another path *)
Definition settled (paths : list (list string)) (i : nat) : Prop :=
  forall j p q, nth_error paths i = Some p -> nth_error paths j = Some q -> i <> j -> ~ prefix p q.

Definition wf_parts (p : list string) : Prop :=
  Forall (fun k => no_sep sep k = true) p /\ p <> [EmptyString].

Section Levels.
Variable orig : list (list string).
Hypothesis Horig_wf : Forall wf_parts orig.
Hypothesis Hfresh : forall n p, In p orig -> ~ In (uuid n) p.
Variable hi : nat.
Hypothesis Hhi : forall p, In p orig -> length p <= hi.

(** the key added to path [i] (all [orig] paths through [o] are counted) *)
Definition through (o : list string) : list nat :=
  filter (fun i => match nth_error orig i with
                   | Some q => if list_eq_dec string_dec (firstn (length o) q) o then true else false
                   | None => false end) (seq 0 (length orig)).

Definition below (o : list string) (k : string) : Prop :=
  exists q rest, In q orig /\ q = o ++ k :: rest.

(** [m] is the smallest free number not yet taken by an earlier equal path *)
Definition next_free (o : list string) (i m : nat) : Prop :=
  exists L L', NoDup L /\ (forall n, In n L <-> n < m /\ forall e, below o e -> int_of e <> n) /\
    NoDup L' /\ (forall j, In j L' <-> j < i /\ nth_error orig j = Some o) /\ length L = length L'.

Definition key_ok (o : list string) (i : nat) (k : string) : Prop :=
  no_sep sep k = true /\ k <> EmptyString /\ ~ below o k /\
  ((forall e, below o e -> isdigit e = true) ->
     exists m, k = str_of m /\ m < length (through o) /\ (forall e, below o e -> int_of e <> m) /\ next_free o i m) /\
  ((exists e, below o e /\ isdigit e = false) -> exists m, k = uuid m).

Definition inv (c : nat) (paths : list (list string)) : Prop :=
  length paths = length orig /\
  (forall i o p, nth_error orig i = Some o -> nth_error paths i = Some p ->
     (p = o /\ (length o < c -> settled orig i)) \/
     (exists k, p = o ++ [k] /\ length p <= c /\ settled paths i /\ ~ settled orig i /\ key_ok o i k)) /\
  (forall i p, nth_error paths i = Some p -> length p < c -> settled paths i).

Lemma prefix_firstn (p q : list string) : prefix p q <-> firstn (length p) q = p.
Proof.
  split.
  - intros [t ->]. rewrite firstn_app, firstn_all, Nat.sub_diag. simpl. apply app_nil_r.
  - intros H. exists (skipn (length p) q). rewrite <- H at 1. symmetry. apply firstn_skipn.
Qed.

Lemma prefix_len (p q : list string) : prefix p q -> length p <= length q.
Proof. intros [t ->]. rewrite app_length. lia. Qed.

Lemma prefix_trans (p q r : list string) : prefix p q -> prefix q r -> prefix p r.
Proof. intros [t ->] [u ->]. exists (t ++ u). apply app_assoc_reverse. Qed.

Lemma prefix_snoc_inv (p q : list string) k : prefix p (q ++ [k]) -> length p <= length q -> prefix p q.
Proof.
  intros H Hl. apply prefix_firstn in H. apply prefix_firstn. rewrite firstn_app in H.
  replace (length p - length q) with 0 in H by lia. rewrite app_nil_r in H. exact H.
Qed.

Lemma inv_wf c paths : inv c paths -> forall i p, nth_error paths i = Some p -> wf_parts p.
Proof.
  intros [Hlen [H _]] i p Hp.
  destruct (nth_error orig i) as [o|] eqn:Eo.
  - assert (Hwo : wf_parts o).
    { rewrite Forall_forall in Horig_wf. apply Horig_wf. eapply nth_error_In; eauto. }
    destruct (H i o p Eo Hp) as [[-> _]|[k [-> [_ [_ [_ Hk]]]]]]; [exact Hwo|].
    destruct Hk as [K1 [K2 _]]. destruct Hwo as [W1 W2]. split.
    + apply Forall_app. split; [exact W1|]. constructor; [exact K1|constructor].
    + destruct o as [|a o]; simpl; [congruence|]. destruct o; discriminate.
  - apply nth_error_None in Eo. apply nth_error_lt in Hp. lia.
Qed.

(** equal joined prefixes mean equal prefixes *)
Lemma pkey_inj c paths i j p q :
  inv c paths -> nth_error paths i = Some p -> nth_error paths j = Some q ->
  pkey c p = pkey c q -> firstn c p = firstn c q.
Proof.
  intros Hinv Hp Hq E. destruct (Nat.eq_dec i j) as [->|Hij]; [congruence|].
  destruct (inv_wf c paths Hinv i p Hp) as [Wp1 Wp2].
  destruct (inv_wf c paths Hinv j q Hq) as [Wq1 Wq2].
  assert (Hfn : forall r : list string, Forall (fun k => no_sep sep k = true) r ->
                Forall (fun k => no_sep sep k = true) (firstn c r)).
  { intros r Hr. rewrite <- (firstn_skipn c r) in Hr. apply Forall_app in Hr. tauto. }
  unfold pkey in E.
  destruct (firstn c p) as [|a p'] eqn:Efp; destruct (firstn c q) as [|b q'] eqn:Efq.
  - reflexivity.
  - exfalso. destruct c as [|c]; [discriminate|]. destruct p as [|x p]; [|discriminate].
    destruct Hinv as [_ [_ Hs]]. apply (Hs i [] Hp (Nat.lt_0_succ c) j [] q Hp Hq Hij).
    exists q; reflexivity.
  - exfalso. destruct c as [|c]; [discriminate|]. destruct q as [|x q]; [|discriminate].
    destruct Hinv as [_ [_ Hs]].
    apply (Hs j [] Hq (Nat.lt_0_succ c) i [] p Hq Hp (not_eq_sym Hij)). exists p; reflexivity.
  - rewrite <- (split_join sep (a :: p')), <- (split_join sep (b :: q')).
    + rewrite E; reflexivity.
    + discriminate.
    + rewrite <- Efq. apply Hfn; exact Wq1.
    + discriminate.
    + rewrite <- Efp. apply Hfn; exact Wp1.
Qed.

Lemma existing_In (ms : group) k : In k (existing ms) <-> exists r i, In (k :: r, i) ms.
Proof.
  unfold existing. rewrite in_flat_map. split.
  - intros [[r i] [H1 H2]]. simpl in H2. destruct r as [|k' r]; [destruct H2|].
    destruct H2 as [->|[]]. exists r, i. exact H1.
  - intros [r [i H]]. exists (k :: r, i). split; [exact H|]. left; reflexivity.
Qed.

(** the keys directly below a group are keys of original paths *)
Lemma existing_orig c paths key k :
  inv c paths -> In k (existing (members c paths key)) ->
  exists i q, nth_error orig i = Some q /\ nth_error paths i = Some q /\ pkey c q = key /\
              exists rest, q = firstn c q ++ k :: rest.
Proof.
  intros Hinv H. apply existing_In in H as [r [i H]]. apply In_members in H as [p [Hp [Hk Hr]]].
  assert (Hlp : c < length p).
  { apply (f_equal (@List.length _)) in Hr. rewrite skipn_length in Hr. simpl in Hr. lia. }
  destruct Hinv as [Hlen [HA _]].
  destruct (nth_error orig i) as [o|] eqn:Eo;
    [|apply nth_error_None in Eo; apply nth_error_lt in Hp; lia].
  destruct (HA i o p Eo Hp) as [[-> _]|[k' [-> [Hl _]]]]; [|lia].
  exists i, o. split; [exact Eo|]. split; [exact Hp|]. split; [exact Hk|].
  exists r. rewrite Hr. symmetry. apply firstn_skipn.
Qed.

Lemma skipn_nil_iff (p : list string) c : skipn c p = [] <-> length p <= c.
Proof.
  split.
  - intros H. apply (f_equal (@List.length _)) in H. rewrite skipn_length in H. simpl in H. lia.
  - intros H. apply skipn_all2. exact H.
Qed.

Lemma two_members (ms : group) i : NoDup (map snd ms) -> In i (map snd ms) ->
  (2 <= length ms <-> exists j, j <> i /\ In j (map snd ms)).
Proof.
  intros Hnd Hi. rewrite <- (map_length snd ms). generalize dependent (map snd ms).
  intros l Hnd Hi. split.
  - intros Hl. destruct l as [|a [|b l]]; [simpl in Hl; lia|simpl in Hl; lia|].
    inversion Hnd as [|? ? Ha _]; subst. destruct (Nat.eq_dec a i) as [->|Hne].
    + exists b. split; [|simpl; auto]. intros ->. apply Ha. left; reflexivity.
    + exists a. split; [exact Hne|simpl; auto].
  - intros [j [Hji Hj]]. destruct l as [|a [|b l]]; [destruct Hi| |simpl; lia].
    destruct Hi as [->|[]]. destruct Hj as [->|[]]. congruence.
Qed.

(** a level turns the invariant for [c] into the one for [c + 1] *)
Lemma level_spec n paths c :
  c <= hi -> inv c paths ->
  exists n' paths', level sep uuid (n, paths) c = Ok (n', paths') /\ inv (S c) paths'.
Proof.
  intros Hc Hinv. assert (Hinv0 := Hinv). destruct Hinv as [Hlen [HA HB]].
  assert (Hinj := fun i j p q => pkey_inj c paths i j p q Hinv0).
  destruct (process_groups_spec (make_groups sep c paths) n paths) as [n' [paths' [E [Hl [Ho Ha]]]]].
  - apply NoDup_make_groups.
  - intros k ms H. apply In_make_groups in H as [-> _]. apply NoDup_members.
  - intros k ms i H Hi. apply In_make_groups in H as [-> _].
    apply in_map_iff in Hi as [[r i'] [<- Hi]]. apply In_members in Hi as [p [Hp _]].
    apply nth_error_lt in Hp. exact Hp.
  - intros k ms m H Hin. apply In_make_groups in H as [-> _].
    apply (existing_orig c paths k (uuid m) Hinv0) in Hin as [i [q [Hq [_ [_ [rest Hr]]]]]].
    apply (Hfresh m q); [eapply nth_error_In; eauto|]. rewrite Hr. apply in_or_app. right; left; reflexivity.
  - intros k1 ms1 k2 ms2 i G1 G2 I1 I2.
    apply In_make_groups in G1 as [-> _]. apply In_make_groups in G2 as [-> _].
    apply in_map_iff in I1 as [[r1 i1] [<- I1]]. apply in_map_iff in I2 as [[r2 i2] [Ei I2]].
    simpl in Ei. subst i2. apply In_members in I1 as [p1 [P1 [K1 _]]].
    apply In_members in I2 as [p2 [P2 [K2 _]]]. simpl in P1. congruence.
  - exists n', paths'. split; [exact E|].
    (* description of the new paths *)
    assert (Hdesc : forall i p, nth_error paths i = Some p ->
      (exists j q, j <> i /\ nth_error paths j = Some q /\ prefix p q) /\ length p = c /\
      (exists k, nth_error paths' i = Some (p ++ [k]) /\ key_ok p i k /\
         nth_error orig i = Some p /\
         (forall j q, j <> i -> nth_error paths j = Some q -> prefix p q ->
            (exists h rest, q = p ++ h :: rest /\ nth_error paths' j = Some q /\ h <> k) \/
            (q = p /\ exists k', nth_error paths' j = Some (p ++ [k']) /\ k' <> k)))
      \/ (nth_error paths' i = Some p /\
          ((forall j q, j <> i -> nth_error paths j = Some q -> ~ prefix p q) \/ c < length p))).
    { intros i p Hp.
      set (key := pkey c p). set (ms := members c paths key).
      assert (Hgrp : In (key, ms) (make_groups sep c paths)) by (eapply make_groups_exists; eauto).
      assert (Himem : In (skipn c p, i) ms) by (apply In_members; exists p; auto).
      assert (Hi : In i (map snd ms)) by (apply (in_map snd) in Himem; exact Himem).
      assert (Hndm : NoDup (map snd ms)) by apply NoDup_members.
      destruct (Nat.le_gt_cases (length p) c) as [Hpc|Hpc].
      2:{ right. split; [|right; exact Hpc]. rewrite <- Hp. apply Ho. intros k' ms' Hin [_ Hb].
          apply In_make_groups in Hin as [-> _]. apply In_blank, In_members in Hb as [p' [Hp' [_ Hs]]].
          assert (p' = p) by congruence. subst p'. symmetry in Hs. apply skipn_nil_iff in Hs. lia. }
      assert (Hskip : skipn c p = []) by (apply skipn_nil_iff; exact Hpc).
      assert (Hfst : firstn c p = p) by (apply firstn_all2; exact Hpc).
      assert (Hib : In i (blank ms)) by (apply In_blank; rewrite <- Hskip; exact Himem).
      (* group members = paths through p *)
      assert (Hmem : forall j, In j (map snd ms) <-> exists q, nth_error paths j = Some q /\ firstn c q = p).
      { intros j. split.
        - intros Hj. apply in_map_iff in Hj as [[r j'] [<- Hj]].
          apply In_members in Hj as [q [Hq [Hk _]]]. exists q. split; [exact Hq|].
          rewrite <- Hfst. symmetry. apply (Hinj i j' p q Hp Hq). symmetry; exact Hk.
        - intros [q [Hq Hf]]. apply (in_map snd ms (skipn c q, j)). apply In_members.
          exists q. split; [exact Hq|]. split; [|reflexivity]. unfold key, pkey. rewrite Hf, Hfst. reflexivity. }
      destruct (Nat.le_gt_cases 2 (length ms)) as [H2|H2].
      - left. assert (Hact : active ms).
        { split; [exact H2|]. intros Hbn. rewrite Hbn in Hib. destruct Hib. }
        assert (Hex : exists j q, j <> i /\ nth_error paths j = Some q /\ prefix p q).
        { apply (two_members ms i Hndm Hi) in H2 as [j [Hji Hj]]. apply Hmem in Hj as [q [Hq Hf]].
          exists j, q. split; [exact Hji|]. split; [exact Hq|].
          exists (skipn c q). rewrite <- Hf at 1. symmetry. apply firstn_skipn. }
        assert (Hplen : length p = c).
        { destruct (Nat.eq_dec (length p) c) as [|Hne]; [assumption|exfalso].
          destruct Hex as [j [q [Hji [Hq Hpre]]]].
          apply (HB i p Hp ltac:(lia) j p q Hp Hq (not_eq_sym Hji) Hpre). }
        split; [exact Hex|]. split; [exact Hplen|].
        assert (Hpo : nth_error orig i = Some p).
        { destruct (nth_error orig i) as [o|] eqn:Eo;
            [|apply nth_error_None in Eo; apply nth_error_lt in Hp; lia].
          destruct (HA i o p Eo Hp) as [[-> _]|[k' [_ [_ [Hset _]]]]]; [reflexivity|exfalso].
          destruct Hex as [j [q [Hji [Hq Hpre]]]]. apply (Hset j p q Hp Hq (not_eq_sym Hji) Hpre). }
        destruct (Ha key ms Hgrp Hact) as [keys [K1 [[K2 Knum] [K3 K4]]]].
        apply In_nth_error in Hib as [m Hm].
        assert (Hmlt : m < length keys) by (apply nth_error_lt in Hm; lia).
        destruct (nth_error keys m) as [k|] eqn:Ek;
          [|apply nth_error_None in Ek; lia].
        destruct (K4 m i k Hm Ek) as [p' [Hp' Hp'']].
        assert (p' = p) by congruence. subst p'. exists k. split; [exact Hp''|].
        assert (Hgk : good_key ms k).
        { rewrite Forall_forall in K2. apply K2. eapply nth_error_In; eauto. }
        (* below p k' <-> k' existing in the group *)
        assert (Hbel : forall e, below p e <-> In e (existing ms)).
        { intros e. split.
          - intros [q [rest [Hq Eq]]]. apply In_nth_error in Hq as [j Hj].
            assert (Hqlen : c < length q) by (rewrite Eq, app_length; simpl; lia).
            assert (Hqp : nth_error paths j = Some q).
            { destruct (nth_error paths j) as [q'|] eqn:Eq';
                [|apply nth_error_None in Eq'; apply nth_error_lt in Hj; lia].
              destruct (HA j q q' Hj Eq') as [[-> _]|[k' [-> [Hl' _]]]]; [reflexivity|].
              rewrite app_length in Hl'. lia. }
            apply existing_In. exists rest, j. apply In_members. exists q.
            assert (Hfq : firstn c q = p).
            { rewrite Eq, <- Hplen, firstn_app, firstn_all, Nat.sub_diag. apply app_nil_r. }
            split; [exact Hqp|]. split.
            + unfold key, pkey. rewrite Hfq, Hfst. reflexivity.
            + rewrite Eq, <- Hplen, skipn_app, skipn_all, Nat.sub_diag. reflexivity.
          - intros He. apply (existing_orig c paths key e Hinv0) in He as [j [q [Hq [Hqp [Hk [rest Hr]]]]]].
            exists q, rest. split; [eapply nth_error_In; eauto|].
            rewrite <- (Hinj i j p q Hp Hqp) in Hr by (symmetry; exact Hk). rewrite Hfst in Hr. exact Hr. }
        assert (Hthrough : length ms <= length (through p)).
        { rewrite <- (map_length snd ms). apply NoDup_incl_length; [exact Hndm|].
          intros j Hj. apply Hmem in Hj as [q [Hq Hf]].
          destruct (nth_error orig j) as [o|] eqn:Eo;
            [|apply nth_error_None in Eo; apply nth_error_lt in Hq; lia].
          apply filter_In. split; [apply in_seq; apply nth_error_lt in Eo; lia|].
          rewrite Eo. destruct (list_eq_dec string_dec (firstn (length p) o) p) as [|Hne]; [reflexivity|exfalso].
          apply Hne. rewrite Hplen.
          destruct (HA j o q Eo Hq) as [[-> _]|[k' [-> [Hl' [Hset _]]]]]; [exact Hf|exfalso].
          (* an extended path is settled, yet p = q is its own length-c prefix *)
          assert (Hqp : o ++ [k'] = p) by (rewrite <- Hf; symmetry; apply firstn_all2; exact Hl').
          assert (Hij : j <> i).
          { intros ->. assert (Eop : o = p) by congruence. rewrite Eop in Hqp.
            apply (f_equal (@List.length _)) in Hqp. rewrite app_length in Hqp. simpl in Hqp. lia. }
          apply (Hset i (o ++ [k']) p Hq Hp Hij). exists []. rewrite app_nil_r. symmetry; exact Hqp. }
        destruct Hgk as [G1 [G2 [G3 [G4 G5]]]].
        (* the paths equal to p, in order *)
        assert (Hblank : blank ms = filter (fun j => match nth_error orig j with Some q => if list_eq_dec string_dec q p then true else false | None => false end) (seq 0 (length paths))).
        { apply increasing_ext; [apply blank_increasing|apply filter_seq_increasing|]. intros j. rewrite In_blank, filter_In, in_seq. split.
          - intros Hj. apply In_members in Hj as [q [Hq [Hk Hs]]]. symmetry in Hs. apply skipn_nil_iff in Hs.
            assert (q = p) as ->.
            { rewrite <- (firstn_all2 q Hs), <- Hfst. symmetry. apply (Hinj i j p q Hp Hq). symmetry. exact Hk. }
            split; [apply nth_error_lt in Hq; lia|]. destruct (nth_error orig j) as [o|] eqn:Eo; [|apply nth_error_None in Eo; apply nth_error_lt in Hq; lia].
            destruct (HA j o p Eo Hq) as [[ <- _]|[k' [E1 [_ [Hset _]]]]]; [destruct (list_eq_dec string_dec p p); congruence|exfalso].
            assert (Hij : j <> i).
            { intros ->. rewrite Hpo in Eo. injection Eo as <-. apply (f_equal (@List.length _)) in E1. rewrite app_length in E1. simpl in E1. lia. }
            apply (Hset i p p Hq Hp Hij). exists []. symmetry. apply app_nil_r.
          - intros [Hj1 Hj2]. destruct (nth_error orig j) as [o|] eqn:Eo; [|discriminate]. destruct (list_eq_dec string_dec o p) as [ -> |]; [|discriminate].
            destruct (nth_error paths j) as [q|] eqn:Eq; [|apply nth_error_None in Eq; lia].
            assert (q = p) as ->.
            { destruct (HA j p q Eo Eq) as [[ -> _]|[k' [ -> [Hl' _]]]]; [reflexivity|]. rewrite app_length in Hl'. simpl in Hl'. lia. }
            apply In_members. exists p. split; [exact Eq|]. split; [reflexivity|]. symmetry. exact Hskip. }
        split; [|split; [exact Hpo|]].
        { split; [exact G2|]. split; [exact G3|]. split; [rewrite Hbel; exact G1|]. split.
          - intros Hall. assert (Hdig : forallb isdigit (existing ms) = true) by (apply forallb_forall; intros e He; apply Hall, Hbel, He).
            destruct G4 as [m' [M1 [M2 M3]]]; [exact Hdig|].
            exists m'. split; [exact M1|]. split; [lia|]. split; [intros e He; apply M3, Hbel, He|].
            specialize (Knum Hdig). rewrite Knum, nth_error_map in Ek. destruct (nth_error (available ms) m) as [n0|] eqn:En0; [|discriminate].
            injection Ek as Ek. rewrite M1 in Ek. apply str_of_inj in Ek. subst n0.
            unfold available in En0. rewrite Hblank in Hm.
            eexists _, _. split; [apply NoDup_filter, (seq_NoDup m' 0)|]. split; [|split; [apply NoDup_filter, (seq_NoDup i 0)|split]].
            3: { rewrite (filter_seq_rank _ _ _ _ En0), (filter_seq_rank _ _ _ _ Hm). reflexivity. }
            + intros n0. rewrite filter_In, in_seq. split.
              * intros [N1 N2]. split; [lia|]. intros e He Ee. apply negb_true_iff in N2. assert (Ht : mem_nat n0 (map int_of (existing ms)) = true); [|congruence].
                apply mem_nat_In. rewrite <- Ee. apply in_map, Hbel, He.
              * intros [N1 N2]. split; [lia|]. apply negb_true_iff. destruct (mem_nat n0 (map int_of (existing ms))) eqn:Et; [exfalso|reflexivity].
                apply mem_nat_In, in_map_iff in Et as [e [Ee He]]. apply (N2 e); [apply Hbel, He|exact Ee].
            + intros j. rewrite filter_In, in_seq. split.
              * intros [J1 J2]. split; [lia|]. destruct (nth_error orig j) as [q|]; [|discriminate]. destruct (list_eq_dec string_dec q p) as [ -> |]; [reflexivity|discriminate].
              * intros [J1 J2]. split; [lia|]. rewrite J2. destruct (list_eq_dec string_dec p p); congruence.
          - intros [e [He1 He2]]. apply G5. destruct (forallb isdigit (existing ms)) eqn:Ef; [|reflexivity].
            rewrite forallb_forall in Ef. apply Hbel in He1. rewrite (Ef e He1) in He2. discriminate. }
        intros j q Hji Hq Hpre.
        assert (Hfq : firstn c q = p) by (rewrite <- Hplen; apply prefix_firstn; exact Hpre).
        assert (Hj : In j (map snd ms)) by (apply Hmem; exists q; auto).
        assert (Hjm : In (skipn c q, j) ms).
        { apply In_members. exists q. split; [exact Hq|]. split; [|reflexivity].
          unfold key, pkey. rewrite Hfq, Hfst. reflexivity. }
        destruct (skipn c q) as [|h rest] eqn:Es.
        + right. assert (Hqeq : q = p).
          { rewrite <- Hfq. symmetry. apply firstn_all2. apply skipn_nil_iff. exact Es. }
          split; [exact Hqeq|]. apply In_blank in Hjm. apply In_nth_error in Hjm as [m2 Hm2].
          assert (Hm2lt : m2 < length keys) by (apply nth_error_lt in Hm2; lia).
          destruct (nth_error keys m2) as [k'|] eqn:Ek'; [|apply nth_error_None in Ek'; lia].
          destruct (K4 m2 j k' Hm2 Ek') as [q' [Q1 Q2]]. assert (q' = p) by congruence. subst q'.
          exists k'. split; [exact Q2|]. intros ->.
          assert (Hmm : m2 = m).
          { apply (proj1 (NoDup_nth_error keys) K1); [exact Hm2lt|congruence]. }
          subst m2. congruence.
        + left. exists h, rest.
          assert (Eq : q = p ++ h :: rest) by (rewrite <- Es, <- Hfq; symmetry; apply firstn_skipn).
          split; [exact Eq|]. split.
          * rewrite <- Hq. apply Ho. intros k' ms' Hin [_ Hb].
            apply In_make_groups in Hin as [-> _]. apply In_blank, In_members in Hb as [q' [Hq' [_ Hs]]].
            assert (q' = q) by congruence. subst q'. rewrite Es in Hs. discriminate.
          * intros ->. apply G1. apply existing_In. exists rest, j. exact Hjm.
      - right. split.
        + rewrite <- Hp. apply Ho. intros k' ms' Hin [[Hact _] Hb].
          apply In_make_groups in Hin as [-> _]. apply In_blank, In_members in Hb as [p' [Hp' [Hk' _]]].
          assert (p' = p) by congruence. subst p'. subst k'. fold key in Hact. fold ms in Hact. lia.
        + left. intros j q Hji Hq Hpre.
          destruct (Nat.eq_dec (length p) c) as [Hplen|Hne].
          * assert (Hfq : firstn c q = p) by (rewrite <- Hplen; apply prefix_firstn; exact Hpre).
            assert (Hj : In j (map snd ms)) by (apply Hmem; exists q; auto).
            assert (2 <= length ms); [|lia]. apply (two_members ms i Hndm Hi). exists j; auto.
          * apply (HB i p Hp ltac:(lia) j p q Hp Hq (not_eq_sym Hji) Hpre). }
    (* every path keeps its old self as a prefix *)
    assert (Hgrow : forall j q', nth_error paths' j = Some q' ->
               exists q, nth_error paths j = Some q /\ (q' = q \/ (length q = c /\ exists k, q' = q ++ [k]))).
    { intros j q' Hq'. destruct (nth_error paths j) as [q|] eqn:Eq;
        [|apply nth_error_None in Eq; apply nth_error_lt in Hq'; lia].
      exists q. split; [reflexivity|].
      destruct (Hdesc j q Eq) as [[_ [Hlq [k [Hk _]]]]|[Hk _]].
      - right. split; [exact Hlq|]. exists k. congruence.
      - left. congruence. }
    (* extended paths are settled *)
    assert (Hext : forall i p k, nth_error paths i = Some p -> nth_error paths' i = Some (p ++ [k]) ->
                     settled paths' i).
    { intros i p k Hp Hp'. destruct (Hdesc i p Hp) as [[_ [Hlp [k2 [Hk2 [_ [_ Hoth]]]]]]|[Hk2 _]].
      2:{ exfalso. rewrite Hk2 in Hp'. injection Hp' as Hp'. apply (f_equal (@List.length _)) in Hp'.
          rewrite app_length in Hp'. simpl in Hp'. lia. }
      assert (k2 = k).
      { rewrite Hk2 in Hp'. injection Hp' as Hp'. apply app_inv_head in Hp'. congruence. }
      subst k2. intros j p' q' Hpi Hqj Hij Hpre. rewrite Hp' in Hpi. injection Hpi as <-.
      destruct (Hgrow j q' Hqj) as [q [Hq Hcase]].
      assert (Hpq : prefix p q).
      { assert (H1 : prefix p q') by (eapply prefix_trans; [exists [k]; reflexivity|exact Hpre]).
        destruct Hcase as [->|[Hlq [k' ->]]]; [exact H1|]. apply (prefix_snoc_inv p q k'); [exact H1|lia]. }
      destruct (Hoth j q (not_eq_sym Hij) Hq Hpq) as [[h [rest [Eq [Hj' Hhk]]]]|[Eq [k' [Hj' Hk']]]].
      - assert (q' = q) by congruence. subst q'. destruct Hpre as [t Ht].
        rewrite Eq, <- app_assoc in Ht. apply app_inv_head in Ht. simpl in Ht. congruence.
      - rewrite Hj' in Hqj. injection Hqj as <-. destruct Hpre as [t Ht].
        rewrite <- app_assoc in Ht. apply app_inv_head in Ht. simpl in Ht. congruence. }
    (* unchanged short paths stay settled *)
    assert (Hstay : forall i p, nth_error paths i = Some p -> nth_error paths' i = Some p ->
                 length p <= c -> settled paths' i /\ settled paths i).
    { intros i p Hp Hp' Hlp. destruct (Hdesc i p Hp) as [[_ [_ [k [Hk _]]]]|[_ [Hno|Hlt]]]; [exfalso| |lia].
      { rewrite Hk in Hp'. injection Hp' as Hp'. apply (f_equal (@List.length _)) in Hp'.
        rewrite app_length in Hp'. simpl in Hp'. lia. }
      split.
      - intros j p' q' Hpi Hqj Hij Hpre. rewrite Hp' in Hpi. injection Hpi as <-.
        destruct (Hgrow j q' Hqj) as [q [Hq Hcase]]. apply (Hno j q (not_eq_sym Hij) Hq).
        destruct Hcase as [->|[Hlq [k' ->]]]; [exact Hpre|]. apply (prefix_snoc_inv p q k'); [exact Hpre|lia].
      - intros j p' q Hpi Hqj Hij. assert (p' = p) by congruence. subst p'. apply (Hno j q); auto. }
    (* being settled among the current short paths means being settled originally *)
    assert (Horig_set : forall i p, nth_error orig i = Some p -> nth_error paths i = Some p ->
              length p <= c -> settled paths i -> settled orig i).
    { intros i p Hpo Hp Hlp Hset j p' q Hpi Hqj Hij Hpre. assert (p' = p) by congruence. subst p'.
      destruct (nth_error paths j) as [q'|] eqn:Eq';
        [|apply nth_error_None in Eq'; apply nth_error_lt in Hqj; lia].
      apply (Hset j p q' Hp Eq' Hij).
      destruct (HA j q q' Hqj Eq') as [[-> _]|[k' [-> _]]]; [exact Hpre|].
      eapply prefix_trans; [exact Hpre|exists [k']; reflexivity]. }
    split; [congruence|]. split.
    + intros i o p' Hpo Hp'.
      destruct (nth_error paths i) as [p|] eqn:Ep;
        [|apply nth_error_None in Ep; apply nth_error_lt in Hp'; lia].
      destruct (Hdesc i p Ep) as [[Hex [Hlp [k [Hk [Hkok [Hpo' _]]]]]]|[Hk Hno]].
      * right. assert (o = p) by congruence. subst o. exists k.
        split; [congruence|]. split; [rewrite Hk in Hp'; injection Hp' as <-; rewrite app_length; simpl; lia|].
        split; [eapply Hext; eauto|]. split; [|exact Hkok].
        intros Hset. destruct Hex as [j [q [Hji [Hq Hpre]]]].
        destruct (nth_error orig j) as [oq|] eqn:Eoq;
          [|apply nth_error_None in Eoq; apply nth_error_lt in Hq; lia].
        apply (Hset j p oq Hpo' Eoq (not_eq_sym Hji)).
        destruct (HA j oq q Eoq Hq) as [[-> _]|[k' [-> [Hl' [Hsetj _]]]]]; [exact Hpre|].
        destruct (Nat.le_gt_cases (length p) (length oq)) as [Hle|Hgt].
        -- apply (prefix_snoc_inv p oq k'); assumption.
        -- exfalso. (* then p = oq ++ [k'], and path j is settled *)
           apply (Hsetj i (oq ++ [k']) p Hq Ep Hji).
           destruct Hpre as [t Ht]. destruct t as [|x t].
           ++ rewrite app_nil_r in Ht. exists []. rewrite app_nil_r. symmetry; exact Ht.
           ++ exfalso. apply (f_equal (@List.length _)) in Ht. rewrite !app_length in Ht. simpl in Ht. lia.
      * assert (p' = p) by congruence. subst p'.
        destruct (HA i o p Hpo Ep) as [[-> Hset]|[k' [-> [Hl' [Hset [Hnset Hkok]]]]]].
        -- left. split; [reflexivity|]. intros Hlt. assert (Hle : length o <= c) by lia.
           apply (Horig_set i o Hpo Ep Hle). apply (Hstay i o Ep Hp' Hle).
        -- right. exists k'. split; [reflexivity|]. split; [lia|]. split; [|auto].
           apply (Hstay i _ Ep Hp' Hl').
    + intros i p' Hp' Hlt. destruct (Hgrow i p' Hp') as [p [Hp [->|[Hlp [k ->]]]]].
      * apply (Hstay i p Hp Hp'). lia.
      * eapply Hext; eauto.
Qed.

Lemma levels_spec m : forall c n paths,
  c + m <= S hi -> inv c paths ->
  exists n' paths', rfold (level sep uuid) (seq c m) (n, paths) = Ok (n', paths') /\ inv (c + m) paths'.
Proof.
  induction m as [|m IH]; intros c n paths Hc Hinv.
  - exists n, paths. split; [reflexivity|]. rewrite Nat.add_0_r. exact Hinv.
  - cbn [seq rfold]. destruct (level_spec n paths c ltac:(lia) Hinv) as [n1 [paths1 [E Hinv1]]].
    rewrite E. cbn [rbind]. destruct (IH (S c) n1 paths1 ltac:(lia) Hinv1) as [n2 [paths2 [E2 Hinv2]]].
    exists n2, paths2. split; [exact E2|]. replace (c + S m) with (S c + m) by lia. exact Hinv2.
Qed.
End Levels.

End Concretize.

(* ---------------- the statement on strings ---------------- *)
Lemma comps_parts sep p : comps sep p = path_parts sep p.
Proof. unfold comps, path_parts. destruct p; reflexivity. Qed.

Lemma comps_wf sep p : wf_parts sep (comps sep p).
Proof.
  unfold comps, wf_parts. destruct (String.eqb_spec p EmptyString) as [->|Hne].
  - split; [constructor|discriminate].
  - split; [apply split_no_sep|]. intros H. apply Hne. rewrite <- (join_split sep p), H. reflexivity.
Qed.

Lemma comps_join sep ps : wf_parts sep ps -> comps sep (join sep ps) = ps.
Proof.
  intros [H1 H2]. unfold comps. destruct (String.eqb_spec (join sep ps) EmptyString) as [E|E].
  - apply join_nil_iff in E as [->| ->]; [reflexivity|congruence].
  - apply split_join; [|exact H1]. intros ->. apply E; reflexivity.
Qed.

Lemma join_comps sep p : join sep (comps sep p) = p.
Proof.
  unfold comps. destruct (String.eqb_spec p EmptyString) as [->|]; [reflexivity|apply join_split].
Qed.

Lemma list_min_le l : forall x, In x l -> list_min l <= x.
Proof.
  destruct l as [|a l]; [intros x []|]. simpl.
  assert (H : forall l a x, x = a \/ In x l -> fold_left Nat.min l a <= x).
  { clear. induction l as [|b l IH]; intros a x [->|H]; simpl.
    - lia.
    - destruct H.
    - etransitivity; [apply (IH (Nat.min a b) (Nat.min a b)); left; reflexivity|lia].
    - destruct H as [->|H]; [|apply IH; right; exact H].
      etransitivity; [apply (IH (Nat.min a x) (Nat.min a x)); left; reflexivity|lia]. }
  intros x [->|Hx]; apply H; auto.
Qed.

Lemma list_max_ge l x : In x l -> x <= list_max' l.
Proof.
  unfold list_max'.
  assert (H : forall l a, a <= fold_left Nat.max l a /\ forall x, In x l -> x <= fold_left Nat.max l a).
  { clear. induction l as [|b l IH]; intros a; simpl; [split; [lia|intros x []]|].
    destruct (IH (Nat.max a b)) as [H1 H2]. split; [lia|]. intros x [->|Hx]; [lia|auto]. }
  apply H.
Qed.

Lemma list_min_max l : l <> [] -> list_min l <= list_max' l.
Proof.
  destruct l as [|a l]; [congruence|]. intros _.
  etransitivity; [apply (list_min_le _ a); left; reflexivity|apply list_max_ge; left; reflexivity].
Qed.

Lemma concretize_paths_eq sep uuid n paths :
  paths <> [] ->
  concretize_paths sep uuid n paths =
  let ps := map (path_parts sep) paths in
  let lo := list_min (map (@List.length string) ps) in
  let hi := list_max' (map (@List.length string) ps) in
  let* (n', ps') := rfold (level sep uuid) (seq lo (S hi - lo)) (n, ps) in
  Ok (n', map (join sep) ps').
Proof. destruct paths; [congruence|reflexivity]. Qed.

Lemma concretize_paths_spec sep uuid n paths :
  is_digit_char sep = false -> paths <> [] -> fresh_source sep uuid paths ->
  exists n' outs, concretize_paths sep uuid n paths = Ok (n', outs) /\
    length outs = length paths /\
    (forall i j a b, nth_error outs i = Some a -> nth_error outs j = Some b -> i <> j ->
        ~ prefix (comps sep a) (comps sep b)) /\
    (forall i p o, nth_error paths i = Some p -> nth_error outs i = Some o ->
       slot_given sep uuid paths i p o).
Proof.
  intros Hsep Hne [Hu1 [Hu2 Hu3]].
  set (orig := map (comps sep) paths).
  assert (Hwf : Forall (wf_parts sep) orig).
  { apply Forall_forall. intros p Hp. apply in_map_iff in Hp as [s [<- _]]. apply comps_wf. }
  assert (Hfresh : forall m p, In p orig -> ~ In (uuid m) p).
  { intros m p Hp. apply in_map_iff in Hp as [s [<- Hs]]. apply Hu3; exact Hs. }
  set (lens := map (@List.length string) orig).
  set (lo := list_min lens). set (hi := list_max' lens).
  assert (Hhi : forall p, In p orig -> length p <= hi).
  { intros p Hp. apply list_max_ge. apply in_map. exact Hp. }
  assert (Hlo : forall p, In p orig -> lo <= length p).
  { intros p Hp. apply list_min_le. apply in_map. exact Hp. }
  assert (Hlohi : lo <= hi).
  { apply list_min_max. unfold lens, orig. destruct paths; [congruence|discriminate]. }
  assert (Hinv : inv sep uuid orig lo orig).
  { split; [reflexivity|]. split.
    - intros i o p Ho Hp. left. split; [congruence|]. intros Hlt. exfalso.
      apply nth_error_In, Hlo in Ho. lia.
    - intros i p Hp Hlt. exfalso. apply nth_error_In, Hlo in Hp. lia. }
  destruct (levels_spec sep uuid Hsep Hu1 Hu2 orig Hwf Hfresh hi Hhi (S hi - lo) lo n orig ltac:(lia) Hinv)
    as [n' [ps' [E Hinv']]].
  replace (lo + (S hi - lo)) with (S hi) in Hinv' by lia.
  exists n', (map (join sep) ps').
  assert (Eq : concretize_paths sep uuid n paths = Ok (n', map (join sep) ps')).
  { rewrite concretize_paths_eq by exact Hne.
    replace (map (path_parts sep) paths) with orig
      by (apply map_ext; intros; apply comps_parts).
    cbv zeta. fold lens. fold lo. fold hi. rewrite E. reflexivity. }
  split; [exact Eq|].
  assert (Hwf' : forall i p, nth_error ps' i = Some p -> wf_parts sep p) by (eapply inv_wf; eauto).
  destruct Hinv' as [Hlen [HA HB]].
  split; [rewrite map_length, Hlen; apply map_length|].
  assert (Hsettled : forall i p, nth_error ps' i = Some p -> settled ps' i).
  { intros i p Hp. destruct (nth_error orig i) as [o|] eqn:Eo;
      [|apply nth_error_None in Eo; apply nth_error_lt in Hp; lia].
    destruct (HA i o p Eo Hp) as [[-> _]|[k [_ [_ [H _]]]]]; [|exact H].
    apply (HB i o Hp). apply nth_error_In, Hhi in Eo. lia. }
  split.
  - intros i j a b Ha Hb Hij. rewrite nth_error_map in Ha, Hb.
    destruct (nth_error ps' i) as [p|] eqn:Ep; [|discriminate].
    destruct (nth_error ps' j) as [q|] eqn:Eq2; [|discriminate].
    injection Ha as <-. injection Hb as <-.
    rewrite !comps_join by (eapply Hwf'; eauto). apply (Hsettled i p Ep j p q Ep Eq2 Hij).
  - intros i p o Hp Ho. rewrite nth_error_map in Ho.
    destruct (nth_error ps' i) as [q|] eqn:Eq2; [|discriminate]. injection Ho as <-.
    assert (Hpo : nth_error orig i = Some (comps sep p)) by (unfold orig; rewrite nth_error_map, Hp; reflexivity).
    assert (Hun : unambiguous sep paths i <-> settled orig i).
    { split.
      - intros H j a b Ha Hb Hij. unfold orig in Ha, Hb. rewrite nth_error_map in Ha, Hb.
        destruct (nth_error paths i) as [pa|] eqn:Ea; [|discriminate].
        destruct (nth_error paths j) as [pb|] eqn:Eb; [|discriminate].
        injection Ha as <-. injection Hb as <-. apply (H j pa pb); auto.
      - intros H j a b Ha Hb Hij. apply (H j); [| |exact Hij];
          unfold orig; rewrite nth_error_map; [rewrite Ha|rewrite Hb]; reflexivity. }
    assert (Hsib : forall e, sibling sep paths p e <-> below orig (comps sep p) e).
    { intros e. split.
      - intros [s [rest [Hs Es]]]. exists (comps sep s), rest. split; [apply in_map; exact Hs|exact Es].
      - intros [s [rest [Hs Es]]]. apply in_map_iff in Hs as [s' [<- Hs']]. exists s', rest. auto. }
    destruct (HA i (comps sep p) q Hpo Eq2) as [[-> Hset]|[k [Ek [_ [_ [Hns Hk]]]]]].
    + left. split; [apply Hun, Hset|apply join_comps].
      apply nth_error_In, Hhi in Hpo. lia.
    + right. split; [rewrite Hun; exact Hns|].
      destruct Hk as [K1 [K2 [K3 [K4 K5]]]]. exists k.
      split; [rewrite comps_join by (eapply Hwf'; eauto); exact Ek|].
      split; [exact K1|]. split; [exact K2|]. split; [rewrite Hsib; exact K3|]. split.
      * intros Hall. destruct K4 as [m [M1 [M2 [M3 M4]]]]; [intros e He; apply Hall, Hsib, He|].
        exists m, (through orig (comps sep p)). split; [exact M1|]. split.
        { apply NoDup_filter, seq_NoDup. }
        split; [exact M2|]. split; [|split; [intros e He; apply M3, Hsib, He|]].
        2: { destruct M4 as [L [L' [F1 [F2 [F3 [F4 F5]]]]]]. exists L, L'. split; [exact F1|]. split; [|split; [exact F3|split; [|exact F5]]].
             - intros n0. rewrite F2. split; intros [N1 N2]; (split; [exact N1|]); intros e He; apply N2, Hsib, He.
             - intros j. rewrite F4. unfold orig. rewrite nth_error_map. split; intros [J1 J2]; (split; [exact J1|]).
               + destruct (nth_error paths j) as [q0|]; [|discriminate]. injection J2 as J2. eauto.
               + destruct J2 as [q0 [J2 J3]]. rewrite J2. simpl. rewrite J3. reflexivity. }
        intros j Hj. apply filter_In in Hj as [_ Hj].
        destruct (nth_error orig j) as [s|] eqn:Es; [|discriminate].
        destruct (list_eq_dec string_dec (firstn (length (comps sep p)) s) (comps sep p)) as [Hf|]; [|discriminate].
        unfold orig in Es. rewrite nth_error_map in Es.
        destruct (nth_error paths j) as [s'|] eqn:Es'; [|discriminate]. injection Es as <-.
        exists s'. split; [exact Es'|]. apply prefix_firstn. exact Hf.
      * intros [e [He1 He2]]. apply K5. exists e. split; [apply Hsib; exact He1|exact He2].
Qed.
