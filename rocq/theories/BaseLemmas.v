(** Lemmas about the base vocabulary (no model content). *)
From Verif Require Import Base.
From Coq Require Import ZifyBool ZifyNat Permutation.

(* ---------------- result monad ---------------- *)
Lemma rbind_ok {A B} (r : result A) (f : A -> result B) b :
  rbind r f = Ok b <-> exists a, r = Ok a /\ f a = Ok b.
Proof.
  destruct r as [a|e]; simpl; split.
  - intros H; exists a; auto.
  - intros [a' [H1 H2]]; injection H1 as ->; exact H2.
  - discriminate.
  - intros [a [H _]]; discriminate.
Qed.

Lemma rfold_app {A B} (f : A -> B -> result A) l1 l2 a :
  rfold f (l1 ++ l2) a = (let* a' := rfold f l1 a in rfold f l2 a').
Proof.
  revert a; induction l1 as [|x l1 IH]; intros a; simpl; [reflexivity|].
  destruct (f a x) as [a'|e]; simpl; [apply IH|reflexivity].
Qed.

Lemma rmapM_length {A B} (f : A -> result B) l bs :
  rmapM f l = Ok bs -> length bs = length l.
Proof.
  revert bs; induction l as [|x l IH]; simpl; intros bs H.
  - injection H as <-; reflexivity.
  - apply rbind_ok in H as [b [Hb H]]. apply rbind_ok in H as [bs' [Hbs' H]].
    injection H as <-. simpl; f_equal; apply IH; exact Hbs'.
Qed.

Lemma rmapM_nth {A B} (f : A -> result B) l bs i :
  rmapM f l = Ok bs ->
  match nth_error l i with
  | Some a => exists b, nth_error bs i = Some b /\ f a = Ok b
  | None => nth_error bs i = None
  end.
Proof.
  revert bs i; induction l as [|x l IH]; simpl; intros bs i H.
  - injection H as <-; destruct i; reflexivity.
  - apply rbind_ok in H as [b [Hb H]]. apply rbind_ok in H as [bs' [Hbs' H]].
    injection H as <-. destruct i as [|i]; simpl; [exists b; auto|].
    apply IH; exact Hbs'.
Qed.

(* ---------------- strings ---------------- *)
Lemma append_nil_r s : append s EmptyString = s.
Proof. induction s as [|c s IH]; simpl; congruence. Qed.

Lemma append_assoc s t u : append (append s t) u = append s (append t u).
Proof. induction s as [|c s IH]; simpl; congruence. Qed.

Lemma slen_append s t : slen (append s t) = slen s + slen t.
Proof. induction s as [|c s IH]; simpl; lia. Qed.

Lemma append_inj_l s t u : append s t = append s u -> t = u.
Proof. induction s as [|c s IH]; simpl; intros H; [exact H|]. injection H as H; auto. Qed.

Lemma append_inj_r s t u : append s u = append t u -> s = t.
Proof.
  revert t; induction s as [|c s IH]; intros t H.
  - destruct t as [|d t]; [reflexivity|].
    apply (f_equal slen) in H; simpl in H; rewrite slen_append in H; lia.
  - destruct t as [|d t].
    + apply (f_equal slen) in H; simpl in H; rewrite slen_append in H; lia.
    + simpl in H; injection H as -> H; f_equal; auto.
Qed.

Lemma split_nonempty sep s : split sep s <> [].
Proof.
  destruct s as [|c s]; simpl; [discriminate|].
  destruct (Ascii.eqb c sep); [discriminate|]. destruct (split sep s); discriminate.
Qed.

Fixpoint no_sep (sep : ascii) (s : string) : bool :=
  match s with
  | EmptyString => true
  | String c s' => negb (Ascii.eqb c sep) && no_sep sep s'
  end.

Lemma split_no_sep sep s : Forall (fun p => no_sep sep p = true) (split sep s).
Proof.
  induction s as [|c s IH]; simpl; [repeat constructor|].
  destruct (Ascii.eqb c sep) eqn:E; [constructor; [reflexivity|exact IH]|].
  destruct (split sep s) as [|p ps] eqn:Es; [exfalso; eapply split_nonempty; eauto|].
  inversion IH as [|? ? H1 H2]; subst. constructor; [simpl; rewrite E; exact H1|exact H2].
Qed.

Lemma join_split sep s : join sep (split sep s) = s.
Proof.
  induction s as [|c s IH]; simpl; [reflexivity|].
  destruct (Ascii.eqb_spec c sep) as [->|Hc].
  - destruct (split sep s) as [|p ps] eqn:Es; [exfalso; eapply split_nonempty; eauto|].
    change (String sep (join sep (p :: ps)) = String sep s). rewrite IH; reflexivity.
  - destruct (split sep s) as [|p ps] eqn:Es; [exfalso; eapply split_nonempty; eauto|].
    destruct ps as [|q qs].
    + simpl in *; congruence.
    + change (String c (join sep (p :: q :: qs)) = String c s). rewrite IH; reflexivity.
Qed.

Lemma split_no_sep_id sep s : no_sep sep s = true -> split sep s = [s].
Proof.
  induction s as [|c s IH]; simpl; intros H; [reflexivity|].
  apply andb_true_iff in H as [H1 H2]. destruct (Ascii.eqb c sep); [discriminate|].
  rewrite IH by exact H2. reflexivity.
Qed.

Lemma split_app_sep sep p s :
  no_sep sep p = true -> split sep (append p (String sep s)) = p :: split sep s.
Proof.
  induction p as [|c p IH]; simpl; intros H.
  - rewrite Ascii.eqb_refl. reflexivity.
  - apply andb_true_iff in H as [H1 H2]. destruct (Ascii.eqb c sep); [discriminate|].
    rewrite IH by exact H2. reflexivity.
Qed.

Lemma split_join sep ps :
  ps <> [] -> Forall (fun p => no_sep sep p = true) ps -> split sep (join sep ps) = ps.
Proof.
  induction ps as [|p ps IH]; intros Hne H; [congruence|].
  inversion H as [|? ? H1 H2]; subst. destruct ps as [|q qs].
  - simpl. apply split_no_sep_id; exact H1.
  - change (split sep (append p (String sep (join sep (q :: qs)))) = p :: q :: qs).
    rewrite split_app_sep by exact H1. rewrite IH; [reflexivity|discriminate|exact H2].
Qed.

Lemma split1_spec sep s :
  split1 sep s =
  match split sep s with
  | [] => (EmptyString, None)
  | [k] => (k, None)
  | k :: ps => (k, Some (join sep ps))
  end.
Proof.
  induction s as [|c s IH]; simpl; [reflexivity|].
  destruct (Ascii.eqb c sep) eqn:E.
  - destruct (split sep s) as [|p ps] eqn:Es; [exfalso; eapply split_nonempty; eauto|].
    rewrite <- Es, join_split; reflexivity.
  - rewrite IH. destruct (split sep s) as [|p [|q qs]]; reflexivity.
Qed.

Lemma split1_rest_len sep s k r : split1 sep s = (k, Some r) -> slen r < slen s.
Proof.
  revert k; induction s as [|c s IH]; simpl; intros k H; [discriminate|].
  destruct (Ascii.eqb c sep); [injection H as <- <-; lia|].
  destruct (split1 sep s) as [k' r'] eqn:E. injection H as <- ->.
  specialize (IH k' eq_refl). lia.
Qed.

Lemma join_cons sep p ps : ps <> [] -> join sep (p :: ps) = append p (String sep (join sep ps)).
Proof. destruct ps; [congruence|reflexivity]. Qed.

Lemma join_nil_iff sep ps : join sep ps = EmptyString <-> ps = [] \/ ps = [EmptyString].
Proof.
  split.
  - destruct ps as [|p [|q qs]]; [auto|simpl; intros ->; auto|].
    rewrite join_cons by discriminate. intros H. apply (f_equal slen) in H.
    rewrite slen_append in H; simpl in H; lia.
  - intros [->| ->]; reflexivity.
Qed.

Lemma startswith_iff s p : startswith s p = true <-> exists t, s = append p t.
Proof.
  revert s; induction p as [|c p IH]; intros s; simpl.
  - split; [intros _; exists s; reflexivity|reflexivity].
  - destruct s as [|d s]; [split; [discriminate|intros [t H]; discriminate]|].
    rewrite andb_true_iff, IH. split.
    + intros [H1 [t ->]]. apply Ascii.eqb_eq in H1 as ->. exists t; reflexivity.
    + intros [t H]. injection H as -> ->. split; [apply Ascii.eqb_refl|exists t; reflexivity].
Qed.

Lemma sdrop_append p t : sdrop (slen p) (append p t) = t.
Proof. induction p as [|c p IH]; simpl; auto. Qed.

Lemma stake_append p t : stake (slen p) (append p t) = p.
Proof. induction p as [|c p IH]; simpl; congruence. Qed.

Lemma stake_sdrop n s : append (stake n s) (sdrop n s) = s.
Proof. revert s; induction n as [|n IH]; intros [|c s]; simpl; try reflexivity. rewrite IH; reflexivity. Qed.

Lemma removeprefix_append p t : removeprefix (append p t) p = t.
Proof.
  unfold removeprefix.
  assert (startswith (append p t) p = true) as ->; [apply startswith_iff; exists t; reflexivity|].
  apply sdrop_append.
Qed.

Lemma slen_sdrop n s : slen (sdrop n s) = slen s - n.
Proof. revert s; induction n as [|n IH]; intros [|c s]; simpl; try lia. apply IH. Qed.

Lemma endswith_iff s p : endswith s p = true <-> exists t, s = append t p.
Proof.
  unfold endswith. rewrite andb_true_iff, Nat.leb_le, String.eqb_eq. split.
  - intros [H1 H2]. exists (stake (slen s - slen p) s).
    rewrite <- (stake_sdrop (slen s - slen p) s) at 1. rewrite H2. reflexivity.
  - intros [t ->]. rewrite slen_append. split; [lia|].
    replace (slen t + slen p - slen p) with (slen t) by lia. apply sdrop_append.
Qed.

Lemma removesuffix_append t p : removesuffix (append t p) p = t.
Proof.
  unfold removesuffix.
  assert (endswith (append t p) p = true) as ->; [apply endswith_iff; exists t; reflexivity|].
  rewrite slen_append. replace (slen t + slen p - slen p) with (slen t) by lia. apply stake_append.
Qed.

(* ---------------- digits and ints ---------------- *)
Lemma isdigit_nonempty s : isdigit s = true -> s <> EmptyString.
Proof. destruct s; simpl; [discriminate|congruence]. Qed.

Lemma isdigit_all s : isdigit s = true -> all_digits s = true.
Proof. destruct s; simpl; [discriminate|auto]. Qed.

Lemma int_acc_app s c acc :
  int_acc (append s (String c EmptyString)) acc = 10 * int_acc s acc + (nat_of_ascii c - 48).
Proof. revert acc; induction s as [|d s IH]; intros acc; simpl; [lia|]. rewrite IH. simpl. lia. Qed.

Lemma digit_char_val d : d < 10 -> nat_of_ascii (digit_char d) = 48 + d.
Proof. intros H. unfold digit_char. apply nat_ascii_embedding. lia. Qed.

Lemma digit_char_is_digit d : d < 10 -> is_digit_char (digit_char d) = true.
Proof. intros H. unfold is_digit_char. rewrite digit_char_val by exact H. lia. Qed.

Lemma int_acc_shift s acc : all_digits s = true ->
  int_acc s acc = acc * 10 ^ slen s + int_acc s 0.
Proof.
  revert acc; induction s as [|c s IH]; intros acc; simpl; intros H; [lia|].
  apply andb_true_iff in H as [_ H]. rewrite IH by exact H.
  rewrite (IH (nat_of_ascii c - 48)) by exact H. nia.
Qed.

Lemma str_aux_spec f n acc :
  n < f -> all_digits acc = true ->
  all_digits (str_aux f n acc) = true /\ str_aux f n acc <> EmptyString /\
  int_acc (str_aux f n acc) 0 = n * 10 ^ slen acc + int_acc acc 0.
Proof.
  revert n acc; induction f as [|f IH]; intros n acc Hf Ha; [lia|].
  cbn [str_aux]. assert (Hd : n mod 10 < 10) by (apply Nat.mod_upper_bound; lia).
  assert (Hc := digit_char_is_digit _ Hd). assert (Hv := digit_char_val _ Hd).
  assert (Hdm := Nat.div_mod n 10 ltac:(lia)).
  remember (n mod 10) as r eqn:Er. remember (digit_char r) as c eqn:Ec.
  assert (Hval : int_acc (String c acc) 0 = r * 10 ^ slen acc + int_acc acc 0).
  { cbn [int_acc]. rewrite int_acc_shift by exact Ha. rewrite Hv.
    replace (10 * 0 + (48 + r - 48)) with r by lia. reflexivity. }
  destruct (Nat.ltb_spec n 10) as [Hlt|Hge].
  - split; [cbn [all_digits]; rewrite Hc, Ha; reflexivity|]. split; [discriminate|].
    rewrite Hval. rewrite Nat.mod_small in Er by lia. rewrite Er. reflexivity.
  - specialize (IH (n / 10) (String c acc)).
    assert (Hq : n / 10 < f) by (assert (n / 10 < n) by (apply Nat.div_lt; lia); lia).
    destruct IH as [H1 [H2 H3]]; [exact Hq| |].
    + cbn [all_digits]. rewrite Hc, Ha. reflexivity.
    + split; [exact H1|]. split; [exact H2|]. rewrite H3, Hval. cbn [String.length].
      rewrite Nat.pow_succ_r'. rewrite Hdm at 2. rewrite Nat.mul_add_distr_r. lia.
Qed.

Lemma isdigit_str_of n : isdigit (str_of n) = true.
Proof.
  unfold str_of. destruct (str_aux_spec (S n) n EmptyString) as [H1 [H2 _]]; [lia|reflexivity|].
  destruct (str_aux (S n) n EmptyString); [congruence|exact H1].
Qed.

Lemma int_of_str_of n : int_of (str_of n) = n.
Proof.
  unfold str_of, int_of. destruct (str_aux_spec (S n) n EmptyString) as [_ [_ H]]; [lia|reflexivity|].
  rewrite H. cbn [String.length int_acc Nat.pow]. lia.
Qed.

Lemma str_of_inj n m : str_of n = str_of m -> n = m.
Proof. intros H. rewrite <- (int_of_str_of n), <- (int_of_str_of m), H. reflexivity. Qed.

Lemma all_digits_no_sep sep s :
  is_digit_char sep = false -> all_digits s = true -> no_sep sep s = true.
Proof.
  intros Hs. induction s as [|c s IH]; simpl; [reflexivity|]. intros H.
  apply andb_true_iff in H as [H1 H2]. rewrite IH by exact H2.
  destruct (Ascii.eqb_spec c sep) as [->|]; [congruence|reflexivity].
Qed.

(* ---------------- dictionaries ---------------- *)
Lemma dget_dset_same {V} (d : dict V) k v : dget (dset d k v) k = Some v.
Proof.
  induction d as [|[k' v'] d IH]; simpl.
  - rewrite String.eqb_refl; reflexivity.
  - destruct (String.eqb k k') eqn:E; simpl; rewrite E; [reflexivity|exact IH].
Qed.

Lemma dget_dset_other {V} (d : dict V) k k' v : k <> k' -> dget (dset d k v) k' = dget d k'.
Proof.
  intros Hne. induction d as [|[k0 v0] d IH]; simpl.
  - destruct (String.eqb_spec k' k); congruence.
  - destruct (String.eqb_spec k k0) as [->|]; simpl.
    + destruct (String.eqb_spec k' k0); congruence.
    + destruct (String.eqb k' k0); [reflexivity|exact IH].
Qed.

Lemma dget_In {V} (d : dict V) k v : dget d k = Some v -> In (k, v) d.
Proof.
  induction d as [|[k0 v0] d IH]; simpl; [discriminate|].
  destruct (String.eqb_spec k k0) as [->|]; intros H; [injection H as ->; auto|auto].
Qed.

Lemma dget_None_iff {V} (d : dict V) k : dget d k = None <-> ~ In k (dkeys d).
Proof.
  induction d as [|[k0 v0] d IH]; simpl; [tauto|].
  destruct (String.eqb_spec k k0) as [->|Hne].
  - split; [discriminate|intros H; exfalso; auto].
  - rewrite IH. split; [intros H [H'|H']; [congruence|auto]|tauto].
Qed.

Lemma dget_Some_in_keys {V} (d : dict V) k v : dget d k = Some v -> In k (dkeys d).
Proof. intros H. apply dget_In in H. apply (in_map fst) in H. exact H. Qed.

Lemma In_dget {V} (d : dict V) k v : NoDup (dkeys d) -> In (k, v) d -> dget d k = Some v.
Proof.
  induction d as [|[k0 v0] d IH]; simpl; intros Hnd Hin; [tauto|].
  inversion Hnd as [|? ? Hni Hnd']; subst. destruct Hin as [H|H].
  - injection H as -> ->. rewrite String.eqb_refl. reflexivity.
  - destruct (String.eqb_spec k k0) as [->|]; [|auto].
    exfalso; apply Hni. apply (in_map fst) in H. exact H.
Qed.

Lemma dkeys_dset {V} (d : dict V) k v :
  dkeys (dset d k v) = if dmem d k then dkeys d else dkeys d ++ [k].
Proof.
  unfold dmem. induction d as [|[k0 v0] d IH]; simpl; [reflexivity|].
  destruct (String.eqb k k0); simpl; [reflexivity|].
  rewrite IH. destruct (dget d k); reflexivity.
Qed.

Lemma NoDup_dset {V} (d : dict V) k v : NoDup (dkeys d) -> NoDup (dkeys (dset d k v)).
Proof.
  intros H. rewrite dkeys_dset. unfold dmem. destruct (dget d k) eqn:E; [exact H|].
  apply dget_None_iff in E.
  assert (NoDup (k :: dkeys d)) as Hc by (constructor; assumption).
  apply (Permutation_NoDup (l := k :: dkeys d)); [|exact Hc].
  apply Permutation_cons_append.
Qed.

Lemma dmem_true {V} (d : dict V) k : dmem d k = true <-> In k (dkeys d).
Proof.
  unfold dmem. destruct (dget d k) eqn:E.
  - split; [intros _; eapply dget_Some_in_keys; eauto|reflexivity].
  - split; [discriminate|]. intros H. apply dget_None_iff in E. tauto.
Qed.

Lemma mem_str_In x l : mem_str x l = true <-> In x l.
Proof.
  induction l as [|y l IH]; simpl; [split; [discriminate|tauto]|].
  rewrite orb_true_iff, IH, String.eqb_eq. split; intros [H|H]; auto.
Qed.

Lemma mem_str_false x l : mem_str x l = false <-> ~ In x l.
Proof.
  rewrite <- mem_str_In. destruct (mem_str x l); split; congruence.
Qed.

(* ---------------- list update ---------------- *)
Lemma upd_length {A} (l : list A) i v : length (upd l i v) = length l.
Proof. revert i; induction l as [|x l IH]; intros [|i]; simpl; auto. Qed.

Lemma nth_upd_same {A} (l : list A) i v : i < length l -> nth_error (upd l i v) i = Some v.
Proof. revert i; induction l as [|x l IH]; intros [|i]; simpl; intros H; try lia; auto. apply IH; lia. Qed.

Lemma nth_upd_other {A} (l : list A) i j v : i <> j -> nth_error (upd l i v) j = nth_error l j.
Proof.
  revert i j; induction l as [|x l IH]; intros [|i] [|j] H; simpl; try reflexivity; try congruence.
  apply IH; congruence.
Qed.

Lemma nth_error_lt {A} (l : list A) i x : nth_error l i = Some x -> i < length l.
Proof. intros H. apply nth_error_Some. congruence. Qed.

Lemma nth_error_nil {A} n : nth_error (@nil A) n = None.
Proof. destruct n; reflexivity. Qed.
