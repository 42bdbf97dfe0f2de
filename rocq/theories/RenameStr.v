(** Renaming the first name of paths: lemmas on strings. *)
From Verif Require Import Base BaseLemmas TreeUtil TreeProofs Connections ConnProofs RenameProofs RenameSpec.
Local Open Scope string_scope.
Local Open Scope list_scope.

Section Str.
Variable sep : ascii.
Variable f : string -> string.
Hypothesis HR : renaming sep f.
Hypothesis Hin : no_sep sep "input" = true.
Hypothesis Hout : no_sep sep "output" = true.
Notation R := (rename_path sep f).

(** every string is a name followed by nothing or by something that starts with
    the separator *)
Definition tailS (t : string) : Prop := t = EmptyString \/ exists r, t = String sep r.
Lemma view s : exists h t, s = append h t /\ no_sep sep h = true /\ tailS t.
Proof.
  induction s as [|c s (h & t & -> & H1 & H2)].
  - exists EmptyString, EmptyString. split; [reflexivity|]. split; [reflexivity|left; reflexivity].
  - destruct (Ascii.eqb c sep) eqn:E.
    + apply Ascii.eqb_eq in E as ->. exists EmptyString, (String sep (append h t)). split; [reflexivity|]. split; [reflexivity|right; eexists; reflexivity].
    + exists (String c h), t. split; [reflexivity|]. split; [cbn [no_sep]; rewrite E; exact H1|exact H2].
Qed.
Lemma split_view h t : no_sep sep h = true -> tailS t ->
  split sep (append h t) = h :: match t with EmptyString => [] | String _ r => split sep r end.
Proof. intros H [->|[r ->]]; [rewrite append_nil_r; apply split_no_sep_id; exact H|apply split_app_sep; exact H]. Qed.
Lemma R_view h t : no_sep sep h = true -> tailS t -> R (append h t) = append (f h) t.
Proof.
  intros H T. unfold rename_path. rewrite split_view by assumption. destruct T as [->|[r ->]]; [symmetry; apply append_nil_r|].
  rewrite join_cons by apply split_nonempty. rewrite join_split. reflexivity.
Qed.
Lemma R_name h : no_sep sep h = true -> R h = f h.
Proof. intros H. pose proof (R_view h EmptyString H (or_introl eq_refl)) as E. rewrite !append_nil_r in E. exact E. Qed.
Lemma split1_view h t : no_sep sep h = true -> tailS t -> split1 sep (append h t) = (h, match t with EmptyString => None | String _ r => Some r end).
Proof.
  intros H T. rewrite split1_spec, split_view by assumption. destruct T as [->|[r ->]]; [reflexivity|].
  destruct (split sep r) as [|p ps] eqn:E; [exfalso; eapply split_nonempty; eauto|]. rewrite <- E, join_split. reflexivity.
Qed.
Lemma view_inj h t h' t' : no_sep sep h = true -> no_sep sep h' = true -> tailS t -> tailS t' -> append h t = append h' t' -> h = h' /\ t = t'.
Proof.
  intros H H' T T' E. pose proof (f_equal (split1 sep) E) as S1. rewrite !split1_view in S1 by assumption. injection S1 as -> Ht. split; [reflexivity|].
  destruct T as [->|[r ->]], T' as [->|[r' ->]]; cbn in Ht; congruence.
Qed.
Lemma R_inj a b : R a = R b -> a = b.
Proof.
  destruct (view a) as (h & t & -> & H1 & H2), (view b) as (h' & t' & -> & H1' & H2'). rewrite !R_view by assumption. intros E.
  apply view_inj in E as [E ->]; try assumption; [|apply (ren_sep _ _ HR); assumption|apply (ren_sep _ _ HR); assumption].
  apply (ren_inj _ _ HR) in E as ->. reflexivity.
Qed.
Lemma f_empty k : f k = EmptyString <-> k = EmptyString.
Proof.
  assert (E : f "" = "") by (apply (ren_kept _ _ HR); reflexivity). split; [|intros ->; exact E]. intros H. rewrite <- E in H. apply (ren_inj _ _ HR) in H. exact H.
Qed.
Lemma f_kept k : kept_name (f k) = true -> f k = k.
Proof. intros H. apply (ren_kept _ _ HR) in H. apply (ren_inj _ _ HR) in H. exact H. Qed.
Lemma f_digit k : isdigit (f k) = isdigit k.
Proof.
  destruct (isdigit k) eqn:E.
  - rewrite (ren_kept _ _ HR); [exact E|]. unfold kept_name. rewrite E. rewrite orb_true_r. reflexivity.
  - destruct (isdigit (f k)) eqn:E'; [|reflexivity]. rewrite f_kept in E'; [congruence|]. unfold kept_name. rewrite E', orb_true_r. reflexivity.
Qed.
Lemma f_digit_id k : isdigit k = true -> f k = k.
Proof. intros E. apply (ren_kept _ _ HR). unfold kept_name. rewrite E, orb_true_r. reflexivity. Qed.

(** heads *)
Lemma named_view h t : no_sep sep h = true -> tailS t -> named sep (append h t) <-> h <> EmptyString.
Proof. intros H T. unfold named. rewrite split_view by assumption. reflexivity. Qed.
Lemma named_R s : named sep s -> named sep (R s).
Proof.
  destruct (view s) as (h & t & -> & H1 & H2). rewrite R_view by assumption. rewrite !named_view by (assumption || apply (ren_sep _ _ HR); assumption).
  intros H E. exact (H (proj1 (f_empty _) E)).
Qed.
Lemma named_ne s : named sep s -> s <> EmptyString.
Proof. intros H ->. apply H. reflexivity. Qed.
Lemma R_ne s : s <> EmptyString -> R s <> EmptyString.
Proof.
  intros H E. apply H. assert (E0 : R "" = "") by (rewrite R_name by reflexivity; apply f_empty; reflexivity). rewrite <- E0 in E. apply R_inj in E. exact E.
Qed.

(** prefixes *)
Lemma starts_view k h t : no_sep sep k = true -> tailS t -> startswith (append h t) k = startswith h k.
Proof.
  intros Hk T. revert h. induction k as [|c k IH]; intros h; [reflexivity|]. cbn [no_sep] in Hk. apply andb_prop in Hk as [Hc Hk]. destruct h as [|d h]; cbn [append startswith].
  - destruct T as [->|[r ->]]; [reflexivity|]. destruct (Ascii.eqb c sep); [discriminate|reflexivity].
  - rewrite IH by exact Hk. reflexivity.
Qed.
Lemma special_starts k : (k = "input" \/ k = "output") -> no_sep sep k = true /\ forall x, startswith x k = true -> kept_name x = true.
Proof.
  intros [->| ->]; (split; [assumption|]); intros x H; unfold kept_name; rewrite H.
  - rewrite orb_true_r. reflexivity.
  - rewrite !orb_true_r. reflexivity.
Qed.
Lemma starts_fix k s : (k = "input" \/ k = "output") -> startswith s k = true -> R s = s.
Proof.
  intros K. destruct (special_starts k K) as [Hk Hx]. destruct (view s) as (h & t & -> & H1 & H2). rewrite starts_view by assumption. intros H.
  rewrite R_view by assumption. rewrite (ren_kept _ _ HR) by (apply Hx; exact H). reflexivity.
Qed.
Lemma starts_R k s : (k = "input" \/ k = "output") -> startswith (R s) k = startswith s k.
Proof.
  intros K. destruct (startswith s k) eqn:E; [rewrite (starts_fix k) by assumption; exact E|].
  destruct (startswith (R s) k) eqn:E'; [|reflexivity]. pose proof (starts_fix k (R s) K E') as F. apply R_inj in F. congruence.
Qed.
Lemma starts_app s k x : startswith s (append k x) = true -> startswith s k = true.
Proof. rewrite !startswith_iff. intros [t ->]. exists (append x t). apply append_assoc. Qed.
Lemma starts_sep_R k s x : (k = "input" \/ k = "output") -> startswith (R s) (append k x) = startswith s (append k x).
Proof.
  intros K. destruct (startswith s k) eqn:E; [rewrite (starts_fix k) by assumption; reflexivity|].
  destruct (startswith s (append k x)) eqn:E1; [apply starts_app in E1; congruence|].
  destruct (startswith (R s) (append k x)) eqn:E2; [|reflexivity]. apply starts_app in E2. rewrite starts_R in E2 by exact K. congruence.
Qed.
Lemma starts_self k : startswith k k = true.
Proof. apply startswith_iff. exists EmptyString. symmetry. apply append_nil_r. Qed.
Lemma R_special k : (k = "input" \/ k = "output") -> R k = k.
Proof. intros K. apply (starts_fix k); [exact K|apply starts_self]. Qed.
Lemma eqb_R a b : String.eqb (R a) (R b) = String.eqb a b.
Proof. apply eqb_f. exact R_inj. Qed.
Lemma eqb_special k s : (k = "input" \/ k = "output") -> String.eqb (R s) k = String.eqb s k.
Proof. intros K. rewrite <- (R_special k K) at 1. apply eqb_R. Qed.
Lemma under_R k s : (k = "input" \/ k = "output") -> under sep (R s) k = under sep s k.
Proof. intros K. unfold under. rewrite starts_sep_R, eqb_special by exact K. reflexivity. Qed.
Lemma under_fix k s : (k = "input" \/ k = "output") -> under sep s k = true -> R s = s.
Proof.
  intros K H. apply (starts_fix k); [exact K|]. unfold under in H. apply orb_prop in H as [H|H]; [apply starts_app in H; exact H|]. apply String.eqb_eq in H as ->. apply starts_self.
Qed.

(** ends *)
Lemma rstrip_no s : no_sep sep s = true -> rstrip sep s = s.
Proof.
  induction s as [|c s IH]; [reflexivity|]. cbn [no_sep rstrip]. intros H. apply andb_prop in H as [H1 H2]. rewrite IH by exact H2. destruct s; [|reflexivity].
  destruct (Ascii.eqb c sep); [discriminate|reflexivity].
Qed.
Lemma rstrip_view h t : no_sep sep h = true -> rstrip sep (append h t) = append h (rstrip sep t).
Proof.
  induction h as [|c h IH]; intros H; [reflexivity|]. cbn [no_sep] in H. apply andb_prop in H as [H1 H2]. cbn [append rstrip]. rewrite IH by exact H2.
  destruct (append h (rstrip sep t)); [|reflexivity]. destruct (Ascii.eqb c sep); [discriminate|reflexivity].
Qed.
Lemma rstrip_tail t : tailS t -> tailS (rstrip sep t).
Proof.
  intros [->|[r ->]]; [left; reflexivity|]. cbn [rstrip]. rewrite Ascii.eqb_refl. destruct (rstrip sep r) as [|c r']; [left; reflexivity|right; eexists; reflexivity].
Qed.
Lemma rstrip_R s : rstrip sep (R s) = R (rstrip sep s).
Proof.
  destruct (view s) as (h & t & -> & H1 & H2). rewrite R_view by assumption. rewrite !rstrip_view by (assumption || apply (ren_sep _ _ HR); assumption).
  rewrite R_view; [reflexivity|exact H1|apply rstrip_tail; exact H2].
Qed.
Lemma rstrip_named s : named sep s -> named sep (rstrip sep s).
Proof.
  destruct (view s) as (h & t & -> & H1 & H2). rewrite rstrip_view by assumption. rewrite !named_view; auto. apply rstrip_tail; exact H2.
Qed.
Lemma endswith_app h t x : t <> EmptyString -> slen x <= slen t -> endswith (append h t) x = endswith t x.
Proof.
  intros Hne L. unfold endswith. rewrite slen_append. assert (E : sdrop (slen h + slen t - slen x) (append h t) = sdrop (slen t - slen x) t).
  { replace (slen h + slen t - slen x) with (slen h + (slen t - slen x)) by lia. clear. induction h as [|c h IH]; [reflexivity|]. cbn. exact IH. }
  rewrite E. f_equal. destruct (Nat.leb_spec (slen x) (slen t)); [apply Nat.leb_le; lia|lia].
Qed.
Lemma chop_view h t : no_sep sep h = true -> tailS t -> removesuffix (append h t) (sepS sep) = append h (removesuffix t (sepS sep)).
Proof.
  intros H T. destruct (endswith t (sepS sep)) eqn:E.
  - apply endswith_iff in E as [x ->]. rewrite <- append_assoc, !removesuffix_append. reflexivity.
  - unfold removesuffix at 2. rewrite E. unfold removesuffix. destruct (endswith (append h t) (sepS sep)) eqn:E'; [|reflexivity]. exfalso.
    destruct T as [->|[r ->]].
    + rewrite append_nil_r in E'. apply endswith_iff in E' as [x ->]. clear -H. induction x as [|c x IH]; cbn [append no_sep sepS] in H.
      * rewrite Ascii.eqb_refl in H. discriminate.
      * apply andb_prop in H as [_ H]. auto.
    + rewrite endswith_app in E'; [congruence|discriminate|cbn; lia].
Qed.
Lemma chop_tail t : tailS t -> tailS (removesuffix t (sepS sep)).
Proof.
  intros T. destruct (endswith t (sepS sep)) eqn:E; [|unfold removesuffix; rewrite E; exact T]. apply endswith_iff in E as [x ->]. rewrite removesuffix_append.
  destruct T as [T|[r T]]; [destruct x; discriminate|]. destruct x as [|c x]; [left; reflexivity|]. injection T as -> _. right. eexists; reflexivity.
Qed.
Lemma chop_R s : removesuffix (R s) (sepS sep) = R (removesuffix s (sepS sep)).
Proof.
  destruct (view s) as (h & t & -> & H1 & H2). rewrite R_view by assumption. rewrite !chop_view by (assumption || apply (ren_sep _ _ HR); assumption).
  rewrite R_view; [reflexivity|exact H1|apply chop_tail; exact H2].
Qed.
Lemma chop_named s : named sep s -> named sep (removesuffix s (sepS sep)).
Proof.
  destruct (view s) as (h & t & -> & H1 & H2). rewrite chop_view by assumption. rewrite !named_view; auto. apply chop_tail; exact H2.
Qed.

(** appending *)
Lemma tail_app t u : tailS t -> tailS u -> tailS (append t u).
Proof. intros [->|[r ->]] U; [exact U|right; eexists; reflexivity]. Qed.
Lemma R_app s u : tailS u -> R (append s u) = append (R s) u.
Proof.
  intros U. destruct (view s) as (h & t & -> & H1 & H2). rewrite append_assoc, !R_view by (assumption || apply tail_app; assumption). symmetry. apply append_assoc.
Qed.
Lemma named_app s u : tailS u -> named sep s -> named sep (append s u).
Proof.
  intros U. destruct (view s) as (h & t & -> & H1 & H2). rewrite append_assoc, !named_view by (assumption || apply tail_app; assumption). auto.
Qed.
Lemma dsep_tail r : tailS (append (dsep sep) r).
Proof. right. eexists. reflexivity. Qed.

(** double separators *)
Lemma double_view h t : no_sep sep h = true -> has_double sep (append h t) = has_double sep t.
Proof.
  induction h as [|c h IH]; intros H; [reflexivity|]. cbn [no_sep] in H. apply andb_prop in H as [H1 H2]. cbn [append has_double]. rewrite IH by exact H2.
  destruct (append h t) as [|d x] eqn:E; [destruct t; [reflexivity|destruct h; discriminate]|]. destruct (Ascii.eqb c sep); [discriminate|reflexivity].
Qed.
Lemma double_R s : has_double sep (R s) = has_double sep s.
Proof. destruct (view s) as (h & t & -> & H1 & H2). rewrite R_view by assumption. rewrite !double_view by (assumption || apply (ren_sep _ _ HR); assumption). reflexivity. Qed.
Lemma split2_ne s : split2 sep s <> [].
Proof.
  destruct s as [|c [|d s]]; [discriminate|discriminate|]. cbn [split2]. destruct (Ascii.eqb c sep && Ascii.eqb d sep)%bool; [discriminate|].
  match goal with |- match ?x with _ => _ end <> [] => destruct x end; discriminate.
Qed.
Lemma split2_two c d r : split2 sep (String c (String d r)) = if (Ascii.eqb c sep && Ascii.eqb d sep)%bool then EmptyString :: split2 sep r
  else match split2 sep (String d r) with p :: ps => String c p :: ps | [] => [String c EmptyString] end.
Proof. reflexivity. Qed.
Lemma split2_cons c s : Ascii.eqb c sep = false -> split2 sep (String c s) = match split2 sep s with p :: ps => String c p :: ps | [] => [String c EmptyString] end.
Proof. intros E. destruct s as [|d s]; [reflexivity|]. cbn [split2]. rewrite E. reflexivity. Qed.
Lemma split2_view h t : no_sep sep h = true -> split2 sep (append h t) = match split2 sep t with p :: ps => append h p :: ps | [] => [] end.
Proof.
  induction h as [|c h IH]; intros H; [cbn [append]; destruct (split2 sep t); reflexivity|]. cbn [no_sep] in H. apply andb_prop in H as [H1 H2]. cbn [append].
  rewrite split2_cons by (destruct (Ascii.eqb c sep); [discriminate|reflexivity]). rewrite IH by exact H2.
  destruct (split2 sep t) as [|p ps] eqn:E; [exfalso; eapply split2_ne; eauto|]. reflexivity.
Qed.
Lemma split2_tail t : tailS t -> exists p ps, split2 sep t = p :: ps /\ tailS p /\ tailS (join sep (p :: ps)).
Proof.
  intros [->|[r ->]]; [exists EmptyString, []; repeat split; left; reflexivity|]. destruct r as [|d r].
  - exists (String sep EmptyString), []. split; [reflexivity|]. split; right; eexists; reflexivity.
  - rewrite split2_two, Ascii.eqb_refl. cbn [andb]. destruct (Ascii.eqb d sep) eqn:E.
    + exists EmptyString, (split2 sep r). split; [reflexivity|]. split; [left; reflexivity|]. rewrite join_cons by apply split2_ne. right. eexists. reflexivity.
    + destruct (split2 sep (String d r)) as [|p ps] eqn:E2; [exfalso; eapply split2_ne; eauto|]. exists (String sep p), ps. split; [reflexivity|]. split; [right; eexists; reflexivity|].
      right. destruct ps; eexists; reflexivity.
Qed.
Lemma unpack_R s : unpack2 sep (R s) = rmap (fun x => (R (fst x), snd x)) (unpack2 sep s).
Proof.
  destruct (view s) as (h & t & -> & H1 & H2). rewrite R_view by assumption. unfold unpack2. rewrite !split2_view by (assumption || apply (ren_sep _ _ HR); assumption).
  destruct (split2_tail t H2) as (p & ps & -> & T & _). destruct ps as [|q [|? ?]]; try reflexivity. cbn [rmap fst snd]. rewrite R_view by assumption. reflexivity.
Qed.
Lemma unpack_named s o i : named sep s -> unpack2 sep s = Ok (o, i) -> named sep o.
Proof.
  destruct (view s) as (h & t & -> & H1 & H2). rewrite named_view by assumption. unfold unpack2. rewrite !split2_view by assumption.
  destruct (split2_tail t H2) as (p & ps & -> & T & _). destruct ps as [|q [|? ?]]; try discriminate. intros Hh E. injection E as <- <-. rewrite named_view by assumption. exact Hh.
Qed.
Lemma join_app h p ps : join sep (append h p :: ps) = append h (join sep (p :: ps)).
Proof. destruct ps; [reflexivity|]. rewrite !join_cons by discriminate. apply append_assoc. Qed.
Lemma undouble_R s : undouble sep (R s) = R (undouble sep s).
Proof.
  destruct (view s) as (h & t & -> & H1 & H2). rewrite R_view by assumption. unfold undouble. rewrite !split2_view by (assumption || apply (ren_sep _ _ HR); assumption).
  destruct (split2_tail t H2) as (p & ps & -> & _ & T). rewrite !join_app. symmetry. apply R_view; assumption.
Qed.
Lemma undouble_named s : named sep s -> named sep (undouble sep s).
Proof.
  destruct (view s) as (h & t & -> & H1 & H2). rewrite named_view by assumption. unfold undouble. rewrite split2_view by assumption.
  destruct (split2_tail t H2) as (p & ps & -> & _ & T). rewrite join_app. intros H. apply named_view; assumption.
Qed.
Lemma lstrip_named s : named sep s -> lstrip sep s = s.
Proof.
  destruct (view s) as (h & t & -> & H1 & H2). rewrite named_view by assumption. intros H. destruct h as [|c h]; [congruence|]. cbn [no_sep] in H1. apply andb_prop in H1 as [H1 _].
  cbn [append lstrip]. destruct (Ascii.eqb c sep); [discriminate|reflexivity].
Qed.
Lemma strip_R s : named sep s -> strip sep (R s) = R (strip sep s).
Proof.
  intros H. unfold strip. rewrite rstrip_R. pose proof (rstrip_named s H) as H'. rewrite !lstrip_named by (assumption || apply named_R; assumption). reflexivity.
Qed.
Lemma strip_named s : named sep s -> named sep (strip sep s).
Proof. intros H. unfold strip. rewrite lstrip_named; apply rstrip_named; exact H. Qed.
Lemma tidy_R s : named sep s -> tidy sep (R s) = R (tidy sep s).
Proof. intros H. unfold tidy. rewrite undouble_R. apply strip_R. apply undouble_named. exact H. Qed.
Lemma tidy_named s : named sep s -> named sep (tidy sep s).
Proof. intros H. unfold tidy. apply strip_named. apply undouble_named. exact H. Qed.
End Str.
