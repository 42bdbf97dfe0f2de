(** Proofs about concretize_connections / place_connections_in_tree (C07, C08). *)
From Verif Require Import Base BaseLemmas TreeUtil TreeSpec TreeProofs ExtendProofs Resolve
  Connections ConcretizeSpec ConcretizeProofs SlotProofs ConnSpec.
From Coq Require Import Permutation.
Open Scope list_scope.

(* ---------------- strings ---------------- *)
Section Strings.
Variable sep : ascii.

Lemma startswith_refl_app s t : startswith (append s t) s = true.
Proof. apply startswith_iff. exists t; reflexivity. Qed.

Lemma has_double_split s : has_double sep s = true -> In EmptyString (tl (split sep s)).
Proof.
  induction s as [|c s IH]; [discriminate|]. intros H. cbn [has_double] in H.
  destruct s as [|d s]; [discriminate|].
  cbn [split]. fold (split sep). change (split sep (String d s)) with
    (if Ascii.eqb d sep then EmptyString :: split sep s
      else match split sep s with p :: ps => String d p :: ps | [] => [String d EmptyString] end) in *.
  destruct (Ascii.eqb c sep) eqn:Ec.
  - simpl. apply orb_true_iff in H as [H|H].
    + simpl in H. rewrite H. left; reflexivity.
    + apply IH in H. destruct (Ascii.eqb d sep); [right; exact H|].
      destruct (split sep s); [destruct H|right; exact H].
  - simpl in H. apply IH in H. destruct (Ascii.eqb d sep); [exact H|].
    destruct (split sep s); exact H.
Qed.

Lemma clean_no_double s : clean sep s -> has_double sep s = false.
Proof.
  intros [_ H]. destruct (has_double sep s) eqn:E; [exfalso|reflexivity].
  apply has_double_split in E. rewrite Forall_forall in H. apply (H EmptyString); [|reflexivity].
  destruct (split sep s); [destruct E|right; exact E].
Qed.

(** first and last characters *)
Lemma lstrip_clean s : clean sep s -> lstrip sep s = s.
Proof.
  intros [_ H]. destruct s as [|c s]; [reflexivity|]. simpl in *.
  destruct (Ascii.eqb c sep); [|reflexivity]. inversion H; congruence.
Qed.

Fixpoint ends_sep (s : string) : bool :=
  match s with
  | EmptyString => false
  | String c EmptyString => Ascii.eqb c sep
  | String _ s' => ends_sep s'
  end.

Lemma ends_sep_split s : ends_sep s = true -> last (split sep s) EmptyString = EmptyString /\ 2 <= length (split sep s).
Proof.
  induction s as [|c s IH]; [discriminate|]. intros H. cbn [split].
  destruct s as [|d s].
  - simpl in H. rewrite H. simpl. split; [reflexivity|lia].
  - cbn [ends_sep] in H. apply IH in H as [H1 H2].
    destruct (Ascii.eqb c sep).
    + destruct (split sep (String d s)) as [|p ps]; [simpl in H2; lia|].
      split; [exact H1|simpl in *; lia].
    + destruct (split sep (String d s)) as [|p ps]; [simpl in H2; lia|].
      destruct ps as [|q ps]; [simpl in H2; lia|]. split; [exact H1|simpl in *; lia].
Qed.

Lemma last_In' {B} (l : list B) d : l <> [] -> In (last l d) l.
Proof.
  induction l as [|x l IH]; [congruence|]. intros _. destruct l as [|y l]; [left; reflexivity|].
  right. apply IH. discriminate.
Qed.

Lemma clean_ends s : clean sep s -> ends_sep s = false.
Proof.
  intros [_ H]. destruct (ends_sep s) eqn:E; [exfalso|reflexivity].
  apply ends_sep_split in E as [E1 E2]. rewrite Forall_forall in H. apply (H EmptyString); [|reflexivity].
  rewrite <- E1. apply last_In'. destruct (split sep s); [simpl in E2; lia|discriminate].
Qed.

Lemma rstrip_id s : ends_sep s = false -> rstrip sep s = s.
Proof.
  induction s as [|c s IH]; [reflexivity|]. intros H. cbn [rstrip].
  destruct s as [|d s].
  - simpl in *. rewrite H. reflexivity.
  - cbn [ends_sep] in H. rewrite IH by exact H. reflexivity.
Qed.

Lemma rstrip_snoc s : rstrip sep (append s (sepS sep)) = rstrip sep s.
Proof.
  induction s as [|c s IH].
  - simpl. rewrite Ascii.eqb_refl. reflexivity.
  - cbn [append rstrip]. rewrite IH. reflexivity.
Qed.

Lemma strip_clean s : clean sep s -> strip sep s = s.
Proof.
  intros H. unfold strip. rewrite rstrip_id by (apply clean_ends; exact H). apply lstrip_clean; exact H.
Qed.

Lemma split2_single s : has_double sep s = false -> split2 sep s = [s].
Proof.
  induction s as [|c s IH]; [reflexivity|]. intros H. cbn [split2]. cbn [has_double] in H.
  destruct s as [|d s]; [reflexivity|]. apply orb_false_iff in H as [H1 H2].
  rewrite H1. rewrite IH by exact H2. reflexivity.
Qed.

Lemma split2_app o i :
  has_double sep o = false -> ends_sep o = false ->
  split2 sep (append o (append (dsep sep) i)) = o :: split2 sep i.
Proof.
  induction o as [|c o IH]; intros H1 H2.
  - simpl. rewrite Ascii.eqb_refl. reflexivity.
  - destruct o as [|d o].
    + simpl in H2. simpl. rewrite H2. simpl. rewrite Ascii.eqb_refl. reflexivity.
    + cbn [has_double] in H1. apply orb_false_iff in H1 as [H1 H1'].
      cbn [ends_sep] in H2.
      change (append (String c (String d o)) (append (dsep sep) i))
        with (String c (append (String d o) (append (dsep sep) i))).
      assert (E := IH H1' H2).
      set (r := append (String d o) (append (dsep sep) i)) in *.
      assert (Er : exists r', r = String d r') by (eexists; reflexivity).
      destruct Er as [r' Er]. cbn [split2]. rewrite Er. rewrite H1. rewrite <- Er, E. reflexivity.
Qed.

(** paths in component form *)
Definition cclean (ks : list string) : Prop :=
  Forall (fun k => k <> EmptyString /\ no_sep sep k = true) ks.

Lemma clean_comps s : clean sep s -> comps sep s = split sep s /\ cclean (split sep s).
Proof.
  intros [H1 H2]. split.
  - unfold comps. destruct (String.eqb_spec s EmptyString); [contradiction|reflexivity].
  - unfold cclean. rewrite Forall_forall in *. intros k Hk. split; [apply H2; exact Hk|].
    assert (H := split_no_sep sep s). rewrite Forall_forall in H. apply H; exact Hk.
Qed.

Lemma cclean_split ks : ks <> [] -> cclean ks -> split sep (join sep ks) = ks.
Proof.
  intros H1 H2. apply split_join; [exact H1|]. unfold cclean in H2. rewrite Forall_forall in *.
  intros k Hk. apply H2; exact Hk.
Qed.

Lemma cclean_clean ks : ks <> [] -> cclean ks -> clean sep (join sep ks).
Proof.
  intros H1 H2. split.
  - intros E. apply join_nil_iff in E as [E|E]; [contradiction|]. subst ks. inversion H2. tauto.
  - rewrite cclean_split by assumption. unfold cclean in H2. rewrite Forall_forall in *.
    intros k Hk. apply H2; exact Hk.
Qed.

Lemma cclean_comps ks : cclean ks -> comps sep (join sep ks) = ks.
Proof.
  intros H. destruct ks as [|k ks]; [reflexivity|].
  destruct (clean_comps (join sep (k :: ks))) as [E _]; [apply cclean_clean; [discriminate|exact H]|].
  rewrite E. apply cclean_split; [discriminate|exact H].
Qed.

Lemma cclean_app a b : cclean (a ++ b) <-> cclean a /\ cclean b.
Proof. apply Forall_app. Qed.

Lemma join_app ps qs : ps <> [] -> qs <> [] ->
  join sep (ps ++ qs) = append (join sep ps) (String sep (join sep qs)).
Proof.
  induction ps as [|p ps IH]; intros H1 H2; [congruence|]. destruct ps as [|p2 ps].
  - simpl app. rewrite join_cons by exact H2. reflexivity.
  - change ((p :: p2 :: ps) ++ qs) with (p :: ((p2 :: ps) ++ qs)).
    rewrite join_cons by discriminate. rewrite IH by (try discriminate; exact H2).
    rewrite (join_cons sep p (p2 :: ps)) by discriminate. rewrite append_assoc. reflexivity.
Qed.

Lemma cjoin_nodouble ks : cclean ks -> has_double sep (join sep ks) = false /\ ends_sep (join sep ks) = false.
Proof.
  intros H. destruct ks as [|k ks]; [split; reflexivity|].
  assert (Hc : clean sep (join sep (k :: ks))) by (apply cclean_clean; [discriminate|exact H]).
  split; [apply clean_no_double|apply clean_ends]; exact Hc.
Qed.

(** undoing the double separator *)
Lemma unpack2_spec o i : cclean o -> cclean i ->
  unpack2 sep (append (join sep o) (append (dsep sep) (join sep i))) = Ok (join sep o, join sep i).
Proof.
  intros Ho Hi. unfold unpack2. destruct (cjoin_nodouble o Ho) as [H1 H2].
  rewrite split2_app by assumption. rewrite split2_single by (apply cjoin_nodouble; exact Hi). reflexivity.
Qed.

Lemma tidy_spec o i : cclean o -> cclean i -> o ++ i <> [] ->
  tidy sep (append (join sep o) (append (dsep sep) (join sep i))) = join sep (o ++ i).
Proof.
  intros Ho Hi Hne. unfold tidy, undouble. destruct (cjoin_nodouble o Ho) as [H1 H2].
  rewrite split2_app by assumption. rewrite split2_single by (apply cjoin_nodouble; exact Hi).
  rewrite join_cons by discriminate.
  change (join sep [join sep i]) with (join sep i).
  destruct o as [|k o].
  - simpl app in *. assert (Hc : clean sep (join sep i)) by (apply cclean_clean; assumption).
    simpl append. unfold strip.
    assert (Hr : rstrip sep (String sep (join sep i)) = String sep (join sep i)).
    { apply rstrip_id. apply clean_ends in Hc as He. destruct (join sep i) eqn:E; [|exact He].
      exfalso. apply (proj1 Hc). reflexivity. }
    rewrite Hr. cbn [lstrip]. rewrite Ascii.eqb_refl. apply lstrip_clean. exact Hc.
  - destruct i as [|j i].
    + rewrite app_nil_r. simpl (join sep []). change (String sep EmptyString) with (sepS sep).
      unfold strip. rewrite rstrip_snoc. fold (strip sep (join sep (k :: o))).
      apply strip_clean, cclean_clean; [discriminate|exact Ho].
    + rewrite <- join_app by discriminate. apply strip_clean, cclean_clean; [exact Hne|].
      apply cclean_app; split; assumption.
Qed.
End Strings.

(* ---------------- partitioning one key or target ---------------- *)
Section Partition.
Variable sep : ascii.
Variables in_key out_key : string.
Hypothesis Hin : no_sep sep in_key = true /\ in_key <> EmptyString.
Hypothesis Hout : no_sep sep out_key = true /\ out_key <> EmptyString.
Context {A : Type}.
Variable t : tree A.

Lemma under_reserved p key : no_sep sep key = true -> under sep p key = true <-> reserved sep key p.
Proof.
  intros Hk. unfold under, reserved. rewrite orb_true_iff, startswith_iff, String.eqb_eq. split.
  - intros [[r ->]| ->].
    + exists (split sep r). rewrite append_assoc. apply split_app_sep; exact Hk.
    + exists []. apply split_no_sep_id; exact Hk.
  - intros [rest E]. rewrite <- (join_split sep p), E. destruct rest as [|r rest].
    + right; reflexivity.
    + left. rewrite join_cons by discriminate. exists (join sep (r :: rest)).
      rewrite append_assoc. reflexivity.
Qed.

Lemma strip_reserved key p rest : no_sep sep key = true ->
  clean sep p -> split sep p = key :: rest ->
  lstrip sep (removeprefix p key) = join sep rest.
Proof.
  intros Hk Hc E. rewrite <- (join_split sep p), E. destruct (clean_comps sep p Hc) as [_ Hcc].
  rewrite E in Hcc. inversion Hcc as [|? ? _ Hr]; subst. destruct rest as [|r rest].
  - simpl. assert (H := removeprefix_append key EmptyString). rewrite append_nil_r in H. rewrite H. reflexivity.
  - rewrite join_cons by discriminate. rewrite removeprefix_append. cbn [lstrip]. rewrite Ascii.eqb_refl.
    apply lstrip_clean. apply cclean_clean; [discriminate|exact Hr].
Qed.

(** splitting a clean path at a module *)
Lemma getitem_clean p u rem :
  clean sep p -> getitem sep no_leaf true t p = Ok (u, rem) ->
  exists o i, split sep p = o ++ i /\ rem = join sep i /\ walk t o = Some u /\
     (i <> [] -> atomic u = true) /\
     removesuffix p rem = match i with [] => p | _ => match o with [] => EmptyString | _ => append (join sep o) (sepS sep) end end.
Proof.
  intros Hc H. assert (Hs := getitem_early_spec sep t p). rewrite H in Hs.
  destruct (clean_comps sep p Hc) as [_ Hcc].
  destruct Hs as [[-> [Hw _]]|[Hr [Ha [[ks [Ek Hw]] _]]]].
  - exists (split sep p), []. rewrite app_nil_r. split; [reflexivity|]. split; [reflexivity|].
    assert (Epk : path_keys sep p = split sep p).
    { unfold path_keys, trim_end. destruct (String.eqb_spec (last (split sep p) EmptyString) EmptyString) as [E|]; [exfalso|reflexivity].
      unfold cclean in Hcc; rewrite Forall_forall in Hcc. destruct (Hcc (last (split sep p) EmptyString)) as [Hne _]; [|congruence].
      apply last_In'. apply split_nonempty. }
    rewrite Epk in Hw. split; [exact Hw|]. split; [congruence|].
    assert (E := removesuffix_append p EmptyString). rewrite append_nil_r in E. exact E.
  - exists ks, (split sep rem). split; [exact Ek|]. split; [symmetry; apply join_split|].
    split; [exact Hw|]. split; [intros _; exact Ha|].
    destruct (split sep rem) as [|i0 i] eqn:Ei; [exfalso; eapply split_nonempty; eauto|].
    assert (Erem : rem = join sep (i0 :: i)) by (rewrite <- Ei; symmetry; apply join_split).
    assert (Ep : p = join sep (ks ++ i0 :: i)) by (rewrite <- Ek; symmetry; apply join_split).
    destruct ks as [|k ks].
    + simpl in Ep. rewrite Ep, Erem. exact (removesuffix_append EmptyString _).
    + rewrite join_app in Ep by discriminate. rewrite Ep, Erem.
      change (append (join sep (k :: ks)) (String sep (join sep (i0 :: i))))
        with (append (join sep (k :: ks)) (append (sepS sep) (join sep (i0 :: i)))).
      rewrite <- append_assoc. apply removesuffix_append.
Qed.

Lemma removesuffix_sep_clean s : ends_sep sep s = false -> removesuffix s (sepS sep) = s.
Proof.
  intros H. unfold removesuffix. destruct (endswith s (sepS sep)) eqn:E; [exfalso|reflexivity].
  apply endswith_iff in E as [r ->]. clear -H. induction r as [|c r IH].
  - simpl in H. rewrite Ascii.eqb_refl in H. discriminate.
  - simpl in H. destruct (append r (sepS sep)) eqn:Er; [destruct r; discriminate|]. apply IH. exact H.
Qed.

(** partition of a target: outer and inner components *)
Lemma part_val_spec v pv :
  clean sep v -> part_val sep in_key out_key t v = Ok pv ->
  exists o i, split sep v = o ++ i /\ pv = append (join sep o) (append (dsep sep) (join sep i)) /\
    ((o = [out_key]) \/
     (~ reserved sep out_key v /\ exists u, walk t o = Some u /\ (i <> [] -> atomic u = true))).
Proof.
  intros Hc H. unfold part_val in H.
  destruct (under sep v out_key) eqn:Eo.
  - apply under_reserved in Eo as [rest E]; [|tauto].
    injection H as <-. exists [out_key], rest. split; [exact E|]. split; [|left; reflexivity].
    rewrite (strip_reserved out_key v rest) by tauto. reflexivity.
  - destruct (under sep v in_key); [discriminate|].
    apply rbind_ok in H as [[u rem] [Hg H]]. injection H as <-.
    destruct (getitem_clean v u rem Hc Hg) as [o [i [E [Er [Hw [Ha Es]]]]]].
    exists o, i. split; [exact E|]. split.
    + rewrite Es, Er. f_equal. destruct (clean_comps sep v Hc) as [_ Hcc].
      destruct i as [|i0 i].
      * rewrite app_nil_r in E. rewrite removesuffix_sep_clean by (apply clean_ends; exact Hc).
        rewrite <- E. symmetry. apply join_split.
      * destruct o as [|o0 o]; [apply removesuffix_sep_clean; reflexivity|]. apply removesuffix_append.
    + right. split; [|exists u; auto].
      intros Hr. apply under_reserved in Hr; [congruence|tauto].
Qed.

Lemma part_key_spec k pk :
  clean sep k -> part_key sep in_key out_key t k = Ok pk ->
  exists o i, split sep k = o ++ i /\ pk = append (join sep o) (append (dsep sep) (join sep i)) /\
    ((o = [in_key]) \/
     (~ reserved sep in_key k /\ ~ reserved sep out_key k /\ exists u, walk t o = Some u /\ (i <> [] -> atomic u = true))).
Proof.
  intros Hc H. unfold part_key in H.
  destruct (under sep k in_key) eqn:Ei.
  - apply under_reserved in Ei as [rest E]; [|tauto].
    injection H as <-. exists [in_key], rest. split; [exact E|]. split; [|left; reflexivity].
    rewrite (strip_reserved in_key k rest) by tauto. reflexivity.
  - destruct (under sep k out_key) eqn:Eo; [discriminate|].
    apply rbind_ok in H as [[u rem] [Hg H]]. injection H as <-.
    destruct (getitem_clean k u rem Hc Hg) as [o [i [E [Er [Hw [Ha Es]]]]]].
    exists o, i. split; [exact E|]. split.
    + rewrite Es, Er. f_equal. destruct (clean_comps sep k Hc) as [_ Hcc].
      destruct i as [|i0 i].
      * rewrite app_nil_r in E. rewrite rstrip_id by (apply clean_ends; exact Hc).
        rewrite <- E. symmetry. apply join_split.
      * destruct o as [|o0 o]; [reflexivity|]. rewrite rstrip_snoc.
        apply rstrip_id. rewrite E in Hcc. apply cclean_app in Hcc as [Ho _].
        apply (cjoin_nodouble sep (o0 :: o) Ho).
    + right. split; [|split; [|exists u; auto]]; intros Hr; apply under_reserved in Hr; try tauto; congruence.
Qed.

Lemma part_tidy_gen p o i pv :
  clean sep p -> split sep p = o ++ i ->
  pv = append (join sep o) (append (dsep sep) (join sep i)) ->
  tidy sep pv = p /\ unpack2 sep pv = Ok (join sep o, join sep i) /\ cclean sep o /\ cclean sep i.
Proof.
  intros Hc E ->. destruct (clean_comps sep p Hc) as [_ Hcc]. rewrite E in Hcc.
  apply cclean_app in Hcc as [Ho Hi].
  assert (Hne : o ++ i <> []) by (rewrite <- E; apply split_nonempty).
  split; [|split; [apply unpack2_spec; assumption|auto]].
  rewrite tidy_spec by assumption. rewrite <- E. apply join_split.
Qed.
End Partition.

(* ---------------- dictionaries of lists ---------------- *)
Lemma dset_fresh {V} (d : dict V) k v : ~ In k (dkeys d) -> dset d k v = d ++ [(k, v)].
Proof.
  induction d as [|[k' v'] d IH]; simpl; intros H; [reflexivity|].
  destruct (String.eqb_spec k k') as [->|]; [exfalso; auto|]. rewrite IH by tauto. reflexivity.
Qed.

Definition flatg {V} (g : dict (list V)) : list (string * V) :=
  flat_map (fun e => map (fun m => (fst e, m)) (snd e)) g.

Lemma flatg_app {V} (g h : dict (list V)) : flatg (g ++ h) = flatg g ++ flatg h.
Proof. apply flat_map_app. Qed.

Lemma flatg_dpush {V} (g : dict (list V)) k x : Permutation (flatg (dpush g k x)) (flatg g ++ [(k, x)]).
Proof.
  unfold dpush, flatg. induction g as [|[k' l] g IH].
  - simpl. apply Permutation_refl.
  - cbn [dget dset]. destruct (String.eqb_spec k k') as [->|Hne].
    + cbn [flat_map]. cbn [fst snd]. rewrite map_app. simpl map. rewrite <- !app_assoc.
      apply Permutation_app_head. apply Permutation_app_comm.
    + cbn [flat_map]. rewrite <- app_assoc. apply Permutation_app_head. exact IH.
Qed.

Lemma flatg_group {V} (X : list (string * V)) : forall g,
  Permutation (flatg (fold_left (fun g x => dpush g (fst x) (snd x)) X g)) (flatg g ++ X).
Proof.
  induction X as [|[k x] X IH]; intros g; simpl; [rewrite app_nil_r; apply Permutation_refl|].
  eapply Permutation_trans; [apply IH|]. change ((k, x) :: X) with ([(k, x)] ++ X).
  rewrite app_assoc. apply Permutation_app_tail. apply flatg_dpush.
Qed.

Lemma fold_dset_map {V W} (f : string -> string) (h : V -> W) (l : dict V) : forall acc : dict W,
  NoDup (dkeys acc ++ map (fun kv => f (fst kv)) l) ->
  fold_left (fun acc kv => dset acc (f (fst kv)) (h (snd kv))) l acc =
  acc ++ map (fun kv => (f (fst kv), h (snd kv))) l.
Proof.
  induction l as [|[k v] l IH]; intros acc H; simpl; [rewrite app_nil_r; reflexivity|].
  simpl in H. assert (Hk : ~ In (f k) (dkeys acc)).
  { apply NoDup_remove_2 in H. intros Hin. apply H. apply in_or_app; auto. }
  rewrite dset_fresh by exact Hk. rewrite IH.
  - rewrite <- app_assoc. reflexivity.
  - unfold dkeys in *. rewrite map_app, <- app_assoc. exact H.
Qed.

Lemma In_flatg {V} (g : dict (list V)) k x : In (k, x) (flatg g) <-> exists l, In (k, l) g /\ In x l.
Proof.
  unfold flatg. rewrite in_flat_map. split.
  - intros [[k' l] [H1 H2]]. apply in_map_iff in H2 as [y [E H2]]. simpl in E. injection E as -> ->.
    exists l; auto.
  - intros [l [H1 H2]]. exists (k, l). split; [exact H1|]. apply in_map_iff. exists x; auto.
Qed.

Lemma pairs_flatg conn : pairs conn = flatg conn.
Proof. reflexivity. Qed.

Lemma Forall2_nth {X Y} (R : X -> Y -> Prop) l m :
  Forall2 R l m -> forall i x y, nth_error l i = Some x -> nth_error m i = Some y -> R x y.
Proof.
  induction 1 as [|a b l m H _ IH]; intros i x y Hx Hy; [rewrite nth_error_nil in Hx; discriminate|].
  destruct i; simpl in *; [congruence|eauto].
Qed.

Lemma Forall2_In_r {X Y} (R : X -> Y -> Prop) l m y :
  Forall2 R l m -> In y m -> exists x, In x l /\ R x y.
Proof.
  induction 1 as [|a b l m H _ IH]; intros Hin; [destruct Hin|].
  destruct Hin as [->|Hin]; [exists a; simpl; auto|]. destruct (IH Hin) as [x [H1 H2]]. exists x; simpl; auto.
Qed.

Lemma Forall2_In_l {X Y} (R : X -> Y -> Prop) l m x :
  Forall2 R l m -> In x l -> exists y, In y m /\ R x y.
Proof.
  induction 1 as [|a b l m H _ IH]; intros Hin; [destruct Hin|].
  destruct Hin as [->|Hin]; [exists b; simpl; auto|]. destruct (IH Hin) as [y [H1 H2]]. exists y; simpl; auto.
Qed.

Lemma Forall2_len {X Y} (R : X -> Y -> Prop) l m : Forall2 R l m -> length l = length m.
Proof. induction 1; simpl; congruence. Qed.

Lemma rmapM_Forall2 {X Y} (f : X -> result Y) l ys : rmapM f l = Ok ys -> Forall2 (fun x y => f x = Ok y) l ys.
Proof.
  revert ys; induction l as [|x l IH]; intros ys H; simpl in H.
  - injection H as <-. constructor.
  - apply rbind_ok in H as [y [H1 H2]]. apply rbind_ok in H2 as [ys' [H2 H3]]. injection H3 as <-.
    constructor; [exact H1|auto].
Qed.

(* ---------------- the whole function ---------------- *)
Lemma Forall2_impl2 {A B} (R S : A -> B -> Prop) l m :
  (forall a b, In a l -> R a b -> S a b) -> Forall2 R l m -> Forall2 S l m.
Proof.
  intros H HF. induction HF as [|a b l m Hr _ IH]; constructor; [apply H; [left; reflexivity|exact Hr]|].
  apply IH. intros x y Hx. apply H. right; exact Hx.
Qed.
Lemma nth_error_combine {A B} (l : list A) : forall (m : list B) i x,
  nth_error (combine l m) i = Some x -> nth_error l i = Some (fst x) /\ nth_error m i = Some (snd x).
Proof.
  induction l as [|a l IH]; intros [|b m] [|i] x H; try discriminate; simpl in *; [injection H as <-; auto|auto].
Qed.

Lemma slot_shape sep uuid paths i p o : slot_given sep uuid paths i p o ->
  o = p \/ exists x, comps sep o = comps sep p ++ [x] /\ no_sep sep x = true /\ x <> EmptyString.
Proof. intros [[_ ->]|[_ [x [E1 [E2 [E3 _]]]]]]; [left; reflexivity|right; exists x; auto]. Qed.

Section Whole.
Variable sep : ascii.
Hypothesis Hsep : is_digit_char sep = false.
Variable uuid : nat -> string.
Variables in_key out_key : string.
Hypothesis Hin : no_sep sep in_key = true /\ in_key <> EmptyString.
Hypothesis Hout : no_sep sep out_key = true /\ out_key <> EmptyString.
Context {A : Type}.
Variable t : tree A.

Notation pkey := (part_key sep in_key out_key t).
Notation pval := (part_val sep in_key out_key t).

Definition part_rel (kv pkv : string * list string) : Prop :=
  pkey (fst kv) = Ok (fst pkv) /\ Forall2 (fun v pv => pval v = Ok pv) (snd kv) (snd pkv).

Lemma part_fold conn : forall acc pc,
  rfold (part_entry sep in_key out_key t) conn acc = Ok pc ->
  NoDup (dkeys conn) -> (forall k vs, In (k, vs) conn -> clean sep k) ->
  (forall nk, In nk (dkeys acc) -> ~ In (tidy sep nk) (dkeys conn)) ->
  exists new, pc = acc ++ new /\ Forall2 part_rel conn new.
Proof.
  induction conn as [|[k vs] conn IH]; intros acc pc H Hnd Hc Hacc.
  - injection H as <-. exists []. rewrite app_nil_r. split; [reflexivity|constructor].
  - cbn [rfold] in H. apply rbind_ok in H as [acc' [H1 H2]].
    unfold part_entry in H1. simpl in H1. apply rbind_ok in H1 as [nk [Hk H1]].
    apply rbind_ok in H1 as [vs' [Hvs H1]]. injection H1 as <-.
    assert (Hck : clean sep k) by (apply (Hc k vs); left; reflexivity).
    destruct (part_key_spec sep in_key out_key Hin Hout t k nk Hck Hk) as [o [i [Es [Enk _]]]].
    destruct (part_tidy_gen sep k o i nk Hck Es Enk) as [Et _].
    simpl in Hnd. pose proof (NoDup_cons_iff k (dkeys conn)) as Hcons; apply Hcons in Hnd as [Hnk Hnd']; clear Hcons.
    assert (Hfr : ~ In nk (dkeys acc)).
    { intros Hin'. apply (Hacc nk Hin'). rewrite Et. left; reflexivity. }
    rewrite dset_fresh in H2 by exact Hfr.
    destruct (IH _ _ H2 Hnd') as [new [E F]].
    + intros k' vs0 H. apply (Hc k' vs0). right; exact H.
    + intros nk' Hnk'. unfold dkeys in Hnk'. rewrite map_app in Hnk'.
      apply in_app_or in Hnk' as [Hnk'|[<-|[]]].
      * intros H. apply (Hacc nk' Hnk'). right; exact H.
      * simpl. rewrite Et. exact Hnk.
    + exists ((nk, vs') :: new). split; [rewrite E, <- app_assoc; reflexivity|].
      constructor; [|exact F]. split; [exact Hk|]. apply rmapM_Forall2. exact Hvs.
Qed.

Lemma dkeys_normalize conns : dkeys (normalize conns) = dkeys conns.
Proof. unfold dkeys, normalize. rewrite map_map. apply map_ext. reflexivity. Qed.

(** by_outer *)
Definition u2 (v : string) : string * string :=
  match unpack2 sep v with Ok p => p | Err _ => (EmptyString, EmptyString) end.
Definition triples (pc : dict (list string)) : list (string * (string * string)) :=
  flat_map (fun kv => map (fun v => (fst (u2 v), (snd (u2 v), fst kv))) (snd kv)) pc.

Lemma by_outer_eq pc :
  (forall kv v, In kv pc -> In v (snd kv) -> exists p, unpack2 sep v = Ok p) ->
  by_outer sep pc = Ok (fold_left (fun g x => dpush g (fst x) (snd x)) (triples pc) []).
Proof.
  unfold by_outer, triples. intros H.
  assert (Hin1 : forall key vs acc, (forall v, In v vs -> exists p, unpack2 sep v = Ok p) ->
     rfold (by_outer_val sep key) vs acc =
     Ok (fold_left (fun g x => dpush g (fst x) (snd x))
           (map (fun v => (fst (u2 v), (snd (u2 v), key))) vs) acc)).
  { intros key vs. induction vs as [|v vs IH]; intros acc Hv; [reflexivity|].
    cbn [rfold]. unfold by_outer_val at 1. destruct (Hv v) as [[o i] E]; [left; reflexivity|].
    assert (Eu : u2 v = (o, i)) by (unfold u2; rewrite E; reflexivity).
    rewrite E. cbn [map fold_left rbind]. rewrite Eu. cbn [fst snd].
    apply IH. intros v' Hv'. apply Hv. right; exact Hv'. }
  generalize (@nil (string * list (string * string))) as acc.
  induction pc as [|[key vs] pc IH]; intros acc; [reflexivity|].
  cbn [rfold flat_map]. cbn [fst snd]. rewrite Hin1.
  - cbn [rbind]. rewrite IH.
    + rewrite fold_left_app. reflexivity.
    + intros kv v Hkv. apply H. right; exact Hkv.
  - intros v Hv. apply (H (key, vs) v); [left; reflexivity|exact Hv].
Qed.

(** relation between a user connection and its partitioned form *)
Definition target_kind (o i : list string) (v : string) : Prop :=
  o = [out_key] \/
  (~ reserved sep out_key v /\ exists u, walk t o = Some u /\ (i <> [] -> atomic u = true)).
Definition conn_rel (kv : string * string) (x : string * (string * string)) : Prop :=
  tidy sep (snd (snd x)) = fst kv /\
  exists o i, fst x = join sep o /\ fst (snd x) = join sep i /\ split sep (snd kv) = o ++ i /\
     cclean sep o /\ cclean sep i /\ target_kind o i (snd kv).

Lemma triples_rel conn pc :
  Forall2 part_rel conn pc ->
  (forall k vs, In (k, vs) conn -> clean sep k) ->
  (forall k v, In (k, v) (pairs conn) -> clean sep v) ->
  Forall2 conn_rel (pairs conn) (triples pc) /\
  (forall kv v, In kv pc -> In v (snd kv) -> exists p, unpack2 sep v = Ok p).
Proof.
  induction 1 as [|[k vs] [nk pvs] conn pc [H1 H2] _ IH]; intros Hk Hv.
  - split; [constructor|intros kv v []].
  - cbn [fst snd] in H1, H2. destruct IH as [I1 I2].
    { intros k' vs' H. apply (Hk k' vs'). right; exact H. }
    { intros k' v' H. apply (Hv k' v'). unfold pairs in *. cbn [flat_map]. apply in_or_app. right; exact H. }
    assert (Hck : clean sep k) by (apply (Hk k vs); left; reflexivity).
    destruct (part_key_spec sep in_key out_key Hin Hout t k nk Hck H1) as [ok [ik [Es [Enk _]]]].
    destruct (part_tidy_gen sep k ok ik nk Hck Es Enk) as [Etk _].
    assert (Hvs : forall v, In v vs -> clean sep v).
    { intros v Hin'. apply (Hv k v). unfold pairs. cbn [flat_map]. apply in_or_app. left.
      simpl. apply in_map. exact Hin'. }
    assert (Hone : forall v pv, clean sep v -> pval v = Ok pv ->
      conn_rel (k, v) (fst (u2 pv), (snd (u2 pv), nk)) /\ exists p, unpack2 sep pv = Ok p).
    { intros v pv Hcv Hpv. destruct (part_val_spec sep in_key out_key Hin Hout t v pv Hcv Hpv)
        as [o [i [Ev [Epv Hkind]]]].
      destruct (part_tidy_gen sep v o i pv Hcv Ev Epv) as [_ [Hu [Ho Hi]]].
      split; [|eauto]. unfold u2. rewrite Hu. split; [exact Etk|]. exists o, i. simpl. auto 6. }
    split.
    + unfold pairs, triples. cbn [flat_map]. apply Forall2_app; [|exact I1]. cbn [fst snd].
      clear -H2 Hvs Hone. induction H2 as [|v pv vs pvs Hpv _ IH]; [constructor|]. simpl. constructor.
      * apply Hone; [apply Hvs; left; reflexivity|exact Hpv].
      * apply IH. intros v' H. apply Hvs. right; exact H.
    + intros kv v [<-|Hkv] Hin'; [|eapply I2; eauto]. simpl in Hin'.
      destruct (Forall2_In_r _ _ _ v H2 Hin') as [v0 [Hv0 Hpv]].
      destruct (Hone v0 v (Hvs v0 Hv0) Hpv) as [_ Hu]. exact Hu.
Qed.

(** concretising all groups *)
Definition conc_rel (e : string * list (string * string)) (c : string * list string) : Prop :=
  fst c = fst e /\ exists n n', concretize_paths sep uuid n (map fst (snd e)) = Ok (n', snd c).

Lemma conc_fold grouped : forall n acc,
  (forall e, In e grouped -> snd e <> [] /\ fresh_source sep uuid (map fst (snd e))) ->
  exists n' conc, rfold (conc_outer sep uuid) grouped (n, acc) = Ok (n', acc ++ conc) /\
    Forall2 conc_rel grouped conc.
Proof.
  induction grouped as [|e grouped IH]; intros n acc H.
  - exists n, []. rewrite app_nil_r. split; [reflexivity|constructor].
  - destruct (H e) as [Hne Hfr]; [left; reflexivity|].
    destruct (concretize_paths_spec sep uuid n (map fst (snd e)) Hsep) as [n1 [outs [E _]]].
    { destruct (snd e); [congruence|discriminate]. }
    { exact Hfr. }
    cbn [rfold]. unfold conc_outer at 1. cbn [fst snd]. rewrite E. cbn [rbind].
    destruct (IH n1 (acc ++ [(fst e, outs)])) as [n' [conc [E2 F]]].
    { intros e' He'. apply H. right; exact He'. }
    exists n', ((fst e, outs) :: conc). split; [etransitivity; [exact E2|]; rewrite <- app_assoc; reflexivity|].
    constructor; [|exact F]. split; [reflexivity|]. exists n, n1. exact E.
Qed.

Lemma dedup_id all : forall ps idx, (forall p, In p ps -> count_str p all <= 1) -> dedup sep all idx ps = ps.
Proof.
  induction ps as [|p ps IH]; intros idx H; [reflexivity|]. cbn [dedup].
  assert (Hp := H p (or_introl eq_refl)). destruct (Nat.ltb_spec 1 (count_str p all)); [lia|].
  rewrite IH; [reflexivity|]. intros q Hq. apply H. right; exact Hq.
Qed.

Lemma dedup_nodup ps : NoDup ps -> dedup sep ps [] ps = ps.
Proof.
  intros H. apply dedup_id. intros p _. unfold count_str.
  apply (proj1 (NoDup_count_occ string_dec ps) H).
Qed.

(** the matched list: (outer, (inner, source), concretised inner) *)
Local Notation quad := ((string * (string * string)) * string)%type.
Definition quads_of (ec : (string * list (string * string)) * (string * list string)) : list quad :=
  map (fun mi => ((fst (fst ec), fst mi), snd mi)) (combine (snd (fst ec)) (snd (snd ec))).
Definition quads (grouped : dict (list (string * string))) (conc : dict (list string)) : list quad :=
  flat_map quads_of (combine grouped conc).

Lemma quads_proj grouped conc :
  Forall2 (fun e c => length (snd e) = length (snd c)) grouped conc ->
  map fst (quads grouped conc) = flatg grouped.
Proof.
  induction 1 as [|[o ms] [o' is] grouped conc H _ IH]; [reflexivity|].
  unfold quads, flatg in *. cbn [combine flat_map]. rewrite map_app. f_equal; [|exact IH].
  unfold quads_of. cbn [fst snd] in *. rewrite map_map. cbn [fst]. clear -H. revert is H.
  induction ms as [|m ms IH]; intros is H; [reflexivity|]. destruct is as [|i is]; [discriminate|].
  simpl. f_equal. apply IH. simpl in H. lia.
Qed.

Lemma quads_lengths (grouped : dict (list (string * string))) (conc : dict (list string)) o :
  Forall2 (fun e c => fst c = fst e /\ length (snd e) = length (snd c)) grouped conc ->
  length (match dget conc o with Some l => l | None => [] end) = length (match dget grouped o with Some l => l | None => [] end).
Proof.
  induction 1 as [|[k ms] [k' is] grouped conc [H1 H2] _ IH]; [reflexivity|]. cbn [fst snd] in *. subst k'. cbn [dget].
  destruct (String.eqb o k); [symmetry; exact H2|exact IH].
Qed.

Lemma quads_filter grouped conc :
  Forall2 (fun e c => fst c = fst e /\ length (snd e) = length (snd c)) grouped conc -> NoDup (dkeys grouped) ->
  forall o, filter (fun z : quad => in_key_group fst o (fst z)) (quads grouped conc) =
    combine (map (pair o) (match dget grouped o with Some l => l | None => [] end))
            (match dget conc o with Some l => l | None => [] end).
Proof.
  induction 1 as [|[k ms] [k' is] grouped conc [H1 H2] _ IH]; intros Hnd o; [reflexivity|]. cbn [fst snd] in *. subst k'.
  cbn [dkeys map] in Hnd. apply NoDup_cons_iff in Hnd as [Hk Hnd].
  unfold quads. cbn [combine flat_map]. fold (quads grouped conc). rewrite filter_app, (IH Hnd o).
  unfold quads_of. cbn [fst snd dget]. destruct (String.eqb_spec o k) as [E|Hne].
  - subst o. replace (dget grouped k) with (@None (list (string * string))).
    + cbn [map combine]. rewrite app_nil_r. clear -H2. revert is H2. induction ms as [|m ms IHm]; intros [|i is] H2; try reflexivity.
      cbn [combine map filter fst snd]. unfold in_key_group at 1. cbn [fst]. rewrite String.eqb_refl. f_equal. apply IHm. simpl in H2. lia.
    + symmetry. destruct (dget grouped k) as [l|] eqn:E; [|reflexivity]. exfalso. apply Hk. apply dget_In in E. apply (in_map fst) in E. exact E.
  - replace (filter (fun z : quad => in_key_group fst o (fst z)) (map (fun mi : string * string * string => (k, fst mi, snd mi)) (combine ms is))) with (@nil quad).
    + reflexivity.
    + generalize (combine ms is). intros l. induction l as [|x l IHl]; [reflexivity|]. cbn [map filter fst]. unfold in_key_group at 1. cbn [fst].
      destruct (String.eqb_spec k o); [congruence|exact IHl].
Qed.

Definition newpair (q : quad) : string * string :=
  (snd (snd (fst q)), append (fst (fst q)) (append (dsep sep) (snd q))).

Lemma rebuild_eq grouped0 grouped conc :
  Forall2 (fun e c => fst c = fst e /\ length (snd e) = length (snd c)) grouped conc ->
  (forall e, In e grouped -> dget grouped0 (fst e) = Some (snd e)) ->
  forall acc,
  fold_left (rebuild_entry sep grouped0) conc acc =
  fold_left (fun g x => dpush g (fst x) (snd x)) (map newpair (quads grouped conc)) acc.
Proof.
  induction 1 as [|[o ms] [o' is] grouped conc [H1 H2] _ IH]; intros Hg acc; [reflexivity|].
  cbn [fst snd] in H1, H2. subst o'.
  cbn [fold_left]. unfold rebuild_entry at 2. assert (Hd := Hg (o, ms) (or_introl eq_refl)). cbn [fst snd] in Hd. rewrite Hd.
  unfold quads. cbn [combine flat_map]. rewrite map_app, fold_left_app. fold (quads grouped conc).
  rewrite IH by (intros e He; apply Hg; right; exact He). f_equal.
  unfold quads_of. cbn [fst snd]. rewrite map_map. unfold newpair. cbn [fst snd].
  clear -H2. revert acc is H2. induction ms as [|[i k] ms IH]; intros acc is H; [destruct is; reflexivity|].
  destruct is as [|i' is]; [discriminate|]. simpl. apply IH. simpl in H. lia.
Qed.

Lemma comps_in_split p k : In k (comps sep p) -> In k (split sep p).
Proof. unfold comps. destruct (String.eqb p EmptyString); [intros []|auto]. Qed.

(** Main statement *)
Theorem concretize_connections_spec conns cc :
  well_written sep out_key t conns ->
  fresh_source sep uuid (map snd (pairs (normalize conns))) ->
  concretize_connections sep uuid in_key out_key t conns = Ok cc ->
  NoDup (dkeys cc) /\
  exists Q : list (string * string * string),
    map fst Q = pairs (normalize conns) /\
    Permutation (map (fun q => (fst (fst q), snd q)) Q) (pairs cc) /\
    (forall i k v w, nth_error Q i = Some (k, v, w) -> clean sep w /\
        slot_given sep uuid (map snd (pairs (normalize conns))) i v w) /\
    (forall i j q1 q2, nth_error Q i = Some q1 -> nth_error Q j = Some q2 -> i <> j ->
        ~ prefix (split sep (snd q1)) (split sep (snd q2))).
Proof.
  intros [Hnd [Hkc Hvc]] Hfresh H. unfold concretize_connections in H.
  apply rbind_ok in H as [pc [Hpc H]]. unfold partition_connections in Hpc.
  destruct (check_double sep (normalize conns)); [discriminate|].
  set (conn := normalize conns) in *.
  assert (Hkc' : forall k vs, In (k, vs) conn -> clean sep k).
  { intros k vs Hi. unfold conn, normalize in Hi. apply in_map_iff in Hi as [[k' c] [E Hi]].
    simpl in E. injection E as <- _. eapply Hkc; eauto. }
  destruct (part_fold conn [] pc Hpc) as [new [Epc Hrel]];
    [unfold conn; rewrite dkeys_normalize; exact Hnd|exact Hkc'|intros nk []|].
  simpl in Epc. subst new.
  destruct (triples_rel conn pc Hrel Hkc') as [HX Hu2]; [intros k v Hi; apply (Hvc k v Hi)|].
  rewrite (by_outer_eq pc Hu2) in H. cbn [rbind] in H.
  set (X := triples pc) in *.
  set (grouped := fold_left (fun g x => dpush g (fst x) (snd x)) X []) in *.
  assert (HpermX : Permutation (flatg grouped) X) by (apply (flatg_group X [])).
  assert (Hndg : NoDup (dkeys grouped)) by (apply NoDup_group; constructor).
  (* every group member comes from a user connection *)
  assert (Hmember : forall outer m, In (outer, m) (flatg grouped) ->
             exists kv, In kv (pairs conn) /\ conn_rel kv (outer, m)).
  { intros outer m Hm. apply (Permutation_in _ HpermX) in Hm.
    destruct (Forall2_In_r _ _ _ _ HX Hm) as [kv [H1 H2]]. exists kv; auto. }
  assert (Hgroups : forall e, In e grouped -> snd e <> [] /\ fresh_source sep uuid (map fst (snd e))).
  { intros [outer ms] He. split.
    - simpl. apply In_group in He. tauto.
    - destruct Hfresh as [F1 [F2 F3]]. split; [exact F1|]. split; [exact F2|].
      intros n p Hp Hc. simpl in Hp. apply in_map_iff in Hp as [m [<- Hm]].
      destruct (Hmember outer m) as [[k v] [Hkv [_ [o [i [_ [Ei [Es [_ [Hci _]]]]]]]]]].
      { apply In_flatg. exists ms; auto. }
      simpl in Ei, Es. rewrite Ei, cclean_comps in Hc by exact Hci.
      apply (F3 n v); [apply (in_map snd _ (k, v)); exact Hkv|].
      destruct (Hvc k v Hkv) as [Hcv _]. destruct (clean_comps sep v Hcv) as [-> _].
      rewrite Es. apply in_or_app; right; exact Hc. }
  destruct (conc_fold grouped 0 [] Hgroups) as [n' [conc [Ec HC]]]. simpl in Ec.
  apply rbind_ok in H as [[n2 conc2] [Ec2 H]].
  assert (Ecc := eq_trans (eq_sym Ec) Ec2). injection Ecc as <- <-. clear Ec Ec2.
  (* facts about each concretised group *)
  assert (HC2 : forall e c, In e grouped -> conc_rel e c ->
     length (snd e) = length (snd c) /\
     (forall i j a b, nth_error (snd c) i = Some a -> nth_error (snd c) j = Some b -> i <> j ->
        ~ prefix (comps sep a) (comps sep b)) /\
     (forall i p o, nth_error (map fst (snd e)) i = Some p -> nth_error (snd c) i = Some o ->
        slot_given sep uuid (map fst (snd e)) i p o)).
  { intros e c He [_ [n [n1 Hcp]]]. destruct (Hgroups e He) as [Hne Hfr].
    destruct (concretize_paths_spec sep uuid n (map fst (snd e)) Hsep) as [n2 [outs [E [S1 [S2 S3]]]]];
      [destruct (snd e); [congruence|discriminate]|exact Hfr|].
    rewrite E in Hcp. injection Hcp as <- <-. split; [rewrite S1, map_length; reflexivity|].
    split; [exact S2|exact S3]. }
  assert (Hconc' : map (fun e => (fst e, dedup sep (snd e) [] (snd e))) conc = conc).
  { rewrite <- (map_id conc) at 2. apply map_ext_in. intros c Hc.
    destruct (Forall2_In_r _ _ _ c HC Hc) as [e [He Hrel']]. destruct (HC2 e c He Hrel') as [_ [Hpf _]].
    rewrite dedup_nodup; [destruct c; reflexivity|].
    apply NoDup_nth_error. intros i j Hi Eij. destruct (Nat.eq_dec i j) as [|Hij]; [assumption|exfalso].
    destruct (nth_error (snd c) i) as [a|] eqn:Ea; [|apply nth_error_None in Ea; lia].
    apply (Hpf i j a a Ea (eq_sym Eij) Hij). exists []. symmetry; apply app_nil_r. }
  rewrite Hconc' in H.
  set (Z := quads grouped conc).
  assert (Hrebuilt : fold_left (rebuild_entry sep grouped) conc [] =
                     fold_left (fun g x => dpush g (fst x) (snd x)) (map newpair Z) []).
  { apply rebuild_eq.
    - assert (Hall : forall e c, In e grouped -> conc_rel e c -> fst c = fst e /\ length (snd e) = length (snd c)).
      { intros e c He Hr. split; [apply (proj1 Hr)|apply (HC2 e c He Hr)]. }
      clear -HC Hall. induction HC as [|e c g' c' Hr _ IH]; constructor.
      + apply Hall; [left; reflexivity|exact Hr].
      + apply IH. intros e' c0 He'. apply Hall. right; exact He'.
    - intros [o ms] He. apply In_dget; [exact Hndg|exact He]. }
  rewrite Hrebuilt in H. clear Hrebuilt Hconc'.
  set (rebuilt := fold_left (fun g x => dpush g (fst x) (snd x)) (map newpair Z) []) in *.
  assert (HpermR : Permutation (flatg rebuilt) (map newpair Z)) by (apply (flatg_group (map newpair Z) [])).
  assert (Hndr : NoDup (dkeys rebuilt)) by (apply NoDup_group; constructor).
  assert (HZ : map fst Z = flatg grouped).
  { apply quads_proj.
    assert (Hall : forall e c, In e grouped -> conc_rel e c -> length (snd e) = length (snd c))
      by (intros e c He Hr; apply (HC2 e c He Hr)).
    clear -HC Hall. induction HC as [|e c g' c' Hr _ IH]; constructor.
    - apply Hall; [left; reflexivity|exact Hr].
    - apply IH. intros e' c0 He'. apply Hall. right; exact He'. }
  (* the sources in partitioned form are injective under tidy *)
  assert (Hpk : forall nk, In nk (dkeys rebuilt) -> In nk (dkeys pc)).
  { intros nk Hnk. apply in_map_iff in Hnk as [[nk' l] [E Hl]]. simpl in E. subst nk'.
    apply In_group in Hl as [El Hl]. destruct l as [|w l]; [congruence|].
    assert (Hw : In w (picked fst snd (map newpair Z) nk)) by (rewrite <- El; left; reflexivity).
    apply in_map_iff in Hw as [x [_ Hx]]. apply filter_In in Hx as [Hx Ex]. apply String.eqb_eq in Ex.
    apply in_map_iff in Hx as [q [Eq Hq]]. subst x. cbn [newpair fst] in Ex.
    assert (Hq' : In (fst q) (flatg grouped)) by (rewrite <- HZ; apply in_map; exact Hq).
    apply (Permutation_in _ HpermX) in Hq'. unfold X, triples in Hq'.
    apply in_flat_map in Hq' as [kv [Hkv Hv]]. apply in_map_iff in Hv as [v [Ev _]].
    rewrite <- Ev in Ex. simpl in Ex. subst nk. apply in_map. exact Hkv. }
  assert (Htinj : forall a b, In a (dkeys pc) -> In b (dkeys pc) -> tidy sep a = tidy sep b -> a = b).
  { intros a b Ha Hb E. apply in_map_iff in Ha as [pa [<- Ha]]. apply in_map_iff in Hb as [pb [<- Hb]].
    apply In_nth_error in Ha as [ia Ha]. apply In_nth_error in Hb as [ib Hb].
    assert (Hk : forall i p, nth_error pc i = Some p -> exists kv, nth_error conn i = Some kv /\ tidy sep (fst p) = fst kv).
    { intros i p Hp. destruct (nth_error conn i) as [kv|] eqn:Ekv.
      - exists kv. split; [reflexivity|]. destruct (Forall2_nth _ _ _ Hrel i kv p Ekv Hp) as [Hpk' _].
        assert (Hck : clean sep (fst kv)) by (apply (Hkc' (fst kv) (snd kv)); destruct kv; apply nth_error_In in Ekv; exact Ekv).
        destruct (part_key_spec sep in_key out_key Hin Hout t _ _ Hck Hpk') as [o [i' [Es [En _]]]].
        apply (part_tidy_gen sep _ o i' _ Hck Es En).
      - apply nth_error_None in Ekv. apply nth_error_lt in Hp. apply Forall2_len in Hrel. lia. }
    destruct (Hk ia pa Ha) as [ka [Hka Eka]]. destruct (Hk ib pb Hb) as [kb [Hkb Ekb]].
    assert (ia = ib); [|subst ib; congruence].
    assert (Hndc : NoDup (map fst conn)) by (change (NoDup (dkeys conn)); unfold conn; rewrite dkeys_normalize; exact Hnd).
    apply (proj1 (NoDup_nth_error _) Hndc).
    - rewrite map_length. eapply nth_error_lt; eauto.
    - rewrite !nth_error_map, Hka, Hkb. simpl. congruence. }
  assert (Hndt : NoDup (map (fun kv : string * list string => tidy sep (fst kv)) rebuilt)).
  { rewrite <- (map_map fst (tidy sep)). fold (dkeys rebuilt). clear -Hndr Hpk Htinj.
    induction (dkeys rebuilt) as [|k l IH]; [constructor|]. inversion Hndr as [|? ? Hk Hl]; subst.
    simpl. constructor.
    - intros Hi. apply in_map_iff in Hi as [k' [E Hk']]. apply Htinj in E.
      + subst k'. contradiction.
      + apply Hpk. right; exact Hk'.
      + apply Hpk. left; reflexivity.
    - apply IH; [exact Hl|]. intros nk Hnk. apply Hpk. right; exact Hnk. }
  rewrite (fold_dset_map (tidy sep) (map (tidy sep)) rebuilt []) in H by exact Hndt.
  injection H as <-. simpl app.
  (* the witness *)
  set (mk := fun q : quad => let '((outer, (inner, nk)), inner') := q in
               (tidy sep nk, tidy sep (append outer (append (dsep sep) inner)),
                tidy sep (append outer (append (dsep sep) inner')))).
  split; [unfold dkeys; rewrite map_map; exact Hndt|].
  (* the quads in the order of the connections *)
  set (cg := fun o => match dget conc o with Some l => l | None => [] end).
  assert (HXg : forall o, filter (in_key_group fst o) X = map (pair o) (match dget grouped o with Some l => l | None => [] end)).
  { intros o. unfold grouped. rewrite dget_group. cbn [dget].
    assert (E : map (pair o) (picked fst snd X o) = filter (in_key_group fst o) X).
    { unfold picked. rewrite map_map. rewrite <- (map_id (filter (in_key_group fst o) X)). apply map_ext_in. intros x Hx.
      apply filter_In in Hx as [_ Hx]. apply String.eqb_eq in Hx. destruct x; simpl in *; congruence. }
    rewrite <- E. destruct (picked fst snd X o); reflexivity. }
  assert (HZg : forall o, filter (fun z : quad => in_key_group fst o (fst z)) Z =
             combine (map (pair o) (match dget grouped o with Some l => l | None => [] end)) (cg o)).
  { apply quads_filter; [|exact Hndg]. eapply Forall2_impl2; [|exact HC]. intros e c He Hr. split; [apply (proj1 Hr)|apply (HC2 e c He Hr)]. }
  assert (Hcl : forall o, length (cg o) = length (filter (in_key_group fst o) X)).
  { intros o. rewrite HXg, map_length. apply quads_lengths. eapply Forall2_impl2; [|exact HC]. intros e c He Hr. split; [apply (proj1 Hr)|apply (HC2 e c He Hr)]. }
  assert (Hspread : exists Zs : list quad, map fst Zs = X /\
    forall o, filter (fun z : quad => in_key_group fst o (fst z)) Zs = combine (filter (in_key_group fst o) X) (cg o))
    by exact (spread fst X cg Hcl).
  destruct Hspread as [Zs [HZs HZsg]].
  assert (HpermZ : Permutation Zs Z).
  { apply (same_groups_perm (fun z : quad => fst (fst z))). intros o.
    change (filter (fun z : quad => in_key_group fst o (fst z)) Zs = filter (fun z : quad => in_key_group fst o (fst z)) Z).
    rewrite HZg, HZsg, HXg. reflexivity. }
  exists (map mk Zs).
  (* description of one quad *)
  assert (Hquad : forall q, In q Z -> exists k v o i i',
     In (k, v) (pairs conn) /\ fst (fst q) = join sep o /\ fst (snd (fst q)) = join sep i /\
     snd q = join sep i' /\ split sep v = o ++ i /\ cclean sep o /\ cclean sep i /\ cclean sep i' /\
     (i' = i \/ exists x, x <> EmptyString /\ i' = i ++ [x]) /\ target_kind o i v /\
     mk q = (k, v, join sep (o ++ i')) /\ o ++ i' <> []).
  { intros q Hq. unfold Z, quads in Hq. apply in_flat_map in Hq as [[e c] [Hec Hq]].
    apply in_map_iff in Hq as [[m i0'] [Eq Hm]].
    assert (He : In e grouped) by (eapply in_combine_l; eauto).
    assert (Hr : conc_rel e c).
    { apply In_nth_error in Hec as [n0 Hn0].
      clear -HC Hn0. revert n0 Hn0. induction HC as [|e1 c1 g1 c2 Hr _ IH]; intros n0 Hn0.
      - destruct n0; discriminate.
      - destruct n0; simpl in Hn0; [injection Hn0 as <- <-; exact Hr|eauto]. }
    destruct (HC2 e c He Hr) as [Hlen [_ Hext]].
    apply In_nth_error in Hm as [n0 Hn0]. cbn [fst snd] in Hn0.
    assert (Hm : nth_error (snd e) n0 = Some m /\ nth_error (snd c) n0 = Some i0').
    { clear -Hn0. revert n0 Hn0. generalize (snd c) as lc. generalize (snd e) as le.
      induction le as [|x le IH]; intros lc n0 Hn0; [destruct n0; discriminate|].
      destruct lc as [|y lc]; [destruct n0; discriminate|].
      destruct n0; simpl in *; [injection Hn0 as <- <-; auto|auto]. }
    destruct Hm as [Hm Hi0'].
    destruct (Hmember (fst e) m) as [[k v] [Hkv [Htk [o [i [Eo [Ei [Es [Ho [Hi Hkind]]]]]]]]]].
    { apply In_flatg. exists (snd e). split; [destruct e; exact He|]. eapply nth_error_In; eauto. }
    cbn [fst snd] in Htk, Eo, Ei, Es, Hkind.
    assert (Hi' : exists i', i0' = join sep i' /\ cclean sep i' /\ (i' = i \/ exists x, x <> EmptyString /\ i' = i ++ [x])).
    { destruct (slot_shape sep uuid _ _ _ _ (Hext n0 (fst m) i0' ltac:(rewrite nth_error_map, Hm; reflexivity) Hi0')) as [->|[x [Ex [Hx1 Hx2]]]].
      - exists i. auto.
      - exists (i ++ [x]). rewrite Ei, cclean_comps in Ex by exact Hi. split; [|split].
        + rewrite <- Ex. symmetry. apply join_comps.
        + apply cclean_app. split; [exact Hi|]. constructor; [auto|constructor].
        + right. exists x; auto. }
    destruct Hi' as [i' [Ei' [Hci' Hshape]]].
    assert (Hne : o ++ i <> []) by (rewrite <- Es; apply split_nonempty).
    assert (Hne' : o ++ i' <> []).
    { destruct Hshape as [->|[x [_ ->]]]; [exact Hne|]. rewrite app_assoc. destruct (o ++ i); discriminate. }
    exists k, v, o, i, i'. subst q. cbn [fst snd].
    split; [exact Hkv|]. split; [exact Eo|]. split; [exact Ei|]. split; [exact Ei'|].
    split; [exact Es|]. split; [exact Ho|]. split; [exact Hi|]. split; [exact Hci'|].
    split; [exact Hshape|]. split; [exact Hkind|]. split; [|exact Hne'].
    unfold mk. destruct m as [inner nk]. cbn [fst snd] in *. rewrite Htk, Eo, Ei, Ei'.
    rewrite !tidy_spec by assumption. rewrite <- Es, join_split. reflexivity. }
  assert (Hpairs : map (fun x : string * (string * string) =>
                        (tidy sep (snd (snd x)), tidy sep (append (fst x) (append (dsep sep) (fst (snd x)))))) X
                 = pairs conn).
  { clear -HX. induction HX as [|[k v] [outer [inner nk]] l X [H1 [o [i [Eo [Ei [Es [Ho [Hi _]]]]]]]] _ IH];
      [reflexivity|]. cbn [map fst snd] in *. f_equal; [|exact IH].
    rewrite H1, Eo, Ei, tidy_spec; [rewrite <- Es, join_split; reflexivity|exact Ho|exact Hi|].
    rewrite <- Es. apply split_nonempty. }
  assert (HquadS : forall a q, nth_error Zs a = Some q -> exists k v o i i',
     In (k, v) (pairs conn) /\ fst (fst q) = join sep o /\ fst (snd (fst q)) = join sep i /\
     snd q = join sep i' /\ split sep v = o ++ i /\ cclean sep o /\ cclean sep i /\ cclean sep i' /\
     (i' = i \/ exists x, x <> EmptyString /\ i' = i ++ [x]) /\ target_kind o i v /\
     mk q = (k, v, join sep (o ++ i')) /\ o ++ i' <> [] /\ nth_error (map snd (pairs conn)) a = Some v).
  { intros a q Ha. destruct (Hquad q) as [k [v [o [i [i' [K1 [K2 [K3 [K4 [K5 [K6 [K7 [K8 [K9 [K10 [K11 K12]]]]]]]]]]]]]]]];
      [apply (Permutation_in _ HpermZ); eapply nth_error_In; exact Ha|].
    exists k, v, o, i, i'. do 11 (split; [assumption|]). split; [assumption|].
    rewrite <- Hpairs, <- HZs, !map_map, nth_error_map, Ha. cbn [option_map]. f_equal.
    unfold mk in K11. destruct q as [[outer [inner nk]] inner']. injection K11 as _ K11 _. exact K11. }
  (* one group: its places in the whole list *)
  assert (Hgroup : forall a z, nth_error Zs a = Some z -> exists ms outs I,
     increasing I /\ length I = length ms /\ In a I /\
     (forall i j p q, nth_error outs i = Some p -> nth_error outs j = Some q -> i <> j -> ~ prefix (comps sep p) (comps sep q)) /\
     (forall i p q, nth_error (map fst ms) i = Some p -> nth_error outs i = Some q -> slot_given sep uuid (map fst ms) i p q) /\
     (forall j b, nth_error I j = Some b -> exists m q, nth_error Zs b = Some ((fst (fst z), m), q) /\
        nth_error ms j = Some m /\ nth_error outs j = Some q) /\
     (forall b z', nth_error Zs b = Some z' -> fst (fst z') = fst (fst z) -> In b I)).
  { intros a z Ha. set (os := fst (fst z)).
    assert (Hz : In z Z) by (apply (Permutation_in _ HpermZ); eapply nth_error_In; exact Ha).
    unfold Z, quads in Hz. apply in_flat_map in Hz as [[e c] [Hec Hz]]. apply in_map_iff in Hz as [mi [Emi Hmi]].
    assert (He : In e grouped) by (eapply in_combine_l; eauto).
    assert (Hr : conc_rel e c).
    { apply In_nth_error in Hec as [n0 Hn0].
      clear -HC Hn0. revert n0 Hn0. induction HC as [|e1 c1 g1 c2 Hr _ IH]; intros n0 Hn0.
      - destruct n0; discriminate.
      - destruct n0; simpl in Hn0; [injection Hn0 as <- <-; exact Hr|eauto]. }
    destruct (HC2 e c He Hr) as [Hlen [Hpf Hsl]].
    assert (Eos : fst e = os) by (unfold os; rewrite <- Emi; reflexivity).
    assert (Eg : dget grouped os = Some (snd e)) by (rewrite <- Eos; apply In_dget; [exact Hndg|destruct e; exact He]).
    assert (Ecg : cg os = snd c).
    { unfold cg. replace (dget conc os) with (Some (snd c)); [reflexivity|]. symmetry. rewrite <- Eos, <- (proj1 Hr). apply In_dget.
      - replace (dkeys conc) with (dkeys grouped); [exact Hndg|]. clear -HC. induction HC as [|e1 c1 g1 c2 Hr _ IH]; [reflexivity|].
        cbn [dkeys map]. rewrite (proj1 Hr). f_equal. exact IH.
      - apply in_combine_r in Hec. destruct c; exact Hec. }
    set (f := fun z : quad => in_key_group fst os (fst z)).
    assert (Ef : filter f Zs = combine (map (pair os) (snd e)) (snd c)) by (unfold f; rewrite HZsg, HXg, Eg, Ecg; reflexivity).
    exists (snd e), (snd c), (places_of f Zs).
    split; [apply places_of_increasing|]. split; [rewrite places_of_len, Ef; etransitivity; [apply combine_length|]; rewrite map_length; lia|].
    split; [apply (places_of_In f Zs a z Ha), String.eqb_refl|]. split; [exact Hpf|]. split; [exact Hsl|]. split.
    - intros j b Hb. destruct (places_of_nth f Zs j b Hb) as [x [Hx1 [_ Hx2]]]. rewrite Ef in Hx2.
      destruct (nth_error_combine _ _ _ _ Hx2) as [N1 N2]. rewrite nth_error_map in N1.
      destruct (nth_error (snd e) j) as [m|]; [|discriminate]. injection N1 as N1. exists m, (snd x).
      split; [etransitivity; [exact Hx1|]; f_equal; destruct x as [x1 x2]; cbn [fst snd] in *; subst x1; reflexivity|]. split; [reflexivity|exact N2].
    - intros b z' Hb Ez. apply (places_of_In f Zs b z' Hb). apply String.eqb_eq. exact Ez. }
  (* targets of different modules are unrelated *)
  assert (Hdiff : forall k1 v1 o1 i1 j1 k2 v2 o2 i2 j2,
     In (k1, v1) (pairs conn) -> split sep v1 = o1 ++ i1 -> target_kind o1 i1 v1 -> (j1 = i1 \/ exists x, x <> EmptyString /\ j1 = i1 ++ [x]) -> o1 ++ j1 <> [] ->
     In (k2, v2) (pairs conn) -> split sep v2 = o2 ++ i2 -> target_kind o2 i2 v2 -> (j2 = i2 \/ exists x, x <> EmptyString /\ j2 = i2 ++ [x]) ->
     prefix (o1 ++ j1) (o2 ++ j2) -> o1 = o2).
  { intros k1 v1 o1 i1 i1' k2 v2 o2 i2 i2' Hkv1 Es1 Hk1 Hsh1 Hne1 Hkv2 Es2 Hk2 Hsh2 Hpre.
    destruct (list_eq_dec string_dec o1 o2) as [Eo|Hneo]; [exact Eo|exfalso].
    assert (Hcmp : (exists x, o2 = o1 ++ x) \/ (exists x, o1 = o2 ++ x)).
    { destruct Hpre as [tl Htl]. rewrite <- app_assoc in Htl. symmetry in Htl.
      apply app_eq_app in Htl as [l [[E _]|[E _]]]; [right|left]; exists l; exact E. }
    assert (Hatom : forall k v o i, In (k, v) (pairs conn) -> split sep v = o ++ i -> target_kind o i v ->
              o = [out_key] \/ (~ reserved sep out_key v /\ exists u, walk t o = Some u /\ atomic u = true)).
    { intros k v o i Hkv Es [->|[Hnr [u [Hw Ha]]]]; [left; reflexivity|].
      right. split; [exact Hnr|]. exists u. split; [exact Hw|].
      destruct i as [|i0 i]; [|apply Ha; discriminate].
      destruct (Hvc k v Hkv) as [_ [Hr|[ks [rest [u' [E [Hw' Ha']]]]]]]; [contradiction|].
      rewrite app_nil_r in Es. rewrite <- Es, E in Hw. clear -Hw Hw' Ha'.
      revert t Hw Hw'. induction ks as [|k ks IH]; intros t0 Hw Hw'.
      - injection Hw' as ->. destruct rest as [|r rest]; [simpl in Hw; congruence|].
        simpl in Hw. destruct u'; discriminate.
      - simpl in *. destruct (child t0 k); [eauto|discriminate]. }
    assert (Hwalk_atomic : forall o x u u', walk t o = Some u -> atomic u = true -> walk t (o ++ x) = Some u' -> x = []).
    { intros o x u u'. generalize t as t0. induction o as [|k o IH]; intros t0 H1 Ha H2.
      - simpl in *. injection H1 as ->. destruct x as [|k x]; [reflexivity|]. simpl in H2. destruct u; discriminate.
      - simpl in *. destruct (child t0 k); [eauto|discriminate]. }
    (* a module path can not start with the output key *)
    assert (Hres : forall v o i i', split sep v = o ++ i -> ~ reserved sep out_key v ->
              (i' = i \/ exists x, x <> EmptyString /\ i' = i ++ [x]) ->
              forall r, o ++ i' <> out_key :: r).
    { intros v o i i' Es Hnr Hsh r E. apply Hnr.
      destruct Hsh as [->|[x [_ ->]]]; [exists r; congruence|].
      rewrite app_assoc, <- Es in E. destruct (split sep v) as [|s0 sp] eqn:Esp; [exfalso; eapply split_nonempty; eauto|].
      simpl in E. injection E as -> _. exists sp. exact Esp. }
    destruct (Hatom k1 v1 o1 i1 Hkv1 Es1 Hk1) as [E1|[Hnr1 [u1 [Hw1 Ha1]]]];
      destruct (Hatom k2 v2 o2 i2 Hkv2 Es2 Hk2) as [E2|[Hnr2 [u2' [Hw2 Ha2]]]].
    * congruence.
    * subst o1. destruct Hpre as [tl Htl]. simpl in Htl. eapply (Hres v2 o2 i2 i2'); eauto.
    * subst o2. destruct Hpre as [tl Htl]. simpl in Htl.
      destruct (o1 ++ i1') as [|h r] eqn:E; [congruence|]. simpl in Htl. injection Htl as -> _.
      eapply (Hres v1 o1 i1 i1'); eauto.
    * destruct Hcmp as [[x E]|[x E]].
      -- subst o2. apply Hneo. rewrite (Hwalk_atomic o1 x u1 u2' Hw1 Ha1 Hw2). symmetry. apply app_nil_r.
      -- subst o1. apply Hneo. rewrite (Hwalk_atomic o2 x u2' u1 Hw2 Ha2 Hw1). apply app_nil_r.
  }
  split; [|split; [|split]].
  - (* sources and targets written by the user *)
    rewrite map_map.
    assert (E1 : map (fun q => fst (mk q)) Zs =
                 map (fun x : string * (string * string) =>
                        (tidy sep (snd (snd x)), tidy sep (append (fst x) (append (dsep sep) (fst (snd x))))))
                     (map fst Zs)).
    { rewrite map_map. apply map_ext. intros [[outer [inner nk]] inner']. reflexivity. }
    rewrite E1, HZs. exact Hpairs.
  - (* concretised pairs *)
    eapply Permutation_trans; [apply Permutation_map, Permutation_map; exact HpermZ|].
    rewrite map_map.
    assert (E1 : map (fun q => (fst (fst (mk q)), snd (mk q))) Z =
                 map (fun x : string * string => (tidy sep (fst x), tidy sep (snd x))) (map newpair Z)).
    { rewrite map_map. apply map_ext. intros [[outer [inner nk]] inner']. reflexivity. }
    rewrite E1.
    assert (E2 : pairs (map (fun kv : string * list string => (tidy sep (fst kv), map (tidy sep) (snd kv))) rebuilt)
                 = map (fun x : string * string => (tidy sep (fst x), tidy sep (snd x))) (flatg rebuilt)).
    { rewrite pairs_flatg. unfold flatg. clear. induction rebuilt as [|[k l] r IH]; [reflexivity|].
      cbn [map flat_map]. rewrite map_app, <- IH. f_equal. cbn [fst snd]. rewrite !map_map. reflexivity. }
    rewrite E2. apply Permutation_map. apply Permutation_sym. exact HpermR.
  - intros a k v w Ha. rewrite nth_error_map in Ha. destruct (nth_error Zs a) as [z|] eqn:Ez; [|discriminate]. injection Ha as Emk0.
    destruct (HquadS a z Ez) as [k' [v' [o [i [i' [Hkv [Eo [Ei [Ei' [Es [Ho [Hi [Hi' [Hshape [Hkind [Emk [Hne HV]]]]]]]]]]]]]]]]].
    rewrite Emk in Emk0. injection Emk0 as <- <- <-.
    assert (Hc : cclean sep (o ++ i')) by (apply cclean_app; auto).
    split; [apply cclean_clean; assumption|].
    destruct (Hgroup a z Ez) as [ms [outs [I [G1 [G2 [G3 [_ [G5 [G6 G7]]]]]]]]].
    apply In_nth_error in G3 as [r Hr]. destruct (G6 r a Hr) as [m [q [M1 [M2 M3]]]].
    assert (Em := eq_trans (eq_sym M1) Ez). clear M1. destruct z as [[os0 m0] q0]. cbn [fst snd] in *. injection Em as <- <-.
    apply (transfer_slot sep uuid (map snd (pairs conn)) (map fst ms) o I G1 (eq_trans G2 (eq_sym (map_length fst ms)))) with (r := r) (p := fst m) (q := q).
    + intros j b Hb. destruct (G6 j b Hb) as [m2 [q2 [N1 [N2 N3]]]].
      destruct (HquadS b _ N1) as [k2 [v2 [o2 [i2 [i2' [Hkv2 [Eo2 [Ei2 [_ [Es2 [Ho2 [Hi2 [_ [_ [_ [_ [_ HV2]]]]]]]]]]]]]]]]].
      cbn [fst snd] in *. exists v2, (fst m2). split; [exact HV2|]. split; [rewrite nth_error_map, N2; reflexivity|].
      destruct (clean_comps sep v2 (proj1 (Hvc k2 v2 Hkv2))) as [-> _]. rewrite Es2, Ei2, cclean_comps by exact Hi2. f_equal.
      rewrite <- (cclean_comps sep o2 Ho2), <- (cclean_comps sep o Ho), <- Eo, <- Eo2. reflexivity.
    + exact Hr.
    + exact HV.
    + rewrite nth_error_map, M2. reflexivity.
    + intros b vb Hb Hpre. rewrite nth_error_map in Hb. destruct (nth_error (pairs conn) b) as [kb|] eqn:Eb; [|discriminate].
      injection Hb as <-. destruct (nth_error Zs b) as [zb|] eqn:Ezb.
      2: { exfalso. apply nth_error_None in Ezb. apply nth_error_lt in Eb. apply (f_equal (@List.length _)) in HZs. rewrite map_length in HZs.
           apply Forall2_len in HX. lia. }
      destruct (HquadS b zb Ezb) as [k2 [v2 [o2 [i2 [i2' [Hkv2 [Eo2 [_ [_ [Es2 [Ho2 [Hi2 [_ [_ [Hk2 [_ [_ HV2]]]]]]]]]]]]]]]]].
      rewrite nth_error_map, Eb in HV2. injection HV2 as HV2. rewrite HV2 in Hpre.
      destruct (clean_comps sep v2 (proj1 (Hvc k2 v2 Hkv2))) as [Ec2 _]. destruct (clean_comps sep v' (proj1 (Hvc k' v' Hkv))) as [Ec1 _].
      rewrite Ec1, Ec2, Es, Es2 in Hpre.
      apply (G7 b zb Ezb). rewrite Eo, Eo2. f_equal. symmetry.
      apply (Hdiff k' v' o i i k2 v2 o2 i2 i2); auto. rewrite <- Es. apply split_nonempty.
    + rewrite cclean_comps by assumption. rewrite Ei', cclean_comps by assumption. reflexivity.
    + intros E. rewrite <- (join_comps sep (join sep (o ++ i'))), E. apply join_comps.
    + apply G5; [rewrite nth_error_map, M2; reflexivity|exact M3].
  - intros a b q1 q2 H1 H2 Hab Hpre.
    rewrite nth_error_map in H1, H2.
    destruct (nth_error Zs a) as [z1|] eqn:Ez1; [|discriminate].
    destruct (nth_error Zs b) as [z2|] eqn:Ez2; [|discriminate].
    injection H1 as <-. injection H2 as <-.
    destruct (HquadS a z1 Ez1) as [k1 [v1 [o1 [i1 [i1' [Hkv1 [Eo1 [Ei1 [Ei1' [Es1 [Ho1 [Hi1 [Hi1' [Hsh1 [Hk1 [Emk1 [Hne1 _]]]]]]]]]]]]]]]]].
    destruct (HquadS b z2 Ez2) as [k2 [v2 [o2 [i2 [i2' [Hkv2 [Eo2 [Ei2 [Ei2' [Es2 [Ho2 [Hi2 [Hi2' [Hsh2 [Hk2 [Emk2 [Hne2 _]]]]]]]]]]]]]]]]].
    rewrite Emk1, Emk2 in Hpre. cbn [snd] in Hpre.
    rewrite !cclean_split in Hpre by (try assumption; apply cclean_app; auto).
    assert (o1 = o2) by (eapply (Hdiff k1 v1 o1 i1 i1' k2 v2 o2 i2 i2'); eauto). subst o2.
    assert (Hpre' : prefix i1' i2').
    { destruct Hpre as [tl Htl]. exists tl. rewrite <- app_assoc in Htl. apply app_inv_head in Htl. exact Htl. }
    destruct (Hgroup a z1 Ez1) as [ms [outs [I [G1 [G2 [G3 [G4 [_ [G6 G7]]]]]]]]].
    assert (G3' : In b I) by (apply (G7 b z2 Ez2); rewrite Eo1, Eo2; reflexivity).
    apply In_nth_error in G3 as [r1 Hr1]. apply In_nth_error in G3' as [r2 Hr2].
    destruct (G6 r1 a Hr1) as [m1 [p1 [M1 [_ M3]]]]. destruct (G6 r2 b Hr2) as [m2 [p2 [M4 [_ M6]]]].
    assert (Em1 := eq_trans (eq_sym Ez1) M1). injection Em1 as Em1. assert (Em2 := eq_trans (eq_sym Ez2) M4). injection Em2 as Em2.
    apply (G4 r1 r2 p1 p2 M3 M6).
    + intros <-. congruence.
    + replace p1 with (snd z1) by (rewrite Em1; reflexivity). replace p2 with (snd z2) by (rewrite Em2; reflexivity).
      rewrite Ei1', Ei2', !cclean_comps by assumption. exact Hpre'.
Qed.
End Whole.

(** the shape of the given slots, for clean targets *)
Lemma slots_shape sep uuid P conns (Q : list (string * string * string)) :
  (forall k v, In (k, v) (pairs (normalize conns)) -> clean sep v /\ P v) ->
  map fst Q = pairs (normalize conns) ->
  (forall i k v w, nth_error Q i = Some (k, v, w) -> clean sep w /\
     slot_given sep uuid (map snd (pairs (normalize conns))) i v w) ->
  forall k v w, In (k, v, w) Q -> clean sep w /\
    (w = v \/ exists x, x <> EmptyString /\ split sep w = split sep v ++ [x]).
Proof.
  intros Hc HQ H k v w Hi. assert (Hkv : In (k, v) (pairs (normalize conns))) by (rewrite <- HQ; apply (in_map fst) in Hi; exact Hi).
  apply In_nth_error in Hi as [i Hi]. destruct (H i k v w Hi) as [Hw Hs]. split; [exact Hw|].
  destruct (slot_shape _ _ _ _ _ _ Hs) as [ -> |[x [E [_ Hx]]]]; [left; reflexivity|right]. exists x. split; [exact Hx|].
  destruct (clean_comps sep w Hw) as [ <- _]. destruct (clean_comps sep v (proj1 (Hc k v Hkv))) as [ <- _]. exact E.
Qed.
