(** Renaming and the treatment of connections. *)
From Verif Require Import Base BaseLemmas TreeUtil TreeSpec TreeProofs NonSeqSpec NonSeqProofs NonSeqRun Resolve Connections RenameProofs RenameSpec RenameStr RenameTree RenameExt.
Local Open Scope string_scope.
Local Open Scope list_scope.

Lemma rfold_sim {S S' X X'} (F : S -> X -> result S) (F' : S' -> X' -> result S') (h : S -> S') (k : X -> X') l :
  (forall s x, In x l -> F' (h s) (k x) = rmap h (F s x)) -> forall s, rfold F' (map k l) (h s) = rmap h (rfold F l s).
Proof.
  induction l as [|x l IH]; intros H s; [reflexivity|]. cbn [map rfold]. rewrite H by (left; reflexivity). destruct (F s x) as [s1|]; [|reflexivity]. cbn [rmap rbind].
  apply IH. intros s0 x0 Hx. apply H. right. exact Hx.
Qed.
Lemma rfold_keeps {S X} (F : S -> X -> result S) (I : S -> Prop) (J : X -> Prop) l : (forall s x s', I s -> J x -> F s x = Ok s' -> I s') -> Forall J l ->
  forall s s', I s -> rfold F l s = Ok s' -> I s'.
Proof.
  intros H HF. induction HF as [|x l Hx HF IH]; intros s s' Hs E; cbn [rfold] in E; [injection E as <-; exact Hs|]. apply rbind_ok in E as [s1 [E1 E2]]. eauto.
Qed.
Lemma rmapM_sim {X X' Y Y'} (F : X -> result Y) (F' : X' -> result Y') (k : X -> X') (h : Y -> Y') l : (forall x, In x l -> F' (k x) = rmap h (F x)) ->
  rmapM F' (map k l) = rmap (map h) (rmapM F l).
Proof.
  induction l as [|x l IH]; intros H; [reflexivity|]. cbn [map rmapM]. rewrite H by (left; reflexivity). destruct (F x); [|reflexivity]. cbn [rmap rbind].
  rewrite IH by (intros; apply H; right; assumption). destruct (rmapM F l); reflexivity.
Qed.
Lemma rmapM_keeps {X Y} (F : X -> result Y) (J : X -> Prop) (I : Y -> Prop) l ys : (forall x y, J x -> F x = Ok y -> I y) -> Forall J l -> rmapM F l = Ok ys -> Forall I ys.
Proof.
  intros H HF. revert ys. induction HF as [|x l Hx HF IH]; intros ys E; cbn [rmapM] in E; [injection E as <-; constructor|].
  apply rbind_ok in E as [y [E1 E2]]. apply rbind_ok in E2 as [ys' [E2 E3]]. injection E3 as <-. constructor; eauto.
Qed.
Lemma fold_sim {S S' X X'} (F : S -> X -> S) (F' : S' -> X' -> S') (h : S -> S') (k : X -> X') l :
  (forall s x, In x l -> F' (h s) (k x) = h (F s x)) -> forall s, fold_left F' (map k l) (h s) = h (fold_left F l s).
Proof.
  induction l as [|x l IH]; intros H s; [reflexivity|]. cbn [map fold_left]. rewrite H by (left; reflexivity). apply IH. intros s0 x0 Hx. apply H. right. exact Hx.
Qed.
Lemma fold_keeps {S X} (F : S -> X -> S) (I : S -> Prop) (J : X -> Prop) l : (forall s x, I s -> J x -> I (F s x)) -> Forall J l -> forall s, I s -> I (fold_left F l s).
Proof. intros H HF. induction HF as [|x l Hx HF IH]; intros s Hs; [exact Hs|]. cbn [fold_left]. apply IH. auto. Qed.

(** the remainder of a lookup is the end of the path *)
Lemma getitem_end {X} sep (t u : tree X) : forall p rem, getitem sep no_leaf true t p = Ok (u, rem) -> exists q, p = append q rem.
Proof.
  assert (F : forall n (t : tree X) p rem, getitem_fuel sep no_leaf true n t p = Ok (u, rem) -> exists q, p = append q rem).
  { induction n as [|n IH]; intros t0 p rem H; [discriminate|]. cbn [getitem_fuel no_leaf] in H. destruct p as [|c p]; [injection H as _ <-; exists EmptyString; reflexivity|].
    remember (String c p) as s. clear Heqs. pose proof (split1_spec sep s) as E. pose proof (join_split sep s) as J.
    destruct (split1 sep s) as [key rest]. assert (K : forall t', getitem_fuel sep no_leaf true n t' (match rest with Some r => r | None => EmptyString end) = Ok (u, rem) -> exists q, s = append q rem).
    { intros t' Ht'. destruct (IH _ _ _ Ht') as [q Eq]. destruct (split sep s) as [|k [|k2 ks]] eqn:Es; [exfalso; eapply split_nonempty; eauto| |].
      - injection E as -> ->. cbn [join] in J. exists s. destruct q; [|discriminate]. cbn [append] in Eq. subst rem. symmetry. apply append_nil_r.
      - injection E as -> ->. cbn in Eq. exists (append k (String sep q)). rewrite append_assoc. cbn [append]. rewrite <- Eq. rewrite <- J. rewrite join_cons by discriminate. reflexivity. }
    destruct t0 as [a| |d|l|l].
    - injection H as _ <-. exists EmptyString. reflexivity.
    - injection H as _ <-. exists EmptyString. reflexivity.
    - destruct (dget d key); [|discriminate]. exact (K _ H).
    - destruct (isdigit key); [|discriminate]. destruct (nth_error l (int_of key)); [|discriminate]. exact (K _ H).
    - destruct (isdigit key); [|discriminate]. destruct (nth_error l (int_of key)); [|discriminate]. exact (K _ H). }
  intros p rem. apply F.
Qed.

Lemma Ok_inj {X} (a b : X) : Ok a = Ok b -> a = b.
Proof. congruence. Qed.

Section Conn.
Variable sep : ascii.
Variable uuid : nat -> string.
Variable f : string -> string.
Hypothesis HR : renaming sep f.
Hypothesis Hin : no_sep sep "input" = true.
Hypothesis Hout : no_sep sep "output" = true.
Notation R := (rename_path sep f).
Notation top := (rename_top f).
Notation named := (named sep).
Context {A : Type} (d : dict (tree A)).

(** dictionaries *)
Definition rd {V W} (g : V -> W) (e : dict V) : dict W := map (fun kv => (R (fst kv), g (snd kv))) e.
Lemma dget_rd {V W} (g : V -> W) e k : dget (rd g e) (R k) = option_map g (dget e k).
Proof. induction e as [|[k' v] e IH]; [reflexivity|]. cbn [rd map dget fst snd]. rewrite (eqb_R sep f HR). destruct (String.eqb k k'); [reflexivity|exact IH]. Qed.
Lemma dset_rd {V W} (g : V -> W) e k v : dset (rd g e) (R k) (g v) = rd g (dset e k v).
Proof. induction e as [|[k' v'] e IH]; [reflexivity|]. cbn [rd map dset fst snd]. rewrite (eqb_R sep f HR). destruct (String.eqb k k'); cbn [map fst snd]; [reflexivity|]. unfold rd in IH. rewrite IH. reflexivity. Qed.
Lemma dpush_rd {V W} (g : V -> W) e k x : dpush (rd (map g) e) (R k) (g x) = rd (map g) (dpush e k x).
Proof. unfold dpush. rewrite dget_rd, <- dset_rd. f_equal. destruct (dget e k); cbn [option_map]; rewrite map_app; reflexivity. Qed.
Lemma Forall_dset {V} (I : string * V -> Prop) e k v : Forall I e -> (forall k', k' = k -> I (k', v)) -> Forall I (dset e k v).
Proof. intros H Hv. induction H as [|[k' v'] e Hk H IH]; cbn [dset]; [constructor; auto|]. destruct (String.eqb_spec k k') as [->|_]; constructor; auto. Qed.
Lemma Forall_dpush {V} (I : string -> list V -> Prop) e k x : Forall (fun kv => I (fst kv) (snd kv)) e -> (forall l, I k l -> I k (l ++ [x])) -> I k [x] -> Forall (fun kv => I (fst kv) (snd kv)) (dpush e k x).
Proof.
  intros H Ha H1. unfold dpush. apply Forall_dset; [exact H|]. intros k' ->. cbn [fst snd]. destruct (dget e k) as [l|] eqn:E; [|exact H1]. apply Ha.
  apply dget_In in E. rewrite Forall_forall in H. exact (H _ E).
Qed.

(** where a path leaves the modules *)
Lemma rest_view s u rem : s <> EmptyString -> getitem sep no_leaf true (Dict d) s = Ok (u, rem) ->
  exists h t, no_sep sep h = true /\ tailS sep t /\ s = append (append h t) rem /\ tailS sep (append t rem).
Proof.
  intros Hs H. destruct (view sep s) as (h & t & -> & H1 & H2). rewrite getitem_unfold in H. rewrite ne_match in H by exact Hs. cbn [no_leaf] in H. rewrite (split1_view sep) in H by assumption.
  destruct (dget d h) as [t'|]; [|discriminate]. apply getitem_end in H as [q Eq]. destruct H2 as [->|[r ->]].
  - cbn in Eq. destruct q; [|discriminate]. cbn in Eq. subst rem. exists h, EmptyString. split; [exact H1|]. split; [left; reflexivity|]. split; [rewrite !append_nil_r; reflexivity|left; reflexivity].
  - cbn in Eq. subst r. exists h, (String sep q). split; [exact H1|]. split; [right; eexists; reflexivity|]. split; [rewrite append_assoc; reflexivity|right; eexists; reflexivity].
Qed.
Lemma cut_R s u rem : s <> EmptyString -> getitem sep no_leaf true (Dict d) s = Ok (u, rem) -> removesuffix (R s) rem = R (removesuffix s rem).
Proof.
  intros Hs H. destruct (rest_view s u rem Hs H) as (h & t & H1 & H2 & -> & H3). rewrite removesuffix_append, append_assoc, !(R_view sep f) by assumption.
  rewrite <- append_assoc, removesuffix_append. reflexivity.
Qed.
Lemma cut_named s u rem : named s -> getitem sep no_leaf true (Dict d) s = Ok (u, rem) -> named (removesuffix s rem).
Proof.
  intros Hs H. destruct (rest_view s u rem (named_ne sep s Hs) H) as (h & t & H1 & H2 & -> & H3). rewrite removesuffix_append. rewrite append_assoc, (named_view sep) in Hs by assumption.
  apply (named_view sep); assumption.
Qed.

Notation pkey := (part_key sep "input" "output"). Notation pval := (part_val sep "input" "output").
Lemma in_special : "input" = "input" \/ "input" = "output". Proof. left; reflexivity. Qed.
Lemma out_special : "output" = "input" \/ "output" = "output". Proof. right; reflexivity. Qed.
Lemma special_app k r : (k = "input" \/ k = "output") -> tailS sep r -> R (append k r) = append k r.
Proof. intros K T. rewrite (R_app sep f) by exact T. rewrite (R_special sep f HR Hin Hout) by exact K. reflexivity. Qed.
Lemma special_named k : (k = "input" \/ k = "output") -> named k.
Proof. intros [->| ->]; unfold RenameSpec.named; rewrite split_no_sep_id by assumption; discriminate. Qed.
Lemma part_key_R k : named k -> pkey (top (Dict d)) (R k) = rmap R (pkey (Dict d) k).
Proof.
  intros Hk. unfold part_key. rewrite !(under_R sep f HR Hin Hout) by auto. destruct (under sep k "input") eqn:E1.
  - rewrite (under_fix sep f HR Hin Hout "input") by (auto using in_special). cbn [rmap]. rewrite special_app; [reflexivity|auto|apply dsep_tail].
  - destruct (under sep k "output"); [reflexivity|]. rewrite (get_dict sep f HR) by (apply (named_ne sep); exact Hk).
    destruct (getitem sep no_leaf true (Dict d) k) as [[u rem]|] eqn:G; [|reflexivity]. cbn [rbind rmap]. rewrite (cut_R k u rem) by (assumption || apply (named_ne sep); exact Hk).
    rewrite (rstrip_R sep f HR), (R_app sep f) by apply dsep_tail. reflexivity.
Qed.
Lemma part_key_named k k' : named k -> pkey (Dict d) k = Ok k' -> named k'.
Proof.
  intros Hk. unfold part_key. destruct (under sep k "input").
  - intros E. apply Ok_inj in E. rewrite <- E. apply (named_app sep); [apply dsep_tail|apply special_named; auto].
  - destruct (under sep k "output"); [discriminate|]. destruct (getitem sep no_leaf true (Dict d) k) as [[u rem]|] eqn:G; [|discriminate]. cbn [rbind]. intros E. injection E as <-.
    apply (named_app sep); [apply dsep_tail|]. apply (rstrip_named sep). eapply cut_named; eauto.
Qed.
Lemma part_val_R k : named k -> pval (top (Dict d)) (R k) = rmap R (pval (Dict d) k).
Proof.
  intros Hk. unfold part_val. rewrite !(under_R sep f HR Hin Hout) by auto. destruct (under sep k "output") eqn:E1.
  - rewrite (under_fix sep f HR Hin Hout "output") by (auto using out_special). cbn [rmap]. rewrite special_app; [reflexivity|auto|apply dsep_tail].
  - destruct (under sep k "input"); [reflexivity|]. rewrite (get_dict sep f HR) by (apply (named_ne sep); exact Hk).
    destruct (getitem sep no_leaf true (Dict d) k) as [[u rem]|] eqn:G; [|reflexivity]. cbn [rbind rmap]. rewrite (cut_R k u rem) by (assumption || apply (named_ne sep); exact Hk).
    rewrite (chop_R sep f HR Hin Hout), (R_app sep f) by apply dsep_tail. reflexivity.
Qed.
Lemma part_val_named k k' : named k -> pval (Dict d) k = Ok k' -> named k'.
Proof.
  intros Hk. unfold part_val. destruct (under sep k "output").
  - intros E. apply Ok_inj in E. rewrite <- E. apply (named_app sep); [apply dsep_tail|apply special_named; auto].
  - destruct (under sep k "input"); [discriminate|]. destruct (getitem sep no_leaf true (Dict d) k) as [[u rem]|] eqn:G; [|discriminate]. cbn [rbind]. intros E. injection E as <-.
    apply (named_app sep); [apply dsep_tail|]. apply (chop_named sep Hin Hout). eapply cut_named; eauto.
Qed.

Definition ninv (pc : dict (list string)) : Prop := Forall (fun kv => named (fst kv) /\ Forall named (snd kv)) pc.
Notation partition t := (partition_connections sep "input" "output" t).
Lemma normalize_R c : normalize (rename_conns sep f c) = rd (map R) (normalize c).
Proof. unfold normalize, rename_conns, rd. rewrite !map_map. apply map_ext. intros [k [v|vs]]; reflexivity. Qed.
Lemma normalize_named c : named_conns sep c -> ninv (normalize c).
Proof. intros H. unfold ninv, normalize. apply Forall_map. cbn [fst snd]. exact H. Qed.
Lemma existsb_map {X Y} (p : Y -> bool) (h : X -> Y) l : existsb p (map h l) = existsb (fun x => p (h x)) l.
Proof. induction l as [|x l IH]; [reflexivity|]. cbn. rewrite IH. reflexivity. Qed.
Lemma existsb_ext' {X} (p q : X -> bool) l : (forall x, p x = q x) -> existsb p l = existsb q l.
Proof. intros H. induction l as [|x l IH]; [reflexivity|]. cbn. rewrite H, IH. reflexivity. Qed.
Lemma check_R pc : check_double sep (rd (map R) pc) = check_double sep pc.
Proof.
  unfold check_double, rd. rewrite existsb_map. apply existsb_ext'. intros [k vs]. cbn [fst snd]. rewrite (double_R sep f HR). f_equal. rewrite existsb_map. apply existsb_ext'.
  intros v. apply (double_R sep f HR).
Qed.
Lemma partition_R c : named_conns sep c -> partition (top (Dict d)) (rename_conns sep f c) = rmap (rd (map R)) (partition (Dict d) c).
Proof.
  intros H. apply normalize_named in H. unfold partition_connections. rewrite normalize_R, check_R. destruct (check_double sep (normalize c)); [reflexivity|].
  unfold ninv in H. rewrite Forall_forall in H. apply (rfold_sim _ _ (rd (map R)) (fun kv => (R (fst kv), map R (snd kv))) (normalize c)) with (s := []). intros s [k vs] Hi. destruct (H _ Hi) as [Hk Hv]. cbn [fst snd] in *.
  unfold part_entry. cbn [fst snd]. rewrite part_key_R by exact Hk. destruct (pkey (Dict d) k) as [k'|]; [|reflexivity]. cbn [rmap rbind].
  rewrite (rmapM_sim (pval (Dict d)) (pval (top (Dict d))) R R). 2:{ rewrite Forall_forall in Hv. intros x Hx. apply part_val_R. apply Hv. exact Hx. }
  destruct (rmapM (pval (Dict d)) vs); [|reflexivity]. cbn [rmap rbind]. rewrite dset_rd. reflexivity.
Qed.
Lemma partition_named c pc : named_conns sep c -> partition (Dict d) c = Ok pc -> ninv pc.
Proof.
  intros H. apply normalize_named in H. unfold partition_connections. destruct (check_double sep (normalize c)); [discriminate|].
  apply (rfold_keeps _ ninv (fun kv => named (fst kv) /\ Forall named (snd kv))); [|exact H|constructor]. intros s [k vs] s' Hs [Hk Hv] E. unfold part_entry in E. cbn [fst snd] in *.
  apply rbind_ok in E as [k' [E1 E]]. apply rbind_ok in E as [vs' [E2 E]]. injection E as <-. unfold ninv. apply Forall_dset; [exact Hs|]. intros k0 ->. cbn [fst snd]. split; [eapply part_key_named; eauto|].
  eapply rmapM_keeps; [|exact Hv|exact E2]. intros x y Hx Ey. eapply part_val_named; eauto.
Qed.

(** the graph between modules *)
Lemma outer_head k : named k -> startswith k "input" || startswith k "output" = true -> R (hd EmptyString (split sep k)) = hd EmptyString (split sep k) /\ R k = k.
Proof.
  intros Hk H. assert (K : R k = k) by (apply orb_prop in H as [H|H]; [apply (starts_fix sep f HR Hin Hout "input")|apply (starts_fix sep f HR Hin Hout "output")]; auto). split; [|exact K].
  pose proof (R_split sep f HR k) as E. rewrite K in E. destruct (split sep k) as [|h ks] eqn:Es; [exfalso; eapply split_nonempty; eauto|]. cbn [hd tl] in *. injection E as E.
  pose proof (split_no_sep sep k) as N. rewrite Es in N. inversion N; subst. rewrite (R_name sep f) by assumption. symmetry. exact E.
Qed.
Lemma outer_R pc : ninv pc -> forall acc, rfold (outer_entry sep) (rd (map R) pc) (rename_graph R acc) = rmap (rename_graph R) (rfold (outer_entry sep) pc acc).
Proof.
  intros H acc. unfold ninv in H. rewrite Forall_forall in H. apply (rfold_sim _ _ (rename_graph R) (fun kv => (R (fst kv), map R (snd kv)))). intros s [k vs] Hi. destruct (H _ Hi) as [Hk Hv].
  cbn [fst snd] in *. unfold outer_entry. rewrite !(starts_R sep f HR Hin Hout) by auto.
  assert (E1 : (if startswith k "input" || startswith k "output" then Ok (hd EmptyString (split sep (R k))) else let* (o, _) := unpack2 sep (R k) in Ok o) =
    rmap R (if startswith k "input" || startswith k "output" then Ok (hd EmptyString (split sep k)) else let* (o, _) := unpack2 sep k in Ok o)).
  { destruct (startswith k "input" || startswith k "output") eqn:E.
    - destruct (outer_head k Hk E) as [E1 E2]. rewrite E2. cbn [rmap]. rewrite E1. reflexivity.
    - rewrite (unpack_R sep f HR). destruct (unpack2 sep k) as [[o i]|]; reflexivity. }
  rewrite E1. clear E1. destruct (if startswith k "input" || startswith k "output" then _ else _) as [sk|]; [|reflexivity]. cbn [rmap rbind].
  rewrite (rmapM_sim (fun v => let* (o, _) := unpack2 sep v in Ok o) (fun v => let* (o, _) := unpack2 sep v in Ok o) R R) by (intros v _; rewrite (unpack_R sep f HR); destruct (unpack2 sep v) as [[o i]|]; reflexivity).
  destruct (rmapM _ vs) as [os|]; [|reflexivity]. cbn [rmap rbind]. f_equal.
  change (rename_graph R s) with (rd (map R) s). rewrite dget_rd. rewrite <- (gset_f R (R_inj sep f HR)). f_equal.
  assert (E : match option_map (map R) (dget s sk) with Some l => l | None => [] end = map R (match dget s sk with Some l => l | None => [] end)) by (destruct (dget s sk); reflexivity).
  rewrite E. apply (fold_sim add_set add_set (map R) R). intros l x _. unfold add_set. rewrite (mem_f R (R_inj sep f HR)). destruct (mem_str x l); [reflexivity|]. rewrite map_app. reflexivity.
Qed.
Theorem graph_R c : named_conns sep c ->
  get_outer_connections sep "input" "output" (top (Dict d)) (rename_conns sep f c) = rmap (rename_graph R) (get_outer_connections sep "input" "output" (Dict d) c).
Proof.
  intros H. unfold get_outer_connections. rewrite partition_R by exact H. destruct (partition (Dict d) c) as [pc|] eqn:E; [|reflexivity]. cbn [rmap rbind].
  change (@nil (string * list string)) with (rename_graph R []) at 1. apply outer_R. eapply partition_named; eauto.
Qed.
Lemma unpack_fst_named l os : Forall named l -> rmapM (fun v => let* (o, _) := unpack2 sep v in Ok o) l = Ok os -> Forall named os.
Proof.
  intros H. apply (rmapM_keeps _ named named); [|exact H]. intros x y Hx E. apply rbind_ok in E as [[o i] [E1 E2]]. injection E2 as <-. eapply (unpack_named sep); eauto.
Qed.

(** concrete connections *)
Definition og (ik : string * string) : string * string := (fst ik, R (snd ik)).
Lemma by_outer_R pc : by_outer sep (rd (map R) pc) = rmap (rd (map og)) (by_outer sep pc).
Proof.
  unfold by_outer. change (@nil (string * list (string * string))) with (rd (map og) []) at 1. apply (rfold_sim _ _ (rd (map og)) (fun kv => (R (fst kv), map R (snd kv)))). intros s [k vs] _. cbn [fst snd].
  apply (rfold_sim _ _ (rd (map og)) R). intros s0 v _. unfold by_outer_val. rewrite (unpack_R sep f HR). destruct (unpack2 sep v) as [[o i]|]; [|reflexivity]. cbn [rmap rbind fst snd].
  change (i, R k) with (og (i, k)). rewrite dpush_rd. reflexivity.
Qed.
Definition ginv (g : dict (list (string * string))) : Prop := Forall (fun kv => named (fst kv) /\ Forall (fun ik => named (snd ik)) (snd kv)) g.
Lemma by_outer_named pc g : ninv pc -> by_outer sep pc = Ok g -> ginv g.
Proof.
  intros H. unfold by_outer. apply (rfold_keeps _ ginv (fun kv => named (fst kv) /\ Forall named (snd kv))); [|exact H|constructor]. intros s [k vs] s' Hs [Hk Hv]. cbn [fst snd] in *.
  apply (rfold_keeps _ ginv named); [|exact Hv|exact Hs]. intros s0 v s1 Hs0 Hv0 E. unfold by_outer_val in E. apply rbind_ok in E as [[o i] [E1 E2]]. injection E2 as <-.
  pose proof (unpack_named sep v o i Hv0 E1) as Ho.
  apply (Forall_dpush (fun k l => named k /\ Forall (fun ik : string * string => named (snd ik)) l)); [exact Hs0| |].
  - intros l [A1 A2]. split; [exact A1|]. apply Forall_app. split; [exact A2|]. repeat constructor. exact Hk.
  - split; [exact Ho|]. repeat constructor. exact Hk.
Qed.
Definition same {V} (v : V) : V := v.
Lemma conc_R g : forall st, rfold (conc_outer sep uuid) (rd (map og) g) (fst st, rd same (snd st)) = rmap (fun x => (fst x, rd same (snd x))) (rfold (conc_outer sep uuid) g st).
Proof.
  intros st. apply (rfold_sim _ _ (fun x : nat * dict (list string) => (fst x, rd same (snd x))) (fun kv => (R (fst kv), map og (snd kv)))). intros [n c] [o l] _. unfold conc_outer. cbn [fst snd].
  rewrite map_map. change (map (fun x => fst (og x)) l) with (map fst l). destruct (concretize_paths sep uuid n (map fst l)) as [[n' ps]|]; [|reflexivity]. cbn [rbind rmap fst snd]. unfold rd. rewrite map_app. reflexivity.
Qed.
Lemma conc_keys g : ginv g -> forall st st', Forall (fun kv : string * list string => named (fst kv)) (snd st) -> rfold (conc_outer sep uuid) g st = Ok st' -> Forall (fun kv => named (fst kv)) (snd st').
Proof.
  intros H. apply (rfold_keeps _ (fun st : nat * dict (list string) => Forall (fun kv => named (fst kv)) (snd st)) (fun kv => named (fst kv) /\ Forall (fun ik => named (snd ik)) (snd kv))); [|exact H].
  intros [n c] [o l] s' Hs [Ho _] E. unfold conc_outer in E. cbn [fst snd] in *. apply rbind_ok in E as [[n' ps] [_ E]]. injection E as <-. cbn [snd]. apply Forall_app. split; [exact Hs|]. repeat constructor. exact Ho.
Qed.
Lemma combine_map_r {X Y Z} (h : Y -> Z) (l : list X) (m : list Y) : combine l (map h m) = map (fun xy => (fst xy, h (snd xy))) (combine l m).
Proof. revert m. induction l as [|x l IH]; intros [|y m]; cbn; try reflexivity. rewrite IH. reflexivity. Qed.
Lemma rebuild_R g e : forall acc, fold_left (rebuild_entry sep (rd (map og) g)) (rd same e) (rd (map R) acc) = rd (map R) (fold_left (rebuild_entry sep g) e acc).
Proof.
  intros acc. apply (fold_sim _ _ (rd (map R)) (fun kv => (R (fst kv), same (snd kv)))). intros s [o ins] _. unfold rebuild_entry. cbn [fst snd]. rewrite dget_rd.
  assert (E : match option_map (map og) (dget g o) with Some l => map snd l | None => [] end = map R (match dget g o with Some l => map snd l | None => [] end)).
  { destruct (dget g o); [|reflexivity]. cbn [option_map]. rewrite !map_map. reflexivity. }
  rewrite E, combine_map_r. unfold same. apply (fold_sim _ _ (rd (map R)) (fun xy => (fst xy, R (snd xy)))). intros s0 [i k] _. cbn [fst snd].
  rewrite <- (R_app sep f) by apply dsep_tail. apply dpush_rd.
Qed.
Lemma rebuild_named g e : ginv g -> Forall (fun kv : string * list string => named (fst kv)) e -> forall acc, ninv acc -> ninv (fold_left (rebuild_entry sep g) e acc).
Proof.
  intros Hg He. apply (fold_keeps _ ninv (fun kv => named (fst kv))); [|exact He]. intros s [o ins] Hs Ho. unfold rebuild_entry. cbn [fst] in Ho.
  assert (HK : Forall named (match dget g o with Some l => map snd l | None => [] end)).
  { destruct (dget g o) as [l|] eqn:E; [|constructor]. apply dget_In in E. unfold ginv in Hg. rewrite Forall_forall in Hg. destruct (Hg _ E) as [_ HK]. apply Forall_map. exact HK. }
  apply (fold_keeps _ ninv (fun ik : string * string => named (snd ik))); [| |exact Hs].
  - intros s0 [i k] Hs0 Hk. cbn [fst snd] in *.
    assert (HV : named (append o (append (dsep sep) i))) by (apply (named_app sep); [apply dsep_tail|exact Ho]).
    apply (Forall_dpush (fun k l => named k /\ Forall named l)); [exact Hs0| |].
    + intros l [A1 A2]. split; [exact A1|]. apply Forall_app. split; [exact A2|]. constructor; [exact HV|constructor].
    + split; [exact Hk|]. constructor; [exact HV|constructor].
  - apply Forall_forall. intros [i k] Hi. apply in_combine_r in Hi. rewrite Forall_forall in HK. exact (HK k Hi).
Qed.
Lemma tidy_all rb : ninv rb -> forall acc, fold_left (fun acc kv => dset acc (tidy sep (fst kv)) (map (tidy sep) (snd kv))) (rd (map R) rb) (rd (map R) acc) =
  rd (map R) (fold_left (fun acc kv => dset acc (tidy sep (fst kv)) (map (tidy sep) (snd kv))) rb acc).
Proof.
  intros H acc. unfold ninv in H. rewrite Forall_forall in H. apply (fold_sim _ _ (rd (map R)) (fun kv => (R (fst kv), map R (snd kv)))). intros s [k vs] Hi. destruct (H _ Hi) as [Hk Hv]. cbn [fst snd] in *.
  rewrite (tidy_R sep f HR) by exact Hk. rewrite <- dset_rd. f_equal. rewrite !map_map. apply map_ext_in. intros v Hv0. rewrite Forall_forall in Hv. apply (tidy_R sep f HR). auto.
Qed.
Lemma tidy_ninv rb : ninv rb -> forall acc, ninv acc -> ninv (fold_left (fun acc kv => dset acc (tidy sep (fst kv)) (map (tidy sep) (snd kv))) rb acc).
Proof.
  intros H. apply (fold_keeps _ ninv (fun kv => named (fst kv) /\ Forall named (snd kv))); [|exact H]. intros s [k vs] Hs [Hk Hv]. cbn [fst snd] in *. apply Forall_dset; [exact Hs|]. intros k0 ->. cbn [fst snd].
  split; [apply (tidy_named sep); exact Hk|]. apply Forall_map. eapply Forall_impl; [|exact Hv]. intros v. apply (tidy_named sep).
Qed.
Notation concretize t := (concretize_connections sep uuid "input" "output" t).
Lemma concretize_R c : named_conns sep c ->
  match concretize (Dict d) c with
  | Ok cc => ninv cc /\ concretize (top (Dict d)) (rename_conns sep f c) = Ok (rd (map R) cc)
  | Err e => concretize (top (Dict d)) (rename_conns sep f c) = Err e
  end.
Proof.
  intros H. unfold concretize_connections. rewrite partition_R by exact H. destruct (partition (Dict d) c) as [pc|] eqn:E1; [|reflexivity]. cbn [rmap rbind].
  pose proof (partition_named c pc H E1) as N1. rewrite by_outer_R. destruct (by_outer sep pc) as [g|] eqn:E2; [|reflexivity]. cbn [rmap rbind]. pose proof (by_outer_named pc g N1 E2) as N2.
  match goal with |- context [rfold ?F (rd (map og) g) ?z] =>
    replace (rfold F (rd (map og) g) z) with (rmap (fun x => (fst x, rd same (snd x))) (rfold F g z)) by (symmetry; exact (conc_R g z)) end.
  destruct (rfold (conc_outer sep uuid) g (0, [])) as [[n conc]|] eqn:E3; [|reflexivity]. cbn [rmap rbind fst snd].
  pose proof (conc_keys g N2 (0, []) (n, conc) ltac:(constructor) E3) as N3. cbn [snd] in N3.
  set (e := map (fun e => (fst e, dedup sep (snd e) [] (snd e))) conc).
  assert (Ee : map (fun e => (fst e, dedup sep (snd e) [] (snd e))) (rd same conc) = rd same e) by (unfold rd, e; rewrite !map_map; reflexivity).
  rewrite Ee. clear Ee. assert (N4 : Forall (fun kv : string * list string => named (fst kv)) e) by (apply Forall_map; exact N3).
  pose proof (rebuild_named g e N2 N4 [] ltac:(constructor)) as N5. split; [apply tidy_ninv; [exact N5|constructor]|]. f_equal.
  etransitivity; [|exact (tidy_all _ N5 [])]. f_equal. exact (rebuild_R g e []).
Qed.

(** sources of slots *)
Definition sinv (rc : dict (list string)) : Prop := Forall (fun kv => named (fst kv) /\ snd kv <> [] /\ Forall named (snd kv)) rc.
Lemma reverse_R cc : reverse_conn (rd (map R) cc) = rd (map R) (reverse_conn cc).
Proof.
  unfold reverse_conn. change (@nil (string * list string)) with (rd (map R) []) at 1. apply (fold_sim _ _ (rd (map R)) (fun kv => (R (fst kv), map R (snd kv)))). intros s [k vs] _. cbn [fst snd].
  apply (fold_sim _ _ (rd (map R)) R). intros s0 v _. apply dpush_rd.
Qed.
Lemma reverse_named cc : ninv cc -> sinv (reverse_conn cc).
Proof.
  intros H. unfold reverse_conn. apply (fold_keeps _ sinv (fun kv => named (fst kv) /\ Forall named (snd kv))); [|exact H|constructor]. intros s [k vs] Hs [Hk Hv]. cbn [fst snd] in *.
  apply (fold_keeps _ sinv named); [|exact Hv|exact Hs]. intros s0 v Hs0 Hv0. apply (Forall_dpush (fun k l => named k /\ l <> [] /\ Forall named l)); [exact Hs0| |].
  - intros l (A1 & A2 & A3). split; [exact A1|]. split; [destruct l; discriminate|]. apply Forall_app. split; [exact A3|repeat constructor; exact Hk].
  - split; [exact Hv0|]. split; [discriminate|repeat constructor; exact Hk].
Qed.
Lemma single_R rc : sinv rc -> single_sources (rd (map R) rc) = rmap (rd R) (single_sources rc).
Proof.
  intros H. unfold single_sources. assert (E : existsb (fun kv : string * list string => Nat.ltb 1 (length (snd kv))) (rd (map R) rc) = existsb (fun kv => Nat.ltb 1 (length (snd kv))) rc).
  { unfold rd. rewrite existsb_map. apply existsb_ext'. intros [k l]. cbn [fst snd]. rewrite map_length. reflexivity. }
  rewrite E. destruct (existsb _ rc); [reflexivity|]. cbn [rmap]. apply (f_equal Ok). unfold rd. rewrite !map_map. apply map_ext_in. intros [k l] Hi. cbn [fst snd]. f_equal.
  unfold sinv in H. rewrite Forall_forall in H. destruct (H _ Hi) as (_ & Hne & _). cbn [snd] in Hne. destruct l; [congruence|reflexivity].
Qed.
Definition pinv (rc : dict string) : Prop := Forall (fun kv => named (fst kv) /\ named (snd kv)) rc.
Lemma single_named rc r : sinv rc -> single_sources rc = Ok r -> pinv r.
Proof.
  intros H. unfold single_sources. destruct (existsb _ rc); [discriminate|]. intros E. injection E as <-. apply Forall_map. cbn [fst snd]. eapply Forall_impl; [|exact H].
  intros [k l] (A1 & A2 & A3). cbn [fst snd] in *. split; [exact A1|]. destruct l; [congruence|]. inversion A3; assumption.
Qed.
Lemma filter_rd {V W} (g : V -> W) (p : string * V -> bool) (q : string * W -> bool) e : (forall kv, q (R (fst kv), g (snd kv)) = p kv) -> filter q (rd g e) = rd g (filter p e).
Proof. intros H. induction e as [|kv e IH]; [reflexivity|]. cbn [rd map filter]. rewrite H. destruct (p kv); cbn [map]; [f_equal|]; exact IH. Qed.
Lemma Forall_filter {X} (I : X -> Prop) p l : Forall I l -> Forall I (filter p l).
Proof. intros H. induction H as [|x l Hx H IH]; cbn [filter]; [constructor|]. destruct (p x); [constructor; assumption|assumption]. Qed.

Notation place t := (place_connections sep uuid "input" "output" t).
Theorem place_R c : named_conns sep c ->
  match place (Dict d) c with
  | Ok (pl, od) => okt named pl /\ okt named od /\ place (top (Dict d)) (rename_conns sep f c) = Ok (top (tmap R pl), tmap R od)
  | Err e => place (top (Dict d)) (rename_conns sep f c) = Err e
  end.
Proof.
  intros H. pose proof (concretize_R c H) as C. unfold place_connections. destruct (concretize (Dict d) c) as [cc|e]; [|rewrite C; reflexivity]. destruct C as [N C]. rewrite C. cbn [rbind]. clear C.
  rewrite reverse_R, single_R by (apply reverse_named; exact N). destruct (single_sources (reverse_conn cc)) as [rc|] eqn:E1; [|reflexivity]. cbn [rmap rbind].
  pose proof (single_named _ rc (reverse_named cc N) E1) as P.
  rewrite (filter_rd R (fun kv => startswith (fst kv) "output")) by (intros kv; apply (starts_R sep f HR Hin Hout); auto).
  rewrite (filter_rd R (fun kv => negb (startswith (fst kv) (append "output" (sepS sep))))) by (intros kv; cbn [fst]; rewrite (starts_sep_R sep f HR Hin Hout) by auto; reflexivity).
  set (outs := filter (fun kv => startswith (fst kv) "output") rc). set (ins := filter (fun kv => negb (startswith (fst kv) (append "output" (sepS sep)))) rc).
  assert (PO : pinv outs) by (apply Forall_filter; exact P). assert (PI : pinv ins) by (apply Forall_filter; exact P).
  assert (HO : rd R outs = map (fun kv => (fst kv, R (snd kv))) outs).
  { unfold rd. apply map_ext_in. intros [k v] Hi. cbn [fst snd]. f_equal. apply filter_In in Hi as [_ Hi]. apply (starts_fix sep f HR Hin Hout "output"); auto. }
  assert (HE : forall a b, String.eqb (R a) (R b) = String.eqb a b) by apply (eqb_R sep f HR).
  assert (X1 : match extend_structure String.eqb sep None (map (fun kv => strip sep (removeprefix (fst kv) (append "output" (sepS sep)))) outs) (FillList (map (fun kv => Leaf (snd kv)) outs)) with
    | Ok t => okt named t /\ extend_structure String.eqb sep None (map (fun kv => strip sep (removeprefix (fst kv) (append "output" (sepS sep)))) (rd R outs)) (FillList (map (fun kv => Leaf (snd kv)) (rd R outs))) = Ok (tmap R t)
    | Err e => extend_structure String.eqb sep None (map (fun kv => strip sep (removeprefix (fst kv) (append "output" (sepS sep)))) (rd R outs)) (FillList (map (fun kv => Leaf (snd kv)) (rd R outs))) = Err e end).
  { rewrite HO, !map_map. cbn [fst snd]. pose proof (extend_leaves String.eqb String.eqb R named sep (map (fun kv : string * string => strip sep (removeprefix (fst kv) (append "output" (sepS sep)))) outs) (map (fun kv : string * string => Leaf (snd kv)) outs) HE) as W.
    rewrite map_map in W. cbn [tmap] in W. apply W. apply Forall_map. eapply Forall_impl; [|exact PO]. intros [k v] [_ Hv]. constructor. exact Hv. }
  assert (X2 : match extend_structure String.eqb sep None (map (fun kv => strip sep (fst kv)) ins) (FillList (map (fun kv => Leaf (snd kv)) ins)) with
    | Ok t => okt named t /\ extend_structure String.eqb sep None (map (fun kv => strip sep (fst kv)) (rd R ins)) (FillList (map (fun kv => Leaf (snd kv)) (rd R ins))) = Ok (top (tmap R t))
    | Err e => extend_structure String.eqb sep None (map (fun kv => strip sep (fst kv)) (rd R ins)) (FillList (map (fun kv => Leaf (snd kv)) (rd R ins))) = Err e end).
  { pose proof (extend_top String.eqb String.eqb R named sep HE f HR (map (fun kv : string * string => strip sep (fst kv)) ins) (map (fun kv : string * string => Leaf (snd kv)) ins)) as W.
    assert (K1 : map (fun kv => strip sep (fst kv)) (rd R ins) = map R (map (fun kv : string * string => strip sep (fst kv)) ins)).
    { unfold rd. rewrite !map_map. apply map_ext_in. intros [k v] Hi. cbn [fst]. apply (strip_R sep f HR). unfold pinv in PI. rewrite Forall_forall in PI. apply (PI _ Hi). }
    assert (K2 : map (fun kv : string * string => Leaf (snd kv)) (rd R ins) = map (tmap R) (map (fun kv : string * string => Leaf (snd kv)) ins)).
    { unfold rd. rewrite !map_map. reflexivity. }
    rewrite K1, K2. apply W. apply Forall_map. eapply Forall_impl; [|exact PI]. intros [k v] [_ Hv]. constructor. exact Hv. }
  assert (X0 : match (match outs with
    | [(k, src)] => if String.eqb k "output" then Ok (Leaf src) else extend_structure String.eqb sep None (map (fun kv => strip sep (removeprefix (fst kv) (append "output" (sepS sep)))) outs) (FillList (map (fun kv => Leaf (snd kv)) outs))
    | _ => extend_structure String.eqb sep None (map (fun kv => strip sep (removeprefix (fst kv) (append "output" (sepS sep)))) outs) (FillList (map (fun kv => Leaf (snd kv)) outs)) end) with
    | Ok t => okt named t /\ (match rd R outs with
    | [(k, src)] => if String.eqb k "output" then Ok (Leaf src) else extend_structure String.eqb sep None (map (fun kv => strip sep (removeprefix (fst kv) (append "output" (sepS sep)))) (rd R outs)) (FillList (map (fun kv => Leaf (snd kv)) (rd R outs)))
    | _ => extend_structure String.eqb sep None (map (fun kv => strip sep (removeprefix (fst kv) (append "output" (sepS sep)))) (rd R outs)) (FillList (map (fun kv => Leaf (snd kv)) (rd R outs))) end) = Ok (tmap R t)
    | Err e => (match rd R outs with
    | [(k, src)] => if String.eqb k "output" then Ok (Leaf src) else extend_structure String.eqb sep None (map (fun kv => strip sep (removeprefix (fst kv) (append "output" (sepS sep)))) (rd R outs)) (FillList (map (fun kv => Leaf (snd kv)) (rd R outs)))
    | _ => extend_structure String.eqb sep None (map (fun kv => strip sep (removeprefix (fst kv) (append "output" (sepS sep)))) (rd R outs)) (FillList (map (fun kv => Leaf (snd kv)) (rd R outs))) end) = Err e end).
  { clearbody outs. clear ins PI X2 HO. destruct outs as [|[k src] [|x outs]]; [exact X1| |exact X1]. cbn [rd map fst snd] in *. rewrite (eqb_special sep f HR Hin Hout) by auto.
    destruct (String.eqb k "output"); [|exact X1]. split; [|reflexivity]. constructor. inversion PO as [|? ? [_ Hs] _]; subst. exact Hs. }
  match type of X0 with match ?m with _ => _ end => destruct m as [od|e] end; [|rewrite X0; reflexivity]. destruct X0 as [Hod X0]. rewrite X0. cbn [rbind].
  match type of X2 with match ?m with _ => _ end => destruct m as [pl|e] end; [|rewrite X2; reflexivity]. destruct X2 as [Hpl X2]. rewrite X2. cbn [rbind]. auto.
Qed.
End Conn.
