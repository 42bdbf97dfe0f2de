(** Editing the modules of a graph model while its connections stay as they are:
    what the compiled network depends on. *)
From Coq Require Import ZArith.
From Verif Require Import Base BaseLemmas TreeUtil TreeSpec TreeProofs Connections ConnSpec ConnProofs
  NonSeq NonSeqSpec NonSeqNet NonSeqDead.
From Coq Require Import Relations.Operators_Properties.
Local Open Scope string_scope.
Local Open Scope list_scope.

(** a path written in the connections *)
Definition written (conns : dict cval) (p : string) : Prop :=
  exists k vs, In (k, vs) (normalize conns) /\ (p = k \/ In p vs).
(** ... that begins with the name [k]; "input" and "output" are not names of modules *)
Definition mentions (sep : ascii) (conns : dict cval) (k : string) : Prop :=
  exists p rest, written conns p /\ split sep p = k :: rest.

Section Part.
Variable sep : ascii.
Hypothesis Hsi : no_sep sep "input" = true.
Hypothesis Hso : no_sep sep "output" = true.
Context {X Y : Type}.

Definition inner (p : string) : Prop := ~ reserved sep "input" p /\ ~ reserved sep "output" p.

Lemma inner_under p : under sep p "input" = false -> under sep p "output" = false -> inner p.
Proof.
  intros A B. split; intros H; apply under_reserved in H; try assumption; congruence.
Qed.
Lemma part_key_seen (t : tree X) (u : tree Y) p :
  (inner p -> rmap snd (getitem sep no_leaf true t p) = rmap snd (getitem sep no_leaf true u p)) ->
  part_key sep "input" "output" t p = part_key sep "input" "output" u p.
Proof.
  intros H. unfold part_key. destruct (under sep p "input") eqn:E1; [reflexivity|]. destruct (under sep p "output") eqn:E2; [reflexivity|].
  rewrite !(rbind_snd _ (fun rem => Ok (append (rstrip sep (removesuffix p rem)) (append (dsep sep) rem)))).
  rewrite H by (apply inner_under; assumption). reflexivity.
Qed.
Lemma part_val_seen (t : tree X) (u : tree Y) p :
  (inner p -> rmap snd (getitem sep no_leaf true t p) = rmap snd (getitem sep no_leaf true u p)) ->
  part_val sep "input" "output" t p = part_val sep "input" "output" u p.
Proof.
  intros H. unfold part_val. destruct (under sep p "output") eqn:E1; [reflexivity|]. destruct (under sep p "input") eqn:E2; [reflexivity|].
  rewrite !(rbind_snd _ (fun rem => Ok (append (removesuffix (removesuffix p rem) (sepS sep)) (append (dsep sep) rem)))).
  rewrite H by (apply inner_under; assumption). reflexivity.
Qed.
Lemma partition_seen (t : tree X) (u : tree Y) conns :
  (forall p, written conns p -> inner p -> rmap snd (getitem sep no_leaf true t p) = rmap snd (getitem sep no_leaf true u p)) ->
  partition_connections sep "input" "output" t conns = partition_connections sep "input" "output" u conns.
Proof.
  intros H. unfold partition_connections. destruct (check_double sep (normalize conns)); [reflexivity|].
  generalize (@nil (string * list string)) as acc. unfold written in H. induction (normalize conns) as [|[k vs] c IH]; intros acc; [reflexivity|].
  cbn [rfold]. replace (part_entry sep "input" "output" t acc (k, vs)) with (part_entry sep "input" "output" u acc (k, vs)).
  { destruct (part_entry sep "input" "output" u acc (k, vs)); [|reflexivity]. cbn [rbind]. apply IH. intros p (k0 & vs0 & A & B).
    apply H. exists k0, vs0. split; [right; exact A|exact B]. }
  symmetry. unfold part_entry. cbn [fst snd]. rewrite (part_key_seen t u k).
  2:{ apply H. exists k, vs. split; [left; reflexivity|left; reflexivity]. }
  destruct (part_key sep "input" "output" u k); [|reflexivity]. cbn [rbind].
  rewrite (rmapM_ext_in (part_val sep "input" "output" t) (part_val sep "input" "output" u) vs); [reflexivity|].
  intros v Hv. apply part_val_seen. apply H. exists k, vs. split; [left; reflexivity|right; exact Hv].
Qed.

(** every written path was found *)
Lemma partition_found (t : tree X) conns r : partition_connections sep "input" "output" t conns = Ok r ->
  forall p, written conns p -> inner p -> exists u, getitem sep no_leaf true t p = Ok u.
Proof.
  unfold partition_connections. destruct (check_double sep (normalize conns)); [discriminate|].
  generalize (@nil (string * list string)) as acc. unfold written. induction (normalize conns) as [|[k vs] c IH]; intros acc H p (k0 & vs0 & A & B) I; [destruct A|].
  assert (U : under sep p "input" = false /\ under sep p "output" = false).
  { destruct I as [I1 I2]. split; [destruct (under sep p "input") eqn:E|destruct (under sep p "output") eqn:E]; try reflexivity;
      apply under_reserved in E; tauto. }
  destruct U as [U1 U2].
  cbn [rfold] in H. apply rbind_ok in H as (acc' & E & H). destruct A as [A|A]; [|apply (IH acc' H); [now exists k0, vs0|exact I]].
  injection A as <- <-. unfold part_entry in E. cbn [fst snd] in E. apply rbind_ok in E as (pk & E1 & E). apply rbind_ok in E as (pv & E2 & _).
  destruct B as [ -> |B].
  - unfold part_key in E1. rewrite U1, U2 in E1. apply rbind_ok in E1 as (u & E1 & _). now exists u.
  - assert (Em : exists w, part_val sep "input" "output" t p = Ok w).
    { clear -E2 B. revert pv E2. induction vs as [|v vs IH]; intros pv E2; [destruct B|]. cbn [rmapM] in E2. apply rbind_ok in E2 as (w & Ew & E2).
      destruct B as [ -> |B]; [now exists w|]. apply rbind_ok in E2 as (ws & E2 & _). exact (IH B ws E2). }
    destruct Em as (w & Ew). unfold part_val in Ew. rewrite U1, U2 in Ew. apply rbind_ok in Ew as (u & Ew & _). now exists u.
Qed.

(** one of the written paths is not found any more *)
Lemma partition_lost (t : tree X) (u : tree Y) e conns r : partition_connections sep "input" "output" t conns = Ok r ->
  (forall p, written conns p -> inner p ->
     rmap snd (getitem sep no_leaf true t p) = rmap snd (getitem sep no_leaf true u p) \/ getitem sep no_leaf true u p = Err e) ->
  (exists p, written conns p /\ inner p /\ getitem sep no_leaf true u p = Err e) ->
  partition_connections sep "input" "output" u conns = Err e.
Proof.
  unfold partition_connections. destruct (check_double sep (normalize conns)); [discriminate|].
  generalize (@nil (string * list string)) as acc. unfold written. induction (normalize conns) as [|[k vs] c IH]; intros acc H HS (p & (k0 & vs0 & A & B) & I & HE); [destruct A|].
  cbn [rfold] in H |- *. apply rbind_ok in H as (acc' & E & H).
  assert (KS : forall q, q = k \/ In q vs -> inner q -> rmap snd (getitem sep no_leaf true t q) = rmap snd (getitem sep no_leaf true u q) \/ getitem sep no_leaf true u q = Err e).
  { intros q Hq. apply HS. exists k, vs. split; [left; reflexivity|exact Hq]. }
  assert (PK : part_key sep "input" "output" u k = part_key sep "input" "output" t k \/ part_key sep "input" "output" u k = Err e).
  { unfold part_key. destruct (under sep k "input") eqn:E1; [left; reflexivity|]. destruct (under sep k "output") eqn:E2; [left; reflexivity|].
    destruct (KS k (or_introl eq_refl) (inner_under k E1 E2)) as [Q|Q]; [left|right; rewrite Q; reflexivity].
    rewrite !(rbind_snd _ (fun rem => Ok (append (rstrip sep (removesuffix k rem)) (append (dsep sep) rem)))). rewrite Q. reflexivity. }
  assert (PV : forall v, In v vs -> part_val sep "input" "output" u v = part_val sep "input" "output" t v \/ part_val sep "input" "output" u v = Err e).
  { intros v Hv. unfold part_val. destruct (under sep v "output") eqn:E1; [left; reflexivity|]. destruct (under sep v "input") eqn:E2; [left; reflexivity|].
    destruct (KS v (or_intror Hv) (inner_under v E2 E1)) as [Q|Q]; [left|right; rewrite Q; reflexivity].
    rewrite !(rbind_snd _ (fun rem => Ok (append (removesuffix (removesuffix v rem) (sepS sep)) (append (dsep sep) rem)))). rewrite Q. reflexivity. }
  assert (U : under sep p "input" = false /\ under sep p "output" = false).
  { destruct I as [I1 I2]. split; [destruct (under sep p "input") eqn:EU|destruct (under sep p "output") eqn:EU]; try reflexivity;
      apply under_reserved in EU; tauto. }
  destruct U as [U1 U2].
  unfold part_entry in E |- *. cbn [fst snd] in E |- *. apply rbind_ok in E as (pk & E1 & E). apply rbind_ok in E as (pv & E2 & E).
  destruct PK as [PK|PK]; [|rewrite PK; reflexivity]. rewrite PK, E1. cbn [rbind].
  assert (PM : rmapM (part_val sep "input" "output" u) vs = Ok pv /\ ~ (In p vs) \/ rmapM (part_val sep "input" "output" u) vs = Err e).
  { clear -PV E2 HE U1 U2. revert pv E2. induction vs as [|v vs IH]; intros pv E2; [left; split; [exact E2|intros []]|].
    cbn [rmapM] in E2 |- *. apply rbind_ok in E2 as (w & Ew & E2). apply rbind_ok in E2 as (ws & E2 & E3). injection E3 as <-.
    destruct (PV v (or_introl eq_refl)) as [Q|Q]; [|right; rewrite Q; reflexivity]. rewrite Q, Ew. cbn [rbind].
    destruct (IH (fun v' Hv' => PV v' (or_intror Hv')) ws E2) as [(R & N)|R]; rewrite R; [left|right; reflexivity]. split; [reflexivity|].
    intros [ -> |Hv]; [|exact (N Hv)]. unfold part_val in Q, Ew. rewrite U1, U2, HE in Q. cbn [rbind] in Q. rewrite U1, U2 in Ew. rewrite <- Q in Ew. discriminate. }
  destruct PM as [(PM & N)|PM]; rewrite PM; [|reflexivity]. cbn [rbind]. injection E as <-.
  apply (IH (dset acc pk pv) H).
  - intros q (k1 & vs1 & A1 & B1). apply HS. exists k1, vs1. split; [right; exact A1|exact B1].
  - exists p. split; [|split; [exact I|exact HE]]. destruct A as [A|A]; [|now exists k0, vs0]. injection A as <- <-.
    exfalso. destruct B as [ -> |B]; [|exact (N B)]. unfold part_key in PK, E1. rewrite U1, U2, HE in PK. cbn [rbind] in PK. rewrite U1, U2 in E1. rewrite <- PK in E1. discriminate.
Qed.
End Part.

Section Network.
Variable sep : ascii.
Hypothesis Hsep : is_digit_char sep = false.
Hypothesis Hsi : no_sep sep "input" = true.
Hypothesis Hso : no_sep sep "output" = true.
Variable uuid : nat -> string.
Context {M : Type}.

Lemma pairs_written (conns : dict cval) k v : In (k, v) (pairs (normalize conns)) -> written conns v.
Proof.
  unfold pairs, written. intros H. apply in_flat_map in H as ([k0 vs] & A & B). apply in_map_iff in B as (v0 & E & B). injection E as <- <-. exists k0, vs. auto.
Qed.
Lemma pairs_written_key (conns : dict cval) k v : In (k, v) (pairs (normalize conns)) -> written conns k.
Proof.
  unfold pairs, written. intros H. apply in_flat_map in H as ([k0 vs] & A & B). apply in_map_iff in B as (v0 & E & B). injection E as <- <-. exists k0, vs. auto.
Qed.
(** a live module is at the beginning of a written path *)
Lemma live_written (modules : tree M) conns p : live_module sep modules conns p ->
  clean sep p /\ exists v rest u, written conns v /\ ~ reserved sep "output" v /\ split sep v = split sep p ++ rest /\ walk modules (split sep p) = Some u.
Proof.
  intros [[H _] [Hi Ho]]. apply clos_rt_rtn1 in H. inversion H as [|y z Hf Hr]; subst; [congruence|].
  destruct Hf as [k [v [Hkv [_ Hv]]]]. destruct Hv as [[ -> _]|[N [C [rest [a [E [W _]]]]]]]; [congruence|].
  split; [exact C|]. exists v, rest, a. split; [exact (pairs_written _ _ _ Hkv)|]. auto.
Qed.

Lemma compiled_partition (modules : tree M) conns c : compiled sep uuid modules conns = Ok c -> exists r, partition_connections sep "input" "output" modules conns = Ok r.
Proof.
  unfold compiled, get_execution_order, get_outer_connections. intros H. destruct (partition_connections sep "input" "output" modules conns) as [r|]; [now exists r|discriminate].
Qed.

Lemma written_clean (modules : tree M) conns p : good_network sep uuid modules conns -> written conns p -> clean sep p.
Proof.
  intros (_ & (_ & W1 & W2) & _) (k & vs & A & [ -> |B]).
  - apply in_map_iff in A as ([k0 c] & E & A). injection E as <- <-. exact (W1 _ _ A).
  - apply (W2 k). unfold pairs. apply in_flat_map. exists (k, vs). split; [exact A|]. apply in_map_iff. exists p. auto.
Qed.

(** modules in which every written path finds the same thing *)
Theorem compiled_seen (modules modules' : tree M) conns c : good_network sep uuid modules conns ->
  (forall p, written conns p -> clean sep p -> inner sep p -> (exists u, getitem sep no_leaf true modules p = Ok u) ->
     getitem sep no_leaf true modules' p = getitem sep no_leaf true modules p) ->
  (forall p, live_module sep modules conns p -> walk modules (split sep p) = walk modules' (split sep p)) ->
  compiled sep uuid modules conns = Ok c -> compiled sep uuid modules' conns = Ok c.
Proof.
  intros G HS HW Hc. destruct (compiled_partition _ _ _ Hc) as (r & Hr).
  assert (HP : partition_connections sep "input" "output" modules conns = partition_connections sep "input" "output" modules' conns).
  { apply partition_seen; [exact Hsi|exact Hso|]. intros p Hp I. rewrite (HS p Hp (written_clean _ _ _ G Hp) I); [reflexivity|]. exact (partition_found sep Hsi Hso modules conns r Hr p Hp I). }
  apply (compiled_alike sep Hsep Hsi Hso uuid modules modules'); [exact G| | |exact HW|exact Hc].
  - unfold get_execution_order, get_outer_connections. rewrite HP. reflexivity.
  - unfold place_connections, concretize_connections. rewrite HP. reflexivity.
Qed.

(** *** Modules in a dictionary *)
Definition agree_but {V} (k : string) (d d' : list (string * V)) : Prop := forall k', k' <> k -> dget d' k' = dget d k'.

Lemma clean_parts p : clean sep p -> exists k ps, split sep p = k :: ps /\ k <> "".
Proof.
  intros [_ C]. destruct (split sep p) as [|k ps] eqn:E; [exfalso; exact (split_nonempty sep p E)|]. exists k, ps. split; [reflexivity|]. inversion C; assumption.
Qed.
Lemma getitem_other (d d' : list (string * tree M)) k p : agree_but k d d' -> clean sep p ->
  (forall rest, split sep p <> k :: rest) -> getitem sep no_leaf true (Dict d') p = getitem sep no_leaf true (Dict d) p.
Proof.
  intros H C N. rewrite !getitem_split. destruct (clean_parts p C) as (k1 & ps & E & E1). rewrite E in *. cbn [getp].
  destruct (String.eqb_spec k1 ""); [contradiction|]. cbn [andb]. rewrite (H k1); [reflexivity|]. intros ->. exact (N ps eq_refl).
Qed.
Lemma walk_other (d d' : list (string * tree M)) k ks : agree_but k d d' -> ks <> [] -> (forall rest, ks <> k :: rest) -> walk (Dict d) ks = walk (Dict d') ks.
Proof.
  intros H E N. destruct ks as [|k1 ks]; [contradiction|]. cbn [walk child]. rewrite (H k1); [reflexivity|]. intros ->. exact (N ks eq_refl).
Qed.

Theorem dict_unmentioned (d d' : list (string * tree M)) k conns c : good_network sep uuid (Dict d) conns ->
  agree_but k d d' -> ~ mentions sep conns k ->
  compiled sep uuid (Dict d) conns = Ok c -> compiled sep uuid (Dict d') conns = Ok c.
Proof.
  intros G H N. apply compiled_seen; [exact G| |].
  - intros p Hp C _ _. apply (getitem_other d d' k p H C). intros rest E. apply N. exists p, rest. auto.
  - intros p Hl. destruct (live_written _ _ _ Hl) as (C & v & rest & u & Hv & _ & E & _). destruct (clean_parts p C) as (k1 & ps & E1 & _).
    apply (walk_other d d' k _ H); [rewrite E1; discriminate|]. intros rest' E2. apply N. exists v, (rest' ++ rest). split; [exact Hv|]. rewrite E, E2. reflexivity.
Qed.

Theorem dict_removed (d d' : list (string * tree M)) k conns c : good_network sep uuid (Dict d) conns ->
  agree_but k d d' -> dget d' k = None -> k <> "input" -> k <> "output" -> mentions sep conns k ->
  compiled sep uuid (Dict d) conns = Ok c -> compiled sep uuid (Dict d') conns = Err KeyError.
Proof.
  intros G H HN N1 N2 (p & rest & Hp & E) Hc. destruct (compiled_partition _ _ _ Hc) as (r & Hr).
  assert (L : forall q rest', clean sep q -> split sep q = k :: rest' -> getitem sep no_leaf true (Dict d') q = Err KeyError).
  { intros q rest' C Eq. rewrite getitem_split. destruct (clean_parts q C) as (k1 & ps & E1 & E2). rewrite Eq in E1. injection E1 as <- <-. rewrite Eq. cbn [getp].
    destruct (String.eqb_spec k ""); [contradiction|]. cbn [andb]. rewrite HN. reflexivity. }
  assert (HP : partition_connections sep "input" "output" (Dict d') conns = Err KeyError).
  { apply (partition_lost sep Hsi Hso (Dict d) (Dict d') KeyError conns r Hr).
    - intros q Hq _. pose proof (written_clean _ _ _ G Hq) as C. destruct (clean_parts q C) as (k1 & ps & E1 & E2).
      destruct (String.eqb_spec k1 k) as [ -> |Nk]; [right; exact (L q ps C E1)|left]. rewrite (getitem_other d d' k q H C); [reflexivity|].
      intros rest' E3. rewrite E1 in E3. injection E3 as E3 _. contradiction.
    - exists p. split; [exact Hp|]. split; [|exact (L p rest (written_clean _ _ _ G Hp) E)].
      split; intros [r' E']; rewrite E in E'; injection E' as E' _; contradiction. }
  unfold compiled, get_execution_order, get_outer_connections. rewrite HP. reflexivity.
Qed.

(** *** Modules in a list: new ones at the end *)
Theorem list_appended (l more : list (tree M)) conns c : good_network sep uuid (Lst l) conns ->
  compiled sep uuid (Lst l) conns = Ok c -> compiled sep uuid (Lst (l ++ more)) conns = Ok c.
Proof.
  intros G. assert (NA : forall i (x : tree M), nth_error l i = Some x -> nth_error (l ++ more) i = Some x).
  { intros i x E. rewrite nth_error_app1; [exact E|]. apply nth_error_Some. congruence. }
  apply compiled_seen; [exact G| |].
  - intros p Hp C _ (u & Hu). rewrite !getitem_split in *. destruct (clean_parts p C) as (k1 & ps & E & E1). rewrite E in *. cbn [getp] in *.
    destruct (String.eqb_spec k1 ""); [contradiction|]. cbn [andb] in *. destruct (isdigit k1); [|reflexivity].
    destruct (nth_error l (int_of k1)) as [x|] eqn:Ex; [rewrite (NA _ _ Ex); reflexivity|discriminate].
  - intros p Hl. destruct (live_written _ _ _ Hl) as (C & _ & _ & u & _ & _ & _ & W). rewrite W. symmetry. destruct (clean_parts p C) as (k1 & ps & E & _). rewrite E in *.
    cbn [walk child] in *. destruct (isdigit k1); [|discriminate]. destruct (nth_error l (int_of k1)) as [x|] eqn:Ex; [rewrite (NA _ _ Ex); exact W|discriminate].
Qed.
End Network.
