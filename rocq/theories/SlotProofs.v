(** Lists grouped by a key, and slots of a group seen in the whole list. *)
From Verif Require Import Base BaseLemmas ConcretizeSpec ConcretizeProofs.
From Coq Require Import Permutation.
Open Scope list_scope.

(* ---------------- grouping ---------------- *)
Section Grouping.
Context {A B : Type}.
Variable key : A -> string.

Definition in_key_group (o : string) (x : A) : bool := String.eqb (key x) o.

(** spread the values of the groups over the ungrouped list *)
Lemma spread (X : list A) : forall (c : string -> list B),
  (forall o, length (c o) = length (filter (in_key_group o) X)) ->
  exists Zs : list (A * B), map fst Zs = X /\
    forall o, filter (fun z => in_key_group o (fst z)) Zs = combine (filter (in_key_group o) X) (c o).
Proof.
  induction X as [|x X IH]; intros c Hc.
  - exists []. split; reflexivity.
  - assert (Hx := Hc (key x)). cbn [filter] in Hx. unfold in_key_group in Hx at 1. rewrite String.eqb_refl in Hx.
    destruct (c (key x)) as [|b bs] eqn:Ec; [discriminate|].
    destruct (IH (fun o => if String.eqb (key x) o then bs else c o)) as [Zs [H1 H2]].
    { intros o. specialize (Hc o). cbn [filter] in Hc. unfold in_key_group in Hc at 1.
      destruct (String.eqb_spec (key x) o) as [E|Hne]; [subst o|exact Hc]. simpl in Hx. lia. }
    exists ((x, b) :: Zs). split; [cbn [map fst]; rewrite H1; reflexivity|].
    intros o. cbn [filter fst]. specialize (H2 o).
    change (in_key_group o x) with (String.eqb (key x) o).
    destruct (String.eqb_spec (key x) o) as [E|Hne]; [subst o|exact H2].
    rewrite Ec. cbn [combine]. f_equal. exact H2.
Qed.

Lemma filter_key_split o l x m : filter (in_key_group o) l = x :: m ->
  exists l1 l2, l = l1 ++ x :: l2 /\ filter (in_key_group o) l1 = [] /\ filter (in_key_group o) l2 = m.
Proof.
  induction l as [|y l IH]; intros H; [discriminate|]. cbn [filter] in H.
  destruct (in_key_group o y) eqn:E.
  - injection H as -> <-. exists [], l. auto.
  - destruct (IH H) as [l1 [l2 [ -> [H1 H2]]]]. exists (y :: l1), l2. split; [reflexivity|]. split; [|exact H2].
    cbn [filter]. rewrite E. exact H1.
Qed.

(** lists with the same groups are permutations of each other *)
Lemma same_groups_perm (l : list A) : forall m,
  (forall o, filter (in_key_group o) l = filter (in_key_group o) m) -> Permutation l m.
Proof.
  induction l as [|x l IH]; intros m H.
  - destruct m as [|y m]; [constructor|]. specialize (H (key y)). cbn [filter] in H.
    change (in_key_group (key y) y) with (String.eqb (key y) (key y)) in H. rewrite String.eqb_refl in H. discriminate.
  - assert (Hx := H (key x)). cbn [filter] in Hx. unfold in_key_group in Hx at 1. rewrite String.eqb_refl in Hx.
    symmetry in Hx. apply filter_key_split in Hx as [m1 [m2 [ -> [H1 H2]]]].
    apply Permutation_cons_app. apply IH. intros o. rewrite filter_app.
    specialize (H o). rewrite filter_app in H. cbn [filter] in H. change (in_key_group o x) with (String.eqb (key x) o) in H.
    destruct (String.eqb_spec (key x) o) as [E|Hne]; [subst o|exact H].
    rewrite H1 in *. cbn [app] in *. injection H as H. exact H.
Qed.
End Grouping.

(** the places of the elements satisfying a test *)
Definition places_of {A} (f : A -> bool) (l : list A) : list nat :=
  map fst (filter (fun p => f (snd p)) (combine (seq 0 (length l)) l)).

Lemma places_of_filter {A} (f : A -> bool) l :
  map snd (filter (fun p : nat * A => f (snd p)) (combine (seq 0 (length l)) l)) = filter f l.
Proof.
  generalize 0. induction l as [|x l IH]; intros s; [reflexivity|]. cbn [length seq combine filter snd].
  destruct (f x); cbn [map snd]; rewrite IH; reflexivity.
Qed.
Lemma places_of_nth {A} (f : A -> bool) l j a : nth_error (places_of f l) j = Some a ->
  exists x, nth_error l a = Some x /\ f x = true /\ nth_error (filter f l) j = Some x.
Proof.
  unfold places_of. rewrite <- (places_of_filter f l), !nth_error_map. intros H.
  destruct (nth_error (filter _ _) j) as [[b x]|] eqn:E; [|discriminate]. injection H as ->.
  exists x. assert (H := nth_error_In _ _ E). apply filter_In in H as [H Hf]. apply In_enum in H as [_ H].
  rewrite Nat.sub_0_r in H. auto.
Qed.
Lemma places_of_In {A} (f : A -> bool) l a x : nth_error l a = Some x -> f x = true -> In a (places_of f l).
Proof.
  intros H Hf. unfold places_of. apply in_map_iff. exists (a, x). split; [reflexivity|]. apply filter_In. split; [|exact Hf].
  apply In_enum. rewrite Nat.sub_0_r. split; [lia|exact H].
Qed.
Lemma places_of_len {A} (f : A -> bool) l : length (places_of f l) = length (filter f l).
Proof. rewrite <- (places_of_filter f l). unfold places_of. rewrite !map_length. reflexivity. Qed.
Lemma places_of_increasing {A} (f : A -> bool) l : increasing (places_of f l).
Proof.
  unfold places_of. generalize 0. induction l as [|x l IH]; intros s; [exact I|].
  cbn [length seq combine filter snd]. destruct (f x); [|apply IH]. cbn [map fst]. split; [|apply IH].
  intros y Hy. apply in_map_iff in Hy as [[a b] [E Hy]]. simpl in E. subst a. apply filter_In in Hy as [Hy _].
  apply In_enum in Hy as [Hy _]. lia.
Qed.
Lemma increasing_nodup l : increasing l -> NoDup l.
Proof. induction l as [|x l IH]; intros H; constructor; destruct H as [H1 H2]; [intros Hx; specialize (H1 x Hx); lia|auto]. Qed.
Lemma increasing_lt l : increasing l -> forall i j a b, nth_error l i = Some a -> nth_error l j = Some b -> (i < j <-> a < b).
Proof.
  intros Hl. assert (G : forall i j a b, nth_error l i = Some a -> nth_error l j = Some b -> i < j -> a < b).
  { induction l as [|x l IH]; intros i j a b Hi Hj Hij; [destruct i; discriminate|]. destruct Hl as [H1 H2].
    destruct j as [|j]; [lia|]. destruct i as [|i]; [injection Hi as <-; apply H1; eapply nth_error_In; exact Hj|].
    apply (IH H2 i j a b Hi Hj). lia. }
  intros i j a b Hi Hj. split; [apply G; assumption|]. intros Hab. destruct (Nat.lt_trichotomy i j) as [H|[ -> |H]]; [exact H| |].
  - rewrite Hi in Hj. injection Hj as ->. lia.
  - specialize (G j i b a Hj Hi H). lia.
Qed.

(* ---------------- slots of a group ---------------- *)
Section Transfer.
Variable sep : ascii.
Variable uuid : nat -> string.
Variables V P : list string.
Variable o : list string.
Variable I : list nat.
Hypothesis HI : increasing I.
Hypothesis Hlen : length I = length P.
(** number [j] of the group is number [a] of the whole list *)
Hypothesis Hrel : forall j a, nth_error I j = Some a ->
  exists va pa, nth_error V a = Some va /\ nth_error P j = Some pa /\ comps sep va = o ++ comps sep pa.

Variables (i r : nat) (v p : string).
Hypothesis Hr : nth_error I r = Some i.
Hypothesis Hv : nth_error V i = Some v.
Hypothesis Hp : nth_error P r = Some p.
(** only members of the group lie below [v] *)
Hypothesis Hin : forall a va, nth_error V a = Some va -> prefix (comps sep v) (comps sep va) -> In a I.

Lemma transfer_vp : comps sep v = o ++ comps sep p.
Proof.
  destruct (Hrel r i Hr) as [va [pa [H1 [H2 H3]]]]. rewrite Hv in H1. injection H1 as <-. rewrite Hp in H2. injection H2 as <-. exact H3.
Qed.

Lemma transfer_P j pa : nth_error P j = Some pa -> exists a va, nth_error I j = Some a /\ nth_error V a = Some va /\ comps sep va = o ++ comps sep pa.
Proof.
  intros Hj. destruct (nth_error I j) as [a|] eqn:E; [|apply nth_error_None in E; apply nth_error_lt in Hj; lia].
  destruct (Hrel j a E) as [va [pa' [H1 [H2 H3]]]]. rewrite Hj in H2. injection H2 as <-. eauto.
Qed.

Lemma transfer_V a va : nth_error V a = Some va -> prefix (comps sep v) (comps sep va) ->
  exists j pa, nth_error I j = Some a /\ nth_error P j = Some pa /\ comps sep va = o ++ comps sep pa.
Proof.
  intros Ha Hpre. assert (Hi := Hin a va Ha Hpre). apply In_nth_error in Hi as [j Hj]. destruct (Hrel j a Hj) as [va' [pa [H1 [H2 H3]]]].
  rewrite Ha in H1. injection H1 as <-. eauto.
Qed.

Lemma prefix_under pa va : comps sep va = o ++ comps sep pa -> (prefix (comps sep v) (comps sep va) <-> prefix (comps sep p) (comps sep pa)).
Proof.
  intros E. rewrite transfer_vp, E. split.
  - intros [tl H]. exists tl. rewrite <- app_assoc in H. apply app_inv_head in H. exact H.
  - intros [tl H]. exists tl. rewrite H. apply app_assoc.
Qed.

Lemma transfer_unambiguous : unambiguous sep V i <-> unambiguous sep P r.
Proof.
  split.
  - intros H j p' q Hp' Hq Hj Hpre. rewrite Hp in Hp'. injection Hp' as <-. destruct (transfer_P j q Hq) as [a [va [Ha [Hva E]]]].
    apply (H a v va Hv Hva); [|apply (prefix_under q va E), Hpre].
    intros <-. apply Hj. apply (proj1 (NoDup_nth_error I) (increasing_nodup I HI)); [eapply nth_error_lt; exact Hr|congruence].
  - intros H a v' va Hv' Hva Ha Hpre. rewrite Hv in Hv'. injection Hv' as <-. destruct (transfer_V a va Hva Hpre) as [j [pa [Hj [Hpa E]]]].
    apply (H j p pa Hp Hpa); [|apply (prefix_under pa va E), Hpre].
    intros <-. apply Ha. congruence.
Qed.

Lemma transfer_sibling e : sibling sep V v e <-> sibling sep P p e.
Proof.
  split.
  - intros [q [rest [Hq E]]]. apply In_nth_error in Hq as [a Ha].
    assert (Hpre : prefix (comps sep v) (comps sep q)) by (exists (e :: rest); exact E).
    destruct (transfer_V a q Ha Hpre) as [j [pa [_ [Hpa Ep]]]]. exists pa, rest. split; [eapply nth_error_In; exact Hpa|].
    rewrite Ep, transfer_vp, <- app_assoc in E. apply app_inv_head in E. exact E.
  - intros [q [rest [Hq E]]]. apply In_nth_error in Hq as [j Hj]. destruct (transfer_P j q Hj) as [a [va [_ [Hva Ev]]]].
    exists va, rest. split; [eapply nth_error_In; exact Hva|]. rewrite Ev, E, transfer_vp. apply app_assoc.
Qed.

Lemma transfer_indices L : (forall j, In j L -> j < length P) -> NoDup L ->
  exists M, length M = length L /\ NoDup M /\ forall a, In a M <-> exists j, In j L /\ nth_error I j = Some a.
Proof.
  induction L as [|j L IH]; intros Hb Hnd.
  - exists []. split; [reflexivity|]. split; [constructor|]. intros a. split; [intros []|intros [j [[] _]]].
  - apply NoDup_cons_iff in Hnd as [Hj Hnd]. destruct IH as [M [M1 [M2 M3]]]; [intros k Hk; apply Hb; right; exact Hk|exact Hnd|].
    assert (Hlt := Hb j (or_introl eq_refl)).
    destruct (nth_error I j) as [a|] eqn:Ea; [|apply nth_error_None in Ea; lia].
    exists (a :: M). split; [simpl; congruence|]. split.
    + constructor; [|exact M2]. intros Ha. apply M3 in Ha as [k [Hk Ek]]. apply Hj.
      assert (j = k); [|congruence]. apply (proj1 (NoDup_nth_error I) (increasing_nodup I HI)); [lia|congruence].
    + intros b. split.
      * intros [ <- |Hb']; [exists j; split; [left; reflexivity|exact Ea]|]. apply M3 in Hb' as [k [Hk Ek]]. exists k. split; [right; exact Hk|exact Ek].
      * intros [k [[ <- |Hk] Ek]]; [left; congruence|right]. apply M3. eauto.
Qed.

Theorem transfer_slot q w : comps sep w = o ++ comps sep q -> (comps sep w = comps sep v -> w = v) ->
  slot_given sep uuid P r p q -> slot_given sep uuid V i v w.
Proof.
  intros Ew Hinj [[Hu ->]|[Hu [k [K1 [K2 [K3 [K4 [K5 K6]]]]]]]].
  - left. split; [apply transfer_unambiguous, Hu|]. apply Hinj. rewrite Ew, transfer_vp. reflexivity.
  - right. split; [rewrite transfer_unambiguous; exact Hu|]. exists k.
    split; [rewrite Ew, K1, transfer_vp; apply app_assoc|]. split; [exact K2|]. split; [exact K3|].
    split; [rewrite transfer_sibling; exact K4|]. split.
    + intros Hall. destruct K5 as [m [L [M1 [M2 [M3 [M4 [M5 M6]]]]]]]; [intros e He; apply Hall, transfer_sibling, He|].
      destruct (transfer_indices L) as [L2 [T1 [T2 T3]]]; [intros j Hj; destruct (M4 j Hj) as [x [Hx _]]; eapply nth_error_lt; exact Hx|exact M2|].
      exists m, L2. split; [exact M1|]. split; [exact T2|]. split; [rewrite T1; exact M3|]. split; [|split].
      * intros a Ha. apply T3 in Ha as [j [Hj Ej]]. destruct (M4 j Hj) as [x [Hx Hpre]].
        destruct (Hrel j a Ej) as [va [pa [H1 [H2 H3]]]]. rewrite Hx in H2. injection H2 as <-. exists va. split; [exact H1|].
        apply (prefix_under x va H3), Hpre.
      * intros e He. apply M5, transfer_sibling, He.
      * destruct M6 as [N1 [N2 [F1 [F2 [F3 [F4 F5]]]]]].
        destruct (transfer_indices N2) as [N3 [U1 [U2 U3]]]; [intros j Hj; apply F4 in Hj as [_ [x [Hx _]]]; eapply nth_error_lt; exact Hx|exact F3|].
        exists N1, N3. split; [exact F1|]. split; [|split; [exact U2|split; [|rewrite U1; exact F5]]].
        -- intros n. rewrite F2. split; intros [G1 G2]; (split; [exact G1|]); intros e He; apply G2, transfer_sibling, He.
        -- intros a. rewrite U3. split.
           ++ intros [j [Hj Ej]]. apply F4 in Hj as [Hlt [x [Hx Ex]]]. split; [apply (increasing_lt I HI j r a i Ej Hr), Hlt|].
              destruct (Hrel j a Ej) as [va [pa [H1 [H2 H3]]]]. rewrite Hx in H2. injection H2 as <-. exists va. split; [exact H1|].
              rewrite H3, Ex, transfer_vp. reflexivity.
           ++ intros [Hlt [x [Hx Ex]]]. destruct (transfer_V a x Hx) as [j [pa [Hj [Hpa E]]]]; [exists []; rewrite Ex; symmetry; apply app_nil_r|].
              exists j. split; [|exact Hj]. apply F4. split; [apply (increasing_lt I HI j r a i Hj Hr), Hlt|]. exists pa. split; [exact Hpa|].
              rewrite E, transfer_vp in Ex. apply app_inv_head in Ex. exact Ex.
    + intros [e [He Hd]]. apply K6. exists e. split; [apply transfer_sibling, He|exact Hd].
Qed.
End Transfer.
