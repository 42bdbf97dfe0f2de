From Verif Require Import Base BaseLemmas Subclass SubclassSpec.
Local Open Scope string_scope. Local Open Scope list_scope.

Lemma find_in name d m : find name d = Some m -> In (name, m) d.
Proof.
  induction d as [|[k x] d IH]; cbn; [discriminate|]. destruct (String.eqb_spec name k) as [->|]; [intros [= ->]; auto|auto].
Qed.
Lemma find_none name d : find name d = None -> forall m, ~ In (name, m) d.
Proof.
  induction d as [|[k x] d IH]; cbn; [auto|]. destruct (String.eqb_spec name k) as [->|]; [discriminate|]. intros H m [E|E]; [congruence|eapply IH; eauto].
Qed.
Lemma find_wrap name d : find name (map (fun km => (fst km, wrap (snd km))) d) = option_map wrap (find name d).
Proof. induction d as [|[k x] d IH]; cbn; [reflexivity|]. destruct (String.eqb name k); [reflexivity|exact IH]. Qed.

Lemma abstract_names c name : In name (abstractmethods c) -> exists b m, In b c /\ In (name, m) (methods b) /\ abstract m = true.
Proof.
  induction c as [|b c IH]; cbn; [intros []|]. intros H. apply in_app_or in H as [H|H].
  - apply in_map_iff in H as ([k m] & <- & H). apply filter_In in H as [H1 H2]. exists b, m. auto.
  - apply filter_In in H as [H _]. destruct (IH H) as (b' & m & H1 & H2 & H3). exists b', m. auto.
Qed.
(** Bodies list a name once. *)
Definition tidy (c : cls) : Prop := Forall (fun b => NoDup (map fst (methods b))) c.
Lemma nodup_find d name m : NoDup (map fst d) -> In (name, m) d -> find name d = Some m.
Proof.
  induction d as [|[k x] d IH]; cbn; intros N H; [destruct H|]. inversion N as [|? ? N1 N2]; subst. destruct H as [[= -> ->]|H]; [rewrite String.eqb_refl; reflexivity|].
  destruct (String.eqb_spec name k) as [->|]; [exfalso; apply N1; apply in_map_iff; exists (k, m); auto|auto].
Qed.
Lemma abstract_lookup c : tidy c -> forall name, In name (abstractmethods c) <-> exists m, lookup name c = Some m /\ abstract m = true.
Proof.
  induction c as [|b c IH]; intros T name; [cbn; split; [intros []|intros (m & H & _); discriminate]|]. inversion T as [|? ? T1 T2]; subst. cbn [abstractmethods]. rewrite in_app_iff, filter_In, in_map_iff. split.
  - intros [([k m] & <- & H)|[H1 H2]].
    + apply filter_In in H as [H1 H2]. exists m. cbn. rewrite (nodup_find _ _ _ T1 H1). auto.
    + unfold still_abstract in H2. destruct (lookup name (b :: c)) as [m|]; [|discriminate]. eauto.
  - intros (m & H1 & H2). assert (E := H1). cbn in H1. destruct (find name (methods b)) as [m'|] eqn:F.
    + injection H1 as ->. left. exists (name, m). split; [reflexivity|]. apply filter_In. split; [apply find_in; exact F|exact H2].
    + right. split; [apply IH; [exact T2|eauto]|]. unfold still_abstract. rewrite E. exact H2.
Qed.
(** The test in [__init_subclass__] is the right one. *)
Theorem isabstract_concrete b base : tidy (b :: base) -> isabstract (b :: base) = false <-> concrete (b :: base).
Proof.
  intros T. assert (A : isabstract (b :: base) = true <-> exists name, In name (abstractmethods (b :: base))).
  { cbn [isabstract abstractmethods]. rewrite orb_true_iff, !existsb_exists. split.
    - intros [([k m] & H1 & H2)|(name & H1 & H2)].
      + exists k. apply in_or_app. left. apply in_map_iff. exists (k, m). split; [reflexivity|]. apply filter_In. auto.
      + exists name. apply in_or_app. right. apply filter_In. auto.
    - intros (name & H). apply in_app_or in H as [H|H].
      + apply in_map_iff in H as (km & _ & H). apply filter_In in H as [H1 H2]. left. eauto.
      + apply filter_In in H as [H1 H2]. right. eauto. }
  split.
  - intros E name m H. destruct (abstract m) eqn:Em; [|reflexivity]. exfalso. assert (isabstract (b :: base) = true) by (apply A; exists name; apply abstract_lookup; eauto). congruence.
  - intros H. destruct (isabstract (b :: base)) eqn:E; [|reflexivity]. exfalso. destruct (proj1 A eq_refl) as (name & Hn). apply (abstract_lookup _ T) in Hn as (m & H1 & H2). rewrite (H _ _ H1) in H2. discriminate.
Qed.
Lemma lookup_wrap name b c : lookup name (wrap_body b :: c) = match find name (methods b) with Some m => Some (wrap m) | None => lookup name c end.
Proof. cbn [lookup wrap_body methods]. rewrite find_wrap. destruct (find name (methods b)); reflexivity. Qed.
Lemma tidy_wrap b : NoDup (map fst (methods b)) -> NoDup (map fst (methods (wrap_body b))).
Proof. intros N. cbn. rewrite map_map. cbn. exact N. Qed.
Lemma concrete_wrap b base : concrete (wrap_body b :: base) <-> concrete (b :: base).
Proof.
  unfold concrete. split; intros H name m E.
  - cbn in E. destruct (find name (methods b)) as [x|] eqn:F.
    + injection E as ->. specialize (H name (wrap m)). rewrite lookup_wrap, F in H. exact (H eq_refl).
    + apply (H name). rewrite lookup_wrap, F. exact E.
  - rewrite lookup_wrap in E. destruct (find name (methods b)) as [x|] eqn:F.
    + injection E as <-. apply (H name x). cbn. rewrite F. reflexivity.
    + apply (H name m). cbn. rewrite F. exact E.
Qed.

(** ** Signatures *)
Lemma required_false p : required p = false <-> p_name p = "self" \/ p_default p = true \/ variadic p.
Proof.
  unfold required, variadic. destruct (String.eqb_spec (p_name p) "self") as [E|E]; [tauto|]. destruct (p_default p); cbn; [tauto|]. destruct (p_kind p); split; intros H; try discriminate; auto; destruct H as [H|[H|[H|H]]]; try discriminate; congruence.
Qed.
Lemma required_none s : existsb required s = false <-> forall p, In p s -> p_name p = "self" \/ p_default p = true \/ variadic p.
Proof.
  split.
  - intros H p Hp. apply required_false. destruct (required p) eqn:E; [|reflexivity]. exfalso. assert (existsb required s = true) by (apply existsb_exists; eauto). congruence.
  - intros H. destruct (existsb required s) eqn:E; [|reflexivity]. apply existsb_exists in E as (p & Hp & E). specialize (H p Hp). apply required_false in H. congruence.
Qed.
Theorem usual_check s : NoDup (map p_name s) -> usual s -> (existsb required s = false <-> takes_object s).
Proof.
  intros N (p & s' & -> & Hn & Hp). rewrite required_none. inversion N as [|? ? N1 N2]; subst. split.
  - intros H. left. exists p, s'. split; [reflexivity|]. split; [exact Hp|]. intros q Hq. destruct (H q (or_intror Hq)) as [E|E]; [|exact E]. exfalso. apply N1. rewrite Hn, <- E. apply in_map. exact Hq.
  - intros [(q & t & E & _ & H)|(H & _)]; [|exfalso; apply (H p); [left; reflexivity|exact Hp]]. injection E as <- <-. intros q [ <- | Hq ]; [auto|right; auto].
Qed.
