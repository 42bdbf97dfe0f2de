(** C141: loading twice from the same data. *)
From Verif Require Import Base BaseLemmas SavedData.
From Coq Require Import String.
Local Open Scope string_scope.
Local Open Scope list_scope.

Section Facts.
Context {X C O : Type}.
Context (build : C -> list (string * X) -> result O) (start : C -> result unit) (check : C -> list O -> result unit) (assemble : C -> list O -> list (string * X) -> result O).
Notation data := (data X C).
Notation deserialize := (deserialize build start check assemble).

(** induction with the modules of a model *)
Lemma data_rect' (P : data -> Prop) : (forall c e, P (DModule c e)) -> (forall c ms own, Forall P ms -> P (DModel c ms own)) -> forall d, P d.
Proof.
  intros H1 H2. fix IH 1. intros [c e|c ms own]; [apply H1|]. apply H2.
  induction ms as [|m ms IHm]; constructor; [apply IH|exact IHm].
Qed.

(** Entries that differ only in those a model does not read from its own. *)
Definition unread (k : string) : Prop := k = "rng" \/ k = "_optimizer_state" \/ k = "trainable".
Inductive entries_alike : list (string * X) -> list (string * X) -> Prop :=
| ea_nil : entries_alike [] []
| ea_both p l l' : entries_alike l l' -> entries_alike (p :: l) (p :: l')
| ea_left k v l l' : unread k -> entries_alike l l' -> entries_alike ((k, v) :: l) l'
| ea_right k v l l' : unread k -> entries_alike l l' -> entries_alike l ((k, v) :: l').
Inductive alike : data -> data -> Prop :=
| al_module c e : alike (DModule c e) (DModule c e)
| al_model c ms ms' own own' : Forall2 alike ms ms' -> entries_alike own own' -> alike (DModel c ms own) (DModel c ms' own').

Lemma pops_filter l : pops l = filter (fun p : string * X => negb (String.eqb "trainable" (fst p)) && (negb (String.eqb "_optimizer_state" (fst p)) && negb (String.eqb "rng" (fst p)))) l.
Proof.
  unfold pops, pop. induction l as [|[k v] l IH]; [reflexivity|]. cbn [filter fst].
  destruct (String.eqb "rng" k) eqn:A; cbn [negb filter fst]; rewrite ?andb_false_r; [exact IH|].
  destruct (String.eqb "_optimizer_state" k) eqn:B; cbn [negb filter fst andb]; rewrite ?andb_false_r; [exact IH|].
  destruct (String.eqb "trainable" k) eqn:D; cbn [negb andb]; [exact IH|]. f_equal. exact IH.
Qed.
Lemma unread_out k : unread k -> negb (String.eqb "trainable" k) && (negb (String.eqb "_optimizer_state" k) && negb (String.eqb "rng" k)) = false.
Proof. intros [-> | [-> | ->]]; reflexivity. Qed.
Lemma unread_in k : negb (String.eqb "trainable" k) && (negb (String.eqb "_optimizer_state" k) && negb (String.eqb "rng" k)) = false -> unread k.
Proof.
  unfold unread. destruct (String.eqb_spec "trainable" k) as [<-|_]; [auto|]. destruct (String.eqb_spec "_optimizer_state" k) as [<-|_]; [auto|].
  destruct (String.eqb_spec "rng" k) as [<-|_]; [auto|]. discriminate.
Qed.
Lemma pops_alike l : entries_alike l (pops l).
Proof.
  rewrite pops_filter. induction l as [|[k v] l IH]; cbn [filter fst]; [constructor|].
  destruct (negb (String.eqb "trainable" k) && _) eqn:E; [apply ea_both, IH|apply ea_left; [apply unread_in, E|exact IH]].
Qed.
Lemma alike_pops l l' : entries_alike l l' -> pops l = pops l'.
Proof.
  rewrite !pops_filter. induction 1 as [|[k v] l l' _ IH|k v l l' U _ IH|k v l l' U _ IH]; cbn [filter fst].
  - reflexivity.
  - rewrite IH. reflexivity.
  - rewrite (unread_out _ U). exact IH.
  - rewrite (unread_out _ U). exact IH.
Qed.
Lemma entries_refl l : entries_alike l l.
Proof. induction l; constructor; assumption. Qed.
Lemma alike_refl d : alike d d.
Proof.
  induction d as [c e|c ms own IH] using data_rect'; constructor; [|apply entries_refl].
  induction IH; constructor; assumption.
Qed.

(** Loading takes out of the data nothing but those entries of models, and data
    of single modules are left alone. *)
Theorem C141_partial d : alike d (fst (deserialize d)) /\ forall c e, d = DModule c e -> fst (deserialize d) = d.
Proof.
  split; [|intros c e ->; reflexivity].
  induction d as [c e|c ms own IH] using data_rect'; cbn [SavedData.deserialize]; [constructor|].
  assert (A : Forall2 alike ms (fst (deserialize_all deserialize ms))).
  { induction IH as [|d ds Hd Hds IHd]; cbn [deserialize_all]; [constructor|].
    destruct (deserialize d) as [d1 [o|e]]; cbn [fst] in *.
    - destruct (deserialize_all deserialize ds) as [ds1 r]. constructor; assumption.
    - constructor; [exact Hd|]. clear. induction ds; constructor; [apply alike_refl|assumption]. }
  destruct (start c); [|apply alike_refl].
  destruct (deserialize_all deserialize ms) as [ms1 [os|e]]; cbn [fst] in *; [|constructor; [exact A|apply entries_refl]].
  destruct (check c os); constructor; try exact A; [apply pops_alike|apply entries_refl].
Qed.
(** What is loaded, or the exception raised, does not depend on those entries. *)
Theorem C141_unread d d' : alike d d' -> snd (deserialize d) = snd (deserialize d').
Proof.
  revert d'. induction d as [c e|c ms own IH] using data_rect'; intros d' H; inversion H as [|? ? ms' ? own' Hm Ho]; subst; [reflexivity|].
  assert (A : snd (deserialize_all deserialize ms) = snd (deserialize_all deserialize ms')).
  { clear H. revert ms' Hm. induction IH as [|d ds Hd Hds IHd]; intros ms' Hm; inversion Hm as [|? d2 ? ds2 H1 H2]; subst; [reflexivity|]. cbn [deserialize_all].
    specialize (Hd _ H1). destruct (deserialize d) as [d1 r1], (deserialize d2) as [d3 r3]. cbn [snd] in Hd. subst r3.
    specialize (IHd _ H2). destruct r1 as [o|e]; [|reflexivity].
    destruct (deserialize_all deserialize ds) as [? r4], (deserialize_all deserialize ds2) as [? r5]. cbn [snd] in *. subst r5. reflexivity. }
  cbn [SavedData.deserialize]. destruct (deserialize_all deserialize ms) as [ms1 r1], (deserialize_all deserialize ms') as [ms2 r2]. cbn [snd] in A. subst r2.
  rewrite (alike_pops _ _ Ho). destruct (start c); [|reflexivity]. destruct r1 as [os|]; [|reflexivity]. destruct (check c os); reflexivity.
Qed.
(** So the same data can be loaded any number of times, with the same outcome. *)
Fixpoint times (n : nat) (d : data) : data := match n with 0 => d | S n' => fst (deserialize (times n' d)) end.
Theorem C141_again n d : snd (deserialize (times n d)) = snd (deserialize d).
Proof.
  induction n as [|n IH]; [reflexivity|]. cbn [times]. rewrite <- IH. symmetry. apply C141_unread, C141_partial.
Qed.
(** The first load is the only one that changes the data. *)
Theorem C141_settles d : deserialize (fst (deserialize d)) = deserialize d.
Proof.
  induction d as [c e|c ms own IH] using data_rect'; [reflexivity|]. cbn [SavedData.deserialize].
  assert (A : deserialize_all deserialize (fst (deserialize_all deserialize ms)) = deserialize_all deserialize ms).
  { induction IH as [|d ds Hd Hds IHd]; [reflexivity|]. cbn [deserialize_all].
    destruct (deserialize d) as [d1 [o|e]]; cbn [fst] in *.
    - fold (deserialize_all deserialize) in *. destruct (deserialize_all deserialize ds) as [ds1 r]. cbn [fst deserialize_all] in *. rewrite Hd.
      fold (deserialize_all deserialize) in *. rewrite IHd. reflexivity.
    - cbn [deserialize_all]. rewrite Hd. reflexivity. }
  destruct (start c) eqn:S; [|cbn [fst SavedData.deserialize]; rewrite S; reflexivity].
  destruct (deserialize_all deserialize ms) as [ms1 [os|e]]; cbn [fst] in A.
  - destruct (check c os) eqn:K; cbn [fst SavedData.deserialize]; rewrite S, A, K; [|reflexivity].
    rewrite <- (alike_pops _ _ (pops_alike own)). reflexivity.
  - cbn [fst SavedData.deserialize]. rewrite S, A. reflexivity.
Qed.
End Facts.

(** Loading leaves the data as they were. *)
Definition data_kept_always : Prop :=
  forall (X C O : Type) (build : C -> list (string * X) -> result O) (start : C -> result unit) (check : C -> list O -> result unit) (assemble : C -> list O -> list (string * X) -> result O) (d : data X C),
  fst (deserialize build start check assemble d) = d.
(** Modules are their number of entries, models the sum; class 7 is refused, and so are
    models of class 8 and models without modules. *)
Definition y_build (c : nat) (l : list (string * nat)) : result nat := if Nat.eqb c 7 then Err ValueError else Ok (List.length l).
Definition y_start (c : nat) : result unit := if Nat.eqb c 8 then Err ValueError else Ok tt.
Definition y_check (c : nat) (os : list nat) : result unit := if Nat.eqb (List.length os) 0 then Err ValueError else Ok tt.
Definition y_assemble (c : nat) (os : list nat) (l : list (string * nat)) : result nat := Ok (fold_left Nat.add os (List.length l)).
Definition y_module (c : nat) : data nat nat := DModule c [("name", 1); ("trainable", 0)].
Definition y_data (c : nat) : data nat nat :=
  DModel 0 [DModel 1 [y_module 2] [("name", 1); ("trainable", 1)]; y_module c] [("name", 2); ("trainable", 0); ("params", 3)].
Example C141_example :
  deserialize y_build y_start y_check y_assemble (y_data 2) =
    (DModel 0 [DModel 1 [y_module 2] [("name", 1)]; y_module 2] [("name", 2); ("params", 3)], Ok 7) /\
  deserialize y_build y_start y_check y_assemble (fst (deserialize y_build y_start y_check y_assemble (y_data 2))) =
    (DModel 0 [DModel 1 [y_module 2] [("name", 1)]; y_module 2] [("name", 2); ("params", 3)], Ok 7) /\
  deserialize y_build y_start y_check y_assemble (y_data 7) =
    (DModel 0 [DModel 1 [y_module 2] [("name", 1)]; y_module 7] [("name", 2); ("trainable", 0); ("params", 3)], Err ValueError) /\
  deserialize y_build y_start y_check y_assemble (DModel 8 [y_data 2] [("trainable", 0)]) = (DModel 8 [y_data 2] [("trainable", 0)], Err ValueError) /\
  deserialize y_build y_start y_check y_assemble (DModel 0 [] [("trainable", 0)]) = (DModel 0 [] [("trainable", 0)], Err ValueError).
Proof. repeat split. Qed.
(** The flag "trainable" is gone from the data of every model afterwards; also
    from those of models inside one that could not be loaded. *)
Theorem C141_refuted :
  fst (deserialize y_build y_start y_check y_assemble (y_data 2)) <> y_data 2 /\ fst (deserialize y_build y_start y_check y_assemble (y_data 7)) <> y_data 7 /\ ~ data_kept_always.
Proof.
  split; [vm_compute; discriminate|]. split; [vm_compute; discriminate|]. intros A. specialize (A _ _ _ y_build y_start y_check y_assemble (y_data 2)). vm_compute in A. discriminate.
Qed.

Print Assumptions C141_partial.
Print Assumptions C141_unread.
Print Assumptions C141_again.
Print Assumptions C141_settles.
Print Assumptions C141_refuted.
