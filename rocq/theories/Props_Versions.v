(** C120: files of other versions. *)
From Verif Require Import Base BaseLemmas TreeUtil Versions VersionsSpec.
Local Open Scope list_scope.

Section Proofs.
Context {V C D O : Type} (veqb : V -> V -> bool) (Hv : forall x y, veqb x y = true <-> x = y).
Context (current : V) (version : C -> V) (build : C -> list O -> D -> result O).
Notation deserialize := (deserialize veqb current version).

Lemma saved_ind2 (P : @saved V C D -> Prop) : (forall c p v d, P (SModule c p v d)) ->
  (forall c p mv ss p' v d, Forall P ss -> P (SModel c p mv ss p' v d)) -> forall s, P s.
Proof.
  intros H1 H2. fix IH 1. intros [c p v d|c p mv ss p' v d]; [apply H1|]. apply H2. induction ss as [|x ss IHs]; constructor; [apply IH|exact IHs].
Qed.
Definition each {X Y} (f : X -> result Y) : list X -> result (list Y) :=
  fix go l := match l with [] => Ok [] | x :: l' => let* o := f x in let* os := go l' in Ok (o :: os) end.
Lemma deserialize_model upgrade strict c p mv ss p' v d : deserialize upgrade build strict (SModel c p mv ss p' v d) =
  if negb (veqb current p) && strict then Err ValueError
  else let* os := each (deserialize upgrade build strict) ss in base_deserialize veqb current version upgrade build strict c os p' v d.
Proof. reflexivity. Qed.
Lemma veqb_refl x : veqb x x = true. Proof. apply Hv. reflexivity. Qed.
Lemma veqb_neq x y : x <> y -> veqb x y = false.
Proof. intros N. destruct (veqb x y) eqn:E; [apply Hv in E; contradiction|reflexivity]. Qed.

(** * With strict_package_version a model is loaded exactly if it is loaded
    without, and every version of the package that was noted, at any depth, is
    the present one; and it is the same model then. *)
Theorem C120_strict upgrade s o :
  deserialize upgrade build true s = Ok o <-> deserialize upgrade build false s = Ok o /\ forall v, noted_package s v -> v = current.
Proof.
  revert o. induction s as [c p v d|c p mv ss p' v d IH] using saved_ind2; intros o.
  - cbn [Versions.deserialize]. unfold base_deserialize. rewrite andb_false_r, andb_true_r. destruct (veqb current p) eqn:E; cbn [negb].
    + apply Hv in E. subst p. split; [|tauto]. intros H. split; [exact H|]. intros x Hx. inversion Hx. reflexivity.
    + split; [discriminate|]. intros [_ H]. rewrite (H p) in E by constructor. rewrite veqb_refl in E. discriminate.
  - rewrite !deserialize_model, andb_false_r, andb_true_r.
    assert (L : forall os, each (deserialize upgrade build true) ss = Ok os <-> each (deserialize upgrade build false) ss = Ok os /\ forall s x, In s ss -> noted_package s x -> x = current).
    { clear - IH. induction IH as [|s ss H IH IHs]; intros os; cbn [each].
      - split; [|tauto]. intros E. split; [exact E|]. intros s x [].
      - split.
        + intros E. apply rbind_ok in E as (o & E1 & E). apply rbind_ok in E as (os' & E2 & E). apply H in E1 as [E1 E1']. apply IHs in E2 as [E2 E2']. rewrite E1, E2. split; [exact E|]. intros t x [ <- | Ht ]; eauto.
        + intros [E N]. apply rbind_ok in E as (o & E1 & E). apply rbind_ok in E as (os' & E2 & E). rewrite (proj2 (H o)) by (split; [exact E1|intros x; apply N; left; reflexivity]).
          cbn [rbind]. rewrite (proj2 (IHs os')) by (split; [exact E2|intros t x Ht; apply N; right; exact Ht]). exact E. }
    unfold base_deserialize. rewrite andb_false_r, andb_true_r. split.
    + intros E. destruct (veqb current p) eqn:E1; [|discriminate]. cbn [negb] in E. apply rbind_ok in E as (os & Eo & E). apply L in Eo as [Eo N]. rewrite Eo. cbn [rbind].
      destruct (veqb current p') eqn:E2; [|discriminate]. split; [exact E|]. apply Hv in E1, E2. intros x Hx. inversion Hx; subst; eauto.
    + intros [E N]. rewrite (N p) by constructor. rewrite (N p') by constructor. rewrite veqb_refl. cbn [negb]. apply rbind_ok in E as (os & Eo & E).
      rewrite (proj2 (L os)) by (split; [exact Eo|intros s x Hs Hx; apply N; econstructor; eassumption]). exact E.
Qed.
(** * Without it the versions of the package do not matter, and what is loaded is
    what the upgraded data give. *)
Theorem C120_upgraded upgrade s s' : rewritten current version upgrade s s' ->
  deserialize upgrade build false s = deserialize upgrade build false s'.
Proof.
  revert s'. induction s as [c p v d|c p mv ss p' v d IH] using saved_ind2; intros s' R; inversion R as [? ? ? ? d' H|? ? ? ? ss' ? ? ? d' HF H]; subst.
  - cbn [Versions.deserialize]. unfold base_deserialize. rewrite !andb_false_r, (veqb_refl (version c)). destruct H as [[-> ->]|[N U]]; [rewrite veqb_refl; reflexivity|rewrite (veqb_neq _ _ N), U; reflexivity].
  - rewrite !deserialize_model. unfold base_deserialize. rewrite !andb_false_r, (veqb_refl (version c)).
    assert (E : each (deserialize upgrade build false) ss = each (deserialize upgrade build false) ss').
    { clear - IH HF. induction HF as [|x y ss ss' R _ IHF]; [reflexivity|]. inversion IH; subst. cbn [each]. rewrite (H1 _ R), IHF by assumption. reflexivity. }
    rewrite E. destruct (each (deserialize upgrade build false) ss') as [os|e]; [|reflexivity]. cbn [rbind].
    destruct H as [[-> ->]|[N U]]; [rewrite veqb_refl; reflexivity|rewrite (veqb_neq _ _ N), U; reflexivity].
Qed.
(** * If an upgrade fails, so does loading; and data of the present version are
    never upgraded. *)
Theorem C120_not_upgraded upgrade upgrade' strict s : (forall c v, noted_module s c v -> v = version c) ->
  deserialize upgrade build strict s = deserialize upgrade' build strict s.
Proof.
  induction s as [c p v d|c p mv ss p' v d IH] using saved_ind2; intros N.
  - cbn [Versions.deserialize]. unfold base_deserialize. rewrite (N c v) by constructor. rewrite veqb_refl. reflexivity.
  - rewrite !deserialize_model. unfold base_deserialize. rewrite (N c v) by constructor. rewrite veqb_refl.
    assert (E : each (deserialize upgrade build strict) ss = each (deserialize upgrade' build strict) ss).
    { assert (N' : forall s c v, In s ss -> noted_module s c v -> v = version c) by (intros s k x Hs Hx; apply N; econstructor; eassumption). clear - IH N'.
      induction IH as [|s ss H _ IHs]; [reflexivity|]. cbn [each]. rewrite H by (intros c v; apply N'; left; reflexivity). rewrite IHs by (intros t c v Ht; apply N'; right; exact Ht). reflexivity. }
    rewrite E. reflexivity.
Qed.
Theorem C120_upgrade_fails upgrade strict c p v d e : v <> version c -> upgrade c d = Err e -> is_ok (deserialize upgrade build strict (SModule c p v d)) = false.
Proof. intros N U. cbn [Versions.deserialize]. unfold base_deserialize. rewrite (veqb_neq _ _ N), U. destruct (negb (veqb current p) && strict); reflexivity. Qed.
(** * A conformal model is loaded with strict_package_version exactly if it is
    loaded without and its own version of the package is the present one. *)
Theorem C120_conformal {R} upgrade (wrap : O -> result R) p s r :
  conformal_deserialize veqb current version upgrade build wrap true p s = Ok r <->
  conformal_deserialize veqb current version upgrade build wrap false p s = Ok r /\ p = current.
Proof.
  unfold conformal_deserialize. rewrite andb_false_r, andb_true_r. destruct (veqb current p) eqn:E; cbn [negb].
  - apply Hv in E. subst p. tauto.
  - split; [discriminate|]. intros [_ ->]. rewrite veqb_refl in E. discriminate.
Qed.
(** That is every version noted, if all were written by one version of the
    package (as [serialize] does). *)
Theorem C120_conformal_partial {R} upgrade (wrap : O -> result R) p s r : (forall v, noted_package s v -> v = p) ->
  conformal_deserialize veqb current version upgrade build wrap true p s = Ok r <->
  conformal_deserialize veqb current version upgrade build wrap false p s = Ok r /\ p = current /\ forall v, noted_package s v -> v = current.
Proof.
  intros H. rewrite C120_conformal. split; [|tauto]. intros [E ->]. auto.
Qed.
End Proofs.

(** Loading that is refused leaves the model as it was. *)
Definition refusal_harmless_always : Prop :=
  forall (V C D O S : Type) veqb (current : V) (version : C -> V) (upgrade : C -> D -> result D) (build : C -> list O -> D -> result O) (reset : S -> S) halfway become strict m s m' e,
  load_into veqb current version upgrade build reset halfway become strict m s = (m', Err e) -> m' = m.

(** Numbers as versions and contents; models are the sum of their parts. *)
Definition v_build (c : nat) (os : list nat) (d : nat) : result nat := Ok (fold_right Nat.add d os).
Definition v_upgrade (c d : nat) : result nat := if Nat.eqb c 9 then Err KeyError else Ok (10 * d).
Definition v_load := deserialize Nat.eqb 3 (fun _ : nat => 2) v_upgrade v_build.
Definition v_saved (p v : nat) : saved := SModel 0 3 2 [SModule 1 3 2 5; SModel 0 3 1 [SModule 2 p v 7] 3 2 0] 3 2 1.
Example C120_example :
  v_load true (v_saved 3 2) = Ok 13 /\ v_load true (v_saved 2 2) = Err ValueError /\ v_load false (v_saved 2 2) = Ok 13 /\ v_load false (v_saved 2 1) = Ok 76 /\
  v_load false (SModule 9 3 1 7) = Err KeyError /\
  rewritten 3 (fun _ => 2) v_upgrade (v_saved 2 1) (SModel 0 3 2 [SModule 1 3 2 5; SModel 0 3 2 [SModule 2 3 2 70] 3 2 0] 3 2 1).
Proof.
  repeat (split; [reflexivity|]).
  apply (rw_model 3 (fun _ => 2) v_upgrade); [|left; auto]. constructor; [apply (rw_module 3 (fun _ => 2) v_upgrade); left; auto|]. constructor; [|constructor].
  apply (rw_model 3 (fun _ => 2) v_upgrade); [|left; auto]. constructor; [|constructor]. apply (rw_module 3 (fun _ => 2) v_upgrade). right. split; [discriminate|reflexivity].
Qed.
Definition v_old : @saved nat nat nat := SModel 0 2 2 [SModule 1 2 2 5] 2 2 1.
(** A refused file leaves the model without shapes and compiled functions: here
    the model is whether it is ready. *)
Theorem C120_refuted :
  load_into Nat.eqb 3 (fun _ : nat => 2) v_upgrade v_build (fun _ : bool => false) (fun m _ => m) (fun _ => true) true true v_old = (false, Err ValueError) /\
  ~ refusal_harmless_always.
Proof.
  split; [reflexivity|]. intros A.
  specialize (A nat nat nat nat bool Nat.eqb 3 (fun _ => 2) v_upgrade v_build (fun _ => false) (fun m _ => m) (fun _ => true) true true v_old _ _ eq_refl). discriminate.
Qed.

(** With strict_package_version=True nothing noted in the data is of another
    version. *)
Definition conformal_strict_always : Prop :=
  forall (V C D O R : Type) veqb (current : V) (version : C -> V) (upgrade : C -> D -> result D) (build : C -> list O -> D -> result O)
    (wrap : O -> result R) p s r, (forall x y, veqb x y = true <-> x = y) ->
  conformal_deserialize veqb current version upgrade build wrap true p s = Ok r -> forall v, noted_package s v -> v = current.
Example C120_conformal_example :
  conformal_deserialize Nat.eqb 3 (fun _ => 2) v_upgrade v_build (@Ok nat) true 3 (v_saved 3 2) = Ok 13 /\
  conformal_deserialize Nat.eqb 3 (fun _ => 2) v_upgrade v_build (@Ok nat) true 2 (v_saved 2 2) = Err ValueError /\
  (forall v, noted_package (SModel 0 2 2 [SModule 1 2 2 5] 2 2 1) v -> v = 2).
Proof.
  split; [reflexivity|]. split; [reflexivity|]. intros v H. inversion H as [|? ? ? ? ? ? ?|? ? ? ? ? ? ?|? ? ? ? ? ? ? s x Hs Hx]; subst; try reflexivity.
  destruct Hs as [ <- | [] ]. inversion Hx. reflexivity.
Qed.
(** The model inside may be of any version: strict_package_version is not handed
    on to it. *)
Theorem C120_conformal_refuted :
  conformal_deserialize Nat.eqb 3 (fun _ => 2) v_upgrade v_build (@Ok nat) true 3 (v_saved 2 2) = Ok 13 /\
  v_load true (v_saved 2 2) = Err ValueError /\ ~ conformal_strict_always.
Proof.
  split; [reflexivity|]. split; [reflexivity|]. intros A.
  specialize (A nat nat nat nat nat Nat.eqb 3 (fun _ => 2) v_upgrade v_build (@Ok nat) 3 (v_saved 2 2) 13 Nat.eqb_eq eq_refl 2).
  discriminate A. eapply np_part; [right; left; reflexivity|]. eapply np_part; [left; reflexivity|constructor].
Qed.

Print Assumptions C120_strict.
Print Assumptions C120_upgraded.
Print Assumptions C120_not_upgraded.
Print Assumptions C120_upgrade_fails.
Print Assumptions C120_refuted.
Print Assumptions C120_conformal.
Print Assumptions C120_conformal_partial.
Print Assumptions C120_conformal_refuted.
