(** C119: what is saved under a name is loaded under that name. *)
From Verif Require Import Base BaseLemmas Files.
Local Open Scope string_scope. Local Open Scope list_scope.

(** The three pairs of methods. *)
Inductive kind_ := KModel | KScaler | KConformal.
Definition save_as {C} (k : kind_) : disk (C := C) -> file -> C -> disk :=
  match k with KModel => model_save | KScaler => scaler_save | KConformal => conformal_save end.
Definition load_as {C} (k : kind_) : disk (C := C) -> file -> option C :=
  match k with KModel => model_load | KScaler => scaler_load | KConformal => conformal_load end.

Definition has_suffix (f : file) : Prop := exists s, name f = append s ".npz".
Lemma suffix_ends f : has_suffix f <-> endswith (name f) npz = true.
Proof. unfold has_suffix. rewrite endswith_iff. reflexivity. Qed.
Lemma write_eq {C} (d : disk (C := C)) s c : write d s c s = Some c.
Proof. unfold write. rewrite String.eqb_refl. reflexivity. Qed.
Lemma append_longer s t : slen t > 0 -> append s t <> s.
Proof.
  intros H. induction s as [|a s IH]; cbn; [intros ->; cbn in H; inversion H|]. intros [= E]. auto.
Qed.
Lemma ends_append s : endswith (append s npz) npz = true.
Proof. apply endswith_iff. eauto. Qed.
(** Where things go. *)
Definition target (f : file) : string := if endswith (name f) npz then name f else append (name f) npz.
Lemma saved_to {C} k (d : disk (C := C)) f c : save_as k d f c = write d (target f) c.
Proof.
  assert (E : savez d (add_npz f) c = write d (target f) c).
  { unfold savez, add_npz, target. destruct f as [s|s]; cbn [name]; [|reflexivity]. destruct (endswith s npz) eqn:H; cbn [name]; rewrite ?H; [reflexivity|]. rewrite ends_append. reflexivity. }
  destruct k; exact E.
Qed.

(** * Names given as strings for models and scalers, and all names that end in
    .npz: what was saved last is loaded. *)
Theorem C119_found_partial {C} k (d : disk (C := C)) f c :
  (k <> KConformal /\ exists s, f = AsStr s) \/ has_suffix f -> load_as k (save_as k d f c) f = Some c.
Proof.
  intros H. rewrite saved_to. assert (L : has_suffix f -> forall g, name g = name f -> np_load (write d (target f) c) g = Some c).
  { intros E g G. apply suffix_ends in E. unfold np_load, target. rewrite G, E. apply write_eq. }
  assert (M : forall g, f = AsStr g -> np_load (write d (target f) c) (add_npz f) = Some c).
  { intros g ->. unfold np_load, target, add_npz. cbn [name]. destruct (endswith g npz); cbn [name]; apply write_eq. }
  destruct H as [[K (s & E)]|E].
  - destruct k; [eauto|eauto|contradiction].
  - destruct k; cbn [load_as]; unfold model_load, scaler_load, conformal_load; apply L; auto; apply suffix_ends in E; unfold add_npz; destruct f as [s|s]; cbn [name] in *; rewrite ?E; reflexivity.
Qed.
(** * Saving writes one file, the same for all ways to give the name, and leaves
    all others alone. *)
Theorem C119_one_file {C} k (d : disk (C := C)) f c : has_suffix (AsStr (target f)) /\ save_as k d f c (target f) = Some c /\
  (forall s, s <> target f -> save_as k d f c s = d s) /\ (has_suffix f -> target f = name f) /\ (~ has_suffix f -> target f = append (name f) ".npz").
Proof.
  rewrite saved_to. split; [|split; [apply write_eq|split; [|split]]].
  - apply suffix_ends. unfold target. cbn [name]. destruct (endswith (name f) npz) eqn:E; [exact E|apply ends_append].
  - intros s H. unfold write. destruct (String.eqb_spec s (target f)); [contradiction|reflexivity].
  - intros H. apply suffix_ends in H. unfold target. rewrite H. reflexivity.
  - intros H. unfold target. destruct (endswith (name f) npz) eqn:E; [exfalso; apply H, suffix_ends; exact E|reflexivity].
Qed.
(** * In all other cases nothing that was just saved is loaded: the file of that
    very name is looked for, and there is none, or it is another one. *)
Theorem C119_lost {C} k (d : disk (C := C)) f c : ~ has_suffix f -> k = KConformal \/ (exists s, f = AsPath s) -> load_as k (save_as k d f c) f = d (name f).
Proof.
  intros N H. rewrite saved_to. assert (T : name f <> target f).
  { unfold target. destruct (endswith (name f) npz) eqn:E; [exfalso; apply N, suffix_ends; exact E|]. intros X. symmetry in X. revert X. apply append_longer. unfold npz. cbn. repeat constructor. }
  assert (L : forall g, name g = name f -> np_load (write d (target f) c) g = d (name f)).
  { intros g G. unfold np_load, write. rewrite G. destruct (String.eqb_spec (name f) (target f)); [contradiction|reflexivity]. }
  destruct H as [->|(s & ->)]; [apply L; reflexivity|]. destruct k; apply L; reflexivity.
Qed.
(** * Different names, different files, apart from the suffix. *)
Theorem C119_separate {C} k k' (d : disk (C := C)) f g c c' : has_suffix f -> has_suffix g -> name f <> name g ->
  load_as k (save_as k' (save_as k d f c) g c') f = Some c.
Proof.
  intros F G N. pose proof (C119_found_partial k d f c (or_intror F)) as H. rewrite !saved_to in *. apply suffix_ends in F, G.
  assert (E : forall h, name h = name f -> np_load (write (write d (target f) c) (target g) c') h = Some c).
  { intros h E. unfold np_load, target. rewrite E, F, G. unfold write at 1. destruct (String.eqb_spec (name f) (name g)); [contradiction|apply write_eq]. }
  destruct k; cbn [load_as]; unfold model_load, scaler_load, conformal_load; apply E; unfold add_npz; destruct f as [s|s]; cbn [name] in *; rewrite ?F; reflexivity.
Qed.

Definition found_always : Prop := forall (C : Type) k (d : disk (C := C)) f c, load_as k (save_as k d f c) f = Some c.
Definition none : disk (C := nat) := fun _ => None.
(** A conformal model saved as "conf" is not found as "conf"; a model saved as
    Path("m") is not found as Path("m"), or an older file is taken for it. *)
Theorem C119_refuted :
  conformal_load (conformal_save none (AsStr "conf") 1) (AsStr "conf") = None /\
  model_load (model_save none (AsPath "m") 1) (AsPath "m") = None /\
  scaler_load (scaler_save none (AsPath "m") 1) (AsPath "m") = None /\
  conformal_load (conformal_save (write none "conf" 7) (AsStr "conf") 1) (AsStr "conf") = Some 7 /\
  ~ found_always.
Proof.
  repeat split. intros A. specialize (A nat KConformal none (AsStr "conf") 1). discriminate.
Qed.
Example C119_example :
  model_load (model_save none (AsStr "m") 1) (AsStr "m") = Some 1 /\ model_load (model_save none (AsStr "m") 1) (AsPath "m.npz") = Some 1 /\
  model_save none (AsStr "m") 1 "m" = None /\ conformal_load (conformal_save none (AsStr "conf.npz") 1) (AsPath "conf.npz") = Some 1 /\
  has_suffix (AsStr "conf.npz") /\ ~ has_suffix (AsPath "m").
Proof.
  repeat split; [exists "conf"; reflexivity|]. intros H. apply suffix_ends in H. discriminate.
Qed.

Print Assumptions C119_found_partial.
Print Assumptions C119_one_file.
Print Assumptions C119_lost.
Print Assumptions C119_separate.
Print Assumptions C119_refuted.
