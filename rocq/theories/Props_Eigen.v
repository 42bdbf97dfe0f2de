(** Eigenvalue selection and shapes: C49, C50. *)
From Coq Require Import Reals Lra Permutation.
From Verif Require Import Base TreeUtil TreeSpec NonSeqSpec Serial SerialSpec Eigen EigenSpec EigenProofs.
Local Open Scope string_scope.
Local Open Scope list_scope.
Local Open Scope nat_scope.

(* ------------------------------------------------------------------ *)
(** * C49 *)
Theorem C49_selection : forall (B : Type) (d : B) E V k which p alg, 1 <= k <= length E -> In (which, (p, alg)) documented ->
  exists I E' V', select_eigenpairs d E (Some V) (Some k) which = Ok (E', Some V') /\ chosen (key_of alg E) (length E) p k I /\
    length E' = k /\ length V' = length V /\ (forall r, In r V' -> length r = k) /\
    forall a, a < k -> nth a E' 0%R = nth (nth a I 0) E 0%R /\ forall r, r < length V -> nth a (nth r V' []) d = nth (nth a I 0) (nth r V []) d.
Proof. exact (fun B => @select_ok B). Qed.
Example C49_selection_example : 1 <= 2 <= length [1%R; 2%R; 3%R] /\ In ("IM", (Interior, false)) documented.
Proof. split; [cbn; lia|]. cbn. intuition. Qed.
(** No count means all. *)
Theorem C49_all : forall (B : Type) (d : B) E V which, select_eigenpairs d E V None which = select_eigenpairs d E V (Some (length E)) which.
Proof. exact (fun B => @select_all B). Qed.
(** The eigenvalues alone are the same ones. *)
Theorem C49_values : forall (B : Type) (d : B) E V k which E' V', select_eigenpairs d E (Some V) k which = Ok (E', V') -> select_eigenvalues d E k which = Ok E'.
Proof. exact (fun B => @select_values B). Qed.
(** Anything not starting with one of the four letters or not ending with one of
    the two is rejected. *)
Theorem C49_invalid : forall (B : Type) (d : B) E V k which,
  (forall c, In c ["S"; "s"; "L"; "l"; "E"; "e"; "I"; "i"] -> startswith which c = false) -> select_eigenpairs d E V k which = Err ValueError.
Proof.
  intros B d E V k which H. unfold select_eigenpairs, parse_which. destruct which as [|c w]; [reflexivity|].
  assert (G : forall x, In x ["S"; "s"; "L"; "l"; "E"; "e"; "I"; "i"]%char -> c <> x).
  { intros x Hx E0. subst c. specialize (H (String x "")). rewrite <- Bool.not_true_iff_false in H. apply H.
    - cbn in Hx |- *. intuition (subst; auto 20).
    - cbn. rewrite Ascii.eqb_refl. destruct w; reflexivity. }
  assert (N : startswith (lower (String c w)) "s" = false /\ startswith (lower (String c w)) "l" = false /\ startswith (lower (String c w)) "e" = false /\ startswith (lower (String c w)) "i" = false).
  { clear - G. cbn [lower startswith]. rewrite !Bool.andb_true_r || idtac.
    assert (K : forall x, In x ["s"; "l"; "e"; "i"]%char -> Ascii.eqb x (lower_char c) = false).
    { intros x Hx. destruct (Ascii.eqb_spec x (lower_char c)) as [E|]; [|reflexivity]. exfalso. revert G Hx E. clear. destruct c as [[] [] [] [] [] [] [] []];
        intros G Hx E; vm_compute in E; subst x; cbn [In] in Hx; destruct Hx as [Hx|[Hx|[Hx|[Hx|[]]]]]; (discriminate Hx || (eapply G; [|reflexivity]; cbn [In]; tauto)). }
    rewrite !K by (cbn; tauto). repeat split. }
  destruct N as (N1 & N2 & N3 & N4). rewrite N1, N2, N3, N4. reflexivity.
Qed.
Example C49_invalid_example : forall c, In c ["S"; "s"; "L"; "l"; "E"; "e"; "I"; "i"] -> startswith "XA" c = false.
Proof. intros c H. cbn in H. intuition (subst; reflexivity). Qed.

(* ------------------------------------------------------------------ *)
(** * C50 *)
Section C50.
Context {B : Type} (d : B) {M : Type} (eigh : nat -> M -> list R * list (list B)).
(** Square matrices of at least the requested size, and a documented rule. *)
Definition C50_inputs (num_eig : option nat) (which : string) (shapes : tree (list nat)) (data : tree (@mats M)) : Prop :=
  eigh_ok eigh /\ (exists pa, In (which, pa) documented) /\ trel square_of shapes data /\
  (forall s, has_leaf shapes s -> size_ok num_eig (hd 0 s)).
Theorem C50_eigenvectors : forall num_eig which shapes data, C50_inputs num_eig which shapes data ->
  exists t r, eigenvectors_shape num_eig shapes = Ok t /\ eigenvectors_call d eigh num_eig which data = Ok r /\
    trel (fun s o => each (has_shape2 s) o) t r.
Proof. intros num_eig which shapes data (He & ((p & alg) & Hw) & Sq & Sz). eapply vectors_ok; eauto. Qed.
Theorem C50_eigensystem : forall num_eig which shapes data, C50_inputs num_eig which shapes data -> (exists s, has_leaf shapes s) ->
  exists te tv re rv, eigensystem_shape num_eig shapes = Ok (te, tv) /\ eigensystem_call d eigh num_eig which data = Ok (re, rv) /\
    trel (fun s o => each (has_shape1 s) o) te re /\ trel (fun s o => each (has_shape2 s) o) tv rv.
Proof. intros num_eig which shapes data (He & ((p & alg) & Hw) & Sq & Sz) Hl. eapply system_ok; eauto. Qed.
(** Eigenvalues: when a count is given or the input is a single array. *)
Theorem C50_eigenvalues_partial : forall num_eig which shapes data, C50_inputs num_eig which shapes data ->
  (num_eig <> None \/ exists s, shapes = Leaf s) ->
  exists t r, eigenvalues_shape num_eig shapes = Ok t /\ eigenvalues_call d eigh num_eig which data = Ok r /\
    trel (fun s o => each (has_shape1 s) o) t r.
Proof. intros num_eig which shapes data (He & ((p & alg) & Hw) & Sq & Sz) Hc. eapply values_ok; eauto. Qed.
(** Otherwise: a dictionary of inputs is always rejected. *)
Theorem C50_eigenvalues_dict : forall e which data, C50_inputs None which (Dict e) data -> (exists s, has_leaf (Dict e) s) ->
  eigenvalues_shape None (Dict e) = Err KeyError.
Proof. intros e which data (He & ((p & alg) & Hw) & Sq & Sz) Hl. eapply (values_dict None (Dict e) data); eauto. Qed.
End C50.

Definition C50_eigh (n : nat) (m : unit) : list R * list (list R) := (map INR (seq 0 n), map (fun _ => map INR (seq 0 n)) (seq 0 n)).
Lemma C50_eigh_ok : eigh_ok C50_eigh.
Proof.
  intros n m. unfold C50_eigh. cbn [fst snd]. rewrite !map_length, !seq_length. split; [reflexivity|]. split; [reflexivity|].
  intros r Hr. apply in_map_iff in Hr as (x & <- & _). rewrite map_length, seq_length. reflexivity.
Qed.
Definition C50_shapes (two : nat) : tree (list nat) := Dict [("b", Leaf [3; 3]); ("a", Leaf [two; two])].
Definition C50_data : tree (@mats unit) := Dict [("b", Leaf (mk_mats 3 [tt; tt])); ("a", Leaf (mk_mats 2 [tt; tt]))].
Example C50_example : C50_inputs C50_eigh (Some 2) "LA" (C50_shapes 2) C50_data.
Proof.
  split; [exact C50_eigh_ok|]. split; [exists (Largest, true); cbn; tauto|]. split.
  - eapply tr_dict; [reflexivity|]. constructor; [split; [reflexivity|constructor; reflexivity]|]. constructor; [split; [reflexivity|constructor; reflexivity]|constructor].
  - intros s H. inversion H as [|? ? ? ? Hin Hl| |]; subst. destruct Hin as [[= <- <-]|[[= <- <-]|[]]]; inversion Hl; subst; unfold size_ok; cbn; repeat split; lia.
Qed.
Example C50_example_all : C50_inputs C50_eigh None "LA" (C50_shapes 2) C50_data.
Proof.
  split; [exact C50_eigh_ok|]. split; [exists (Largest, true); cbn; tauto|]. split.
  - eapply tr_dict; [reflexivity|]. constructor; [split; [reflexivity|constructor; reflexivity]|]. constructor; [split; [reflexivity|constructor; reflexivity]|constructor].
  - intros s H. inversion H as [|? ? ? ? Hin Hl| |]; subst. destruct Hin as [[= <- <-]|[[= <- <-]|[]]]; inversion Hl; subst; unfold size_ok; cbn; repeat split; lia.
Qed.

(** The property for Eigenvalues without the condition. *)
Definition C50_always : Prop := forall num_eig which shapes data, C50_inputs C50_eigh num_eig which shapes data ->
  exists t r, eigenvalues_shape num_eig shapes = Ok t /\ eigenvalues_call 0%R C50_eigh num_eig which data = Ok r /\
    trel (fun s o => each (has_shape1 s) o) t r.
(** Dictionaries raise; lists announce a nested tuple. *)
Theorem C50_refuted : exists which shapes data, C50_inputs C50_eigh None which shapes data /\
  eigenvalues_shape None shapes = Err KeyError /\ exists r, eigenvalues_call 0%R C50_eigh None which data = Ok r.
Proof.
  exists "LA", (C50_shapes 2), C50_data. split; [exact C50_example_all|]. split; [reflexivity|]. eexists. reflexivity.
Qed.
Theorem C50_list_refuted : exists which shapes data t r, C50_inputs C50_eigh None which shapes data /\
  eigenvalues_shape None shapes = Ok t /\ eigenvalues_call 0%R C50_eigh None which data = Ok r /\ ~ trel (fun s o => each (has_shape1 s) o) t r.
Proof.
  exists "LA", (Lst [Leaf [3; 3]; Leaf [2; 2]]), (Lst [Leaf (mk_mats 3 [tt]); Leaf (mk_mats 2 [tt])]). eexists _, _. split.
  - split; [exact C50_eigh_ok|]. split; [exists (Largest, true); cbn; tauto|]. split.
    + repeat constructor.
    + intros s H. inversion H as [| |? ? ? Hin Hl|]; subst. destruct Hin as [ <- |[ <- |[]]]; inversion Hl; subst; unfold size_ok; cbn; repeat split; lia.
  - split; [reflexivity|]. split; [reflexivity|]. intros T. inversion T as [| |? ? F| |]; subst. inversion F as [|? ? ? ? T1 _]; subst. inversion T1.
Qed.
Theorem C50_always_refuted : ~ C50_always.
Proof. intros H. destruct C50_refuted as (w & s & d & Hi & E & _). destruct (H None w s d Hi) as (t & r & E2 & _). congruence. Qed.

Print Assumptions C49_selection.
Print Assumptions C49_all.
Print Assumptions C49_values.
Print Assumptions C49_invalid.
Print Assumptions C50_eigenvectors.
Print Assumptions C50_eigensystem.
Print Assumptions C50_eigenvalues_partial.
Print Assumptions C50_eigenvalues_dict.
Print Assumptions C50_always_refuted.
Print Assumptions C50_list_refuted.
