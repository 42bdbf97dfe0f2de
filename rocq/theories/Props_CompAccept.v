(** C111: when the composite modules can be compiled. *)
From Verif Require Import Base TreeUtil Serial Modules Eigen Composite CompAcceptSpec CompAccept.
Local Open Scope string_scope.
Local Open Scope list_scope.
Local Open Scope nat_scope.

(** For a bare array, compile succeeds exactly if the data has one axis and the
    arguments suit its length, whatever was compiled before and with whatever
    outcome (random arrays have the shape asked for). *)
Theorem C111_accepted_iff : forall (herm : arr -> bool) (a : pmm_args) h draw s,
  Forall (fun dt => forall i sh, a_shape (fst dt i sh) = sh) h ->
  snd (compile herm draw (compiles herm (new a) h) (Leaf s)) = Ok tt <-> exists d, s = [d] /\ suits herm a d.
Proof. exact accepted_iff. Qed.

Definition C111_draw (i : nat) (s : list nat) : arr := mk_arr (100 + i) s true.
Definition C111_yes (_ : arr) := true.
(** Size from the matrices; two features and the bias term; a rule in mixed case. *)
Definition C111_obs : obs_args :=
  mk_obs SNone (Some 2) (Some "eA") None true None (Some 3) true true false (Some (mk_arr 10 [3; 4; 4] false)) (Some (mk_arr 11 [3; 5; 4; 4] false)) None 0.
Example C111_example_suits : suits C111_yes (AObs C111_obs) 2.
Proof.
  exists 4. split; [split; [reflexivity|discriminate]|]. split; [intros m [= <-]; split; reflexivity|]. split; [intros k [= <-]; lia|]. split.
  - intros w [= <-]. exists "ea". split; [cbn; tauto|]. constructor; [left; reflexivity|]. constructor; [right; split; [vm_compute; lia|reflexivity]|constructor].
  - split; [reflexivity|]. exists 3, 5. split; [reflexivity|]. split; [discriminate|intros x [= <-]; reflexivity].
Qed.
Example C111_example : snd (compile C111_yes C111_draw (compiles C111_yes (new (AObs C111_obs)) [(C111_draw, Leaf [7]); (C111_draw, Leaf [2; 2])]) (Leaf [2])) = Ok tt /\
  snd (compile C111_yes C111_draw (new (AObs C111_obs)) (Leaf [7])) = Err RuntimeError.
Proof. vm_compute. split; reflexivity. Qed.

(** For a single array inside a container this is false: with all eigenvalues, an
    AffineEigenvaluePMM cannot be compiled for a dictionary. *)
Definition C111_tree_always : Prop := forall (a : pmm_args) t d,
  leaves t = [[d]] -> suits C111_yes a d -> snd (compile C111_yes C111_draw (new a) t) = Ok tt.
Theorem C111_tree_refuted : ~ C111_tree_always.
Proof.
  intros H. specialize (H (AEig (mk_eig (SInt 2) None "SA" None None 0 true)) (Dict [("x", Leaf [2])]) 2 eq_refl).
  assert (S : suits C111_yes (AEig (mk_eig (SInt 2) None "SA" None None 0 true)) 2).
  { exists 2. split; [split; [reflexivity|cbn; lia]|]. split; [intros m; discriminate|]. split; [intros k; discriminate|]. apply rule_sa. }
  specialize (H S). vm_compute in H. discriminate.
Qed.
(** The size is taken from the matrices by AffineObservablePMM, but not by
    AffineEigenvaluePMM. *)
Theorem C111_size_needed : forall (herm : arr -> bool) a h draw t, e_size a = SNone -> snd (compile herm draw (compiles herm (new (AEig a)) h) t) <> Ok tt.
Proof.
  intros herm a h draw t Hs.
  assert (G : forall h m, c_args m = AEig a -> c_args (compiles herm m h) = AEig a).
  { clear h. induction h as [|[d u] h IH]; intros m Hm; [exact Hm|]. unfold compiles in *. cbn [fold_left fst snd]. apply IH. unfold compile. destruct (single_leaf u); [|exact Hm]. rewrite Hm. unfold has_size. rewrite Hs. exact Hm. }
  unfold compile. destruct (single_leaf t); [|discriminate]. rewrite G by reflexivity. unfold has_size. rewrite Hs. discriminate.
Qed.
Example C111_size_example : let a := mk_eig SNone (Some 1) "SA" None (Some (mk_arr 10 [3; 4; 4] false)) 0 true in
  e_size a = SNone /\ snd (compile C111_yes C111_draw (new (AEig a)) (Leaf [2])) = Err ValueError.
Proof. vm_compute. split; reflexivity. Qed.

Print Assumptions C111_accepted_iff.
Print Assumptions C111_tree_refuted.
Print Assumptions C111_size_needed.
