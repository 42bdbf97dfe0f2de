(** C98, C99: the check of data, comparison of trees. *)
From Verif Require Import Base BaseLemmas TreeUtil TreeSpec NdArray NonSeqSpec NonSeqProofs SerialSpec ScalerProofs ReshapeProofs ReshapeMain TrainArgs TrainArgsProofs ShapesProofs EinsumSpec EinsumProofs Params ParamsProofs TreeEq TreeEqSpec TreeEqProofs.
Local Open Scope list_scope. Local Open Scope string_scope.

(* ================================================================== *)
(** * C98: a compiled model accepts exactly data of its shape *)
(** Data of the right structure and shapes are accepted. *)
Theorem C98_accepts s X : wf_tree s -> data_for s X -> verify_input true s X = Ok tt.
Proof.
  intros W (n & T). apply verify_spec; [exact W|eapply trel_wf; [exact T|exact W]|]. apply shapes_trel. eapply trel_impl; [|exact T]. cbn. intros sh x ->. reflexivity.
Qed.
(** Acceptance exactly (without empty tuples): the structure, and the shapes without the first axis. *)
Theorem C98_exact_partial s X : wf_tree s -> wf_tree X -> no_unit s -> no_unit X -> verify_input true s X = Ok tt <-> trel (fun sh x => tl x = sh) s X.
Proof.
  intros W W' N N'. rewrite verify_spec by assumption. split; [apply trel_shapes; assumption|apply shapes_trel].
Qed.
(** Everything else raises ValueError, and a model that is not ready RuntimeError. *)
Theorem C98_rejects s X : wf_tree s -> wf_tree X -> no_unit s -> no_unit X -> ~ trel (fun sh x => tl x = sh) s X -> verify_input true s X = Err ValueError.
Proof. intros W W' N N' H. apply verify_other; [assumption|assumption|]. intros T. apply H. apply trel_shapes; assumption. Qed.
Theorem C98_not_ready s X : verify_input false s X = Err RuntimeError.
Proof. reflexivity. Qed.
Definition accepted_data_fit_always : Prop := forall s X, wf_tree s -> wf_tree X -> verify_input true s X = Ok tt -> data_for s X.
(** Five samples of one array and four of the other; a number instead of an
    array; an empty tuple instead of an array. *)
Definition C98_shape : tree (list nat) := Dict [("a", Leaf [3]); ("b", Leaf [2; 2])].
Definition C98_uneven : tree (list nat) := Dict [("a", Leaf [5; 3]); ("b", Leaf [4; 2; 2])].
Lemma C98_uneven_wf : wf_tree C98_shape /\ wf_tree C98_uneven.
Proof. split; constructor; repeat constructor; cbn; intuition discriminate. Qed.
Theorem C98_refuted : (verify_input true C98_shape C98_uneven = Ok tt /\ ~ data_for C98_shape C98_uneven) /\
  (verify_input true (Leaf []) (Leaf []) = Ok tt /\ ~ data_for (Leaf []) (Leaf [])) /\
  (verify_input true (Leaf []) (Tup []) = Ok tt /\ ~ data_for (Leaf []) (Tup [])) /\ ~ accepted_data_fit_always.
Proof.
  assert (A : verify_input true C98_shape C98_uneven = Ok tt) by reflexivity.
  assert (B : ~ data_for C98_shape C98_uneven).
  { intros (n & T). pose proof (leaves_trel _ _ (proj1 C98_uneven_wf) _ T) as F. cbn in F. inversion F as [|? ? ? ? H1 F1]; subst. inversion F1 as [|? ? ? ? H2 _]; subst. congruence. }
  split; [split; assumption|]. split; [split; [reflexivity|intros (n & T); inversion T; discriminate]|]. split; [split; [reflexivity|intros (n & T); inversion T]|].
  intros H. apply B. apply H; [apply C98_uneven_wf|apply C98_uneven_wf|exact A].
Qed.
Example C98_ex : data_for C98_shape (Dict [("b", Leaf [5; 2; 2]); ("a", Leaf [5; 3])]) /\
  verify_input true C98_shape (Dict [("b", Leaf [5; 2; 2]); ("a", Leaf [5; 3])]) = Ok tt /\ no_unit C98_shape /\
  verify_input true C98_shape (Dict [("b", Leaf [5; 2]); ("a", Leaf [5; 3])]) = Err ValueError /\
  verify_input true C98_shape (Lst [Leaf [5; 3]; Leaf [5; 2; 2]]) = Err ValueError.
Proof.
  split; [|split; [reflexivity|split; [repeat constructor|split; reflexivity]]].
  exists 5. apply tr_dict with (e' := [("a", Leaf [5; 3]); ("b", Leaf [5; 2; 2])]); [constructor|repeat constructor].
Qed.

(* ================================================================== *)
(** * C99: comparing trees *)
Section C99.
Context {V : Type} (eqb close : V -> V -> bool) (dv : V).
Hypothesis eqb_spec : forall x y, eqb x y = true <-> x = y.
(** For trees of arrays of jax, and for trees of other values, [all_equal]
    answers, and the answer is right. *)
Theorem C99_equal_arrays_partial (t u : tree (arr V)) : wf_tree t -> wf_tree u ->
  (exists b, all_equal eqb dv (tmap JaxArr t) (tmap JaxArr u) = Ok b) /\
  (all_equal eqb dv (tmap JaxArr t) (tmap JaxArr u) = Ok true <-> trel same_array t u).
Proof.
  intros W W'. assert (L : forall (t : tree (arr V)) x, has_leaf (tmap JaxArr t) x -> exists a, x = JaxArr a).
  { intros t0 x H. destruct (trel_leafless _ _ _ _ (tmap_left JaxArr t0) H) as (a & _ & ->). eauto. }
  split.
  - apply walk_total. intros x y Hx Hy. apply L in Hx as (a & ->). apply L in Hy as (b & ->). cbn. eauto.
  - unfold all_equal. rewrite (walk_spec (eq_leaf eqb dv) (fun x y => match x, y with JaxArr a, JaxArr b => same_array a b | _, _ => False end)); [|apply tmap_wf; exact W|apply tmap_wf; exact W'|].
    + rewrite trel_tmap2. reflexivity.
    + intros x y Hx Hy. apply L in Hx as (a & ->). apply L in Hy as (b & ->). cbn. rewrite <- (array_equal_spec eqb eqb_spec). split; congruence.
Qed.
Theorem C99_equal_values (t u : tree V) : wf_tree t -> wf_tree u ->
  (exists b, all_equal eqb dv (tmap Other t) (tmap Other u) = Ok b) /\ (all_equal eqb dv (tmap Other t) (tmap Other u) = Ok true <-> trel eq t u).
Proof.
  intros W W'. assert (L : forall (t : tree V) x, has_leaf (tmap Other t) x -> exists a, x = Other a).
  { intros t0 x H. destruct (trel_leafless _ _ _ _ (tmap_left Other t0) H) as (a & _ & ->). eauto. }
  split.
  - apply walk_total. intros x y Hx Hy. apply L in Hx as (a & ->). apply L in Hy as (b & ->). cbn. eauto.
  - unfold all_equal. rewrite (walk_spec (eq_leaf eqb dv) eq); [|apply tmap_wf; exact W|apply tmap_wf; exact W'|].
    + rewrite trel_tmap2. split; intros T; (eapply trel_impl; [|exact T]); cbn; intros x y E; congruence.
    + intros x y Hx Hy. apply L in Hx as (a & ->). apply L in Hy as (b & ->). cbn. rewrite Bool.negb_involutive. split; intros E; injection E as E; [apply eqb_spec in E|apply (proj2 (eqb_spec a b)) in E]; congruence.
Qed.
(** [all_close] is right when the shapes agree. *)
Theorem C99_close_arrays_partial (t u : tree (arr V)) : wf_tree t -> wf_tree u -> trel (fun a b => wf_arr a /\ wf_arr b /\ shp a = shp b) t u ->
  (exists b, all_close eqb close dv (tmap JaxArr t) (tmap JaxArr u) = Ok b) /\ (all_close eqb close dv (tmap JaxArr t) (tmap JaxArr u) = Ok true <-> trel (close_arrays close) t u).
Proof.
  intros W W' T. assert (LV : forall t : tree (arr V), wf_tree t -> leaves (tmap JaxArr t) = map JaxArr (leaves t)).
  { intros t0 W0. pose proof (leaves_trel _ _ (tmap_wf JaxArr t0 W0) _ (tmap_left JaxArr t0)) as F. induction F as [|x y l m E _ IH]; [reflexivity|]. cbn. rewrite E, IH. reflexivity. }
  unfold all_close. rewrite alike_struct; [|apply tmap_wf; exact W'|]. 2:{ unfold alike. apply trel_tmap2. eapply trel_impl; [|exact T]. auto. }
  rewrite !LV by assumption. pose proof (leaves_trel _ _ W _ T) as F.
  assert (G : exists b, loop (close_leaf eqb close dv) (map JaxArr (leaves t)) (map JaxArr (leaves u)) = Ok b /\ (b = true <-> Forall2 (close_arrays close) (leaves t) (leaves u))).
  { induction F as [|x y l m (Wx & Wy & E) F (b & Eb & Hb)]; [exists true; split; [reflexivity|]; split; [constructor|reflexivity]|]. cbn [map loop close_leaf].
    rewrite allclose_spec by assumption. cbn [rbind]. destruct (all2 close (dat x) (dat y)) eqn:Ea.
    - exists b. split; [exact Eb|]. rewrite Hb. apply all2_spec in Ea. split; [intros F'; constructor; [split; assumption|exact F']|intros F'; inversion F'; assumption].
    - exists false. split; [reflexivity|]. split; [discriminate|]. intros F'. inversion F' as [|? ? ? ? [_ C] _]; subst. apply all2_spec in C. congruence. }
  destruct G as (b & Eb & Hb). split; [eauto|]. rewrite Eb. split.
  - intros E. injection E as ->. apply trel_of_leaves; [exact W|eapply trel_impl; [|exact T]; auto|apply Hb; reflexivity].
  - intros C. f_equal. apply Hb. eapply leaves_trel; [exact W|exact C].
Qed.
(** Trees of different structure are never close. *)
Theorem C99_close_structure (t u : tree (lf (V := V))) : same_struct t u = false -> all_close eqb close dv t u = Ok false.
Proof. unfold all_close. intros ->. reflexivity. Qed.
End C99.

Definition close_means_same_shape_always : Prop :=
  forall V (eqb close : V -> V -> bool) dv (a b : arr V), wf_arr a -> wf_arr b -> (forall x y, eqb x y = true <-> x = y) ->
  exists r, all_close eqb close dv (Leaf (JaxArr a)) (Leaf (JaxArr b)) = Ok r /\ (r = true -> shp a = shp b).
Definition equal_answers_always : Prop :=
  forall V (eqb : V -> V -> bool) dv (t u : tree (lf (V := V))), (forall x y, eqb x y = true <-> x = y) -> exists r, all_equal eqb dv t u = Ok r.
Definition near (x y : nat) : bool := Nat.leb (x - y) 1 && Nat.leb (y - x) 1.
(** Arrays of different shapes are close, others raise an exception instead
    of being different; numbers that are not arrays must be exactly equal;
    equal arrays of numpy raise an exception. *)
Theorem C99_refuted :
  all_close Nat.eqb near 0 (Leaf (JaxArr (mk_arr [3] [7; 7; 7]))) (Leaf (JaxArr (mk_arr [1] [7]))) = Ok true /\
  all_close Nat.eqb near 0 (Leaf (JaxArr (mk_arr [3] [7; 7; 7]))) (Leaf (JaxArr (mk_arr [2] [7; 7]))) = Err TypeError /\
  all_close Nat.eqb near 0 (Leaf (Other 7)) (Leaf (Other 8)) = Ok false /\
  all_equal Nat.eqb 0 (Leaf (NpArr (mk_arr [2] [7; 7]))) (Leaf (NpArr (mk_arr [2] [7; 7]))) = Err ValueError /\
  ~ close_means_same_shape_always /\ ~ equal_answers_always.
Proof.
  split; [reflexivity|]. split; [reflexivity|]. split; [reflexivity|]. split; [reflexivity|]. split.
  - intros H. destruct (H nat Nat.eqb near 0 (mk_arr [3] [7; 7; 7]) (mk_arr [1] [7]) eq_refl eq_refl Nat.eqb_eq) as (r & E & Hr).
    assert (r = true) as -> by (cbn in E; congruence). specialize (Hr eq_refl). discriminate.
  - intros H. destruct (H nat Nat.eqb 0 (Leaf (NpArr (mk_arr [2] [7; 7]))) (Leaf (NpArr (mk_arr [2] [7; 7]))) Nat.eqb_eq) as (r & E). discriminate.
Qed.
Definition C99_t : tree (arr nat) := Dict [("a", Leaf (mk_arr [2] [4; 6])); ("b", Lst [Leaf (mk_arr [] [1]); NoneT])].
Definition C99_u : tree (arr nat) := Dict [("b", Lst [Leaf (mk_arr [] [2]); NoneT]); ("a", Leaf (mk_arr [2] [4; 7]))].
Example C99_ex : all_equal Nat.eqb 0 (tmap JaxArr C99_t) (tmap JaxArr C99_t) = Ok true /\ all_equal Nat.eqb 0 (tmap JaxArr C99_t) (tmap JaxArr C99_u) = Ok false /\
  all_close Nat.eqb near 0 (tmap JaxArr C99_t) (tmap JaxArr C99_u) = Ok true /\ trel (fun a b => wf_arr a /\ wf_arr b /\ shp a = shp b) C99_t C99_u /\ wf_tree C99_t /\ wf_tree C99_u.
Proof.
  split; [reflexivity|]. split; [reflexivity|]. split; [reflexivity|]. split; [|split; constructor; repeat constructor; cbn; intuition discriminate].
  apply tr_dict with (e' := [("a", Leaf (mk_arr [2] [4; 7])); ("b", Lst [Leaf (mk_arr [] [2]); NoneT])]); [constructor|]. repeat constructor.
Qed.

Print Assumptions C98_accepts.
Print Assumptions C98_exact_partial.
Print Assumptions C98_rejects.
Print Assumptions C98_refuted.
(** [any] is true exactly if some leaf is. *)
Theorem C99_any (V : Type) (truth : V -> bool) (t : tree V) : any truth t = true <-> exists x, has_leaf t x /\ truth x = true.
Proof.
  unfold any. rewrite existsb_exists. split; intros (x & H1 & H2); exists x; (split; [apply leaves_has_leaf; exact H1|exact H2]).
Qed.
Example C99_any_ex : any Nat.even (Dict [("a", Leaf 3); ("b", Lst [NoneT; Leaf 5; Leaf 4])]) = true /\ any Nat.even (Tup [Leaf 1; Lst []]) = false.
Proof. split; reflexivity. Qed.
Print Assumptions C99_any.
Print Assumptions C99_equal_arrays_partial.
Print Assumptions C99_equal_values.
Print Assumptions C99_close_arrays_partial.
Print Assumptions C99_refuted.
