From Coq Require Import Permutation.
From Verif Require Import Base BaseLemmas TreeUtil TreeSpec NdArray NonSeqSpec NonSeqProofs SerialSpec SerialProofs ScalerProofs ReshapeProofs ReshapeMain TrainArgs TrainArgsProofs BatchProofs Shapes ShapesSpec ShapesProofs EinsumSpec EinsumProofs EinsumMain ScalerFileProofs Params ParamsProofs TreeEq TreeEqSpec.
Local Open Scope list_scope.

Lemma tmap_left {X Y} (f : X -> Y) (t : tree X) : trel (fun a x => a = f x) (tmap f t) t.
Proof. apply trel_flip. apply (trel_impl (fun x a => f x = a)); [congruence|]. apply trel_tmap, trel_refl. Qed.
Lemma trel_tmap2 {X Y X' Y'} (R : X' -> Y' -> Prop) (f : X -> X') (g : Y -> Y') t u : trel R (tmap f t) (tmap g u) <-> trel (fun x y => R (f x) (g y)) t u.
Proof.
  split; intros T.
  - apply trel_tmap in T. apply trel_flip in T. apply trel_tmap in T. apply trel_flip. exact T.
  - apply (trel_comp (fun a x => a = f x) (fun x b => R (f x) b) R _ t); [intros a x b ->; auto|apply tmap_left|].
    apply (trel_comp (fun x y => R (f x) (g y)) (fun y b => b = g y) (fun x b => R (f x) b) _ u); [intros x y b H ->; exact H|exact T|apply trel_flip, tmap_left].
Qed.
Lemma tmap_wf {X Y} (f : X -> Y) (t : tree X) : wf_tree t -> wf_tree (tmap f t).
Proof. intros W. eapply trel_wf; [apply trel_flip, tmap_left|exact W]. Qed.

Section Loop.
Context {V : Type} (eqb close : V -> V -> bool) (dv : V).
Notation lf := (lf (V := V)).
Lemma loop_spec (h : lf -> lf -> result bool) (R : lf -> lf -> Prop) l : forall m, (forall x y, In x l -> In y m -> h x y = Ok true <-> R x y) ->
  length l = length m -> loop h l m = Ok true <-> Forall2 R l m.
Proof.
  induction l as [|x l IH]; intros [|y m] H L; try discriminate; cbn [loop]; [split; [constructor|reflexivity]|]. injection L as L.
  assert (Hxy : h x y = Ok true <-> R x y) by (apply H; left; reflexivity). assert (IH' : loop h l m = Ok true <-> Forall2 R l m) by (apply IH; [|exact L]; intros a b Ha Hb; apply H; right; assumption). split.
  - intros E. apply rbind_ok in E as (b & Eb & E). destruct b; [|discriminate]. constructor; [apply Hxy; exact Eb|apply IH'; exact E].
  - intros F. inversion F as [|? ? ? ? F1 F2]; subst. apply Hxy in F1. rewrite F1. cbn [rbind]. apply IH'. exact F2.
Qed.
Lemma loop_total (h : lf -> lf -> result bool) l : forall m, (forall x y, In x l -> In y m -> exists b, h x y = Ok b) -> exists b, loop h l m = Ok b.
Proof.
  induction l as [|x l IH]; intros [|y m] H; cbn [loop]; eauto. destruct (H x y) as (b & ->); [left; reflexivity|left; reflexivity|]. cbn [rbind]. destruct b; [|eauto].
  apply IH. intros a b Ha Hb. apply H; right; assumption.
Qed.
Lemma walk_spec (h : lf -> lf -> result bool) (R : lf -> lf -> Prop) t u : wf_tree t -> wf_tree u -> (forall x y, has_leaf t x -> has_leaf u y -> h x y = Ok true <-> R x y) ->
  (if same_struct t u then loop h (leaves t) (leaves u) else Ok false) = Ok true <-> trel R t u.
Proof.
  intros W W' H. assert (H' : forall x y, In x (leaves t) -> In y (leaves u) -> h x y = Ok true <-> R x y) by (intros; apply H; apply leaves_has_leaf; assumption). split.
  - intros E. destruct (same_struct t u) eqn:Es; [|discriminate]. pose proof (struct_alike t W u Es) as T.
    apply trel_of_leaves; [exact W|exact T|]. apply (loop_spec h R); [exact H'| |exact E]. eapply F2_length, leaves_trel; [exact W|exact T].
  - intros T. assert (T' : trel (fun _ _ => True) t u) by (eapply trel_impl; [|exact T]; auto). rewrite (alike_struct t u W' T').
    pose proof (leaves_trel _ _ W _ T) as F. apply (loop_spec h R); [exact H'|eapply F2_length; exact F|exact F].
Qed.
Lemma walk_total (h : lf -> lf -> result bool) t u : (forall x y, has_leaf t x -> has_leaf u y -> exists b, h x y = Ok b) ->
  exists b, (if same_struct t u then loop h (leaves t) (leaves u) else Ok false) = Ok b.
Proof. intros H. destruct (same_struct t u); [|eauto]. apply loop_total. intros x y Hx Hy. apply H; apply leaves_has_leaf; assumption. Qed.

Lemma all2_spec f (l m : list V) : all2 f l m = true <-> Forall2 (fun x y => f x y = true) l m.
Proof.
  revert m. induction l as [|x l IH]; intros [|y m]; cbn; try (split; [discriminate|intros F; inversion F]); [split; [constructor|reflexivity]|].
  rewrite Bool.andb_true_iff, IH. split; [intros []; constructor; auto|intros F; inversion F; auto].
Qed.
Lemma list_eqb_spec l m : TrainArgs.list_eqb l m = true <-> l = m.
Proof. unfold TrainArgs.list_eqb. destruct (list_eq_dec Nat.eq_dec l m); split; auto; discriminate. Qed.
Lemma array_equal_spec (H : forall x y, eqb x y = true <-> x = y) a b : array_equal eqb a b = true <-> same_array a b.
Proof.
  unfold array_equal, same_array. rewrite Bool.andb_true_iff, list_eqb_spec, all2_spec. split; intros [H1 H2]; split; auto.
  - clear H1. induction H2 as [|x y l m Hx _ IH]; [reflexivity|]. f_equal; [apply H; exact Hx|exact IH].
  - rewrite H2. clear H2. induction (dat b) as [|x l IH]; [constructor|constructor; [apply H; reflexivity|exact IH]].
Qed.
End Loop.

(** Broadcasting of equal shapes. *)
Lemma allclose_spec {V} (close : V -> V -> bool) dv a b : wf_arr a -> wf_arr b -> shp a = shp b ->
  allclose close dv a b = Ok (all2 close (dat a) (dat b)).
Proof.
  intros Wa Wb E. unfold allclose. rewrite abin_same by assumption. cbn [rbind dat]. f_equal. unfold wf_arr in *. rewrite E in Wa. rewrite <- Wb in Wa. clear E Wb.
  revert Wa. generalize (dat a) (dat b). intros l. induction l as [|x l IH]; intros [|y m] L; try discriminate; [reflexivity|]. cbn. rewrite IH by (injection L as L; exact L). reflexivity.
Qed.

Lemma shape_enc s sh : Forall2 (trel eq) (map (fun n => Leaf (Other n)) s) (map (fun n => Leaf (Other n)) sh) <-> s = sh :> list nat.
Proof.
  split; [|intros ->; induction sh; constructor; auto; constructor; reflexivity].
  revert sh. induction s as [|n s IH]; intros [|m sh] F; inversion F as [|? ? ? ? T F']; subst; [reflexivity|]. f_equal; [inversion T; congruence|apply IH; exact F'].
Qed.
Lemma not_leaf (g : list nat -> list nat) (t : tree (list nat)) x : ~ trel eq (Leaf (Other x)) (tsub (fun s => jax_shape (g s)) t).
Proof. intros T. destruct t; cbn in T; inversion T. Qed.
Lemma not_leaf' (g : list nat -> list nat) (t : tree (list nat)) x : ~ trel eq (tsub (fun s => jax_shape (g s)) t) (Leaf (Other x)).
Proof. intros T. destruct t; cbn in T; inversion T. Qed.

Lemma shapes_trel s : forall X, trel (fun sh x => tl x = sh) s X -> trel eq (tsub jax_shape s) (shapes_1 X).
Proof.
  unfold shapes_1. assert (L : forall l, Forall (fun s => forall X, trel (fun sh x => tl x = sh) s X -> trel eq (tsub jax_shape s) (tsub (fun s => jax_shape (tl s)) X)) l ->
    forall m, Forall2 (trel (fun sh x => tl x = sh)) l m -> Forall2 (trel eq) (map (tsub jax_shape) l) (map (tsub (fun s => jax_shape (tl s))) m)).
  { clear s. induction 1 as [|t l Ht _ IH]; intros m F; inversion F; subst; cbn; constructor; auto. }
  induction s as [x| |d IH|l IH|l IH] using tree_ind2; intros X T; inversion T as [? y HR| |? m F|? m F|? e e' Pe F]; subst; cbn [tsub].
  - unfold jax_shape. apply tr_tup. apply shape_enc. reflexivity.
  - constructor.
  - apply tr_dict with (e' := map (fun kv => (fst kv, tsub (fun s => jax_shape (tl s)) (snd kv))) e'); [apply Permutation_map; exact Pe|].
    clear -IH F. revert e' F. induction IH as [|[k x] d Hx IH IHd]; intros e' F; inversion F as [|? [k2 y] ? e1 [Hk Hp] F1]; subst; cbn [map]; constructor; [|apply IHd; exact F1]. cbn [fst snd] in *. split; [exact Hk|apply Hx; exact Hp].
  - constructor. apply L; assumption.
  - constructor. apply L; assumption.
Qed.
Lemma perm_map_inv {A B} (f : A -> B) (l : list A) (m : list B) : Permutation m (map f l) -> exists l', Permutation l' l /\ m = map f l'.
Proof. intros H. destruct (Permutation_map_inv f l H) as (l' & -> & P). exists l'. split; [symmetry; exact P|reflexivity]. Qed.
Lemma trel_shapes s : no_unit s -> forall X, no_unit X -> trel eq (tsub jax_shape s) (shapes_1 X) -> trel (fun sh x => tl x = sh) s X.
Proof.
  unfold shapes_1. assert (L : forall l, Forall (fun s => no_unit s -> forall X, no_unit X -> trel eq (tsub jax_shape s) (tsub (fun s => jax_shape (tl s)) X) -> trel (fun sh x => tl x = sh) s X) l ->
    Forall no_unit l -> forall m, Forall no_unit m -> Forall2 (trel eq) (map (tsub jax_shape) l) (map (tsub (fun s => jax_shape (tl s))) m) -> Forall2 (trel (fun sh x => tl x = sh)) l m).
  { clear s. induction 1 as [|t l Ht _ IH]; intros Nl [|y m] Nm F; cbn in F; inversion F; subst; constructor; inversion Nl; inversion Nm; subst; auto. }
  induction s as [x| |d IH|l IH|l IH] using tree_ind2; intros N X NX T; cbn [tsub] in T.
  - destruct X as [y| |e|m|m]; cbn [tsub] in T; unfold jax_shape in T; try (inversion T; fail).
    + constructor. inversion T as [| | |? ? F|]; subst. apply shape_enc in F. congruence.
    + inversion T as [| | |? ? F|]; subst. exfalso. inversion NX as [| | |? Hm|]; subst. destruct m as [|y m]; [congruence|]. destruct x as [|n x]; cbn in F; inversion F as [|? ? ? ? T1]; subst. exact (not_leaf _ _ _ T1).
  - destruct X; cbn [tsub] in T; inversion T. constructor.
  - destruct X as [y| |e|m|m]; cbn [tsub] in T; unfold jax_shape in T; try (inversion T; fail). inversion T as [| | | |? ? e' Pe F]; subst.
    apply perm_map_inv in Pe as (e0 & Pe & ->). apply tr_dict with (e' := e0); [exact Pe|].
    assert (N1 : Forall (fun kv => no_unit (snd kv)) d) by (inversion N; assumption).
    assert (N2 : Forall (fun kv => no_unit (snd kv)) e0) by (inversion NX; subst; eapply Permutation_Forall; [symmetry; exact Pe|assumption]).
    clear -IH F N1 N2. revert e0 N2 F. induction IH as [|[k x] d Hx IH IHd]; intros [|[k2 y] e0] N2 F; cbn in F; inversion F as [|? ? ? ? [Hk Hp] F1]; subst; constructor.
    + cbn in *. split; [exact Hk|]. inversion N1; inversion N2; subst. auto.
    + inversion N1; inversion N2; subst. auto.
  - destruct X as [y| |e|m|m]; cbn [tsub] in T; unfold jax_shape in T; try (inversion T; fail). inversion T; subst. constructor. inversion N; inversion NX; subst. apply L; assumption.
  - destruct X as [y| |e|m|m]; cbn [tsub] in T; unfold jax_shape in T; try (inversion T; fail).
    + inversion T as [| | |? ? F|]; subst. exfalso. inversion N as [| | |? Hm|]; subst. destruct l as [|z l]; [congruence|]. destruct (tl y) as [|n r]; cbn in F; inversion F as [|? ? ? ? T1]; subst. exact (not_leaf' (fun s => s) _ _ T1).
    + inversion T; subst. constructor. inversion N; inversion NX; subst. apply L; assumption.
Qed.
Lemma tsub_others (g : list nat -> list nat) (t : tree (list nat)) x : has_leaf (tsub (fun s => jax_shape (g s)) t) x -> exists n, x = Other n.
Proof.
  intros H. apply leaves_has_leaf in H. rewrite leaves_sub in H. apply in_concat in H as (l & Hl & Hx). apply in_map_iff in Hl as (s & <- & _).
  unfold jax_shape in Hx. cbn [leaves] in Hx. rewrite map_map in Hx. cbn [leaves] in Hx. apply in_concat in Hx as (l & Hl & Hx). apply in_map_iff in Hl as (n & <- & _). destruct Hx as [<-|[]]. eauto.
Qed.
Lemma tsub_wf (g : list nat -> list nat) (t : tree (list nat)) : wf_tree t -> wf_tree (tsub (fun s => jax_shape (g s)) t).
Proof.
  assert (L : forall l, Forall (fun t => wf_tree t -> wf_tree (tsub (fun s => jax_shape (g s)) t)) l -> Forall wf_tree l -> Forall wf_tree (map (tsub (fun s => jax_shape (g s))) l)).
  { clear t. induction 1 as [|t l Ht _ IH]; intros F; cbn; constructor; inversion F; subst; auto. }
  induction t as [x| |d IH|l IH|l IH] using tree_ind2; intros W; cbn [tsub].
  - unfold jax_shape. constructor. apply Forall_forall. intros y Hy. apply in_map_iff in Hy as (n & <- & _). constructor.
  - constructor.
  - apply wf_dict_inv in W as [N W]. constructor; [unfold dkeys; rewrite map_map; exact N|]. clear N. induction IH as [|kv d Hx _ IHd]; cbn; constructor; inversion W; subst; cbn; auto.
  - constructor. apply L; [exact IH|apply wf_lst_inv; exact W].
  - constructor. apply L; [exact IH|apply wf_tup_inv; exact W].
Qed.
Theorem verify_spec s X : wf_tree s -> wf_tree X -> verify_input true s X = Ok tt <-> trel eq (tsub jax_shape s) (shapes_1 X).
Proof.
  intros Ws WX. unfold verify_input. pose proof (tsub_wf (fun s => s) s Ws) as W1. pose proof (tsub_wf (@tl nat) X WX) as W2.
  assert (D : forall x y, has_leaf (tsub jax_shape s) x -> has_leaf (shapes_1 X) y -> eq_leaf Nat.eqb 0 x y = Ok true <-> x = y).
  { intros x y Hx Hy. apply (tsub_others (fun s => s)) in Hx as (n & ->). apply (tsub_others (@tl nat)) in Hy as (m & ->). cbn. rewrite Bool.negb_involutive.
    split; [intros E; injection E as E; apply Nat.eqb_eq in E; congruence|intros E; injection E as ->; rewrite Nat.eqb_refl; reflexivity]. }
  assert (D' : forall x y, has_leaf (tsub jax_shape s) x -> has_leaf (shapes_1 X) y -> exists b, eq_leaf Nat.eqb 0 x y = Ok b).
  { intros x y Hx Hy. apply (tsub_others (fun s => s)) in Hx as (n & ->). apply (tsub_others (@tl nat)) in Hy as (m & ->). cbn. eauto. }
  pose proof (walk_spec (eq_leaf Nat.eqb 0) eq _ _ W1 W2 D) as WS. destruct (walk_total (eq_leaf Nat.eqb 0) _ _ D') as (b & Eb).
  unfold all_equal. change (tsub (fun s => jax_shape ((fun s => s) s)) s) with (tsub jax_shape s) in WS. change (tsub (fun s => jax_shape (tl s)) X) with (shapes_1 X) in WS.
  rewrite Eb in WS |- *. cbn [rbind]. destruct b; rewrite <- WS; split; auto; try discriminate.
Qed.
Lemma verify_other s X : wf_tree s -> wf_tree X -> ~ trel eq (tsub jax_shape s) (shapes_1 X) -> verify_input true s X = Err ValueError.
Proof.
  intros Ws WX N. destruct (verify_input true s X) as [[]|e] eqn:E; [exfalso; apply N; apply verify_spec; assumption|].
  unfold verify_input in E. destruct (walk_total (eq_leaf Nat.eqb 0) (tsub jax_shape s) (shapes_1 X)) as (b & Eb).
  - intros x y Hx Hy. apply (tsub_others (fun s => s)) in Hx as (n & ->). apply (tsub_others (@tl nat)) in Hy as (m & ->). cbn. eauto.
  - unfold all_equal in E. rewrite Eb in E. cbn [rbind] in E. destruct b; congruence.
Qed.
