(** Rejected targets, selection of subtrees and concatenation. *)
From Coq Require Import ZArith Permutation Sorting.Sorted.
From Verif Require Import Base BaseLemmas TreeUtil TreeSpec TreeProofs MutableProofs NonSeqSpec NonSeqProofs NdArray Serial SerialSpec SerialProofs Scaler ScalerProofs EigenProofs TrainArgsProofs Reshape ReshapeSpec ReshapeProofs.
Local Open Scope list_scope.
Local Open Scope nat_scope.

(* ------------------------------------------------------------------ *)
(** * Related trees *)
Lemma trel_wf {X Y} (R : X -> Y -> Prop) t : forall u, trel R t u -> wf_tree t -> wf_tree u.
Proof.
  assert (L : forall l, Forall (fun t => forall u, trel R t u -> wf_tree t -> wf_tree u) l -> forall m, Forall2 (trel R) l m -> Forall wf_tree l -> Forall wf_tree m).
  { clear t. induction 1 as [|t l Ht _ IH]; intros m F W; inversion F; subst; constructor; inversion W; subst; eauto. }
  induction t as [x| |d IH|l IH|l IH] using tree_ind2; intros u T W; inversion T as [? y HR| |? m F|? m F|? e e' Pe F]; subst; inversion W as [| |? ND WF|? WF|? WF]; subst; try (constructor; eauto; fail).
  assert (K : dkeys d = dkeys e'). { clear -F. unfold dkeys. induction F as [|a b d e [E _] F IH]; cbn; congruence. }
  constructor.
  - eapply Permutation_NoDup; [apply Permutation_map; exact Pe|]. fold (dkeys e'). rewrite <- K. exact ND.
  - apply Forall_forall. intros b Hb. apply (Permutation_in _ (Permutation_sym Pe)) in Hb. clear -IH WF F Hb.
    induction F as [|a b' d e [E HT] F IHF]; [destruct Hb|]. inversion IH; subst. inversion WF; subst. destruct Hb as [ <- |Hb]; eauto.
Qed.
Lemma trel_keys {X Y} (R : tree X -> tree Y -> Prop) d e : Forall2 (fun a b => fst a = fst b /\ R (snd a) (snd b)) d e -> dkeys d = dkeys e.
Proof. unfold dkeys. induction 1 as [|a b d e [E _] F IH]; cbn; congruence. Qed.
Lemma trel_solid {X Y} (R : X -> Y -> Prop) t : forall u, trel R t u -> solid t -> solid u.
Proof.
  assert (L : forall l, Forall (fun t => forall u, trel R t u -> solid t -> solid u) l -> forall m, Forall2 (trel R) l m -> (forall t, In t l -> solid t) -> forall u, In u m -> solid u).
  { clear t. induction 1 as [|t l Ht _ IH]; intros m F S u Hu; inversion F; subst; [destruct Hu|]. destruct Hu as [ <- |Hu]; [eapply Ht; eauto; apply S; left; reflexivity|].
    eapply IH; eauto. intros t' Ht'. apply S. right; exact Ht'. }
  induction t as [x| |d IH|l IH|l IH] using tree_ind2; intros u T S; inversion T as [? y HR| |? m F|? m F|? e e' Pe F]; subst; inversion S as [|? H|? H|? N H]; subst.
  - constructor.
  - constructor. intros k u Hu. apply (Permutation_in _ (Permutation_sym Pe)) in Hu. clear -IH H F Hu.
    induction F as [|[k0 t0] b' d e [E HT] F IHF]; [destruct Hu|]. inversion IH; subst. destruct Hu as [ -> |Hu]; [|apply IHF; auto; intros k1 t1 H1; apply (H k1); right; exact H1].
    cbn in *. eapply H2; [exact HT|]. apply (H k0). left; reflexivity.
  - constructor. eauto.
  - constructor; [|eauto]. intros ->. inversion F; subst. contradiction.
Qed.

Lemma sorted_unique {V} (d e : list (string * V)) : StronglySorted kv_le d -> StronglySorted kv_le e -> NoDup (dkeys d) -> Permutation d e -> d = e.
Proof.
  intros S. revert e. induction S as [|a d S IH H]; intros e Se N P; [apply Permutation_nil in P; auto|].
  destruct e as [|b e]; [symmetry in P; apply Permutation_nil in P; discriminate|]. inversion Se as [|? ? Se' He]; subst. inversion N as [|? ? N1 N2]; subst.
  assert (E : a = b).
  { assert (Ha : In a (b :: e)) by (eapply Permutation_in; [exact P|left; reflexivity]). assert (Hb : In b (a :: d)) by (eapply Permutation_in; [symmetry; exact P|left; reflexivity]).
    destruct Ha as [ -> |Ha]; [reflexivity|]. destruct Hb as [ -> |Hb]; [reflexivity|].
    rewrite Forall_forall in H, He. pose proof (H _ Hb) as H1. pose proof (He _ Ha) as H2. unfold kv_le in *. pose proof (str_leb_antisym _ _ H1 H2) as K.
    exfalso. apply N1. unfold dkeys in *. cbn. rewrite K. apply in_map. exact Hb. }
  subst b. f_equal. apply IH; auto. apply Permutation_cons_inv with a. exact P.
Qed.
Lemma sort_perm_eq {V} (d e : list (string * V)) : Permutation d e -> NoDup (dkeys d) -> sort_kvs d = sort_kvs e.
Proof.
  intros P N. apply sorted_unique; try apply sort_kvs_sorted.
  - eapply Permutation_NoDup; [|exact N]. apply Permutation_map. symmetry. apply sort_kvs_perm.
  - rewrite sort_kvs_perm, P. symmetry. apply sort_kvs_perm.
Qed.
Lemma F2_concat {X Y} (R : X -> Y -> Prop) l m : Forall2 (Forall2 R) l m -> Forall2 R (concat l) (concat m).
Proof. induction 1; cbn; [constructor|]. apply Forall2_app; assumption. Qed.

Lemma leaves_trel {X Y} (R : X -> Y -> Prop) t : wf_tree t -> forall u, trel R t u -> Forall2 R (leaves t) (leaves u).
Proof.
  assert (L : forall l, Forall (fun t => wf_tree t -> forall u, trel R t u -> Forall2 R (leaves t) (leaves u)) l -> Forall wf_tree l -> forall m, Forall2 (trel R) l m -> Forall2 R (concat (map leaves l)) (concat (map leaves m))).
  { clear t. intros l H W m F. apply F2_concat. revert m F. induction H as [|t l Ht _ IH]; intros m F; inversion F; subst; cbn; constructor; inversion W; subst; auto. }
  induction t as [x| |d IH|l IH|l IH] using tree_ind2; intros W u T; inversion T as [? y HR| |? m F|? m F|? e e' Pe F]; subst; inversion W as [| |? ND WF|? WF|? WF]; subst; cbn [leaves]; auto.
  - pose proof (trel_keys _ _ _ F) as K.
    rewrite <- (sort_perm_eq (map (fun kv => (fst kv, leaves (snd kv))) e') (map (fun kv => (fst kv, leaves (snd kv))) e)).
    + apply F2_concat.
      assert (G : Forall2 (krel (Forall2 R)) (sort_kvs (map (fun kv => (fst kv, leaves (snd kv))) d)) (sort_kvs (map (fun kv => (fst kv, leaves (snd kv))) e'))).
      { apply F2_sort. clear -IH WF F. induction F as [|a b d e [E HT] F IHF]; cbn; constructor; inversion IH; subst; inversion WF; subst; auto. split; cbn; auto. }
      clear -G. induction G as [|a b l m [_ H] G IHG]; cbn; constructor; auto.
    + apply Permutation_map. exact Pe.
    + replace (dkeys (map (fun kv => (fst kv, leaves (snd kv))) e')) with (dkeys d); [exact ND|]. rewrite K. unfold dkeys. rewrite map_map. reflexivity.
Qed.

(** A zip that succeeds had trees of the same form. *)
Lemma tzip_inv {X Y Z} (f : X -> Y -> result Z) t : wf_tree t -> forall u v, wf_tree u -> tzipM f t u = Ok v -> trel (fun x y => exists z, f x y = Ok z) t u.
Proof.
  assert (L : forall l, Forall (fun t => wf_tree t -> forall u v, wf_tree u -> tzipM f t u = Ok v -> trel (fun x y => exists z, f x y = Ok z) t u) l ->
    Forall wf_tree l -> forall m v, Forall wf_tree m -> tz_list f l m = Ok v -> Forall2 (trel (fun x y => exists z, f x y = Ok z)) l m).
  { clear t. induction 1 as [|t l Ht _ IH]; intros W m v Wm E; destruct m as [|u m]; cbn in E; try discriminate; [constructor|].
    apply rbind_ok in E as (z & E1 & E2). apply rbind_ok in E2 as (r & E2 & _). inversion W; subst. inversion Wm; subst. constructor; eauto. }
  induction t as [x| |d IH|l IH|l IH] using tree_ind2; intros W u v Wu E; destruct u as [y| |e|m|m]; try discriminate; inversion W as [| |? ND WF|? WF|? WF]; subst; inversion Wu as [| |? NDe WFe|? WFe|? WFe]; subst.
  - cbn in E. apply rbind_ok in E as (z & E1 & _). constructor. eauto.
  - constructor.
  - rewrite tzipM_dct in E. destruct (Nat.eqb_spec (length d) (length e)) as [Len|]; [|discriminate]. apply rbind_ok in E as (r & E & _).
    assert (G : exists e', Forall2 (fun a b => fst a = fst b /\ trel (fun x y => exists z, f x y = Ok z) (snd a) (snd b)) d e' /\ incl e' e).
    { clear -IH WF WFe E. revert r E. induction d as [|[k t] d IHd]; intros r E; [exists []; split; [constructor|intros x []]|].
      cbn in E. destruct (dget e k) as [y|] eqn:G; [|discriminate]. apply rbind_ok in E as (z & E1 & E2). apply rbind_ok in E2 as (r' & E2 & _).
      inversion IH; subst. inversion WF; subst. destruct (IHd H2 H4 r' E2) as (e' & F & I). apply dget_In in G. exists ((k, y) :: e'). split.
      - constructor; [|exact F]. split; [reflexivity|]. cbn. cbn in H1. eapply H1; [assumption| |exact E1]. rewrite Forall_forall in WFe. exact (WFe _ G).
      - intros x [ <- |Hx]; auto. }
    destruct G as (e' & F & I). eapply tr_dict; [|exact F]. pose proof (trel_keys _ _ _ F) as K. apply NoDup_Permutation_bis; [|rewrite <- Len, (F2_length _ _ _ F); lia|exact I].
    apply (NoDup_map_inv fst). fold (dkeys e'). rewrite <- K. exact ND.
  - rewrite tzipM_lst in E. apply rbind_ok in E as (r & E & _). constructor. eauto.
  - rewrite tzipM_tup in E. apply rbind_ok in E as (r & E & _). constructor. eauto.
Qed.
Lemma jzip_inv {X Y Z} (f : X -> Y -> result Z) t u v : wf_tree t -> wf_tree u -> jzipM f t u = Ok v -> trel (fun x y => exists z, f x y = Ok z) t u.
Proof. intros W1 W2 E. unfold jzipM in E. apply rbind_ok in E as (r & E & _). eapply tzip_inv; eauto. Qed.

Lemma trel_leaf_prop {X Y} (R : X -> Y -> Prop) (Q : X -> Prop) t u : (forall x, has_leaf t x -> Q x) -> trel R t u -> trel (fun x y => R x y /\ Q x) t u.
Proof.
  intros HQ T1. assert (RQ : trel (fun x y => x = y /\ Q x) t t).
  { destruct (jm_trel (fun y => Ok y) eq (fun x y => x = y /\ Q x) t) with (u := t) as (v & E & TV); [|apply trel_refl|].
    - intros x y Hx <-. exists x. auto.
    - eapply (trel_comp (fun x y => x = y /\ Q x) (fun y x => y = x) (fun x y => x = y /\ Q x)); [|exact TV|].
      + intros x y z [ -> H] <-. auto.
      + apply (trel_flip (fun x y => y = x)). eapply trel_impl; [|exact TV]. cbn. intros x y [E1 _]. symmetry. exact E1. }
  eapply trel_comp; [|exact RQ|exact T1]. cbn. intros x y z [ -> H] H2. auto.
Qed.

(* ------------------------------------------------------------------ *)
(** * Rejected targets *)

Lemma trel_leafless {X Y} (R : X -> Y -> Prop) t u x : trel R t u -> has_leaf t x -> exists y, has_leaf u y /\ R x y.
Proof. intros T H. eapply map_has_leaf; eauto. Qed.

Lemma box_leaf {A} (t : tree A) x : has_leaf t x -> (if all_ints t then Tup [t] else t) = boxed t.
Proof. intros H. destruct t as [a| |[|kv d]|[|y l]|[|y l]]; try reflexivity; exfalso; inversion H; subst; match goal with I : In _ [] |- _ => destruct I end. Qed.
Lemma box_target (t : target) x : has_leaf t x -> t <> Leaf None -> (if target_ints t then Tup [t] else t) = boxed t.
Proof.
  intros H N. destruct t as [[a|]| |[|kv d]|[|y l]|[|y l]]; try reflexivity; try (exfalso; inversion H; subst; match goal with I : In _ [] |- _ => destruct I end; fail).
  contradiction.
Qed.

Theorem shape_rejects shapes (T : target) A s0 :
  wf_tree shapes -> solid shapes -> has_leaf shapes s0 -> wf_tree T -> T <> Leaf None ->
  (forall l, has_leaf T (Some l) -> sizes_only l) ->
  reshape_shape (Some T) shapes = Ok A -> trel possible (boxed shapes) (boxed T).
Proof.
  intros W S L0 WT NT HS E. destruct (solid_none shapes S) as [S1 S2]. unfold reshape_shape, validate_and_concretify_shape in E.
  set (i := mark [] (if all_ints shapes then Tup [shapes] else shapes)) in E. set (s := if target_ints T then Tup [T] else T) in E.
  assert (E' : exists v, jzipM check_leaf i s = Ok v).
  { destruct shapes; try (exfalso; apply S2; reflexivity); rewrite S1 in E; destruct (tzipM (fun _ _ => Ok tt) i s); try discriminate; apply rbind_ok in E as (v & E & _); eauto. }
  clear E. destruct E' as (v & E). unfold i in E. rewrite (box_leaf shapes s0 L0) in E.
  assert (Sb : solid (boxed shapes)). { destruct shapes; try exact S. constructor; [discriminate|]. intros t [ <- |[]]. exact S. }
  assert (Wb : wf_tree (boxed shapes)). { destruct shapes; try exact W. constructor. constructor; [exact W|constructor]. }
  assert (Ws : wf_tree s). { unfold s. destruct (target_ints T); [constructor; constructor; [exact WT|constructor]|exact WT]. }
  pose proof (mark_solid (@nil nat) (boxed shapes) Sb) as M. pose proof (trel_wf _ _ _ M Wb) as Wm.
  pose proof (jzip_inv _ _ _ _ Wm Ws E) as Z. 
  assert (Lb : has_leaf (boxed shapes) s0). { destruct shapes; try exact L0. apply (hl_tup _ (Leaf a)); [left; reflexivity|exact L0]. }
  assert (T1 : trel (fun x t => exists z, check_leaf (Some x) t = Ok z) (boxed shapes) s).
  { eapply trel_comp; [|exact M|exact Z]. cbn. intros x y t -> H. exact H. }
  assert (Es : s = boxed T).
  { destruct (trel_leafless _ _ _ _ T1 Lb) as (t & Ht & _). assert (exists t, has_leaf T t) as (t' & Ht').
    { unfold s in Ht. destruct (target_ints T); [|eauto]. inversion Ht as [| | |? u ? Hin Hu]; subst. destruct Hin as [ <- |[]]. eauto. }
    apply (box_target T t' Ht' NT). }
  rewrite Es in T1.
  assert (HB : forall l, has_leaf (boxed T) (Some l) -> sizes_only l).
  { intros l Hl. apply HS. destruct T; try exact Hl. inversion Hl as [| | |? u ? Hin Hu]; subst. destruct Hin as [ <- |[]]. exact Hu. }
  (* keep the leaves *)
  assert (T2 : trel (fun x t => (exists z, check_leaf (Some x) t = Ok z) /\ has_leaf (boxed T) t) (boxed shapes) (boxed T)).
  { apply trel_flip. apply (trel_leaf_prop (fun t x => exists z, check_leaf (Some x) t = Ok z) (has_leaf (boxed T))); [auto|apply trel_flip; exact T1]. }
  eapply trel_impl; [|exact T2]. cbn. intros x [l|] [(z & Ez) Hl]; cbn [possible]; [|exact I]. apply (check_solution x l z); [apply HB; exact Hl|exact Ez].
Qed.

(* ------------------------------------------------------------------ *)
(** * Flatten *)
Lemma flat_fits s : s <> [] -> fits s (Some [(-1)%Z]).
Proof.
  intros H. exists [(-1)%Z], [prod s]. split; [reflexivity|]. split; [split; [repeat constructor|cbn; lia]|]. split.
  - intros [|i] [|j] Hi Hj; cbn in Hi, Hj; try reflexivity; try (destruct i; discriminate); destruct j; discriminate.
  - intros _. split; [exact H|]. intros [E|[]]. discriminate.
Qed.
Lemma tmap_trel {X Y} (f : X -> Y) t : trel (fun x y => y = f x) t (tmap f t).
Proof.
  induction t as [x| |d IH|l IH|l IH] using tree_ind2; cbn [tmap]; try (constructor; reflexivity).
  - eapply tr_dict; [reflexivity|]. induction IH; cbn; constructor; auto.
  - constructor. induction IH; cbn; constructor; auto.
  - constructor. induction IH; cbn; constructor; auto.
Qed.
Lemma flatten_fits shapes : solid shapes -> (forall s, has_leaf shapes s -> s <> []) -> (exists s, has_leaf shapes s) -> trel fits shapes (flatten_target shapes).
Proof.
  intros S H (s0 & L0). unfold flatten_target. destruct (all_ints shapes) eqn:A.
  - destruct shapes as [a| |[|kv d]|[|y l]|[|y l]]; try discriminate; try (exfalso; inversion L0; subst; match goal with I : In _ [] |- _ => destruct I end; fail).
    constructor. apply flat_fits, H. constructor.
  - eapply trel_comp; [|apply (trel_leaf_prop _ (fun s => s <> []) _ _ H (mark_solid (@nil nat) shapes S))|apply tmap_trel]. cbn. intros x y z [ -> N] ->. apply flat_fits. exact N.
Qed.
Theorem flatten_ok {V} b shapes (data : tree (arr V)) :
  1 <= b -> wf_tree shapes -> solid shapes -> (exists s, has_leaf shapes s) -> (forall s, has_leaf shapes s -> s <> []) -> trel (batch_of b) shapes data ->
  exists A out, flatten_shape shapes = Ok A /\ flatten_call shapes data = Ok out /\ trel (announced b) A out /\ trel same_entries data out /\
    trel (fun x y => shp y = [b; prod (skipn 1 (shp x))]) data out.
Proof.
  intros Hb W S L0 H D. unfold flatten_shape, flatten_call. pose proof (flatten_fits shapes S H L0) as F.
  destruct (reshape_ok b shapes _ data Hb W S F D) as (A & out & E1 & E2 & T1 & T2). exists A, out. repeat (split; [assumption|]).
  (* the call does it leaf by leaf *)
  assert (FT : trel (fun s t => t = Some [(-1)%Z] /\ s <> []) shapes (flatten_target shapes)).
  { unfold flatten_target. destruct L0 as (s0 & L0). destruct (all_ints shapes) eqn:AI.
    - destruct shapes as [a| |[|kv d]|[|y l]|[|y l]]; try discriminate; try (exfalso; inversion L0; subst; match goal with I : In _ [] |- _ => destruct I end; fail).
      constructor. split; [reflexivity|]. apply H. constructor.
    - eapply trel_comp; [|apply (trel_leaf_prop _ (fun s => s <> []) _ _ H (mark_solid (@nil nat) shapes S))|apply tmap_trel]. cbn. intros x y z [ -> N] ->. auto. }
  destruct (trel_pair _ _ _ D) as (q & Q1 & Q2 & Wq). specialize (Wq W).
  assert (QT : trel (fun (p : list nat * arr V) t => t = Some [(-1)%Z]) q (flatten_target shapes)) by (eapply trel_comp; [|exact Q1|exact FT]; cbn; intros p s t <- [-> _]; reflexivity).
  destruct (jzip3 (@reshape_array V) (fun p a => snd p = a /\ batch_of b (fst p) a) (fun p t => t = Some [(-1)%Z])
     (fun p y => shp y = [b; prod (skipn 1 (shp (snd p)))]) q Wq) with (u := data) (p := flatten_target shapes) as (out' & EO & TO); [|exact Q2|exact QT|].
  { intros [s a] y t _ [ <- Hs] ->. cbn [fst snd] in *. exists (mk_arr [b; prod s] (dat a)). split; [|rewrite Hs; reflexivity].
    apply (reshape_fits b s); auto.
    - split; [repeat constructor|cbn; lia].
    - intros [|i] [|j] Hi Hj; cbn in Hi, Hj; try reflexivity; try (destruct i; discriminate); destruct j; discriminate.
    - intros _ [E|[]]; discriminate. }
  unfold reshape_call in E2. rewrite E2 in EO. injection EO as <-.
  eapply trel_join; [|exact Q2|exact TO]. cbn. intros p x y [ <- _] HH. exact HH.
Qed.

(* ------------------------------------------------------------------ *)
(** * TreeFlatten *)
Theorem tree_flatten_ok {V} b shapes (data : tree (arr V)) : wf_tree shapes -> solid shapes -> trel (batch_of b) shapes data ->
  exists S, tree_flatten_shape shapes = Lst (map (fun s => Leaf (Some s)) S) /\ tree_flatten_call data = Lst (map Leaf (leaves data)) /\ Forall2 (batch_of b) S (leaves data).
Proof.
  intros W S D. exists (leaves shapes). split; [|split; [reflexivity|apply leaves_trel; assumption]].
  unfold tree_flatten_shape. f_equal. pose proof (leaves_trel _ _ W _ (mark_solid (@nil nat) shapes S)) as F.
  clear -F. induction F as [|x y l m -> F IH]; cbn; [reflexivity|]. rewrite IH. reflexivity.
Qed.

(* ------------------------------------------------------------------ *)
(** * Looking up paths in related trees *)
Lemma F2_dget {X Y} (R : tree X -> tree Y -> Prop) d e k : Forall2 (fun a b => fst a = fst b /\ R (snd a) (snd b)) d e ->
  match dget d k, dget e k with Some x, Some y => In (k, x) d /\ R x y | None, None => True | _, _ => False end.
Proof.
  induction 1 as [|[k1 x] [k2 y] d e [E H] F IH]; cbn in *; [exact I|]. subst k2. destruct (String.eqb_spec k k1) as [ -> |]; cbn; [auto|].
  destruct (dget d k), (dget e k); auto. destruct IH. auto.
Qed.
Lemma F2_nth {X Y} (R : X -> Y -> Prop) l m n : Forall2 R l m -> match nth_error l n, nth_error m n with Some x, Some y => In x l /\ R x y | None, None => True | _, _ => False end.
Proof. intros F. revert n. induction F as [|x y l m H F IH]; intros [|n]; cbn; auto. specialize (IH n). destruct (nth_error l n), (nth_error m n); auto. destruct IH; auto. Qed.

Definition answers {X Y} (R : X -> Y -> Prop) (a : result (tree X * string)) (b : result (tree Y * string)) : Prop :=
  match a, b with
  | Ok (t, r), Ok (u, r') => r = r' /\ trel R t u
  | Err e, Err e' => e = e'
  | _, _ => False
  end.
Lemma getitem_rel {X Y} sep early (R : X -> Y -> Prop) (lf : tree X -> bool) (lg : tree Y -> bool) :
  (forall t, solid t -> lf t = true -> exists a, t = Leaf a) -> (forall t, lg t = false) ->
  forall n p (t : tree X) u, slen p < n -> solid t -> wf_tree t -> trel R t u -> answers R (getitem sep lf early t p) (getitem sep lg early u p).
Proof.
  intros HF HG. induction n as [|n IH]; intros p t u Hn S W T; [lia|]. rewrite !getitem_unfold. destruct p as [|c p]; [split; auto|]. rewrite HG.
  destruct (lf t) eqn:Lt.
  - destruct (HF t S Lt) as (a & ->). inversion T; subst. destruct (split1 sep (String c p)) as [key rest]. destruct early; cbn; [split; [reflexivity|constructor; assumption]|reflexivity].
  - clear Lt. destruct (split1 sep (String c p)) as [key rest] eqn:Es.
    assert (Hr : slen (rest_str rest) < n). { destruct rest as [r|]; cbn [rest_str]; [pose proof (split1_rest_len _ _ _ _ Es); lia|cbn in *; lia]. }
    inversion T as [x y HR| |l m F|l m F|d e e' P F]; subst; inversion S as [|? HS|? HS|? N HS]; subst; inversion W as [| |? ND WF|? WF|? WF]; subst.
    + destruct early; cbn; [split; [reflexivity|constructor; assumption]|reflexivity].
    + destruct (isdigit key); [|reflexivity]. pose proof (F2_nth _ _ _ (int_of key) F) as G. destruct (nth_error l (int_of key)), (nth_error m (int_of key)); try destruct G; [|reflexivity].
      rewrite Forall_forall in WF. apply IH; auto.
    + destruct (isdigit key); [|reflexivity]. pose proof (F2_nth _ _ _ (int_of key) F) as G. destruct (nth_error l (int_of key)), (nth_error m (int_of key)); try destruct G; [|reflexivity].
      rewrite Forall_forall in WF. apply IH; auto.
    + pose proof (F2_dget _ _ _ key F) as G. pose proof (trel_keys _ _ _ F) as K. rewrite <- (dget_perm e' e key P) by (rewrite <- K; exact ND).
      destruct (dget d key), (dget e' key); try destruct G; [|reflexivity]. rewrite Forall_forall in WF. apply IH; auto; [eapply HS; eauto|exact (WF _ H)].
Qed.

(** A map over a tree that succeeds. *)
Lemma jmap_inv {X Y} (f : X -> result Y) t : forall v, jmapM f t = Ok v -> trel (fun x y => f x = Ok y) t v.
Proof.
  assert (L : forall l, Forall (fun t => forall v, jmapM f t = Ok v -> trel (fun x y => f x = Ok y) t v) l -> forall m, jm_list f l = Ok m -> Forall2 (trel (fun x y => f x = Ok y)) l m).
  { clear t. induction 1 as [|t l Ht _ IH]; intros m E; cbn in E; [injection E as <-; constructor|]. apply rbind_ok in E as (y & E1 & E). apply rbind_ok in E as (m' & E2 & E). injection E as <-. constructor; auto. }
  induction t as [x| |d IH|l IH|l IH] using tree_ind2; intros v E.
  - cbn in E. apply rbind_ok in E as (y & E1 & E). injection E as <-. constructor. exact E1.
  - injection E as <-. constructor.
  - rewrite jmapM_dct in E. apply rbind_ok in E as (e & E1 & E). injection E as <-. eapply tr_dict; [symmetry; apply sort_kvs_perm|].
    revert e E1. induction IH as [|[k t] d Ht _ IHd]; intros e E1; cbn in E1; [injection E1 as <-; constructor|].
    apply rbind_ok in E1 as (y & E1 & E2). apply rbind_ok in E2 as (e' & E2 & E3). injection E3 as <-. constructor; [split; [reflexivity|apply Ht; exact E1]|apply IHd; exact E2].
  - rewrite jmapM_lst in E. apply rbind_ok in E as (m & E1 & E). injection E as <-. constructor. auto.
  - rewrite jmapM_tup in E. apply rbind_ok in E as (m & E1 & E). injection E as <-. constructor. auto.
Qed.
Lemma plant_rel {X Y} (R : X -> Y -> Prop) t : forall u, trel (trel R) t u -> trel R (plant t) (plant u).
Proof.
  assert (L : forall l, Forall (fun t => forall u, trel (trel R) t u -> trel R (plant t) (plant u)) l -> forall m, Forall2 (trel (trel R)) l m -> Forall2 (trel R) (map plant l) (map plant m)).
  { clear t. induction 1 as [|t l Ht _ IH]; intros m F; inversion F; subst; cbn; constructor; auto. }
  induction t as [x| |d IH|l IH|l IH] using tree_ind2; intros u T; inversion T as [? y HR| |? m F|? m F|? e e' Pe F]; subst; cbn [plant]; [exact HR|constructor| | |].
  - apply tr_dict with (e' := map (fun kv => (fst kv, plant (snd kv))) e'); [apply Permutation_map; exact Pe|]. clear -IH F.
    induction F as [|a b d e [E H] F IHF]; cbn; constructor; inversion IH as [|? ? H1 H2]; subst; [split; [exact E|apply H1; exact H]|apply IHF; exact H2].
  - constructor. apply L; assumption.
  - constructor. apply L; assumption.
Qed.

Lemma shape_leaf_leaf {A} (t : tree A) : solid t -> shape_leaf t = true -> exists a, t = Leaf a.
Proof. intros S. destruct t as [a| |d|l|[|y l]]; intros E; try discriminate; eauto; exfalso; inversion S; subst; auto. Qed.

(** What is announced is what is selected, and the same keys are rejected. *)
Theorem tree_key_ok {V} b sep kp shapes (data : tree (arr V)) : wf_tree shapes -> solid shapes -> trel (batch_of b) shapes data ->
  (forall A, tree_key_shape sep kp shapes = Ok A -> exists out, tree_key_call sep kp data = Ok out /\ trel (batch_of b) A out) /\
  (forall out, tree_key_call sep kp data = Ok out -> exists A, tree_key_shape sep kp shapes = Ok A /\ trel (batch_of b) A out).
Proof.
  intros W S D. destruct kp as [kp|]; cbn [tree_key_shape tree_key_call]; [|split; [intros A [= <-]; eauto|intros out [= <-]; eauto]].
  assert (G : forall p, answers (batch_of b) (getitem sep shape_leaf true shapes p) (getitem sep (fun _ => false) true data p)).
  { intros p. eapply (getitem_rel sep true (batch_of b) shape_leaf (fun _ => false)); eauto using shape_leaf_leaf. }
  set (f := fun p => let* r := getitem sep shape_leaf true shapes p in Ok (fst r)). set (g := fun p => let* r := getitem sep (fun _ => false) true data p in Ok (fst r)).
  assert (FG : forall p x, f p = Ok x -> exists y, g p = Ok y /\ trel (batch_of b) x y).
  { intros p x E. specialize (G p). unfold f, g in *. destruct (getitem sep shape_leaf true shapes p) as [[t r]|]; [|discriminate]. destruct (getitem sep (fun _ => false) true data p) as [[u r']|]; [|destruct G].
    cbn in *. injection E as <-. destruct G. eauto. }
  assert (GF : forall p y, g p = Ok y -> exists x, f p = Ok x /\ trel (batch_of b) x y).
  { intros p x E. specialize (G p). unfold f, g in *. destruct (getitem sep (fun _ => false) true data p) as [[u r']|]; [|discriminate]. destruct (getitem sep shape_leaf true shapes p) as [[t r]|]; [|destruct G].
    cbn in *. injection E as <-. destruct G. eauto. }
  split.
  - intros A E. destruct (jmapM f kp) as [v|er] eqn:Ev; [|destruct er; discriminate]. injection E as <-. pose proof (jmap_inv _ _ _ Ev) as T.
    assert (T0 : trel (fun p x => p = x /\ exists z, f p = Ok z) kp kp).
    { apply trel_leaf_prop with (Q := fun p => exists z, f p = Ok z); [|apply trel_refl]. intros p Hp. destruct (map_has_leaf _ _ _ T p Hp) as (y & _ & Hy). eauto. }
    destruct (jm_from _ _ _ T0 g (fun p y => g p = Ok y)) as (w & Ew & Tw).
    { intros p p' _ [ <- (z & Hz)]. destruct (FG _ _ Hz) as (y & Hy & _). eauto. }
    exists (plant w). fold g. rewrite Ew. split; [reflexivity|]. apply plant_rel. eapply trel_join; [|exact T|exact Tw]. cbn. intros p x y Hx Hy. destruct (FG _ _ Hx) as (y' & Hy' & H). congruence.
  - intros out E. apply rbind_ok in E as (w & Ew & E). injection E as <-. fold g in Ew. pose proof (jmap_inv _ _ _ Ew) as T.
    assert (T0 : trel (fun p x => p = x /\ exists z, g p = Ok z) kp kp).
    { apply trel_leaf_prop with (Q := fun p => exists z, g p = Ok z); [|apply trel_refl]. intros p Hp. destruct (map_has_leaf _ _ _ T p Hp) as (y & _ & Hy). eauto. }
    destruct (jm_from _ _ _ T0 f (fun p y => f p = Ok y)) as (v & Ev & Tv).
    { intros p p' _ [ <- (z & Hz)]. destruct (GF _ _ Hz) as (y & Hy & _). eauto. }
    exists (plant v). rewrite Ev. split; [reflexivity|]. apply plant_rel. eapply trel_join; [|exact Tv|exact T]. cbn. intros p x y Hx Hy. destruct (FG _ _ Hx) as (y' & Hy' & H). congruence.
Qed.
(** The subtrees stand at their paths. *)
Theorem tree_key_picks {V} sep kp (data : tree (arr V)) out : tree_key_call sep (Some kp) data = Ok out ->
  (forall p, has_leaf kp p -> walk data (path_keys sep p) <> None) ->
  exists w, out = plant w /\ trel (fun p u => walk data (path_keys sep p) = Some u) kp w.
Proof.
  intros E H. cbn [tree_key_call] in E. apply rbind_ok in E as (w & Ew & E). injection E as <-. exists w. split; [reflexivity|].
  pose proof (jmap_inv _ _ _ Ew) as T. apply (trel_leaf_prop _ _ _ _ H) in T. eapply trel_impl; [|exact T]. intros p u [E N].
  apply rbind_ok in E as ([u' r] & E & E'). injection E' as ->. destruct (walk data (path_keys sep p)) as [u0|] eqn:EW; [|contradiction].
  pose proof (getitem_early_spec sep data p) as G. change (fun _ : tree (arr V) => false) with (@no_leaf (arr V)) in E. rewrite E in G. cbn [fst].
  apply getitem_full_walk in EW. destruct G as [(_ & G & _)|(_ & _ & _ & G)].
  - apply getitem_full_walk in G. congruence.
  - congruence.
Qed.
