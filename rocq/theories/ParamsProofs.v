From Coq Require Import Permutation.
From Verif Require Import Base BaseLemmas TreeUtil TreeSpec NonSeqSpec NonSeqProofs MutableProofs SerialSpec SerialProofs ScalerProofs ReshapeProofs ReshapeMain TrainArgsProofs BatchProofs ScalerFileProofs Params ParamsSpec.
Local Open Scope list_scope.

(* ------------------------------------------------------------------ *)
(** * Unfolding *)
Section Unfold.
Context {X Y : Type}.
Fixpoint prefix_list (l : list (tree X)) (m : list (tree Y)) : bool :=
  match l, m with [], [] => true | x :: l', y :: m' => prefix x y && prefix_list l' m' | _, _ => false end.
Fixpoint prefix_dict (e : list (string * tree Y)) (d : list (string * tree X)) : bool :=
  match d with [] => true | (k, x) :: d' => match dget e k with Some y => prefix x y && prefix_dict e d' | None => false end end.
Lemma prefix_lst l m : prefix (Lst l) (Lst m) = prefix_list l m.
Proof. reflexivity. Qed.
Lemma prefix_tup l m : prefix (Tup l) (Tup m) = prefix_list l m.
Proof. reflexivity. Qed.
Lemma prefix_dct d e : prefix (Dict d) (Dict e) = (length d =? length e) && prefix_dict e d.
Proof. cbn [prefix]. f_equal; try (induction d as [|[k x] d IH]; [reflexivity|]; cbn [prefix_dict]; rewrite <- IH; reflexivity). Qed.

Context (f : X -> tree Y -> X * result unit).
Fixpoint walk_list (l : list (tree X)) (m : list (tree Y)) : list (tree X) * result unit :=
  match l, m with
  | x :: l', y :: m' => let (x', r) := walk f x y in
                        match r with Ok _ => let (l'', r') := walk_list l' m' in (x' :: l'', r') | Err e => (x' :: l', Err e) end
  | _, _ => (l, Ok tt)
  end.
Fixpoint walk_dict (e : list (string * tree Y)) (d : list (string * tree X)) : list (string * tree X) * result unit :=
  match d with
  | [] => ([], Ok tt)
  | (k, x) :: d' =>
      match dget e k with
      | Some y => let (x', r) := walk f x y in
                  match r with Ok _ => let (d'', r') := walk_dict e d' in ((k, x') :: d'', r') | Err e => ((k, x') :: d', Err e) end
      | None => (d, Err ValueError)
      end
  end.
Lemma walk_lst l m : walk f (Lst l) (Lst m) = (Lst (fst (walk_list l m)), snd (walk_list l m)).
Proof.
  cbn [walk]. match goal with |- (let (_, _) := ?g l m in _) = _ => assert (E : forall l m, g l m = walk_list l m) end.
  { clear l m. reflexivity. }
  rewrite E. destruct (walk_list l m). reflexivity.
Qed.
Lemma walk_tup l m : walk f (Tup l) (Tup m) = (Tup (fst (walk_list l m)), snd (walk_list l m)).
Proof.
  cbn [walk]. match goal with |- (let (_, _) := ?g l m in _) = _ => assert (E : forall l m, g l m = walk_list l m) end.
  { clear l m. reflexivity. }
  rewrite E. destruct (walk_list l m). reflexivity.
Qed.
Lemma walk_dct d e : walk f (Dict d) (Dict e) = (Dict (fst (walk_dict e d)), snd (walk_dict e d)).
Proof.
  cbn [walk]. match goal with |- (let (_, _) := ?g d in _) = _ => assert (E : forall d, g d = walk_dict e d) end.
  { clear d. induction d as [|[k x] d IH]; [reflexivity|]. cbn [walk_dict]. rewrite <- IH. reflexivity. }
  rewrite E. destruct (walk_dict e d). reflexivity.
Qed.
End Unfold.

Fixpoint net_ind2 {M} (Q : net M -> Prop) (HA : forall a, Q (Atom a)) (HN : forall t, (forall x, has_leaf t x -> Q x) -> Q (Nest t)) (m : net M) {struct m} : Q m.
Proof.
  destruct m as [a|t]; [apply HA|]. apply HN.
  refine ((fix go (t : tree (net M)) : forall x, has_leaf t x -> Q x := _) t).
  destruct t as [y| |d|l|l]; intros x Hx.
  - assert (x = y) as -> by (inversion Hx; reflexivity). apply (net_ind2 M Q HA HN y).
  - exfalso. inversion Hx.
  - assert (Hd : exists k t', In (k, t') d /\ has_leaf t' x) by (inversion Hx; subst; eauto). clear Hx. revert Hd.
    induction d as [|[k t'] d IH]; intros (k' & t'' & Hin & Hl); [destruct Hin|]. 
    destruct Hin as [E|Hin]; [|apply IH; eauto]. injection E as _ <-. exact (go t' x Hl).
  - assert (Hd : exists t', In t' l /\ has_leaf t' x) by (inversion Hx; subst; eauto). clear Hx. revert Hd.
    induction l as [|t' l IH]; intros (t'' & Hin & Hl); [destruct Hin|]. 
    destruct Hin as [E|Hin]; [|apply IH; eauto]. subst t''. exact (go t' x Hl).
  - assert (Hd : exists t', In t' l /\ has_leaf t' x) by (inversion Hx; subst; eauto). clear Hx. revert Hd.
    induction l as [|t' l IH]; intros (t'' & Hin & Hl); [destruct Hin|]. 
    destruct Hin as [E|Hin]; [|apply IH; eauto]. subst t''. exact (go t' x Hl).
Defined.

(* ------------------------------------------------------------------ *)
(** * Prefixes *)
Lemma dict_parts {V} (d : list string) (e : list (string * V)) : NoDup d -> length d = length e -> (forall k, In k d -> dget e k <> None) ->
  exists e', Permutation e' e /\ Forall2 (fun k b => k = fst b /\ dget e k = Some (snd b)) d e'.
Proof.
  intros N L H.
  assert (exists e', Forall2 (fun k b => k = fst b /\ dget e k = Some (snd b)) d e') as [e' F].
  { clear N L. induction d as [|k d IH]; [exists []; constructor|]. destruct IH as [e' F]; [intros; apply H; right; assumption|].
    destruct (dget e k) as [y|] eqn:E; [|exfalso; apply (H k); [left; reflexivity|exact E]]. exists ((k, y) :: e'). constructor; [split; [reflexivity|exact E]|exact F]. }
  exists e'. split; [|exact F].
  assert (K : map fst e' = d). { clear -F. induction F as [|k b d e' [Hk _] F IH]; [reflexivity|]. cbn. rewrite IH, Hk. reflexivity. }
  apply NoDup_Permutation_bis.
  - apply (NoDup_map_inv fst). rewrite K. exact N.
  - rewrite <- L, <- K, map_length. apply Nat.le_refl.
  - intros [k y] Hin. clear -F Hin. induction F as [|k' b d e' [Hk Hg] F IH]; [destruct Hin|]. destruct Hin as [->|Hin]; [|auto]. cbn in *. subst. apply dget_In. exact Hg.
Qed.
Section Prefix.
Context {X Y : Type}.
Lemma prefix_fits (t : tree X) : wf_tree t -> forall u : tree Y, prefix t u = true <-> fits t u.
Proof.
  assert (L : forall l : list (tree X), Forall wf_tree l -> Forall (fun t => wf_tree t -> forall u : tree Y, prefix t u = true <-> fits t u) l -> forall m : list (tree Y), prefix_list l m = true <-> Forall2 fits l m).
  { clear t. induction l as [|x l IH]; intros W I m; inversion W as [|? ? Wx Wl]; subst; inversion I as [|? ? Ix Il]; subst.
    - destruct m; cbn; split; intros H0; try discriminate; try constructor; try reflexivity; inversion H0.
    - destruct m as [|y m]; cbn; [split; intros H0; [discriminate|inversion H0]|]. rewrite andb_true_iff. rewrite (Ix Wx). rewrite (IH Wl Il).
      split; [intros [A B]; constructor; assumption|intros F; inversion F; subst; auto]. }
  induction t as [x| |d IH|l IH|l IH] using tree_ind2; intros W u.
  - split; [intros _; constructor; exact I|reflexivity].
  - destruct u; cbn; split; intros H; try discriminate; try constructor; inversion H.
  - destruct u as [y| |e|m|m]; try (split; intros H; [discriminate|inversion H]; fail).
    apply wf_dict_inv in W as [N W]. rewrite prefix_dct, andb_true_iff, Nat.eqb_eq. split.
    + intros [EL H].
      assert (G : forall k, In k (map fst d) -> dget e k <> None).
      { clear -H. induction d as [|[k x] d IHd]; [intros k []|]. cbn in H. destruct (dget e k) as [y|] eqn:E; [|discriminate]. apply andb_true_iff in H as [_ H].
        intros k' [<-|Hin]; [cbn; congruence|apply IHd; assumption]. }
      destruct (dict_parts (map fst d) e) as (e' & Pe & F); [exact N|rewrite map_length; exact EL|exact G|].
      apply pa_dict with (e' := e'); [exact Pe|]. clear Pe N EL G. revert e' F. induction d as [|[k x] d IHd]; intros e' F; inversion F as [|? b ? e1 [Hk Hg] F1]; subst; constructor.
      * cbn in *. inversion IH as [|? ? I1 I2]; subst. inversion W as [|? ? W1 W2]; subst. rewrite Hg in H. apply andb_true_iff in H as [H _]. split; [reflexivity|]. cbn in *. apply I1; assumption.
      * cbn in *. inversion IH as [|? ? I1 I2]; subst. inversion W as [|? ? W1 W2]; subst. rewrite Hg in H. apply andb_true_iff in H as [_ H]. apply IHd; assumption.
    + intros H. inversion H as [| | | |? ? e' Pe F]; subst. split; [rewrite <- (Permutation_length Pe); eapply F2_length; exact F|].
      assert (K : map fst d = map fst e'). { clear -F. induction F as [|a b d e' [Hk _] F IH]; [reflexivity|]. cbn. rewrite IH, Hk. reflexivity. }
      assert (D : forall k, dget e k = dget e' k) by (intros k; symmetry; apply dget_perm; [exact Pe|unfold dkeys; rewrite <- K; exact N]).
      assert (I : forall a b, In (a, b) (combine d e') -> dget e (fst a) = Some (snd b)).
      { intros a b Hin. rewrite D. apply In_dget; [unfold dkeys; rewrite <- K; exact N|]. clear -F Hin. induction F as [|a' b' d e' [Hk _] F IH]; [destruct Hin|]. destruct Hin as [E|Hin]; [injection E as -> ->; left; rewrite Hk; apply surjective_pairing|right; auto]. }
      clear -F IH W I. revert IH W I. induction F as [|[k x] [k' y] d e' [Hk Hf] F IHF]; intros IH W I; [reflexivity|]. cbn. pose proof (I (k, x) (k', y) (or_introl eq_refl)) as G. cbn in G. rewrite G.
      inversion IH as [|? ? I1 I2]; subst. inversion W as [|? ? W1 W2]; subst. cbn in *. apply andb_true_iff. split; [apply I1; assumption|]. apply IHF; auto.
  - destruct u as [y| |e|m|m]; try (split; intros H; [discriminate|inversion H]; fail). rewrite prefix_lst. rewrite L by (auto; apply wf_lst_inv; exact W). split; [intros F; constructor; exact F|intros H; inversion H; assumption].
  - destruct u as [y| |e|m|m]; try (split; intros H; [discriminate|inversion H]; fail). rewrite prefix_tup. rewrite L by (auto; apply wf_tup_inv; exact W). split; [intros F; constructor; exact F|intros H; inversion H; assumption].
Qed.
End Prefix.

(* ------------------------------------------------------------------ *)
(** * Parts *)
Section Parts.
Context {X Y : Type}.
Lemma parts_impl (Q Q' : X -> tree Y -> Prop) (t : tree X) : (forall x q, has_leaf t x -> Q x q -> Q' x q) -> forall u, parts Q t u -> parts Q' t u.
Proof.
  assert (L : forall l, Forall (fun t => (forall x q, has_leaf t x -> Q x q -> Q' x q) -> forall u, parts Q t u -> parts Q' t u) l ->
    (forall x q t, In t l -> has_leaf t x -> Q x q -> Q' x q) -> forall m, Forall2 (parts Q) l m -> Forall2 (parts Q') l m).
  { clear t. induction 1 as [|t l Ht _ IH]; intros H m F; inversion F; subst; constructor.
    - apply Ht; [|assumption]. intros x q. apply H. left. reflexivity.
    - apply IH; [|assumption]. intros x q t' Hin. apply H. right. exact Hin. }
  induction t as [x| |d IH|l IH|l IH] using tree_ind2; intros H u P; inversion P as [? ? HQ| |? m F|? m F|? e e' Pe F]; subst.
  - constructor. apply H; [constructor|exact HQ].
  - constructor.
  - apply pa_dict with (e' := e'); [exact Pe|].
    assert (H' : forall x q kv, In kv d -> has_leaf (snd kv) x -> Q x q -> Q' x q) by (intros x q [k t] Hin Hl; apply H; econstructor; eauto). clear H P Pe.
    revert H'. induction F as [|a b d e1 [Hk Hp] F IHF]; intros H; constructor.
    + inversion IH as [|? ? I1 I2]; subst. split; [exact Hk|]. apply I1; [|exact Hp]. intros x q. apply H. left. reflexivity.
    + inversion IH as [|? ? I1 I2]; subst. apply IHF; [exact I2|]. intros x q kv Hin. apply H. right. exact Hin.
  - constructor. apply L; [exact IH| |exact F]. intros x q t Hin Hl. apply H. econstructor; eauto.
  - constructor. apply L; [exact IH| |exact F]. intros x q t Hin Hl. apply H. econstructor; eauto.
Qed.
Lemma parts_of_trel {Z} (K : Z -> Y -> Prop) (g : X -> tree Z) (t : tree X) : forall u, trel K (tsub g t) u -> parts (fun x q => trel K (g x) q) t u.
Proof.
  assert (L : forall l, Forall (fun t => forall u, trel K (tsub g t) u -> parts (fun x q => trel K (g x) q) t u) l ->
    forall m, Forall2 (trel K) (map (tsub g) l) m -> Forall2 (parts (fun x q => trel K (g x) q)) l m).
  { clear t. induction 1 as [|t l Ht _ IH]; intros m F; cbn in F; inversion F; subst; constructor; auto. }
  induction t as [x| |d IH|l IH|l IH] using tree_ind2; cbn [tsub]; intros u T.
  - constructor. exact T.
  - inversion T; subst. constructor.
  - inversion T as [| | | |? e e' Pe F]; subst. apply pa_dict with (e' := e'); [exact Pe|]. clear -IH F. revert e' F.
    induction IH as [|[k x] d Hx IH IHd]; intros e' F; cbn in F; inversion F as [|? b ? e1 [Hk Hp] F1]; subst; constructor; auto.
  - inversion T; subst. constructor. apply L; assumption.
  - inversion T; subst. constructor. apply L; assumption.
Qed.
Lemma trel_of_parts {Z} (K : Y -> Z -> Prop) (g : X -> tree Z) (t : tree X) : forall u, parts (fun x q => trel K q (g x)) t u -> trel K u (tsub g t).
Proof.
  assert (L : forall l, Forall (fun t => forall u, parts (fun x q => trel K q (g x)) t u -> trel K u (tsub g t)) l ->
    forall m, Forall2 (parts (fun x q => trel K q (g x))) l m -> Forall2 (trel K) m (map (tsub g) l)).
  { clear t. induction 1 as [|t l Ht _ IH]; intros m F; inversion F; subst; cbn; constructor; auto. }
  induction t as [x| |d IH|l IH|l IH] using tree_ind2; cbn [tsub]; intros u P; inversion P as [? ? HQ| |? m F|? m F|? e e' Pe F]; subst.
  - exact HQ.
  - constructor.
  - assert (G : Forall2 (fun a b => fst a = fst b /\ trel K (snd a) (snd b)) e' (map (fun kv => (fst kv, tsub g (snd kv))) d)).
    { clear -IH F. revert e' F. induction IH as [|[k x] d Hx IH IHd]; intros e' F; inversion F as [|? b ? e1 [Hk Hp] F1]; subst; cbn; constructor; auto. }
    destruct (perm_F2 _ _ _ Pe _ G) as (r & Pr & F2). apply tr_dict with (e' := r); [symmetry; exact Pr|exact F2].
  - constructor. apply L; assumption.
  - constructor. apply L; assumption.
Qed.

(* ------------------------------------------------------------------ *)
(** * Walks *)
Context (f : X -> tree Y -> X * result unit).
Lemma dict_gets {V W} (S : V -> W -> Prop) (d : list (string * V)) (e e' : list (string * W)) : NoDup (map fst d) -> Permutation e' e ->
  Forall2 (fun a b => fst a = fst b /\ S (snd a) (snd b)) d e' -> Forall2 (fun a b => fst a = fst b /\ S (snd a) (snd b) /\ dget e (fst a) = Some (snd b)) d e'.
Proof.
  intros N Pe F.
  assert (K : map fst d = map fst e'). { clear -F. induction F as [|a b d e' [Hk _] F IH]; [reflexivity|]. cbn. rewrite IH, Hk. reflexivity. }
  assert (D : forall b, In b e' -> dget e (fst b) = Some (snd b)).
  { intros b Hin. rewrite <- (dget_perm e' e _ Pe) by (unfold dkeys; rewrite <- K; exact N). apply In_dget; [unfold dkeys; rewrite <- K; exact N|]. rewrite <- surjective_pairing. exact Hin. }
  clear N Pe K. induction F as [|a b d e' [Hk HS] F IH]; constructor.
  - split; [exact Hk|]. split; [exact HS|]. rewrite Hk. apply D. left. reflexivity.
  - apply IH. intros b' Hin. apply D. right. exact Hin.
Qed.
Lemma walk_ok (Q : X -> tree Y -> Prop) (t : tree X) : wf_tree t -> forall u t', parts Q t u -> walk f t u = (t', Ok tt) ->
  trel (fun x x' => exists q, Q x q /\ f x q = (x', Ok tt)) t t' /\ parts (fun x' q => exists x, Q x q /\ f x q = (x', Ok tt)) t' u.
Proof.
  set (T := trel (fun x x' => exists q, Q x q /\ f x q = (x', Ok tt))). set (R := parts (fun x' q => exists x, Q x q /\ f x q = (x', Ok tt))).
  assert (L : forall l, Forall (fun t => wf_tree t -> forall u t', parts Q t u -> walk f t u = (t', Ok tt) -> T t t' /\ R t' u) l -> Forall wf_tree l ->
    forall m l', Forall2 (parts Q) l m -> walk_list f l m = (l', Ok tt) -> Forall2 T l l' /\ Forall2 R l' m).
  { clear t. induction 1 as [|t l Ht _ IH]; intros W m l' F E; inversion F as [|? y ? m' Hp F']; subst; cbn in E.
    - injection E as <-. split; constructor.
    - inversion W as [|? ? W1 W2]; subst. destruct (walk f t y) as [t1 r1] eqn:E1. destruct r1 as [[]|]; [|discriminate].
      destruct (walk_list f l m') as [l1 r2] eqn:E2. injection E as <- ->. destruct (Ht W1 _ _ Hp E1). destruct (IH W2 _ _ F' E2). split; constructor; assumption. }
  induction t as [x| |d IH|l IH|l IH] using tree_ind2; intros W u t' P E; inversion P as [? ? HQ| |? m F|? m F|? e e' Pe F]; subst.
  - cbn in E. destruct (f x u) as [x' r] eqn:Ef. injection E as <- ->. split; constructor; eauto.
  - cbn in E. injection E as <-. split; constructor.
  - rewrite walk_dct in E. destruct (walk_dict f e d) as [d' r] eqn:Ed. cbn in E. injection E as <- ->. apply wf_dict_inv in W as [N W].
    apply (dict_gets _ _ _ _ N Pe) in F.
    assert (G : Forall2 (fun a b => fst a = fst b /\ T (snd a) (snd b)) d d' /\ Forall2 (fun a b => fst a = fst b /\ R (snd a) (snd b)) d' e').
    { clear -IH W F Ed. revert IH W d' Ed. induction F as [|[k x] [k2 y] d e1 (Hk & Hp & Hg) F IHF]; intros IH W d' E; cbn in *.
      - injection E as <-. split; constructor.
      - rewrite Hg in E. inversion IH as [|? ? I1 I2]; subst. inversion W as [|? ? W1 W2]; subst. destruct (walk f x y) as [t1 r1] eqn:E1. destruct r1 as [[]|]; [|discriminate].
        destruct (walk_dict f e d) as [l1 r2] eqn:E2. injection E as <- ->. cbn in *. destruct (I1 W1 _ _ Hp E1). destruct (IHF I2 W2 _ eq_refl). split; constructor; auto. }
    destruct G as [G1 G2]. split; [apply tr_dict with (e' := d'); [reflexivity|exact G1]|apply pa_dict with (e' := e'); [exact Pe|exact G2]].
  - rewrite walk_lst in E. destruct (walk_list f l m) as [l' r] eqn:El. cbn in E. injection E as <- ->. apply wf_lst_inv in W. destruct (L l IH W m l' F El). split; constructor; assumption.
  - rewrite walk_tup in E. destruct (walk_list f l m) as [l' r] eqn:El. cbn in E. injection E as <- ->. apply wf_tup_inv in W. destruct (L l IH W m l' F El). split; constructor; assumption.
Qed.
(** Calls that change nothing. *)
Lemma walk_id (g : X -> tree Y) (t : tree X) : wf_tree t -> (forall x, has_leaf t x -> f x (g x) = (x, Ok tt)) -> walk f t (tsub g t) = (t, Ok tt).
Proof.
  assert (L : forall l, Forall (fun t => wf_tree t -> (forall x, has_leaf t x -> f x (g x) = (x, Ok tt)) -> walk f t (tsub g t) = (t, Ok tt)) l ->
    Forall wf_tree l -> (forall t x, In t l -> has_leaf t x -> f x (g x) = (x, Ok tt)) -> walk_list f l (map (tsub g) l) = (l, Ok tt)).
  { clear t. induction 1 as [|t l Ht _ IH]; intros W H; [reflexivity|]. inversion W as [|? ? W1 W2]; subst. cbn. rewrite Ht; [|exact W1|intros x; apply H; left; reflexivity].
    rewrite IH; [reflexivity|exact W2|]. intros t' x Hin. apply H. right. exact Hin. }
  induction t as [x| |d IH|l IH|l IH] using tree_ind2; intros W H; cbn [tsub].
  - cbn. rewrite H by constructor. reflexivity.
  - reflexivity.
  - rewrite walk_dct. apply wf_dict_inv in W as [N W].
    assert (G : forall d', (forall kv, In kv d' -> In kv d) -> walk_dict f (map (fun kv => (fst kv, tsub g (snd kv))) d) d' = (d', Ok tt)).
    { induction d' as [|[k x] d' IHd]; intros Hin; [reflexivity|]. cbn [walk_dict]. assert (I0 : In (k, x) d) by (apply Hin; left; reflexivity).
      rewrite (In_dget _ k (tsub g x)).
      - rewrite Forall_forall in IH, W. pose proof (IH (k, x) I0 (W (k, x) I0)) as IHx. cbn [snd] in IHx. rewrite IHx; [|intros y Hy; apply H; econstructor; eauto]. rewrite IHd; [reflexivity|]. intros kv Hkv. apply Hin. right. exact Hkv.
      - unfold dkeys. rewrite map_map. exact N.
      - apply in_map_iff. exists (k, x). split; [reflexivity|exact I0]. }
    rewrite (G d) by auto. reflexivity.
  - rewrite walk_lst. rewrite L; [reflexivity|exact IH|apply wf_lst_inv; exact W|]. intros t x Hin Hl. apply H. econstructor; eauto.
  - rewrite walk_tup. rewrite L; [reflexivity|exact IH|apply wf_tup_inv; exact W|]. intros t x Hin Hl. apply H. econstructor; eauto.
Qed.
End Parts.

Lemma trel_sub_refl {X Y} (g : X -> tree Y) (t : tree X) : parts (fun x q => trel eq (g x) q) t (tsub g t).
Proof. apply parts_of_trel. apply trel_refl. Qed.
Lemma trel_tmap {X Y Z} (h : X -> Z) (K : Z -> Y -> Prop) (t : tree X) : forall u, trel K (tmap h t) u -> trel (fun x y => K (h x) y) t u.
Proof.
  assert (L : forall l, Forall (fun t => forall u, trel K (tmap h t) u -> trel (fun x y => K (h x) y) t u) l ->
    forall m, Forall2 (trel K) (map (tmap h) l) m -> Forall2 (trel (fun x y => K (h x) y)) l m).
  { clear t. induction 1 as [|t l Ht _ IH]; intros m F; cbn in F; inversion F; subst; constructor; auto. }
  induction t as [x| |d IH|l IH|l IH] using tree_ind2; cbn [tmap]; intros u T; inversion T as [? y HR| |? m F|? m F|? e e' Pe F]; subst.
  - constructor. exact HR.
  - constructor.
  - apply tr_dict with (e' := e'); [exact Pe|]. clear -IH F. revert e' F.
    induction IH as [|[k x] d Hx IH IHd]; intros e' F; cbn in F; inversion F as [|? b ? e1 [Hk Hp] F1]; subst; constructor; auto.
  - constructor. apply L; assumption.
  - constructor. apply L; assumption.
Qed.

(* ------------------------------------------------------------------ *)
(** * Models *)
Section Models.
Context {M P : Type} (m_get : M -> tree P) (m_set : M -> tree P -> M * result unit) (m_train : M -> bool).
Notation get := (get m_get). Notation put := (put m_set).

Lemma put_nest t p : put (Nest t) p = if prefix t p then let (t', r) := walk put t p in (Nest t', r) else (Nest t, Err ValueError).
Proof. reflexivity. Qed.
Lemma put_success m : wfn m -> forall p m', put m p = (m', Ok tt) ->
  nrel (fun a a' => exists q, m_set a q = (a', Ok tt)) m m'.
Proof.
  induction m as [a|t IH] using net_ind2; intros W p m' E.
  - cbn in E. destruct (m_set a p) as [a' r] eqn:Es. injection E as <- ->. constructor. eauto.
  - inversion W as [|? W1 W2]; subst. rewrite put_nest in E. destruct (prefix t p) eqn:Ep; [|discriminate]. destruct (walk put t p) as [t' r] eqn:Ew. injection E as <- ->.
    apply (prefix_fits t W1) in Ep. destruct (walk_ok put (fun x _ => has_leaf t x) t W1 p t') as [T _]; [eapply parts_impl; [|exact Ep]; auto|exact Ew|].
    constructor. eapply trel_impl; [|exact T]. cbn. intros x x' (q & Hl & Hp). eapply IH; eauto.
Qed.
Lemma put_get m : honest_modules m_get m_set m_train -> wfn m -> forall p m', put m p = (m', Ok tt) -> trel eq p (get m').
Proof.
  intros HM. induction m as [a|t IH] using net_ind2; intros W p m' E.
  - cbn in E. destruct (m_set a p) as [a' r] eqn:Es. injection E as <- ->. cbn. eapply HM. exact Es.
  - inversion W as [|? W1 W2]; subst. rewrite put_nest in E. destruct (prefix t p) eqn:Ep; [|discriminate]. destruct (walk put t p) as [t' r] eqn:Ew. injection E as <- ->.
    apply (prefix_fits t W1) in Ep. destruct (walk_ok put (fun x _ => has_leaf t x) t W1 p t') as [_ T]; [eapply parts_impl; [|exact Ep]; auto|exact Ew|].
    cbn. apply trel_of_parts. eapply parts_impl; [|exact T]. cbn. intros x' q _ (x & Hl & Hp). eapply IH; eauto.
Qed.
Lemma put_steady m : steady_modules m_get m_set -> wfn m -> put m (get m) = (m, Ok tt).
Proof.
  intros HM. induction m as [a|t IH] using net_ind2; intros W.
  - cbn. rewrite HM. reflexivity.
  - inversion W as [|? W1 W2]; subst. rewrite put_nest. cbn [Params.get]. replace (prefix t _) with true.
    + rewrite (walk_id put); [reflexivity|exact W1|]. intros x Hx. apply IH; auto.
    + symmetry. apply (prefix_fits t W1). eapply parts_impl; [|apply trel_sub_refl]. cbn. auto.
Qed.
Lemma nrel_impl (S S' : M -> M -> Prop) (H : forall a b, S a b -> S' a b) y : forall y', nrel S y y' -> nrel S' y y'.
Proof.
  induction y as [a|t IH] using net_ind2; intros y' N; inversion N as [? ? HS|? ? HT]; subst; constructor; auto.
  eapply trel_leaf_impl; [|exact HT]. cbn. auto.
Qed.
(** A module is given values related to its own. *)
Lemma put_related (R : P -> P -> Prop) m : wfn m -> forall p m', trel R (get m) p -> put m p = (m', Ok tt) ->
  nrel (fun a a' => atom_in m a /\ exists q, trel R (m_get a) q /\ m_set a q = (a', Ok tt)) m m'.
Proof.
  induction m as [a|t IH] using net_ind2; intros W p m' T E.
  - cbn in E. destruct (m_set a p) as [a' r] eqn:Es. injection E as <- ->. constructor. split; [constructor|]. eauto.
  - inversion W as [|? W1 W2]; subst. rewrite put_nest in E. destruct (prefix t p) eqn:Ep; [|discriminate]. destruct (walk put t p) as [t' r] eqn:Ew. injection E as <- ->.
    cbn [Params.get] in T. apply parts_of_trel in T.
    destruct (walk_ok put (fun x q => has_leaf t x /\ trel R (get x) q) t W1 p t') as [T1 _]; [eapply parts_impl; [|exact T]; cbn; auto|exact Ew|].
    constructor. eapply trel_impl; [|exact T1]. cbn. intros x x' (q & [Hl HR] & Hp).
    eapply nrel_impl; [|eapply IH; eauto]. cbn. intros a a' [Ha Hq]. split; [econstructor; eauto|exact Hq].
Qed.
Lemma trainable_iff m : trainable m_train m = true <-> exists a, atom_in m a /\ m_train a = true.
Proof.
  induction m as [a|t IH] using net_ind2.
  - cbn. split; [intros H; exists a; split; [constructor|exact H]|intros (b & Hb & H); inversion Hb; subst; exact H].
  - cbn [trainable]. rewrite existsb_exists. split.
    + intros (b & Hin & ->). apply leaves_has_leaf in Hin.
      assert (exists x, has_leaf t x /\ trainable m_train x = true) as (x & Hx & E).
      { clear IH. induction t as [y| |d IH|l IH|l IH] using tree_ind2; cbn [tsub] in Hin.
        - inversion Hin; subst. exists y. split; [constructor|congruence].
        - inversion Hin.
        - inversion Hin as [|? k u ? Hi Hu| |]; subst. apply in_map_iff in Hi as ([k' x] & E & Hi). injection E as <- <-. rewrite Forall_forall in IH. destruct (IH _ Hi Hu) as (z & Hz & Ez). exists z. split; [econstructor; eauto|exact Ez].
        - inversion Hin as [| |? u ? Hi Hu|]; subst. apply in_map_iff in Hi as (x & <- & Hi). rewrite Forall_forall in IH. destruct (IH _ Hi Hu) as (z & Hz & Ez). exists z. split; [econstructor; eauto|exact Ez].
        - inversion Hin as [| | |? u ? Hi Hu]; subst. apply in_map_iff in Hi as (x & <- & Hi). rewrite Forall_forall in IH. destruct (IH _ Hi Hu) as (z & Hz & Ez). exists z. split; [econstructor; eauto|exact Ez]. }
      apply (IH x Hx) in E as (a & Ha & Et). exists a. split; [econstructor; eauto|exact Et].
    + intros (a & Ha & Et). inversion Ha as [|? x ? Hx Hax]; subst. exists true. split; [|reflexivity]. apply leaves_has_leaf.
      assert (E : trainable m_train x = true) by (apply IH; eauto). clear IH Ha. induction Hx as [x|d k t x Hi Hl IHx|l t x Hi Hl IHx|l t x Hi Hl IHx]; cbn [tsub].
      * rewrite E. constructor.
      * econstructor; [apply in_map_iff; eexists; split; [|exact Hi]; reflexivity|cbn; auto].
      * econstructor; [apply in_map_iff; eexists; split; [|exact Hi]; reflexivity|auto].
      * econstructor; [apply in_map_iff; eexists; split; [|exact Hi]; reflexivity|auto].
Qed.
Lemma has_leaf_sub (g : net M -> tree P) (t : tree (net M)) x p : has_leaf t x -> has_leaf (g x) p -> has_leaf (tsub g t) p.
Proof.
  induction 1 as [x|d k t x Hi Hl IHx|l t x Hi Hl IHx|l t x Hi Hl IHx]; intros Hp; cbn [tsub].
  - exact Hp.
  - econstructor; [apply in_map_iff; eexists; split; [|exact Hi]; reflexivity|cbn; auto].
  - econstructor; [apply in_map_iff; eexists; split; [|exact Hi]; reflexivity|auto].
  - econstructor; [apply in_map_iff; eexists; split; [|exact Hi]; reflexivity|auto].
Qed.
Lemma atom_leaf m a p : atom_in m a -> has_leaf (m_get a) p -> has_leaf (get m) p.
Proof. induction 1 as [a|t x a Hx Ha IH]; intros Hp; cbn [Params.get]; [exact Hp|]. eapply has_leaf_sub; eauto. Qed.

Theorem frozen_kept train t m' : honest_modules m_get m_set m_train -> respects_flags train -> wfn (Nest t) -> (forall x, has_leaf t x -> unmixed m_get m_train x) ->
  train_model m_get m_set m_train train t = (m', Ok tt) -> nrel (fun a a' => m_train a = false -> trel eq (m_get a) (m_get a')) (Nest t) m'.
Proof.
  intros HM HR W HU E. unfold train_model in E. destruct (train (flagged m_get m_train t)) as [p|] eqn:Et; [|discriminate]. apply HR in Et. unfold flagged in Et. apply parts_of_trel in Et.
  inversion W as [|? W1 W2]; subst. rewrite put_nest in E. destruct (prefix t p) eqn:Ep; [|discriminate]. destruct (walk put t p) as [t' r] eqn:Ew. injection E as <- ->.
  assert (Et' : parts (fun x q => has_leaf t x /\ trel (fun p y => is_trainable m_get m_train x = false -> y = p) (get x) q) t p).
  { eapply parts_impl; [|exact Et]. cbn. intros x q Hl HT. split; [exact Hl|]. apply trel_tmap in HT. exact HT. }
  destruct (walk_ok put _ t W1 p t' Et' Ew) as [T _].
  constructor. eapply trel_impl; [|exact T]. cbn. intros x x' (q & [Hl HT] & Hp). eapply nrel_impl; [|eapply put_related; [apply W2; exact Hl|exact HT|exact Hp]].
  cbn. intros a a' (Ha & qa & Hq & Es) Hf. destruct (HM _ _ _ Es) as [H1 _].
  apply (trel_comp eq eq eq _ qa); [intros; congruence| |exact H1]. eapply trel_leaf_impl; [|exact Hq]. cbn. intros v w Hv Hvw.
  destruct (HU x Hl) as [Ht|Hn].
  - destruct (Ht a Ha) as [E|E]; [congruence|]. apply leaves_has_leaf in Hv. rewrite E in Hv. destruct Hv.
  - symmetry. apply Hvw. unfold is_trainable. destruct (trainable m_train x) eqn:Etr; [|reflexivity]. exfalso. apply trainable_iff in Etr as (b & Hb & Eb). rewrite (Hn b Hb) in Eb. discriminate.
Qed.

(* ------------------------------------------------------------------ *)
(** * Freezing and counting *)
Lemma has_leaf_sub_inv {X Y} (g : X -> Y) (t : tree X) y : has_leaf (tsub (fun x => Leaf (g x)) t) y -> exists x, has_leaf t x /\ y = g x.
Proof.
  induction t as [x| |d IH|l IH|l IH] using tree_ind2; cbn [tsub]; intros Hin.
  - inversion Hin; subst. exists x. split; [constructor|reflexivity].
  - inversion Hin.
  - inversion Hin as [|? k u ? Hi Hu| |]; subst. apply in_map_iff in Hi as ([k' x] & E & Hi). injection E as <- <-. rewrite Forall_forall in IH. destruct (IH _ Hi Hu) as (z & Hz & Ez). exists z. split; [econstructor; eauto|exact Ez].
  - inversion Hin as [| |? u ? Hi Hu|]; subst. apply in_map_iff in Hi as (x & <- & Hi). rewrite Forall_forall in IH. destruct (IH _ Hi Hu) as (z & Hz & Ez). exists z. split; [econstructor; eauto|exact Ez].
  - inversion Hin as [| | |? u ? Hi Hu]; subst. apply in_map_iff in Hi as (x & <- & Hi). rewrite Forall_forall in IH. destruct (IH _ Hi Hu) as (z & Hz & Ez). exists z. split; [econstructor; eauto|exact Ez].
Qed.
Lemma freeze_atoms (m_freeze : bool -> M -> M) b m a : atom_in (set_trainable m_freeze b m) a -> exists a0, atom_in m a0 /\ a = m_freeze b a0.
Proof.
  induction m as [a0|t IH] using net_ind2; cbn [set_trainable]; intros H; inversion H as [|? x ? Hx Ha]; subst.
  - exists a0. split; [constructor|reflexivity].
  - apply has_leaf_sub_inv in Hx as (x0 & Hx0 & ->). destruct (IH x0 Hx0 Ha) as (a0 & Ha0 & ->). exists a0. split; [econstructor; eauto|reflexivity].
Qed.
Lemma freeze_get (m_freeze : bool -> M -> M) b m : (forall a, m_get (m_freeze b a) = m_get a) -> get (set_trainable m_freeze b m) = get m.
Proof.
  intros H. induction m as [a0|t IH] using net_ind2; [apply H|]. cbn [set_trainable Params.get].
  induction t as [x| |d IHd|l IHl|l IHl] using tree_ind2; cbn [tsub].
  - apply IH. constructor.
  - reflexivity.
  - f_equal. rewrite map_map. apply map_ext_in. intros [k x] Hin. cbn. f_equal. rewrite Forall_forall in IHd. apply (IHd (k, x) Hin). intros y Hy. apply IH. econstructor; eauto.
  - f_equal. rewrite map_map. apply map_ext_in. intros x Hin. rewrite Forall_forall in IHl. apply (IHl x Hin). intros y Hy. apply IH. econstructor; eauto.
  - f_equal. rewrite map_map. apply map_ext_in. intros x Hin. rewrite Forall_forall in IHl. apply (IHl x Hin). intros y Hy. apply IH. econstructor; eauto.
Qed.
End Models.

Lemma leaves_sub {X Y} (g : X -> tree Y) (t : tree X) : leaves (tsub g t) = concat (map (fun x => leaves (g x)) (leaves t)).
Proof.
  assert (L : forall l : list (tree X), Forall (fun t => leaves (tsub g t) = concat (map (fun x => leaves (g x)) (leaves t))) l ->
    concat (map leaves (map (tsub g) l)) = concat (map (fun x => leaves (g x)) (concat (map leaves l)))).
  { clear t. induction 1 as [|t l Ht _ IH]; [reflexivity|]. cbn. rewrite Ht, IH, map_app, concat_app. reflexivity. }
  induction t as [x| |d IH|l IH|l IH] using tree_ind2; cbn [tsub].
  - cbn. rewrite app_nil_r. reflexivity.
  - reflexivity.
  - cbn [leaves]. rewrite map_map. cbn [fst snd].
    rewrite (sort_kvs_map (fun kv : string * tree X => (fst kv, leaves (tsub g (snd kv))))) by reflexivity.
    rewrite (sort_kvs_map (fun kv : string * tree X => (fst kv, leaves (snd kv)))) by reflexivity. rewrite !map_map. cbn [snd].
    assert (IH' : Forall (fun kv => leaves (tsub g (snd kv)) = concat (map (fun x => leaves (g x)) (leaves (snd kv)))) (sort_kvs d)).
    { rewrite Forall_forall in IH |- *. intros kv Hin. apply IH. eapply Permutation_in; [|exact Hin]. apply sort_kvs_perm. }
    clear IH. induction IH' as [|kv l Hk _ IHl]; [reflexivity|]. cbn. rewrite Hk, IHl, map_app, concat_app. reflexivity.
  - cbn [leaves]. apply L. exact IH.
  - cbn [leaves]. apply L. exact IH.
Qed.
Lemma leaves_one {X Y} (g : X -> Y) (t : tree X) : leaves (tsub (fun x => Leaf (g x)) t) = map g (leaves t).
Proof. rewrite leaves_sub. cbn. induction (leaves t) as [|x l IH]; [reflexivity|]. cbn. rewrite IH. reflexivity. Qed.
Lemma total_app l1 l2 : total (l1 ++ l2) = match total l1, total l2 with Some a, Some b => Some (a + b) | _, _ => None end.
Proof.
  induction l1 as [|[n|] l1 IH]; cbn.
  - destruct (total l2); reflexivity.
  - rewrite IH. destruct (total l1), (total l2); try reflexivity. rewrite Nat.add_assoc. reflexivity.
  - reflexivity.
Qed.
Lemma count_atoms {M} (m_count : M -> option nat) m : count m_count m = total (map m_count (atoms m)).
Proof.
  induction m as [a|t IH] using net_ind2; [cbn; destruct (m_count a); [rewrite Nat.add_0_r|]; reflexivity|].
  cbn [count atoms]. rewrite !leaves_one.
  assert (IH' : forall x, In x (leaves t) -> count m_count x = total (map m_count (atoms x))) by (intros x Hx; apply IH, leaves_has_leaf; exact Hx).
  clear IH. induction (leaves t) as [|x l IHl]; [reflexivity|]. cbn [map concat total]. rewrite map_app, total_app. rewrite <- IHl by (intros; apply IH'; right; assumption). rewrite <- (IH' x) by (left; reflexivity).
  destruct (count m_count x); reflexivity.
Qed.
Lemma get_leaves {M P} (m_get : M -> tree P) m : leaves (get m_get m) = concat (map (fun a => leaves (m_get a)) (atoms m)).
Proof.
  induction m as [a|t IH] using net_ind2; [cbn; rewrite app_nil_r; reflexivity|].
  cbn [get atoms]. rewrite leaves_one, leaves_sub.
  assert (IH' : forall x, In x (leaves t) -> leaves (get m_get x) = concat (map (fun a => leaves (m_get a)) (atoms x))) by (intros x Hx; apply IH, leaves_has_leaf; exact Hx).
  clear IH. induction (leaves t) as [|x l IHl]; [reflexivity|]. cbn [map concat]. rewrite map_app, concat_app, IH' by (left; reflexivity). rewrite IHl by (intros; apply IH'; right; assumption). reflexivity.
Qed.
Lemma atoms_in {M} (m : net M) a : In a (atoms m) <-> atom_in m a.
Proof.
  revert a. induction m as [b|t IH] using net_ind2; intros a.
  - cbn. split; [intros [->|[]]; constructor|intros H; inversion H; auto].
  - cbn [atoms]. rewrite leaves_one, in_concat. split.
    + intros (l & Hl & Ha). apply in_map_iff in Hl as (x & <- & Hx). apply leaves_has_leaf in Hx. econstructor; [exact Hx|]. apply IH; assumption.
    + intros H. inversion H as [|? x ? Hx Ha]; subst. exists (atoms x). split; [apply in_map, leaves_has_leaf; exact Hx|]. apply IH; assumption.
Qed.
Lemma fold_sum {X} (h : X -> nat) l : forall s, fold_left (fun s x => s + h x) l s = s + list_sum (map h l).
Proof. induction l as [|x l IH]; intros s; cbn [fold_left map]; [cbn; lia|]. rewrite IH. unfold list_sum. cbn [fold_right]. lia. Qed.
Lemma list_sum_app' l1 l2 : list_sum (l1 ++ l2) = list_sum l1 + list_sum l2.
Proof. apply list_sum_app. Qed.
Lemma total_none {X} (h : X -> option nat) l : total (map h l) = None <-> exists x, In x l /\ h x = None.
Proof.
  induction l as [|x l IH]; cbn.
  - split; [discriminate|intros (? & [] & _)].
  - destruct (h x) as [n|] eqn:Ex.
    + destruct (total (map h l)) as [s|].
      * split; [discriminate|]. intros (y & [<-|Hy] & E); [congruence|]. exfalso. assert (Some s = None) by (apply IH; eauto). discriminate.
      * split; [|reflexivity]. intros _. destruct (proj1 IH eq_refl) as (y & Hy & E). eauto.
    + split; [eauto|reflexivity].
Qed.
Lemma count_reals {M P} (ready : M -> bool) (m_get : M -> tree P) size is_complex m : (forall a, atom_in m a -> ready a = true) ->
  count (base_count ready m_get size is_complex) m = Some (reals size is_complex (get m_get m)).
Proof.
  intros H. rewrite count_atoms. unfold reals. rewrite get_leaves.
  assert (H' : forall a, In a (atoms m) -> ready a = true) by (intros a Ha; apply H, atoms_in; exact Ha). clear H.
  induction (atoms m) as [|a l IH]; [reflexivity|]. cbn [map total concat]. rewrite IH by (intros; apply H'; right; assumption).
  unfold base_count at 1. rewrite (H' a) by (left; reflexivity). rewrite fold_sum, map_app, list_sum_app'. cbn [Nat.add]. f_equal. f_equal. f_equal. apply map_ext. intros p. destruct (is_complex p); lia.
Qed.
