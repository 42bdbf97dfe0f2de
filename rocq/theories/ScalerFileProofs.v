From Coq Require Import Permutation.
From Verif Require Import Base BaseLemmas TreeUtil TreeSpec NonSeqSpec NonSeqProofs MutableProofs Serial SerialSpec SerialProofs ScalerProofs ReshapeProofs ReshapeMain ScalerFile ScalerFileSpec.
Local Open Scope string_scope.
Local Open Scope list_scope.
Local Open Scope nat_scope.

(* ------------------------------------------------------------------ *)
(** * Related trees *)
Lemma trel_leaf_impl {X Y} (R S : X -> Y -> Prop) (t : tree X) :
  (forall x y, has_leaf t x -> R x y -> S x y) -> forall u, trel R t u -> trel S t u.
Proof.
  induction t as [x| |d IH|l IH|l IH] using tree_ind2; intros H u T; inversion T as [? y HR| |? m F|? m F|? e e' Pe F]; subst.
  - constructor. apply H; [constructor|exact HR].
  - constructor.
  - apply tr_dict with (e' := e'); auto. clear Pe T. assert (H' : forall k t x y, In (k, t) d -> has_leaf t x -> R x y -> S x y) by (intros; eapply H; eauto; econstructor; eauto).
    clear H. induction F as [|[k a] b d e' [Hk O] F IHF]; constructor; inversion IH as [|? ? I1 I2]; subst.
    + split; [exact Hk|]. apply I1; [|exact O]. intros x y. apply (H' k a x y). left; reflexivity.
    + apply IHF; auto. intros k' t x y Hin. apply (H' k' t x y). right; exact Hin.
  - constructor. assert (H' : forall t x y, In t l -> has_leaf t x -> R x y -> S x y) by (intros; eapply H; eauto; econstructor; eauto).
    clear H T. induction F as [|a b l m O F IHF]; constructor; inversion IH as [|? ? I1 I2]; subst; [apply I1; auto; intros x y; apply H'; left; reflexivity|].
    apply IHF; auto. intros t x y Hin. apply (H' t x y). right; exact Hin.
  - constructor. assert (H' : forall t x y, In t l -> has_leaf t x -> R x y -> S x y) by (intros; eapply H; eauto; econstructor; eauto).
    clear H T. induction F as [|a b l m O F IHF]; constructor; inversion IH as [|? ? I1 I2]; subst; [apply I1; auto; intros x y; apply H'; left; reflexivity|].
    apply IHF; auto. intros t x y Hin. apply (H' t x y). right; exact Hin.
Qed.

Section Rel.
Context {A B : Type} (R : A -> B -> Prop).
Lemma dict_rel d e : trel R (Dict d) (Dict e) -> NoDup (dkeys d) ->
  length d = length e /\ forall k, match dget d k, dget e k with Some x, Some y => trel R x y | None, None => True | _, _ => False end.
Proof.
  intros T ND. inversion T as [| | | |? ? e' P F]; subst. clear T.
  assert (K : dkeys d = dkeys e') by (eapply trel_keys; exact F). split.
  { rewrite <- (Permutation_length P). eapply F2_length; exact F. }
  intros k. rewrite <- (dget_perm e' e k P); [|rewrite <- K; exact ND].
  clear -F. induction F as [|[k1 a] [k2 b] d e [Hk O] F IH]; cbn; [exact I|]. cbn in Hk, O. subst k2.
  destruct (String.eqb k k1); auto.
Qed.
Lemma is_none_rel v v' : trel R v v' -> is_none v' = is_none v.
Proof. inversion 1; reflexivity. Qed.
Lemma child_rel k v v' : wf_tree v -> trel R v v' -> trel R (child k v) (child k v').
Proof.
  intros W T. inversion T as [? y HR| |? m F|? m F|? e e' Pe F]; subst; try constructor.
  inversion W as [| |? ND WF| |]; subst. destruct (dict_rel _ _ T ND) as [_ H]. specialize (H k). cbn.
  destruct (dget d k), (dget e k); try (destruct H; fail); auto. constructor.
Qed.
Lemma child_wf {X} k (v : tree X) : wf_tree v -> wf_tree (child k v).
Proof.
  intros W. destruct v as [x| |d|l|l]; try constructor. cbn. destruct (dget d k) eqn:E; [|constructor].
  inversion W as [| |? ND WF| |]; subst. rewrite Forall_forall in WF. apply dget_In in E. exact (WF _ E).
Qed.
Lemma nth_rel l m i : Forall2 (trel R) l m -> trel R (nth i l NoneT) (nth i m NoneT).
Proof. intros F. revert i. induction F as [|x y l m H F IH]; intros [|i]; cbn; auto; constructor. Qed.
Lemma elem_rel i v v' : trel R v v' -> trel R (elem i v) (elem i v').
Proof. intros T. inversion T as [? y HR| |? m F|? m F|? e e' Pe F]; subst; cbn; try constructor; apply nth_rel; exact F. Qed.
Lemma elem_wf {X} i (v : tree X) : wf_tree v -> wf_tree (elem i v).
Proof.
  assert (L : forall l : list (tree X), Forall wf_tree l -> wf_tree (nth i l NoneT)).
  { intros l F. revert i. induction F as [|x l W F IH]; intros [|i]; cbn; auto; constructor. }
  intros W. inversion W; subst; cbn; try constructor; auto.
Qed.
Lemma has_keys_rel {C} (d : list (string * C)) v v' : wf_tree v -> trel R v v' -> has_keys d v' = has_keys d v.
Proof.
  intros W T. inversion T as [? y HR| |? m F|? m F|? e e' Pe F]; subst; try reflexivity.
  inversion W as [| |? ND WF| |]; subst. destruct (dict_rel _ _ T ND) as [HL H]. cbn. rewrite HL. f_equal.
  clear -H. induction d as [|[k c] d IH]; cbn; [reflexivity|]. specialize (H k). destruct (dget d0 k), (dget e k); try (destruct H; fail); cbn; auto.
Qed.
Lemma is_lst_rel n v v' : trel R v v' -> is_lst n v' = is_lst n v.
Proof. intros T. inversion T as [? y HR| |? m F|? m F|? e e' Pe F]; subst; try reflexivity. cbn. rewrite (F2_length _ _ _ F). reflexivity. Qed.
Lemma is_tup_rel n v v' : trel R v v' -> is_tup n v' = is_tup n v.
Proof. intros T. inversion T as [? y HR| |? m F|? m F|? e e' Pe F]; subst; try reflexivity. cbn. rewrite (F2_length _ _ _ F). reflexivity. Qed.
End Rel.

Lemma forallb_rel {X Y} (P : X -> bool) (Q : Y -> bool) (R : X -> Y -> Prop) l m :
  Forall2 R l m -> (forall x y, In x l -> R x y -> Q y = P x) -> forallb Q m = forallb P l.
Proof.
  induction 1 as [|x y l m H F IH]; intros E; cbn; [reflexivity|]. rewrite (E x y), IH; auto; [|left; reflexivity].
  intros a b Ha. apply E. right; exact Ha.
Qed.
Lemma F2_map {X Y X' Y'} (f : X -> X') (g : Y -> Y') (R : X -> Y -> Prop) (S : X' -> Y' -> Prop) l m :
  Forall2 R l m -> (forall x y, In x l -> R x y -> S (f x) (g y)) -> Forall2 S (map f l) (map g m).
Proof.
  induction 1 as [|x y l m H F IH]; intros E; cbn; constructor; [apply E; [left; reflexivity|exact H]|].
  apply IH. intros a b Ha. apply E. right; exact Ha.
Qed.

(* ------------------------------------------------------------------ *)
(** * Mapping over several trees *)
Section NMapEq.
Context {A D E : Type} (f g : D -> list (tree A) -> result E) (R : A -> A -> Prop).
Context (HF : forall x vs vs', Forall2 (trel R) vs vs' -> f x vs = g x vs').

Definition go_list (h : D -> list (tree A) -> result E) (vs : list (tree A)) :=
  fix go l i := match l with [] => [] | x :: l' => nmap h x (map (elem i) vs) :: go l' (S i) end.
Lemma go_list_eq l vs vs' : Forall (fun X => forall vs vs', Forall wf_tree vs -> Forall2 (trel R) vs vs' -> nmap f X vs = nmap g X vs') l ->
  Forall wf_tree vs -> Forall2 (trel R) vs vs' -> forall i, go_list f vs l i = go_list g vs' l i.
Proof.
  intros H W T. induction H as [|X l HX _ IH]; intros i; cbn; [reflexivity|]. f_equal; [|apply IH].
  apply HX.
  - apply Forall_map. eapply Forall_impl; [|exact W]. intros v. apply elem_wf.
  - eapply F2_map; [exact T|]. intros x y _. apply elem_rel.
Qed.

Lemma nmap_eq X : forall vs vs', Forall wf_tree vs -> Forall2 (trel R) vs vs' -> nmap f X vs = nmap g X vs'.
Proof.
  induction X as [x| |d IH|l IH|l IH] using tree_ind2; intros vs vs' W T.
  - cbn. rewrite (HF x _ _ T). reflexivity.
  - cbn. rewrite (forallb_rel is_none is_none _ _ _ T); [reflexivity|]. intros x y _. apply is_none_rel.
  - cbn [nmap]. rewrite (forallb_rel (has_keys d) (has_keys d) _ _ _ T).
    2:{ intros x y Hx. apply has_keys_rel. rewrite Forall_forall in W. auto. }
    destruct (forallb _ vs); [|reflexivity]. f_equal. f_equal. f_equal. apply map_ext_in. intros [k X] Hin. cbn. f_equal.
    rewrite Forall_forall in IH. apply (IH _ Hin).
    + apply Forall_map. eapply Forall_impl; [|exact W]. intros v. apply child_wf.
    + eapply F2_map; [exact T|]. intros x y Hx. apply child_rel. rewrite Forall_forall in W. auto.
  - cbn [nmap]. rewrite (forallb_rel (is_lst (length l)) (is_lst (length l)) _ _ _ T); [|intros x y _; apply is_lst_rel].
    destruct (forallb _ vs); [|reflexivity]. fold (go_list f vs) (go_list g vs'). rewrite (go_list_eq l vs vs' IH W T). reflexivity.
  - cbn [nmap]. rewrite (forallb_rel (is_tup (length l)) (is_tup (length l)) _ _ _ T); [|intros x y _; apply is_tup_rel].
    destruct (forallb _ vs); [|reflexivity]. fold (go_list f vs) (go_list g vs'). rewrite (go_list_eq l vs vs' IH W T). reflexivity.
Qed.
End NMapEq.

(** [pre] of related trees of scalers. *)
Section PreEq.
Context {A D : Type} (f g : A -> tree D -> result (tree D)).
Definition agrees (s s' : A) : Prop := forall X, f s X = g s' X.
Definition pgo (h : A -> tree D -> result (tree D)) (X : tree D) :=
  fix go (l : list (tree A)) i := match l with [] => [] | x :: l' => pre h x (elem i X) :: go l' (S i) end.
Lemma pgo_eq l : Forall (fun t => wf_tree t -> forall t', trel agrees t t' -> forall X, pre f t X = pre g t' X) l ->
  Forall wf_tree l -> forall m, Forall2 (trel agrees) l m -> forall X i, pgo f X l i = pgo g X m i.
Proof.
  induction 1 as [|t l Ht _ IH]; intros W m F X i; inversion F; subst; cbn; [reflexivity|]. inversion W; subst. f_equal; auto.
Qed.
Lemma keys_perm {C C'} (d : list (string * C)) (e : list (string * C')) (X : tree D) : Permutation (dkeys d) (dkeys e) -> has_keys d X = has_keys e X.
Proof.
  intros P. destruct X as [x| |x|x|x]; cbn; auto. f_equal.
  - apply Permutation_length in P. unfold dkeys in P. rewrite !map_length in P. rewrite P. reflexivity.
  - set (ok := fun k => match dget x k with Some _ => true | None => false end).
    assert (M : forall C (d : list (string * C)), forallb (fun kv => ok (fst kv)) d = forallb ok (dkeys d)).
    { intros C0 d0. induction d0 as [|a d0 IH]; cbn; [reflexivity|]. rewrite IH. reflexivity. }
    change (forallb (fun kv => ok (fst kv)) d = forallb (fun kv => ok (fst kv)) e). rewrite !M.
    clear -P. induction P; cbn; auto; [rewrite IHP; reflexivity|rewrite !andb_assoc, (andb_comm (ok _)); reflexivity|congruence].
Qed.
Lemma pre_eq t : wf_tree t -> forall t', trel agrees t t' -> forall X, pre f t X = pre g t' X.
Proof.
  induction t as [x| |d IH|l IH|l IH] using tree_ind2; intros W u T X; inversion T as [? y HR| |? m F|? m F|? e e' Pe F]; subst; inversion W as [| |? ND WF|? WF|? WF]; subst.
  - apply HR.
  - reflexivity.
  - cbn [pre]. assert (K : dkeys d = dkeys e') by (eapply trel_keys; exact F).
    rewrite (keys_perm d e); [|rewrite K; apply Permutation_map; exact Pe]. destruct (has_keys e X); [|reflexivity]. f_equal. f_equal.
    rewrite (sort_perm_eq _ (map (fun kv => (fst kv, pre g (snd kv) (child (fst kv) X))) e')).
    + apply sort_perm_eq; [apply Permutation_map; exact Pe|]. unfold dkeys. rewrite map_map. change (NoDup (dkeys e')). rewrite <- K. exact ND.
    + assert (M : map (fun kv => (fst kv, pre f (snd kv) (child (fst kv) X))) d = map (fun kv => (fst kv, pre g (snd kv) (child (fst kv) X))) e').
      { clear -F IH WF. induction F as [|[k a] [k' b] d e [Hk O] F IHF]; cbn; [reflexivity|]. cbn in Hk, O. subst k'. inversion IH; subst. inversion WF; subst. cbn in *. f_equal; [f_equal; auto|auto]. }
      rewrite M. reflexivity.
    + unfold dkeys. rewrite map_map. cbn. exact ND.
  - cbn [pre]. rewrite (F2_length _ _ _ F). destruct (is_lst (length m) X); [|reflexivity]. fold (pgo f X) (pgo g X). rewrite (pgo_eq l IH WF m F). reflexivity.
  - cbn [pre]. rewrite (F2_length _ _ _ F). destruct (is_tup (length m) X); [|reflexivity]. fold (pgo f X) (pgo g X). rewrite (pgo_eq l IH WF m F). reflexivity.
Qed.
End PreEq.

(* ------------------------------------------------------------------ *)
(** * Scalers that are the same do the same *)
Section Same.
Context {N : Type} (ofnat : nat -> N).
Notation same_atom := (same_atom ofnat).
Notation same_value := (same_value ofnat).
Lemma same_refl (v : py N) : same_value v v.
Proof. eapply trel_impl; [|apply trel_refl]. intros x y ->. left; reflexivity. Qed.
Lemma same_eq (v w : py N) : trel eq v w -> same_value v w.
Proof. apply trel_impl. intros x y ->. left; reflexivity. Qed.
Lemma scalar_atom a b : same_atom a b -> @is_scalar N (Leaf b) = is_scalar (Leaf a).
Proof. intros [ -> |(x & Ha & Hb)]; [reflexivity|]. inversion Ha; inversion Hb; subst; reflexivity. Qed.
Lemma spread_rel b b' s s' : wf_tree b -> wf_tree s -> same_value b b' -> same_value s s' ->
  exists v v', spread b s = Ok v /\ spread b' s' = Ok v' /\ same_value v v' /\ wf_tree v.
Proof.
  intros Wb Ws Tb Ts. pose proof Tb as Tb'. inversion Tb as [a a' HR| |? m F|? m F|? e e' Pe F]; subst; cbn [spread].
  2-5: do 2 eexists; repeat split; eauto.
  rewrite (scalar_atom _ _ HR). destruct (is_scalar (Leaf a)).
  - destruct (jm_trel (fun _ => Ok a) eq (fun _ z => z = a) s (fun x y _ _ => ex_intro _ a (conj eq_refl eq_refl)) s (trel_refl s)) as (v & Ev & Tv).
    destruct (jm_trel (fun _ => Ok a') same_atom (fun _ z => z = a') s (fun x y _ _ => ex_intro _ a' (conj eq_refl eq_refl)) s' Ts) as (v' & Ev' & Tv').
    exists v, v'. repeat split; auto.
    + eapply trel_join; [|exact Tv|exact Tv']. intros x y z -> ->. exact HR.
    + eapply trel_wf; [exact Tv|exact Ws].
  - do 2 eexists; repeat split; eauto.
Qed.

Context {D : Type} (kern : scls -> bool -> list (py N) -> D -> list (py N) -> result D) (IND : indifferent ofnat kern).
Lemma values_leaf vs vs' : Forall2 same_value vs vs' -> Forall2 (same_leaf ofnat) vs vs'.
Proof. induction 1; constructor; auto. left; assumption. Qed.
Lemma apply_same inv s : proper s -> forall s', same_scaler ofnat s s' -> forall X, apply kern inv s X = apply kern inv s' X.
Proof.
  induction 1 as [m s W1 W2|l h a b W1 W2 W3 W4|l h c s e x m W1 W2 W3 W4 W5 W6 W7 N1 N2 N3|u o W1 W2|t W HP IH]; intros s' HS X; inversion HS as [? ? m' s1 A1 A2|? ? ? ? l' h' a' b' A1 A2 A3 A4|? ? ? ? ? ? ? l' h' c' s1 e' x' m' A1 A2 A3 A4 A5 A6 A7|? ? u' o' A1 A2|u0 ? o' A1|? t' A1]; subst; cbn [apply].
  - rewrite !(is_none_rel _ _ _ A1), !(is_none_rel _ _ _ A2). destruct (is_none m || is_none s); [reflexivity|].
    apply nmap_eq with (R := same_atom); auto. intros y vs vs' F. apply IND; [constructor|apply values_leaf; exact F].
  - rewrite !(is_none_rel _ _ _ A3), !(is_none_rel _ _ _ A4). destruct (is_none a || is_none b); [reflexivity|].
    destruct (spread_rel l l' a a' W1 W3 A1 A3) as (v & v' & E1 & E2 & T1 & Wv). destruct (spread_rel h h' b b' W2 W4 A2 A4) as (w & w' & E3 & E4 & T2 & Ww).
    rewrite E1, E2, E3, E4. cbn [rbind]. apply nmap_eq with (R := same_atom); auto. intros y vs vs' F. apply IND; [constructor|apply values_leaf; exact F].
  - rewrite !(is_none_rel _ _ _ A6), !(is_none_rel _ _ _ A7). destruct (is_none x || is_none m); [reflexivity|].
    apply nmap_eq with (R := same_atom); auto. intros y vs vs' F. apply IND; [repeat constructor; assumption|apply values_leaf; exact F].
  - rewrite !(is_none_rel _ _ _ A1), !(is_none_rel _ _ _ A2). destruct (is_none u || inv && is_none o); [reflexivity|].
    apply nmap_eq with (R := same_atom); auto.
    + intros y vs vs' F. apply IND; [constructor|apply values_leaf; exact F].
    + destruct inv; auto.
    + destruct inv; auto.
  - destruct A1 as (l & -> & ->). unfold shape_tuple, shape_array. cbn [is_none orb shape_tuple shape_array]. rewrite andb_false_r. destruct X as [x| |d|l'|l']; cbn [nmap]; destruct inv; try reflexivity.
    + rewrite (IND COneHot true [] [] x [Leaf u0; Tup (map (fun n => Leaf (AInt n)) l)] [Leaf u0; Leaf (AArr (mk_arr [length l] (map ofnat l)))]); [reflexivity|constructor|].
      constructor; [left; apply same_refl|]. constructor; [|constructor]. right. exists l. split; reflexivity.
  - assert (E : pre (apply kern inv) t X = pre (apply kern inv) t' X).
    { apply pre_eq; [exact W|]. eapply trel_leaf_impl; [|exact A1]. intros x y Hx Hxy X'. apply IH; assumption. }
    inversion A1; subst; exact E.
Qed.

(* ------------------------------------------------------------------ *)
(** * Serialising *)
Lemma need_rel (d d1 : list (string * py N)) k v : trel eq (Dict d) (Dict d1) -> NoDup (dkeys d) -> dget d k = Some v -> exists w, need d1 k = Ok w /\ trel eq v w.
Proof.
  intros T ND E. destruct (dict_rel _ _ _ T ND) as [_ H]. specialize (H k). rewrite E in H. unfold need. destruct (dget d1 k) as [w|]; [|destruct H]. eauto.
Qed.
Lemma switch_rel (v w : py N) : no_array v -> trel eq v w -> switch w = Ok w.
Proof. intros NA T. inversion T as [a b HR| |? m F|? m F|? e e' Pe F]; subst; cbn; try reflexivity. destruct b; try reflexivity. exfalso. eapply NA; reflexivity. Qed.

Definition revives (s : sobj N) : Prop := forall d1, trel eq (Dict (ser s)) (Dict d1) ->
  exists s', walk (Dict d1) (Leaf (AStr (cls_name (cls_of s)))) (Leaf (AStr (cls_module (cls_of s)))) = Ok (Leaf s') /\ same_scaler ofnat s s'.

Definition ser_tree := jpy (N := N) (fun s : sobj N => Dict (ser s)).
Definition name_tree := jpy (N := N) (fun s : sobj N => Leaf (AStr (cls_name (cls_of s)))).
Definition module_tree := jpy (N := N) (fun s : sobj N => Leaf (AStr (cls_module (cls_of s)))).

Definition wgo (dn dm : list (string * py N)) :=
  fix go (ds : list (string * py N)) : result (list (string * tree (sobj N))) := match ds with
    | [] => Ok []
    | (k, x) :: ds' =>
        match dget dn k, dget dm k with
        | Some n', Some m' => let* t := walk x n' m' in let* r := go ds' in Ok ((k, t) :: r)
        | _, _ => Err ValueError
        end
    end.
Definition wgol :=
  fix go (ls ln lm : list (py N)) : result (list (tree (sobj N))) := match ls, ln, lm with
    | [], [], [] => Ok []
    | x :: ls', n' :: ln', m' :: lm' => let* t := walk x n' m' in let* r := go ls' ln' lm' in Ok (t :: r)
    | _, _, _ => Err ValueError
    end.
Lemma walk_dict dn dm ds : walk (Dict ds) (Dict dn) (Dict dm) = if (length dn =? length ds) && (length dm =? length ds) then let* r := wgo dn dm ds in Ok (Dict (sort_kvs r)) else Err ValueError.
Proof. reflexivity. Qed.
Lemma walk_lst ln lm ls : walk (Lst ls) (Lst ln) (Lst lm) = let* r := wgol ls ln lm in Ok (Lst r).
Proof.
  cbn [walk container]. f_equal. revert ln lm. induction ls as [|x ls IH]; intros [|n ln] [|m lm]; try reflexivity. cbn [wgol].
  destruct (walk x n m) as [t|e]; cbn [rbind]; [|reflexivity]. rewrite IH. reflexivity.
Qed.
Lemma walk_tup ln lm ls : walk (Tup ls) (Tup ln) (Tup lm) = let* r := wgol ls ln lm in Ok (Tup r).
Proof.
  cbn [walk container]. f_equal. revert ln lm. induction ls as [|x ls IH]; intros [|n ln] [|m lm]; try reflexivity. cbn [wgol].
  destruct (walk x n m) as [t|e]; cbn [rbind]; [|reflexivity]. rewrite IH. reflexivity.
Qed.

Lemma dkeys_sort_map {X Y} (f : X -> Y) (d : list (string * X)) : Permutation (dkeys (sort_kvs (map (fun kv => (fst kv, f (snd kv))) d))) (dkeys d).
Proof. unfold dkeys. rewrite (Permutation_map fst (sort_kvs_perm (map (fun kv => (fst kv, f (snd kv))) d))). rewrite map_map. cbn. reflexivity. Qed.

Lemma walk_ok t : wf_tree t -> (forall s, has_leaf t s -> revives s) ->
  forall f1 n1 m1, trel eq (ser_tree t) f1 -> trel eq (name_tree t) n1 -> trel eq (module_tree t) m1 ->
  exists t', walk f1 n1 m1 = Ok t' /\ trel (same_scaler ofnat) t t'.
Proof.
  unfold ser_tree, name_tree, module_tree.
  assert (LS : forall l, Forall (fun t => wf_tree t -> (forall s, has_leaf t s -> revives s) ->
      forall f1 n1 m1, trel eq (ser_tree t) f1 -> trel eq (name_tree t) n1 -> trel eq (module_tree t) m1 ->
      exists t', walk f1 n1 m1 = Ok t' /\ trel (same_scaler ofnat) t t') l -> Forall wf_tree l -> (forall t s, In t l -> has_leaf t s -> revives s) ->
      forall f1 n1 m1, Forall2 (trel eq) (map ser_tree l) f1 -> Forall2 (trel eq) (map name_tree l) n1 -> Forall2 (trel eq) (map module_tree l) m1 ->
      exists r, wgol f1 n1 m1 = Ok r /\ Forall2 (trel (same_scaler ofnat)) l r).
  { induction 1 as [|t0 l Ht _ IH]; intros W H f1 n1 m1 F1 F2 F3; cbn in F1, F2, F3; inversion F1; subst; inversion F2; subst; inversion F3; subst.
    - exists []. split; [reflexivity|constructor].
    - inversion W; subst. edestruct Ht as (t' & E & T); eauto. { intros s Hs. eapply H; [left; reflexivity|exact Hs]. }
      edestruct IH as (r & Er & Fr); eauto. { intros t1 s Hin. apply H. right; exact Hin. }
      exists (t' :: r). cbn [wgol]. rewrite E. cbn [rbind]. fold wgol. rewrite Er. split; [reflexivity|constructor; auto]. }
  induction t as [x| |d IH|l IH|l IH] using tree_ind2; intros W H f1 n1 m1 T1 T2 T3; cbn [jpy] in T1, T2, T3.
  - inversion T2; subst. inversion T3; subst. pose proof T1 as T1'. inversion T1' as [| | | |? e1 e1' Pe Fe]; subst.
    destruct (H x (hl_leaf x) e1 T1) as (s' & E & S). exists (Leaf s'). split; [exact E|constructor; exact S].
  - inversion T1; subst. inversion T2; subst. inversion T3; subst. exists NoneT. split; [reflexivity|constructor].
  - inversion W as [| |? ND WF| |]; subst. fold ser_tree in T1. fold name_tree in T2. fold module_tree in T3.
    inversion T1 as [| | | |? ds ds' P1 F1]; subst. pose proof T2 as T2'. inversion T2' as [| | | |? dn dn' P2 F2]; subst. pose proof T3 as T3'. inversion T3' as [| | | |? dm dm' P3 F3]; subst. clear T2' T3'.
    assert (ND' : forall Y (f : tree (sobj N) -> Y), NoDup (dkeys (sort_kvs (map (fun kv => (fst kv, f (snd kv))) d)))).
    { intros Y f. eapply Permutation_NoDup; [symmetry; apply dkeys_sort_map|exact ND]. }
    assert (ND1 : forall Y (f : tree (sobj N) -> Y), NoDup (dkeys (map (fun kv => (fst kv, f (snd kv))) d))).
    { intros Y f. unfold dkeys. rewrite map_map. exact ND. }
    destruct (dict_rel _ _ _ T1 (ND' _ ser_tree)) as [L1 _]. destruct (dict_rel _ _ _ T2 (ND' _ name_tree)) as [L2 D2]. destruct (dict_rel _ _ _ T3 (ND' _ module_tree)) as [L3 D3].
    rewrite !sort_length, !map_length in L1, L2, L3.
    assert (K : exists r, Forall2 (fun a b => fst a = fst b /\ exists n' m', dget dn (fst a) = Some n' /\ dget dm (fst a) = Some m' /\ walk (snd a) n' m' = Ok (snd b)) ds r /\
                          exists d', Permutation d d' /\ Forall2 (fun a b => fst a = fst b /\ trel (same_scaler ofnat) (snd a) (snd b)) d' r).
    { assert (F0 : Forall2 (fun a b => fst a = fst b /\ In a d /\ trel eq (ser_tree (snd a)) (snd b)) (sort_kvs d) ds').
      { rewrite (sort_kvs_map (fun kv => (fst kv, ser_tree (snd kv))) (fun kv => eq_refl)) in F1.
        assert (HI : forall a, In a (sort_kvs d) -> In a d) by (intros a Ha; eapply Permutation_in; [apply sort_kvs_perm|exact Ha]).
        clear -F1 HI. revert ds' F1. induction (sort_kvs d) as [|a l IHl]; intros ds' F; cbn in F; inversion F as [|? ? ? ? [Ha Hb] F']; subst; constructor.
        - cbn in Ha, Hb. repeat split; auto. apply HI. left; reflexivity.
        - apply IHl; auto. intros b Hb'. apply HI. right; exact Hb'. }
      destruct (perm_F2 (fun (b : string * py N) (a : string * tree (sobj N)) => fst a = fst b /\ In a d /\ trel eq (ser_tree (snd a)) (snd b)) _ _ P1 (sort_kvs d)) as (d' & Pd & Fd).
      { clear -F0. induction F0; constructor; auto. }
      assert (Pd' : Permutation d d') by (rewrite <- Pd; symmetry; apply sort_kvs_perm).
      enough (K : exists r, Forall2 (fun a b => fst a = fst b /\ exists n' m', dget dn (fst a) = Some n' /\ dget dm (fst a) = Some m' /\ walk (snd a) n' m' = Ok (snd b)) ds r /\
                            Forall2 (fun a b => fst a = fst b /\ trel (same_scaler ofnat) (snd a) (snd b)) d' r) by (destruct K as (r & ? & ?); eauto).
      assert (H' : forall k t s, In (k, t) d -> has_leaf t s -> revives s) by (intros; eapply H; econstructor; eauto).
      clear -Fd H' IH WF D2 D3 ND ND1. induction Fd as [|[k b] [k' a] ds d' (Hk & Hin & Hab) F IHF]; [exists []; split; constructor|].
      cbn in Hk, Hab. subst k'. destruct IHF as (r & R1 & R2).
      pose proof (D2 k) as D2k. pose proof (D3 k) as D3k.
      rewrite dget_sort in D2k, D3k by apply ND1.
      assert (G : forall Y (f : tree (sobj N) -> Y), dget (map (fun kv => (fst kv, f (snd kv))) d) k = Some (f a)).
      { intros Y f. apply In_dget; [apply ND1|]. apply in_map_iff. exists (k, a). split; [reflexivity|exact Hin]. }
      rewrite G in D2k, D3k. destruct (dget dn k) as [n'|] eqn:En; [|destruct D2k]. destruct (dget dm k) as [m'|] eqn:Em; [|destruct D3k].
      rewrite Forall_forall in IH, WF. destruct (IH _ Hin (WF _ Hin) (fun s => H' k a s Hin) b n' m' Hab D2k D3k) as (t' & E & T).
      exists ((k, t') :: r). split; constructor; auto; cbn; split; auto. exists n', m'. auto. }
    destruct K as (r & R1 & d' & Pd & R2).
    exists (Dict (sort_kvs r)). split.
    + rewrite walk_dict. rewrite (proj2 (Nat.eqb_eq (length dn) (length ds))) by congruence. rewrite (proj2 (Nat.eqb_eq (length dm) (length ds))) by congruence. cbn [andb].
      assert (E : wgo dn dm ds = Ok r).
      { clear -R1. induction R1 as [|[k x] [k' t] ds r (Hk & n' & m' & En & Em & Ew) F IH]; [reflexivity|]. cbn in Hk, En, Em, Ew. subst k'. cbn [wgo]. rewrite En, Em, Ew. cbn [rbind]. fold (wgo dn dm). rewrite IH. reflexivity. }
      rewrite E. reflexivity.
    + destruct (perm_F2 _ _ _ (Permutation_sym Pd) _ R2) as (r' & Pr & R2').
      apply tr_dict with (e' := r'); [|exact R2']. rewrite <- Pr. symmetry. apply sort_kvs_perm.
  - inversion W; subst. inversion T1; subst. inversion T2; subst. inversion T3; subst.
    destruct (LS l IH) with (f1 := m) (n1 := m0) (m1 := m2) as (r & E & F); auto. { intros t s Hin Hs. apply H. econstructor; eauto. }
    exists (Lst r). rewrite walk_lst, E. split; [reflexivity|constructor; exact F].
  - inversion W; subst. inversion T1; subst. inversion T2; subst. inversion T3; subst.
    destruct (LS l IH) with (f1 := m) (n1 := m0) (m1 := m2) as (r & E & F); auto. { intros t s Hin Hs. apply H. econstructor; eauto. }
    exists (Tup r). rewrite walk_tup, E. split; [reflexivity|constructor; exact F].
Qed.
End Same.
