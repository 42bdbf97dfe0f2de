(** Lemmas on batching. *)
From Coq Require Import Permutation.
From Verif Require Import Base BaseLemmas TreeUtil TreeSpec TreeProofs MutableProofs ExtendProofs NonSeq NonSeqSpec NonSeqProofs
  NonSeqShape ConnProofs Seq SeqSpec SeqProofs SeqOrder SeqMain Batch BatchSpec.
Local Open Scope list_scope.

(* ------------------------------------------------------------------ *)
(** * tmap algebra *)
Lemma tmap_tmap {X Y Z} (f : X -> Y) (g : Y -> Z) t : tmap g (tmap f t) = tmap (fun x => g (f x)) t.
Proof.
  induction t as [x| |d IH|l IH|l IH] using tree_ind2; cbn [tmap]; try reflexivity; f_equal; rewrite map_map;
    apply map_ext_Forall; eapply Forall_impl; try exact IH; cbn; intros a Ha; try rewrite Ha; reflexivity.
Qed.

Lemma tmap_ext {X Y} (f g : X -> Y) t : (forall x, has_leaf t x -> f x = g x) -> tmap f t = tmap g t.
Proof.
  induction t as [x| |d IH|l IH|l IH] using tree_ind2; cbn [tmap]; intros H.
  - f_equal. apply H. constructor.
  - reflexivity.
  - f_equal. apply map_ext_in. intros [k v] Hin. cbn. f_equal. rewrite Forall_forall in IH. apply (IH _ Hin).
    intros x Hx. apply H. econstructor; eassumption.
  - f_equal. apply map_ext_in. intros v Hin. rewrite Forall_forall in IH. apply (IH _ Hin).
    intros x Hx. apply H. eapply hl_lst; eassumption.
  - f_equal. apply map_ext_in. intros v Hin. rewrite Forall_forall in IH. apply (IH _ Hin).
    intros x Hx. apply H. eapply hl_tup; eassumption.
Qed.

Lemma has_leaf_tmap {X Y} (f : X -> Y) t y : has_leaf (tmap f t) y <-> exists x, has_leaf t x /\ y = f x.
Proof.
  split.
  - revert y. induction t as [x| |d IH|l IH|l IH] using tree_ind2; cbn [tmap]; intros y H; inversion H as [x' Ex|d' k' t' x' Hi Hl Ed|l' t' x' Hi Hl Ed|l' t' x' Hi Hl Ed]; subst; try clear H.
    + exists x. split; [constructor|reflexivity].
    + rename Hi into Hi1, Hl into Hl1.
      apply in_map_iff in Hi1 as ([k2 v] & E & Hin). injection E as <- <-. rewrite Forall_forall in IH.
      destruct (IH _ Hin _ Hl1) as (x & Hx & ->). exists x. split; [econstructor; eassumption|reflexivity].
    + rename Hi into Hi1, Hl into Hl1.
      apply in_map_iff in Hi1 as (v & <- & Hin). rewrite Forall_forall in IH.
      destruct (IH _ Hin _ Hl1) as (x & Hx & ->). exists x. split; [eapply hl_lst; eassumption|reflexivity].
    + rename Hi into Hi1, Hl into Hl1.
      apply in_map_iff in Hi1 as (v & <- & Hin). rewrite Forall_forall in IH.
      destruct (IH _ Hin _ Hl1) as (x & Hx & ->). exists x. split; [eapply hl_tup; eassumption|reflexivity].
  - intros (x & H & ->). induction H as [x|d k t x Hin _ IH|l t x Hin _ IH|l t x Hin _ IH]; cbn [tmap].
    + constructor.
    + eapply (hl_dict _ k (tmap f t)); [|exact IH]. apply in_map_iff. exists (k, t). split; [reflexivity|exact Hin].
    + eapply hl_lst; [|exact IH]. apply in_map. exact Hin.
    + eapply hl_tup; [|exact IH]. apply in_map. exact Hin.
Qed.

Lemma layout_tmap {X Y} (f : X -> Y) t : layout (tmap f t) = layout t.
Proof. unfold layout. apply tmap_tmap. Qed.

Lemma tmap_id {X} (f : X -> X) t : (forall x, has_leaf t x -> f x = x) -> tmap f t = t.
Proof.
  intros H. rewrite (tmap_ext f (fun x => x) t H). clear H.
  induction t as [x| |d IH|l IH|l IH] using tree_ind2; cbn [tmap]; try reflexivity; f_equal.
  - rewrite <- (map_id d) at 2. apply map_ext_Forall. eapply Forall_impl; [|exact IH]. intros [k v] E. cbn in *. rewrite E. reflexivity.
  - rewrite <- (map_id l) at 2. apply map_ext_Forall. exact IH.
  - rewrite <- (map_id l) at 2. apply map_ext_Forall. exact IH.
Qed.

Lemma tmapA_ok {X Y} (f : X -> result Y) (g : X -> Y) t :
  (forall x, has_leaf t x -> f x = Ok (g x)) -> tmapA f t = Ok (tmap g t).
Proof.
  unfold tmapA. induction t as [x| |d IH|l IH|l IH] using tree_ind2; intros H.
  - cbn. rewrite H by constructor. reflexivity.
  - reflexivity.
  - rewrite tmapM_dct. cbn [tmap].
    assert (E : tmapM_dict (fun x => let* y := f x in Ok (Leaf y)) d = Ok (map (fun kv => (fst kv, tmap g (snd kv))) d)).
    { assert (H' : forall k t x, In (k, t) d -> has_leaf t x -> f x = Ok (g x))
        by (intros; apply H; econstructor; eassumption). clear H.
      induction IH as [|[k v] d Hv _ IHd]; [reflexivity|]. cbn [tmapM_dict map fst snd]. cbn [snd] in Hv. rewrite Hv.
      - cbn [rbind]. rewrite IHd; [reflexivity|]. intros k' t' x Hin. apply (H' k' t'). right. exact Hin.
      - intros x. apply (H' k v). left. reflexivity. }
    rewrite E. reflexivity.
  - rewrite tmapM_lst. cbn [tmap].
    assert (E : tmapM_list (fun x => let* y := f x in Ok (Leaf y)) l = Ok (map (tmap g) l)).
    { assert (H' : forall t x, In t l -> has_leaf t x -> f x = Ok (g x))
        by (intros; apply H; eapply hl_lst; eassumption). clear H.
      induction IH as [|v d Hv _ IHd]; [reflexivity|]. cbn [tmapM_list map]. rewrite Hv.
      - cbn [rbind]. rewrite IHd; [reflexivity|]. intros t' x Hin. apply (H' t'). right. exact Hin.
      - intros x. apply (H' v). left. reflexivity. }
    rewrite E. reflexivity.
  - rewrite tmapM_tup. cbn [tmap].
    assert (E : tmapM_list (fun x => let* y := f x in Ok (Leaf y)) l = Ok (map (tmap g) l)).
    { assert (H' : forall t x, In t l -> has_leaf t x -> f x = Ok (g x))
        by (intros; apply H; eapply hl_tup; eassumption). clear H.
      induction IH as [|v d Hv _ IHd]; [reflexivity|]. cbn [tmapM_list map]. rewrite Hv.
      - cbn [rbind]. rewrite IHd; [reflexivity|]. intros t' x Hin. apply (H' t'). right. exact Hin.
      - intros x. apply (H' v). left. reflexivity. }
    rewrite E. reflexivity.
Qed.

(* ------------------------------------------------------------------ *)
(** * trees of one layout are projections of a tree of pairs *)
Lemma zip_exists {X Y} (t : tree X) : forall u : tree Y, layout t = layout u ->
  exists w : tree (X * Y), t = tmap fst w /\ u = tmap snd w.
Proof.
  unfold layout. induction t as [x| |d IH|l IH|l IH] using tree_ind2; intros u H; destruct u as [y| |e|m|m]; cbn [tmap] in H; try discriminate H.
  - exists (Leaf (x, y)). split; reflexivity.
  - exists NoneT. split; reflexivity.
  - injection H as H.
    assert (Hw : exists w : list (string * tree (X * Y)),
               d = map (fun kv => (fst kv, tmap fst (snd kv))) w /\ e = map (fun kv => (fst kv, tmap snd (snd kv))) w).
    { revert e H. induction IH as [|[k v] d Hv _ IHd]; intros [|[k' v'] e] H; try discriminate H.
      - exists []. split; reflexivity.
      - injection H as H1 H2 H3. cbn in H1. destruct (Hv _ H2) as (w & E1 & E2). destruct (IHd _ H3) as (ws & E3 & E4).
        exists ((k, w) :: ws). cbn. cbn in E1. subst. split; reflexivity. }
    destruct Hw as (w & -> & ->). exists (Dict w). split; reflexivity.
  - injection H as H.
    assert (Hw : exists w : list (tree (X * Y)), l = map (tmap fst) w /\ m = map (tmap snd) w).
    { revert m H. induction IH as [|v d Hv _ IHd]; intros [|v' e] H; try discriminate H.
      - exists []. split; reflexivity.
      - injection H as H2 H3. destruct (Hv _ H2) as (w & E1 & E2). destruct (IHd _ H3) as (ws & E3 & E4).
        exists (w :: ws). cbn. subst. split; reflexivity. }
    destruct Hw as (w & -> & ->). exists (Lst w). split; reflexivity.
  - injection H as H.
    assert (Hw : exists w : list (tree (X * Y)), l = map (tmap fst) w /\ m = map (tmap snd) w).
    { revert m H. induction IH as [|v d Hv _ IHd]; intros [|v' e] H; try discriminate H.
      - exists []. split; reflexivity.
      - injection H as H2 H3. destruct (Hv _ H2) as (w & E1 & E2). destruct (IHd _ H3) as (ws & E3 & E4).
        exists (w :: ws). cbn. subst. split; reflexivity. }
    destruct Hw as (w & -> & ->). exists (Tup w). split; reflexivity.
Qed.

Section Tapp.
Context {S : Type}.
Notation T := (tree (list S)).
Fixpoint tapp_list (l m : list T) : result (list T) :=
  match l, m with
  | [], [] => Ok []
  | x :: l', y :: m' => let* z := tapp x y in let* zs := tapp_list l' m' in Ok (z :: zs)
  | _, _ => Err ValueError
  end.
Fixpoint tapp_dict (d e : list (string * T)) : result (list (string * T)) :=
  match d, e with
  | [], [] => Ok []
  | (k, x) :: d', (k', y) :: e' =>
      if String.eqb k k' then let* z := tapp x y in let* zs := tapp_dict d' e' in Ok ((k, z) :: zs)
      else Err ValueError
  | _, _ => Err ValueError
  end.
Lemma tapp_lst l m : tapp (Lst l) (Lst m) = let* zs := tapp_list l m in Ok (Lst zs).
Proof. reflexivity. Qed.
Lemma tapp_tup l m : tapp (Tup l) (Tup m) = let* zs := tapp_list l m in Ok (Tup zs).
Proof. reflexivity. Qed.
Lemma tapp_dct d e : tapp (Dict d) (Dict e) = let* zs := tapp_dict d e in Ok (Dict zs).
Proof. reflexivity. Qed.

Definition app2 (p : list S * list S) : list S := fst p ++ snd p.

Lemma tapp_zip (w : tree (list S * list S)) : tapp (tmap fst w) (tmap snd w) = Ok (tmap app2 w).
Proof.
  induction w as [x| |d IH|l IH|l IH] using tree_ind2; cbn [tmap].
  - reflexivity.
  - reflexivity.
  - rewrite tapp_dct.
    assert (E : tapp_dict (map (fun kv => (fst kv, tmap fst (snd kv))) d) (map (fun kv => (fst kv, tmap snd (snd kv))) d)
                = Ok (map (fun kv => (fst kv, tmap app2 (snd kv))) d)).
    { induction IH as [|[k v] d Hv _ IHd]; [reflexivity|]. cbn [tapp_dict map fst snd]. rewrite String.eqb_refl.
      cbn [snd] in Hv. rewrite Hv. cbn [rbind]. rewrite IHd. reflexivity. }
    rewrite E. reflexivity.
  - rewrite tapp_lst.
    assert (E : tapp_list (map (tmap fst) l) (map (tmap snd) l) = Ok (map (tmap app2) l)).
    { induction IH as [|v d Hv _ IHd]; [reflexivity|]. cbn [tapp_list map]. rewrite Hv. cbn [rbind]. rewrite IHd. reflexivity. }
    rewrite E. reflexivity.
  - rewrite tapp_tup.
    assert (E : tapp_list (map (tmap fst) l) (map (tmap snd) l) = Ok (map (tmap app2) l)).
    { induction IH as [|v d Hv _ IHd]; [reflexivity|]. cbn [tapp_list map]. rewrite Hv. cbn [rbind]. rewrite IHd. reflexivity. }
    rewrite E. reflexivity.
Qed.

Lemma tapp_layout (t : T) : forall u v, tapp t u = Ok v -> layout t = layout u.
Proof.
  unfold layout. induction t as [x| |d IH|l IH|l IH] using tree_ind2; intros u v H; destruct u as [y| |e|m|m];
    try discriminate H; try reflexivity.
  - rewrite tapp_dct in H. apply rbind_ok in H as (z & H & _). cbn [tmap]. f_equal.
    revert e z H. induction IH as [|[k x] d Hx _ IHd]; intros [|[k' y] e] z H; try discriminate H; [reflexivity|].
    cbn [tapp_dict] in H. destruct (String.eqb_spec k k') as [<-|]; [|discriminate H].
    apply rbind_ok in H as (a & Ha & H). apply rbind_ok in H as (b & Hb & _). cbn. f_equal.
    + f_equal. eapply Hx; exact Ha.
    + eapply IHd; exact Hb.
  - rewrite tapp_lst in H. apply rbind_ok in H as (z & H & _). cbn [tmap]. f_equal.
    revert m z H. induction IH as [|x d Hx _ IHd]; intros [|y e] z H; try discriminate H; [reflexivity|].
    cbn [tapp_list] in H.
    apply rbind_ok in H as (a & Ha & H). apply rbind_ok in H as (b & Hb & _). cbn. f_equal.
    + eapply Hx; exact Ha.
    + eapply IHd; exact Hb.
  - rewrite tapp_tup in H. apply rbind_ok in H as (z & H & _). cbn [tmap]. f_equal.
    revert m z H. induction IH as [|x d Hx _ IHd]; intros [|y e] z H; try discriminate H; [reflexivity|].
    cbn [tapp_list] in H.
    apply rbind_ok in H as (a & Ha & H). apply rbind_ok in H as (b & Hb & _). cbn. f_equal.
    + eapply Hx; exact Ha.
    + eapply IHd; exact Hb.
Qed.

(** the three facts about [tapp] that are used *)
Lemma tapp_iff (t u v : T) : tapp t u = Ok v <-> exists w, t = tmap fst w /\ u = tmap snd w /\ v = tmap app2 w.
Proof.
  split.
  - intros H. destruct (zip_exists t u (tapp_layout _ _ _ H)) as (w & -> & ->). exists w.
    rewrite tapp_zip in H. injection H as <-. auto.
  - intros (w & -> & -> & ->). apply tapp_zip.
Qed.

Lemma tapp_exists (t u : T) : layout t = layout u -> exists v, tapp t u = Ok v /\ layout v = layout t.
Proof.
  intros H. destruct (zip_exists t u H) as (w & -> & ->). exists (tmap app2 w). split; [apply tapp_zip|].
  rewrite !layout_tmap. reflexivity.
Qed.

Lemma tapp_layouts (t u v : T) : tapp t u = Ok v -> layout v = layout t /\ layout u = layout t.
Proof. intros H. apply tapp_iff in H as (w & -> & -> & ->). rewrite !layout_tmap. auto. Qed.

Lemma tapp_assoc (a b c ab bc : T) : tapp a b = Ok ab -> tapp b c = Ok bc -> tapp ab c = tapp a bc.
Proof.
  intros H1 H2. destruct (tapp_layouts _ _ _ H1) as [L1 L2]. destruct (tapp_layouts _ _ _ H2) as [L3 L4].
  apply tapp_iff in H2 as (w & -> & -> & ->).
  destruct (zip_exists a w) as (z & -> & ->). { rewrite layout_tmap in L2. symmetry. exact L2. }
  rewrite !tmap_tmap in *. apply tapp_iff in H1 as (w1 & E1 & E2 & ->).
  assert (Ew : tmap app2 w1 = tmap (fun x => fst x ++ fst (snd x)) z).
  { assert (H1 : tapp (tmap fst w1) (tmap snd w1) = Ok (tmap app2 w1)) by apply tapp_zip. rewrite <- E1, <- E2 in H1.
    assert (H2 : tapp (tmap fst z) (tmap (fun x => fst (snd x)) z) = Ok (tmap (fun x => fst x ++ fst (snd x)) z)).
    { apply tapp_iff. exists (tmap (fun x => (fst x, fst (snd x))) z). rewrite !tmap_tmap. auto. }
    rewrite H1 in H2. injection H2 as H2. exact H2. }
  rewrite Ew.
  transitivity (Ok (tmap (fun x => fst x ++ fst (snd x) ++ snd (snd x)) z)); [|symmetry]; apply tapp_iff.
  - exists (tmap (fun x => (fst x ++ fst (snd x), snd (snd x))) z). rewrite !tmap_tmap. unfold app2. cbn.
    repeat split; try reflexivity. apply tmap_ext. intros. rewrite app_assoc. reflexivity.
  - exists (tmap (fun x => (fst x, fst (snd x) ++ snd (snd x))) z). rewrite !tmap_tmap. unfold app2. cbn. auto.
Qed.

Lemma tapp_walk (t u v : T) ks x : tapp t u = Ok v -> walk v ks = Some (Leaf x) ->
  exists a b, walk t ks = Some (Leaf a) /\ walk u ks = Some (Leaf b) /\ x = a ++ b.
Proof.
  intros H Hw. apply tapp_iff in H as (w & -> & -> & ->). rewrite !walk_tmap in *.
  destruct (walk w ks) as [r|]; [|discriminate Hw]. cbn in *. destruct r as [x0| | | |]; try discriminate Hw. injection Hw as <-.
  exists (fst x0), (snd x0). split; [reflexivity|]. split; reflexivity.
Qed.

Lemma tapp_rows (t u v : T) n m : tapp t u = Ok v -> uniform n t -> uniform m u ->
  uniform (n + m) v /\ forall i, sample v i = if i <? n then sample t i else sample u (i - n).
Proof.
  intros H Ht Hu. apply tapp_iff in H as (w & -> & -> & ->).
  assert (Hn : forall p, has_leaf w p -> length (fst p) = n) by (intros p Hp; apply Ht, has_leaf_tmap; eauto).
  assert (Hm : forall p, has_leaf w p -> length (snd p) = m) by (intros p Hp; apply Hu, has_leaf_tmap; eauto).
  split.
  - intros x Hx. apply has_leaf_tmap in Hx as (p & Hp & ->). unfold app2. rewrite app_length. f_equal; auto.
  - intros i. unfold sample. rewrite !tmap_tmap. destruct (Nat.ltb_spec i n); apply tmap_ext; intros p Hp; unfold app2.
    + rewrite nth_error_app1; [reflexivity|]. rewrite Hn by exact Hp. assumption.
    + rewrite nth_error_app2; [|rewrite Hn by exact Hp; assumption]. rewrite Hn by exact Hp. reflexivity.
Qed.

(* ------------------------------------------------------------------ *)
(** * concatenate *)
Lemma concatenate_cons (t : T) ts r : ts <> [] -> 
  (concatenate (t :: ts) = Ok r <-> exists v, concatenate ts = Ok v /\ tapp t v = Ok r).
Proof.
  intros Hne. destruct ts as [|u ts]; [congruence|]. cbn [concatenate rfold]. clear Hne.
  revert t u r. induction ts as [|w ts IH]; intros t u r; cbn [rfold].
  - split.
    + intros H. apply rbind_ok in H as (v & H & E). injection E as <-. eauto.
    + intros (v & E & H). injection E as <-. rewrite H. reflexivity.
  - split.
    + intros H. apply rbind_ok in H as (tu & Htu & H).
      apply IH in H as (v & Hv & Hr).
      destruct (tapp_layouts _ _ _ Htu) as [L1 L2]. 
      destruct ts as [|x ts].
      * cbn [rfold] in Hv. injection Hv as <-. destruct (tapp_layouts _ _ _ Hr) as [_ L3].
        destruct (tapp_exists u w) as (uw & Huw & _); [congruence|]. exists uw. rewrite Huw. split; [reflexivity|].
        rewrite <- (tapp_assoc t u w tu uw Htu Huw). exact Hr.
      * destruct (tapp_layouts _ _ _ Hr) as [_ L3].
        destruct (tapp_exists u v) as (uv & Huv & _); [congruence|]. exists uv. split.
        { apply (IH u w uv). eauto. }
        { rewrite <- (tapp_assoc t u v tu uv Htu Huv). exact Hr. }
    + intros (uv & Huv & Hr). apply (IH u w uv) in Huv as (v & Hv & Huv).
      destruct (tapp_layouts _ _ _ Hr) as [_ L1]. destruct (tapp_layouts _ _ _ Huv) as [L2 L3].
      destruct (tapp_exists t u) as (tu & Htu & _); [congruence|]. rewrite Htu. cbn [rbind]. apply IH. exists v.
      split; [exact Hv|]. rewrite (tapp_assoc t u v tu uv Htu Huv). exact Hr.
Qed.

Lemma concatenate_app (a b : list T) r : a <> [] -> b <> [] ->
  (concatenate (a ++ b) = Ok r <-> exists u v, concatenate a = Ok u /\ concatenate b = Ok v /\ tapp u v = Ok r).
Proof.
  intros Ha Hb. revert r. induction a as [|t a IH]; intros r; [congruence|]. destruct a as [|t' a].
  - cbn [app]. rewrite concatenate_cons by exact Hb. split.
    + intros (v & H1 & H2). exists t, v. split; [reflexivity|]. auto.
    + intros (u & v & E & H1 & H2). injection E as <-. eauto.
  - change ((t :: t' :: a) ++ b) with (t :: ((t' :: a) ++ b)).
    rewrite concatenate_cons by (cbn; discriminate). split.
    + intros (v & H1 & H2). apply IH in H1 as (u & v' & H1 & H3 & H4); [|discriminate].
      destruct (tapp_layouts _ _ _ H2) as [_ L1]. destruct (tapp_layouts _ _ _ H4) as [L2 L3].
      destruct (tapp_exists t u) as (tu & Htu & _); [congruence|]. exists tu, v'. split; [|split; [exact H3|]].
      * apply concatenate_cons; [discriminate|]. eauto.
      * rewrite (tapp_assoc t u v' tu v Htu H4). exact H2.
    + intros (u & v & H1 & H2 & H3). apply concatenate_cons in H1 as (u' & H1 & H4); [|discriminate].
      destruct (tapp_layouts _ _ _ H3) as [_ L1]. destruct (tapp_layouts _ _ _ H4) as [L2 L3].
      destruct (tapp_exists u' v) as (uv & Huv & _); [congruence|]. exists uv. split.
      * apply IH; [discriminate|]. eauto.
      * rewrite <- (tapp_assoc t u' v u uv H4 Huv). exact H3.
Qed.

Lemma concatenate_ok (ts : list T) l : ts <> [] -> Forall (fun t => layout t = l) ts ->
  exists v, concatenate ts = Ok v /\ layout v = l.
Proof.
  intros Hne H. induction H as [|t ts Ht H IH]; [congruence|]. destruct ts as [|u ts].
  - exists t. split; [reflexivity|exact Ht].
  - destruct IH as (v & Hv & Lv); [discriminate|]. destruct (tapp_exists t v) as (w & Hw & Lw); [congruence|].
    exists w. split; [|congruence]. apply concatenate_cons; [discriminate|]. eauto.
Qed.

Lemma concatenate_joined (ts : list T) v : concatenate ts = Ok v -> joined ts v.
Proof.
  revert v. induction ts as [|t ts IH]; intros v H; [discriminate H|]. destruct ts as [|u ts].
  - injection H as ->. split; [constructor; [reflexivity|constructor]|]. intros ks x Hx. exists [x].
    split; [constructor; [exact Hx|constructor]|]. cbn. rewrite app_nil_r. reflexivity.
  - apply concatenate_cons in H as (w & Hw & H); [|discriminate]. destruct (IH _ Hw) as [L1 L2].
    destruct (tapp_layouts _ _ _ H) as [L3 L4]. split.
    + constructor; [congruence|]. eapply Forall_impl; [|exact L1]. cbn. congruence.
    + intros ks x Hx. destruct (tapp_walk _ _ _ _ _ H Hx) as (a & b & Ha & Hb & ->).
      destruct (L2 _ _ Hb) as (xs & Hxs & ->). exists (a :: xs). split; [constructor; assumption|reflexivity].
Qed.
End Tapp.

Lemma wf_dict_inv {S} (d : list (string * tree S)) : wf_tree (Dict d) -> NoDup (map fst d) /\ Forall (fun kv => wf_tree (snd kv)) d.
Proof. intros H. inversion H; subst. auto. Qed.
Lemma wf_lst_inv {S} (l : list (tree S)) : wf_tree (Lst l) -> Forall wf_tree l.
Proof. intros H. inversion H; subst. auto. Qed.
Lemma wf_tup_inv {S} (l : list (tree S)) : wf_tree (Tup l) -> Forall wf_tree l.
Proof. intros H. inversion H; subst. auto. Qed.

Lemma wf_tmap {X Y} (f : X -> Y) (w : tree X) : wf_tree (tmap f w) -> wf_tree w.
Proof.
  induction w as [x| |d IH|l IH|l IH] using tree_ind2; cbn [tmap]; intros H; try constructor.
  - apply wf_dict_inv in H as [H _]. unfold dkeys. rewrite map_map in H. exact H.
  - apply wf_dict_inv in H as [_ H]. rewrite Forall_map in H. rewrite Forall_forall in *. intros kv Hk. apply IH; [exact Hk|]. apply (H _ Hk).
  - apply wf_lst_inv in H. rewrite Forall_map in H. rewrite Forall_forall in *. intros kv Hk. apply IH; [exact Hk|]. apply (H _ Hk).
  - apply wf_tup_inv in H. rewrite Forall_map in H. rewrite Forall_forall in *. intros kv Hk. apply IH; [exact Hk|]. apply (H _ Hk).
Qed.

Lemma has_leaf_walk {X} (w : tree X) p : has_leaf w p -> wf_tree w -> exists ks, walk w ks = Some (Leaf p).
Proof.
  induction 1 as [x|d k t x Hin _ IH|l t x Hin _ IH|l t x Hin _ IH]; intros Hw.
  - exists []. reflexivity.
  - apply wf_dict_inv in Hw as [Hn Hw]. rewrite Forall_forall in Hw. destruct (IH (Hw _ Hin)) as (ks & Hks). exists (k :: ks).
    cbn [walk child]. rewrite (In_dget d k t Hn Hin). exact Hks.
  - apply wf_lst_inv in Hw. rewrite Forall_forall in Hw. destruct (IH (Hw _ Hin)) as (ks & Hks).
    apply In_nth_error in Hin as (i & Hi). exists (str_of i :: ks). cbn [walk]. rewrite child_lst, Hi. exact Hks.
  - apply wf_tup_inv in Hw. rewrite Forall_forall in Hw. destruct (IH (Hw _ Hin)) as (ks & Hks).
    apply In_nth_error in Hin as (i & Hi). exists (str_of i :: ks). cbn [walk]. rewrite child_tup, Hi. exact Hks.
Qed.

(** equal at every leaf *)
Lemma walk_leaves_eq {S} (t : tree S) : forall u, wf_tree t -> layout t = layout u ->
  (forall ks x, walk t ks = Some (Leaf x) -> walk u ks = Some (Leaf x)) -> t = u.
Proof.
  intros u Hwf HL. destruct (zip_exists t u HL) as (w & -> & ->). intros H.
  apply tmap_ext. apply wf_tmap in Hwf. intros [a b] Hl.
  destruct (has_leaf_walk _ _ Hl Hwf) as (ks & Hks). specialize (H ks a). rewrite !walk_tmap, Hks in H. cbn in H. specialize (H eq_refl). cbn. congruence.
Qed.

Lemma joined_concatenate {S} (ts : list (tree (list S))) v : ts <> [] -> wf_tree v -> joined ts v -> concatenate ts = Ok v.
Proof.
  intros Hne Hwf [L W]. destruct (concatenate_ok ts (layout v) Hne L) as (v' & Hv & Lv).
  rewrite Hv. f_equal. symmetry. apply walk_leaves_eq; [exact Hwf|congruence|].
  intros ks x Hx. destruct (W _ _ Hx) as (xs & Hxs & ->).
  destruct (concatenate_joined _ _ Hv) as [_ W'].
  (* [v'] has a leaf there by layout *)
  assert (Hl : exists y, walk v' ks = Some (Leaf y)).
  { clear -Lv Hx. destruct (zip_exists v' v Lv) as (w & -> & ->). rewrite !walk_tmap in *.
    destruct (walk w ks) as [r|]; [|discriminate Hx]. cbn in *. destruct r as [q| | | |]; try discriminate Hx. exists (fst q). reflexivity. }
  destruct Hl as (y & Hy). rewrite Hy. destruct (W' _ _ Hy) as (ys & Hys & ->). do 3 f_equal.
  clear -Hxs Hys. revert ys Hys. induction Hxs as [|p x ps xs H1 _ IH]; intros ys Hys; inversion Hys; subst; [reflexivity|].
  f_equal; [congruence|auto].
Qed.

(** trees with the same samples *)
Lemma samples_eq {S} n (t u : tree (list S)) : layout t = layout u -> uniform n t -> uniform n u ->
  (forall i, i < n -> sample t i = sample u i) -> t = u.
Proof.
  intros HL Ht Hu H. destruct (zip_exists t u HL) as (w & -> & ->).
  apply tmap_ext. intros [a b] Hp. cbn.
  assert (Ha : length a = n) by (apply Ht, has_leaf_tmap; exists (a, b); auto).
  assert (Hb : length b = n) by (apply Hu, has_leaf_tmap; exists (a, b); auto).
  assert (Hi : forall i, nth_error a i = nth_error b i).
  { intros i. destruct (Nat.lt_ge_cases i n) as [Hi|Hi].
    - specialize (H i Hi). unfold sample in H. rewrite !tmap_tmap in H.
      assert (G : forall (w : tree (list S * list S)) p, has_leaf w p -> tmap (fun x => nth_error (fst x) i) w = tmap (fun x => nth_error (snd x) i) w ->
                  nth_error (fst p) i = nth_error (snd p) i).
      { clear. intros w p Hp. induction Hp as [x|d k t x Hin _ IH|l t x Hin _ IH|l t x Hin _ IH]; cbn [tmap]; intros E.
        - injection E as E. exact E.
        - injection E as E. apply IH. pose proof (proj1 map_ext_in_iff E _ Hin) as F. cbn in F. congruence.
        - injection E as E. apply IH. exact (proj1 map_ext_in_iff E _ Hin).
        - injection E as E. apply IH. exact (proj1 map_ext_in_iff E _ Hin). }
      apply (G w (a, b) Hp H).
    - rewrite !(proj2 (nth_error_None _ _)); [reflexivity|lia|lia]. }
  clear -Hi. revert b Hi. induction a as [|x a IH]; intros [|y b] Hi; [reflexivity|specialize (Hi 0); discriminate Hi|specialize (Hi 0); discriminate Hi|].
  f_equal; [specialize (Hi 0); cbn in Hi; congruence|]. apply IH. intros i. apply (Hi (Datatypes.S i)).
Qed.

(* ------------------------------------------------------------------ *)
(** * slices *)
Lemma populated_first {S} (t : tree (list S)) n : populated t -> uniform n t -> first_size t = Ok n.
Proof.
  intros (x & Hx) Hu. unfold first_size.
  assert (Hl : forall y, In y (leaves t) <-> has_leaf t y).
  { clear -t. induction t as [x| |d IH|l IH|l IH] using tree_ind2; intros y; cbn [leaves].
    - split; [intros [ -> |[]]; constructor|]. intros H. inversion H. left. reflexivity.
    - split; [intros []|]. intros H. inversion H.
    - rewrite in_concat. split.
      + intros (ys & H1 & H2). apply in_map_iff in H1 as ([k ys'] & <- & H1).
        apply (Permutation_in _ (sort_kvs_perm _)) in H1. apply in_map_iff in H1 as ([k' v] & E & H1). injection E as -> <-.
        rewrite Forall_forall in IH. econstructor; [exact H1|]. apply (IH _ H1). exact H2.
      + intros H. inversion H as [|d' k t' x' Hin Hlf| |]; subst. exists (leaves t'). split.
        * apply in_map_iff. exists (k, leaves t'). split; [reflexivity|].
          apply (Permutation_in _ (Permutation_sym (sort_kvs_perm _))). apply in_map_iff. exists (k, t'). auto.
        * rewrite Forall_forall in IH. apply (IH _ Hin). exact Hlf.
    - rewrite in_concat. split.
      + intros (ys & H1 & H2). apply in_map_iff in H1 as (v & <- & H1).
        rewrite Forall_forall in IH. eapply hl_lst; [exact H1|]. apply (IH _ H1). exact H2.
      + intros H. inversion H as [| |l' t' x' Hin Hlf|]; subst. exists (leaves t'). split; [apply in_map; exact Hin|].
        rewrite Forall_forall in IH. apply (IH _ Hin). exact Hlf.
    - rewrite in_concat. split.
      + intros (ys & H1 & H2). apply in_map_iff in H1 as (v & <- & H1).
        rewrite Forall_forall in IH. eapply hl_tup; [exact H1|]. apply (IH _ H1). exact H2.
      + intros H. inversion H as [| | |l' t' x' Hin Hlf]; subst. exists (leaves t'). split; [apply in_map; exact Hin|].
        rewrite Forall_forall in IH. apply (IH _ Hin). exact Hlf. }
  apply Hl in Hx. destruct (leaves t) as [|y ys] eqn:E; [destruct Hx|]. f_equal. apply Hu, Hl. left. reflexivity.
Qed.

Lemma slices_app {S} a : forall b lo (t : tree (list S)), slices lo (a ++ b) t = slices lo a t ++ slices (lo + list_sum a) b t.
Proof.
  induction a as [|n a IH]; intros b lo t; cbn [slices app list_sum fold_right].
  - rewrite Nat.add_0_r. reflexivity.
  - change (fold_right Nat.add 0 a) with (list_sum a). rewrite IH, Nat.add_assoc. reflexivity.
Qed.

Lemma slices_repeat {S} m k (t : tree (list S)) : forall lo,
  slices lo (repeat m k) t = map (fun j => rows (lo + j * m) m t) (seq 0 k).
Proof.
  induction k as [|k IH]; intros lo; [reflexivity|]. cbn [repeat slices seq map]. f_equal; [f_equal; lia|].
  rewrite IH, <- seq_shift, map_map. apply map_ext. intros j. f_equal. lia.
Qed.

Lemma list_sum_repeat m k : list_sum (repeat m k) = k * m.
Proof. induction k as [|k IH]; cbn; [reflexivity|]. rewrite <- IH. reflexivity. Qed.

Lemma skipn_skipn' {S} b : forall a (x : list S), skipn a (skipn b x) = skipn (b + a) x.
Proof.
  induction b as [|b IH]; intros a x; [reflexivity|]. destruct x as [|r x]; cbn [skipn Nat.add].
  - apply skipn_nil.
  - apply IH.
Qed.

Lemma rows_rows {S} lo n lo' n' (t : tree (list S)) : lo' + n' <= n -> rows lo' n' (rows lo n t) = rows (lo + lo') n' t.
Proof.
  intros H. unfold rows. rewrite tmap_tmap. apply tmap_ext. intros x _.
  rewrite skipn_firstn_comm, firstn_firstn, skipn_skipn', Nat.min_l by lia. reflexivity.
Qed.

Lemma dynamic_slice_ok {S} (x : list S) lo n : lo + n <= length x -> dynamic_slice x lo n = Ok (firstn n (skipn lo x)).
Proof.
  intros H. unfold dynamic_slice. destruct (Nat.ltb_spec (length x) n); [lia|]. rewrite Nat.min_l by lia. reflexivity.
Qed.

Lemma rmapM_ok {X Y} (f : X -> result Y) (g : X -> Y) l : (forall x, In x l -> f x = Ok (g x)) -> rmapM f l = Ok (map g l).
Proof.
  induction l as [|x l IH]; intros H; [reflexivity|]. cbn [rmapM map]. rewrite H by (left; reflexivity). cbn [rbind].
  rewrite IH by (intros; apply H; right; assumption). reflexivity.
Qed.

Definition parts_of {S} (m num : nat) (t : tree (list S)) : tree (list (list S)) :=
  tmap (fun x => map (fun b => firstn m (skipn (b * m) x)) (seq 0 num)) t.

Lemma pytree_split_eq {S} (t : tree (list S)) n m : first_size t = Ok n -> uniform n t -> 1 <= m -> m <= n ->
  pytree_split t m = Ok (parts_of m (n / m) t, if n mod m =? 0 then None else Some (rows (n / m * m) (n mod m) t)).
Proof.
  intros Hf Hu H1 H2. unfold pytree_split. rewrite Hf. cbn [rbind]. destruct (Nat.eqb_spec m 0); [lia|].
  pose proof (Nat.div_mod n m ltac:(lia)) as Hd.
  rewrite (tmapA_ok _ (fun x => map (fun b => firstn m (skipn (b * m) x)) (seq 0 (n / m)))).
  - cbn [rbind]. destruct (Nat.eqb_spec (n mod m) 0) as [E|E].
    + rewrite E. reflexivity.
    + destruct (Nat.ltb_spec 0 (n mod m)); [|lia]. unfold batch_leaves, rows, parts_of.
      rewrite (tmapA_ok _ (fun x => firstn (n mod m) (skipn (n / m * m) x))); [reflexivity|].
      intros x Hx. apply dynamic_slice_ok. rewrite (Hu _ Hx). lia.
  - intros x Hx. rewrite (Hu _ Hx). destruct (Nat.ltb_spec n m); [lia|].
    apply rmapM_ok. intros b Hb. apply in_seq in Hb. apply dynamic_slice_ok. rewrite (Hu _ Hx). nia.
Qed.

Lemma nth_error_map_seq {Y} (f : nat -> Y) n j : j < n -> nth_error (map f (seq 0 n)) j = Some (f j).
Proof.
  intros H. rewrite nth_error_map. rewrite (nth_error_nth' _ 0) by (rewrite seq_length; exact H).
  rewrite seq_nth by exact H. reflexivity.
Qed.

Lemma uniform_rows {S} lo k n (X : tree (list S)) : uniform n X -> lo + k <= n -> uniform k (rows lo k X).
Proof.
  intros Hu H x Hx. apply has_leaf_tmap in Hx as (y & Hy & ->). rewrite firstn_length, skipn_length, (Hu _ Hy). lia.
Qed.

Lemma nth_error_skipn' {A} lo : forall (x : list A) i, nth_error (skipn lo x) i = nth_error x (lo + i).
Proof. induction lo as [|lo IH]; intros [|y x] i; cbn; try reflexivity; [destruct i; reflexivity|apply IH]. Qed.
Lemma nth_error_firstn' {A} k : forall (x : list A) i, i < k -> nth_error (firstn k x) i = nth_error x i.
Proof. induction k as [|k IH]; intros [|y x] [|i] H; cbn; try reflexivity; try lia. apply IH. lia. Qed.

Lemma sample_rows {S} lo k i (X : tree (list S)) : i < k -> sample (rows lo k X) i = sample X (lo + i).
Proof.
  intros H. unfold sample, rows. rewrite tmap_tmap. apply tmap_ext. intros x _. rewrite nth_error_firstn', nth_error_skipn' by exact H. reflexivity.
Qed.

Section Auto.
Context {S O St : Type} (fn : tree (list S) -> St -> result (tree (list O) * St)) (scalar_row : S -> bool).

Lemma part_at_ok m num (t : tree (list S)) j : j < num -> part_at (parts_of m num t) j = Ok (rows (j * m) m t).
Proof.
  intros H. unfold part_at, parts_of, rows.
  rewrite (tmapA_ok _ (fun x => match nth_error x j with Some b => b | None => [] end)).
  - rewrite tmap_tmap. f_equal. apply tmap_ext. intros x Hx. rewrite (nth_error_map_seq (fun b => firstn m (skipn (b * m) x))) by exact H. reflexivity.
  - intros x Hx. apply has_leaf_tmap in Hx as (y & _ & ->).
    rewrite (nth_error_map_seq (fun b => firstn m (skipn (b * m) y))) by exact H. reflexivity.
Qed.

Lemma single_row_ok (x : list S) j : j < length x -> (forall r, In r x -> scalar_row r = false) ->
  single_row scalar_row x j = Ok (firstn 1 (skipn j x)).
Proof.
  intros H Hs. unfold single_row. destruct (nth_error x j) as [r|] eqn:E; [|apply nth_error_None in E; lia].
  rewrite Hs by (eapply nth_error_In; exact E).
  clear H Hs. revert x E. induction j as [|j IH]; intros [|y x] E; try discriminate E; cbn in *; [congruence|]. apply IH. exact E.
Qed.

Lemma batch_loop_from (get : nat -> result (tree (list S))) js : forall acc st r,
  rfold (fun acc j => let* x := get j in let* (o, st') := fn x (snd acc) in Ok (fst acc ++ [o], st')) js (acc, st) = Ok r <->
  exists outs st' xs, r = (acc ++ outs, st') /\ Forall2 (fun j x => get j = Ok x) js xs /\ threaded fn xs st outs st'.
Proof.
  induction js as [|j js IH]; intros acc st r; cbn [rfold].
  - split.
    + intros E. injection E as <-. exists [], st, []. rewrite app_nil_r. repeat split; constructor.
    + intros (outs & st' & xs & -> & HF & Ht). inversion HF; subst. inversion Ht; subst. rewrite app_nil_r. reflexivity.
  - split.
    + intros H. apply rbind_ok in H as (a & H & Hr). apply rbind_ok in H as (x & Hx & H). apply rbind_ok in H as ([o st1] & Ho & H).
      injection H as <-. cbn [fst snd] in *. apply IH in Hr as (outs & st' & xs & -> & HF & Ht).
      exists (o :: outs), st', (x :: xs). rewrite <- app_assoc. split; [reflexivity|]. split; [constructor; assumption|].
      econstructor; eassumption.
    + intros (outs & st' & xs & -> & HF & Ht). inversion HF as [|? x ? xs' Hx HF']; subst.
      inversion Ht as [|? ? ? o st1 os ? Ho Ht']; subst. rewrite Hx. cbn [rbind fst snd]. rewrite Ho. cbn [rbind].
      apply IH. exists os, st', xs'. rewrite <- app_assoc. auto.
Qed.

Lemma batch_loop_iff get js (xf : nat -> tree (list S)) st outs st' : (forall j, In j js -> get j = Ok (xf j)) ->
  batch_loop fn get js st = Ok (outs, st') <-> threaded fn (map xf js) st outs st'.
Proof.
  intros Hg. unfold batch_loop. rewrite batch_loop_from. split.
  - intros (outs' & st1 & xs & E & HF & Ht). cbn in E. injection E as <- <-.
    assert (Ex : xs = map xf js).
    { clear Ht. induction HF as [|j x js xs Hx HF IH]; [reflexivity|]. cbn. rewrite Hg in Hx by (left; reflexivity).
      injection Hx as <-. f_equal. apply IH. intros. apply Hg. right. assumption. }
    rewrite <- Ex. exact Ht.
  - intros Ht. exists outs, st', (map xf js). split; [reflexivity|]. split; [|exact Ht].
    clear Ht. induction js as [|j js IH]; constructor; [apply Hg; left; reflexivity|apply IH; intros; apply Hg; right; assumption].
Qed.

Lemma threaded_app xs1 : forall xs2 st outs st', threaded fn (xs1 ++ xs2) st outs st' <->
  exists o1 o2 st1, outs = o1 ++ o2 /\ threaded fn xs1 st o1 st1 /\ threaded fn xs2 st1 o2 st'.
Proof.
  induction xs1 as [|x xs1 IH]; intros xs2 st outs st'; cbn [app].
  - split.
    + intros H. exists [], outs, st. repeat split; [constructor|exact H].
    + intros (o1 & o2 & st1 & -> & H1 & H2). inversion H1; subst. exact H2.
  - split.
    + intros H. inversion H as [|? ? ? y st1 ys ? Hy H']; subst. apply IH in H' as (o1 & o2 & st2 & -> & H1 & H2).
      exists (y :: o1), o2, st2. split; [reflexivity|]. split; [econstructor; eassumption|exact H2].
    + intros (o1 & o2 & st1 & -> & H1 & H2). inversion H1 as [|? ? ? y st2 ys ? Hy H1']; subst.
      cbn [app]. econstructor; [exact Hy|]. apply IH. eauto 10.
Qed.

Lemma threaded_length xs st outs st' : threaded fn xs st outs st' -> length outs = length xs.
Proof. induction 1; cbn; congruence. Qed.

Definition sizes_of (n m : nat) (avoid : bool) : list nat :=
  repeat m (n / m) ++ (if n mod m =? 0 then [] else if avoid then repeat 1 (n mod m) else [n mod m]).

Lemma sizes_of_sum n m avoid : 1 <= m -> list_sum (sizes_of n m avoid) = n.
Proof.
  intros Hm. unfold sizes_of. rewrite list_sum_app, list_sum_repeat. pose proof (Nat.div_mod n m ltac:(lia)).
  destruct (Nat.eqb_spec (n mod m) 0); [cbn; lia|]. destruct avoid; [rewrite list_sum_repeat|cbn]; lia.
Qed.

Lemma sizes_of_bounds n m avoid : 1 <= m -> Forall (fun s => 1 <= s <= m) (sizes_of n m avoid).
Proof.
  intros Hm. unfold sizes_of. apply Forall_app. split.
  - apply Forall_forall. intros x Hx. apply repeat_spec in Hx. lia.
  - pose proof (Nat.mod_upper_bound n m ltac:(lia)). destruct (Nat.eqb_spec (n mod m) 0); [constructor|].
    destruct avoid; [|repeat constructor; lia]. apply Forall_forall. intros x Hx. apply repeat_spec in Hx. lia.
Qed.

Theorem autobatch_iff n m avoid X st Y st' : first_size X = Ok n -> uniform n X -> 1 <= m -> m < n ->
  (avoid = true -> forall x r, has_leaf X x -> In r x -> scalar_row r = false) ->
  autobatch fn scalar_row (Some m) avoid X st = Ok (Y, st') <->
  exists outs, threaded fn (slices 0 (sizes_of n m avoid) X) st outs st' /\ concatenate outs = Ok Y.
Proof.
  intros Hf Hu H1 H2 Hs. unfold autobatch. rewrite Hf. cbn [rbind].
  destruct (Nat.leb_spec n m) as [Hc0|_]; [lia|]. destruct (Nat.eqb_spec m 0) as [Hc0|_]; [lia|].
  rewrite (pytree_split_eq X n m Hf Hu H1) by lia. cbn [rbind]. unfold sizes_of.
  rewrite slices_app, slices_repeat, list_sum_repeat. cbn [Nat.add].
  assert (Hnum : 1 <= n / m) by (apply Nat.div_le_lower_bound; lia).
  pose proof (Nat.div_mod n m ltac:(lia)) as Hd.
  set (xs1 := map (fun j => rows (j * m) m X) (seq 0 (n / m))).
  assert (Hx1 : length xs1 = n / m) by (unfold xs1; rewrite map_length, seq_length; reflexivity).
  assert (HL : forall outs st1, batch_loop fn (part_at (parts_of m (n / m) X)) (seq 0 (n / m)) st = Ok (outs, st1) <->
                               threaded fn xs1 st outs st1).
  { intros outs st1. apply (batch_loop_iff _ _ (fun j => rows (j * m) m X)). intros j Hj. apply in_seq in Hj. apply part_at_ok. lia. }
  assert (Hne : forall A (l : list A), 1 <= length l -> l <> []) by (intros A [|? ?]; cbn; [lia|discriminate]).
  destruct (Nat.eqb_spec (n mod m) 0) as [E|E].
  { cbn [slices]. rewrite app_nil_r. split.
    - intros H. apply rbind_ok in H as ([outs st1] & Ho & H). apply rbind_ok in H as (out & Hc & H). injection H as <- <-.
      exists outs. split; [apply HL; exact Ho|exact Hc].
    - intros (outs & Ho & Hc). apply HL in Ho. rewrite Ho. cbn [rbind]. rewrite Hc. reflexivity. }
  destruct avoid.
  - set (xs2 := slices (n / m * m) (repeat 1 (n mod m)) X).
    assert (HL2 : forall outs st1 st2, batch_loop fn (fun j => tmapA (fun x => single_row scalar_row x j) (rows (n / m * m) (n mod m) X)) (seq 0 (n mod m)) st1 = Ok (outs, st2) <->
                               threaded fn xs2 st1 outs st2).
    { intros outs st1 st2. unfold xs2. rewrite slices_repeat.
      apply (batch_loop_iff _ _ (fun j => rows (n / m * m + j * 1) 1 X)). intros j Hj. apply in_seq in Hj. rewrite Nat.mul_1_r.
      rewrite <- (rows_rows (n / m * m) (n mod m) j 1) by lia. unfold rows at 2. apply tmapA_ok.
      intros x Hx. unfold rows in Hx. apply has_leaf_tmap in Hx as (y & Hy & ->). apply single_row_ok.
      - rewrite firstn_length, skipn_length, (Hu _ Hy). lia.
      - intros r Hr. apply (Hs eq_refl y r Hy). rewrite <- (firstn_skipn (n / m * m) y). apply in_or_app. right.
        rewrite <- (firstn_skipn (n mod m) (skipn _ y)). apply in_or_app. left. exact Hr. }
    assert (Hx2 : length xs2 = n mod m) by (unfold xs2; rewrite slices_repeat, map_length, seq_length; reflexivity).
    split.
    + intros H. apply rbind_ok in H as ([outs st1] & Ho & H). apply rbind_ok in H as (out & Hc & H).
      apply rbind_ok in H as ([outs2 st2] & Ho2 & H). apply rbind_ok in H as (out2 & Hc2 & H). apply rbind_ok in H as (o & Hc3 & H).
      injection H as <- <-. cbn [concatenate rfold] in Hc3. apply rbind_ok in Hc3 as (v & Hv & Ev). injection Ev as <-.
      apply HL in Ho. apply HL2 in Ho2. exists (outs ++ outs2). split; [apply threaded_app; eauto 10|].
      apply concatenate_app; [apply Hne; rewrite (threaded_length _ _ _ _ Ho); lia|apply Hne; rewrite (threaded_length _ _ _ _ Ho2); lia|]. eauto.
    + intros (outs & Ht & Hc). apply threaded_app in Ht as (o1 & o2 & st1 & -> & Ht1 & Ht2).
      apply concatenate_app in Hc as (u & v & Hcu & Hcv & Huv);
        [|apply Hne; rewrite (threaded_length _ _ _ _ Ht1); lia|apply Hne; rewrite (threaded_length _ _ _ _ Ht2); lia].
      apply HL in Ht1. apply HL2 in Ht2. rewrite Ht1. cbn [rbind]. rewrite Hcu. cbn [rbind]. rewrite Ht2. cbn [rbind]. rewrite Hcv. cbn [rbind concatenate rfold].
      rewrite Huv. reflexivity.
  - cbn [slices]. split.
    + intros H. apply rbind_ok in H as ([outs st1] & Ho & H). apply rbind_ok in H as (out & Hc & H).
      apply rbind_ok in H as ([out2 st2] & Ho2 & H). apply rbind_ok in H as (o & Hc3 & H).
      injection H as <- <-. cbn [concatenate rfold] in Hc3. apply rbind_ok in Hc3 as (v & Hv & Ev). injection Ev as <-.
      apply HL in Ho. exists (outs ++ [out2]). split.
      * apply threaded_app. exists outs, [out2], st1. split; [reflexivity|]. split; [exact Ho|]. econstructor; [exact Ho2|constructor].
      * apply concatenate_app; [apply Hne; rewrite (threaded_length _ _ _ _ Ho); lia|discriminate|]. exists out, out2. cbn. auto.
    + intros (outs & Ht & Hc). apply threaded_app in Ht as (o1 & o2 & st1 & -> & Ht1 & Ht2).
      inversion Ht2 as [|? ? ? y st2 ys ? Hy Ht3]; subst. inversion Ht3; subst.
      apply concatenate_app in Hc as (u & v & Hcu & Hcv & Huv);
        [|apply Hne; rewrite (threaded_length _ _ _ _ Ht1); lia|discriminate].
      injection Hcv as <-. apply HL in Ht1. rewrite Ht1. cbn [rbind]. rewrite Hcu. cbn [rbind]. rewrite Hy. cbn [rbind concatenate rfold].
      rewrite Huv. reflexivity.
Qed.

(** a function that is samplewise for one state, on slices *)
Definition samplewise_at (inl outl : tree unit) (g : tree (option S) -> tree (option O)) (st : St) : Prop :=
  forall n X, 1 <= n -> layout X = inl -> uniform n X ->
    exists Y, fn X st = Ok (Y, st) /\ layout Y = outl /\ uniform n Y /\ forall i, i < n -> sample Y i = g (sample X i).
Lemma samplewise_slices inl outl g n X st : samplewise_at inl outl g st -> layout X = inl -> uniform n X ->
  forall sizes lo, sizes <> [] -> Forall (fun s => 1 <= s) sizes -> lo + list_sum sizes <= n ->
  exists outs v, threaded fn (slices lo sizes X) st outs st /\ concatenate outs = Ok v /\ layout v = outl /\
    uniform (list_sum sizes) v /\ forall i, i < list_sum sizes -> sample v i = g (sample X (lo + i)).
Proof.
  intros Hsw HL Hu. induction sizes as [|k sizes IH]; intros lo Hne Hs Hlo; [congruence|].
  apply Forall_cons_iff in Hs as [Hk Hs]. cbn [list_sum fold_right] in *. change (fold_right Nat.add 0 sizes) with (list_sum sizes) in *.
  destruct (Hsw k (rows lo k X) Hk) as (y & Hy & Ly & Uy & Sy).
  { unfold rows. rewrite layout_tmap. exact HL. } { eapply uniform_rows; [exact Hu|lia]. }
  cbn [slices]. destruct sizes as [|k2 sizes].
  - exists [y], y. cbn [list_sum fold_right slices]. rewrite Nat.add_0_r. split; [econstructor; [exact Hy|constructor]|]. split; [reflexivity|].
    split; [exact Ly|]. split; [exact Uy|]. intros i Hi. rewrite Sy by exact Hi. rewrite sample_rows by exact Hi. reflexivity.
  - destruct (IH (lo + k) ltac:(discriminate) Hs ltac:(lia)) as (outs & v & Ht & Hc & Lv & Uv & Sv).
    destruct (tapp_exists y v) as (w & Hw & Lw); [congruence|]. exists (y :: outs), w.
    destruct (tapp_rows _ _ _ _ _ Hw Uy Uv) as [Uw Sw].
    split; [econstructor; eassumption|]. split; [apply concatenate_cons; [destruct outs; [discriminate Hc|discriminate]|eauto]|].
    split; [congruence|]. split; [exact Uw|]. intros i Hi. rewrite Sw. destruct (Nat.ltb_spec i k).
    + rewrite Sy by assumption. rewrite sample_rows by assumption. reflexivity.
    + rewrite Sv by lia. replace (lo + i) with (lo + k + (i - k)) by lia. reflexivity.
Qed.

Theorem autobatch_samplewise_at inl outl g n max avoid X st :
  samplewise_at inl outl g st -> layout X = inl -> first_size X = Ok n -> uniform n X -> max <> Some 0 ->
  (avoid = true -> forall x r, has_leaf X x -> In r x -> scalar_row r = false) ->
  autobatch fn scalar_row max avoid X st = fn X st.
Proof.
  intros Hsw HL Hf Hu Hm Hs. destruct max as [m|]; [|unfold autobatch; rewrite Hf; reflexivity].
  destruct (Nat.le_gt_cases n m) as [Hle|Hgt].
  { unfold autobatch. rewrite Hf. cbn [rbind]. destruct (Nat.leb_spec n m); [reflexivity|lia]. }
  assert (H1 : 1 <= m) by (destruct m; [congruence|lia]).
  destruct (Hsw n X ltac:(lia) HL Hu) as (Y & HY & LY & UY & SY). rewrite HY.
  apply (autobatch_iff n m avoid X st Y st Hf Hu H1 Hgt Hs).
  destruct (samplewise_slices inl outl g n X st Hsw HL Hu (sizes_of n m avoid) 0) as (outs & v & Ht & Hc & Lv & Uv & Sv).
  - intros E. pose proof (sizes_of_sum n m avoid H1) as Hsum. rewrite E in Hsum. cbn in Hsum. lia.
  - eapply Forall_impl; [|apply sizes_of_bounds; exact H1]. cbn. lia.
  - rewrite sizes_of_sum by exact H1. lia.
  - rewrite sizes_of_sum in Uv, Sv by exact H1. exists outs. split; [exact Ht|]. rewrite Hc. f_equal.
    apply (samples_eq n); [congruence|exact Uv|exact UY|]. intros i Hi. rewrite Sv, SY by exact Hi. reflexivity.
Qed.
Theorem autobatch_samplewise inl outl g n max avoid X st :
  samplewise fn inl outl g -> layout X = inl -> first_size X = Ok n -> uniform n X -> max <> Some 0 ->
  (avoid = true -> forall x r, has_leaf X x -> In r x -> scalar_row r = false) ->
  autobatch fn scalar_row max avoid X st = fn X st.
Proof. intros H. apply (autobatch_samplewise_at inl outl (g st)). intros k Y. apply H. Qed.
End Auto.

(* ------------------------------------------------------------------ *)
(** * splitting *)
Lemma rows_joined {S} n (t : tree (list S)) : uniform n t -> forall sizes lo, lo + list_sum sizes = n -> sizes <> [] ->
  joined (slices lo sizes t) (rows lo (n - lo) t).
Proof.
  intros Hu. induction sizes as [|k sizes IH]; intros lo Hs Hne; [congruence|]. clear Hne.
  cbn [list_sum fold_right] in Hs. change (fold_right Nat.add 0 sizes) with (list_sum sizes) in *. split.
  - apply Forall_forall. intros p Hp. assert (Hr : forall sizes lo, In p (slices lo sizes t) -> exists a b, p = rows a b t).
    { clear. induction sizes as [|s sizes IH]; intros lo; cbn; [intros []|]. intros [<-|H]; eauto. }
    destruct (Hr _ _ Hp) as (a & b & ->). unfold rows. rewrite !layout_tmap. reflexivity.
  - intros ks x Hx. unfold rows in Hx. rewrite walk_tmap in Hx. destruct (walk t ks) as [r|] eqn:Er; [|discriminate Hx].
    cbn in Hx. destruct r as [y| | | |]; try discriminate Hx. injection Hx as <-.
    assert (Hy : length y = n).
    { apply Hu. clear -Er. revert t Er. induction ks as [|k ks IH]; intros t Er; cbn [walk] in Er.
      - injection Er as ->. constructor.
      - destruct (child t k) as [c|] eqn:Ec; [|discriminate Er]. specialize (IH _ Er).
        destruct t as [z| |d|l|l]; cbn [child] in Ec; try discriminate Ec.
        + apply dget_In in Ec. eapply hl_dict; eassumption.
        + destruct (isdigit k); [|discriminate Ec]. apply nth_error_In in Ec. eapply hl_lst; eassumption.
        + destruct (isdigit k); [|discriminate Ec]. apply nth_error_In in Ec. eapply hl_tup; eassumption. }
    assert (G : forall sizes lo, lo + list_sum sizes = n -> exists xs, Forall2 (fun p y0 => walk p ks = Some (Leaf y0)) (slices lo sizes t) xs /\ firstn (n - lo) (skipn lo y) = concat xs).
    { clear -Er Hy. induction sizes as [|k sizes IH]; intros lo Hs; cbn [slices].
      - cbn in Hs. exists []. split; [constructor|]. rewrite skipn_all2 by lia. apply firstn_nil.
      - cbn [list_sum fold_right] in Hs. change (fold_right Nat.add 0 sizes) with (list_sum sizes) in *.
        destruct (IH (lo + k)) as (xs & H1 & H2); [lia|]. exists (firstn k (skipn lo y) :: xs). split.
        + constructor; [|exact H1]. unfold rows. rewrite walk_tmap, Er. reflexivity.
        + cbn [concat]. rewrite <- H2, <- skipn_skipn'. rewrite !firstn_all2 with (n := n - lo) by (rewrite skipn_length; lia).
          rewrite (firstn_all2 (n := n - (lo + k))) by (rewrite !skipn_length; lia). symmetry. apply firstn_skipn. }
    apply G. cbn [list_sum fold_right]. exact Hs.
Qed.

(* ------------------------------------------------------------------ *)
(** * shuffling *)
Lemma permute_rows_eq {S} (x : list S) p : (forall i, In i p -> i < length x) ->
  map Some (permute_rows x p) = map (nth_error x) p.
Proof.
  induction p as [|i p IH]; intros H; [reflexivity|]. cbn [permute_rows flat_map map].
  destruct (nth_error x i) as [r|] eqn:E.
  - cbn. f_equal. apply IH. intros. apply H. right. assumption.
  - apply nth_error_None in E. specialize (H i (or_introl eq_refl)). lia.
Qed.

Lemma permute_rows_nth {S} (x : list S) p i : Permutation p (seq 0 (length x)) -> 
  nth_error (permute_rows x p) i = match nth_error p i with Some j => nth_error x j | None => None end.
Proof.
  intros Hp.
  assert (Hin : forall j, In j p -> j < length x) by (intros j Hj; apply (Permutation_in _ Hp) in Hj; apply in_seq in Hj; lia).
  pose proof (permute_rows_eq x p Hin) as E.
  assert (E' : nth_error (map Some (permute_rows x p)) i = nth_error (map (nth_error x) p) i) by (rewrite E; reflexivity).
  rewrite !nth_error_map in E'. destruct (nth_error p i) as [j|] eqn:Ep; cbn in E'.
  - destruct (nth_error (permute_rows x p) i); cbn in E'; [congruence|discriminate E'].
  - destruct (nth_error (permute_rows x p) i); cbn in E'; [discriminate E'|reflexivity].
Qed.

Lemma shuffle_samples {Rng S} (perm : Rng -> nat -> list nat) split_rng n key (t : tree (list S)) t' :
  Permutation (perm key n) (seq 0 n) -> uniform n t -> random_permute_leaves perm split_rng t key false = Ok t' ->
  layout t' = layout t /\ uniform n t' /\ forall i j, nth_error (perm key n) i = Some j -> sample t' i = sample t j.
Proof.
  intros Hp Hu H. unfold random_permute_leaves in H.
  rewrite (tmapA_ok _ (fun x => permute_rows x (perm key (length x)))) in H by reflexivity. injection H as <-.
  rewrite (tmap_ext _ (fun x => permute_rows x (perm key n)) t) by (intros x Hx; rewrite (Hu x Hx); reflexivity).
  split; [apply layout_tmap|]. split.
  - intros x Hx. apply has_leaf_tmap in Hx as (y & Hy & ->).
    assert (E : length (map Some (permute_rows y (perm key n))) = n).
    { rewrite permute_rows_eq; [rewrite map_length, (Permutation_length Hp), seq_length; reflexivity|].
      intros j Hj. apply (Permutation_in _ Hp) in Hj. apply in_seq in Hj. rewrite (Hu _ Hy). lia. }
    rewrite map_length in E. exact E.
  - intros i j Hij. unfold sample. rewrite tmap_tmap. apply tmap_ext. intros x Hx.
    rewrite permute_rows_nth by (rewrite (Hu _ Hx); exact Hp). rewrite Hij. reflexivity.
Qed.

Lemma map_seq_nth (p : list nat) : map (fun i => nth i p 0) (seq 0 (length p)) = p.
Proof.
  induction p as [|x p IH]; [reflexivity|]. cbn [length seq map nth]. f_equal. rewrite <- seq_shift, map_map. exact IH.
Qed.

Lemma shuffle_perm {Y} (p : list nat) n (f f' : nat -> Y) : Permutation p (seq 0 n) ->
  (forall i j, nth_error p i = Some j -> f' i = f j) ->
  Permutation (map f' (seq 0 n)) (map f (seq 0 n)).
Proof.
  intros Hp H. assert (Hl : length p = n) by (rewrite (Permutation_length Hp); apply seq_length).
  transitivity (map f p); [|apply Permutation_map; exact Hp].
  rewrite <- (map_seq_nth p) at 1. rewrite map_map, Hl. 
  replace (map f' (seq 0 n)) with (map (fun x => f (nth x p 0)) (seq 0 n)); [reflexivity|].
  apply map_ext_in. intros i Hi. apply in_seq in Hi. symmetry. apply H. apply nth_error_nth'. lia.
Qed.

Lemma slices_outs_nonempty {S O St} (fn : tree (list S) -> St -> result (tree (list O) * St)) n m avoid X st outs st' :
  1 <= m -> m < n -> threaded fn (slices 0 (sizes_of n m avoid) X) st outs st' -> outs = [] -> False.
Proof.
  intros H1 H2 Ht ->. apply threaded_length in Ht. pose proof (sizes_of_sum n m avoid H1) as Hs.
  destruct (sizes_of n m avoid) as [|k ss]; [cbn in Hs; lia|discriminate Ht].
Qed.

Lemma autobatch_small {S O St} (fn : tree (list S) -> St -> result (tree (list O) * St)) sr n max avoid X st :
  first_size X = Ok n -> (forall m, max = Some m -> n <= m) -> autobatch fn sr max avoid X st = fn X st.
Proof.
  intros Hf Hm. unfold autobatch. rewrite Hf. cbn [rbind]. destruct max as [m|]; [|reflexivity].
  specialize (Hm m eq_refl). destruct (Nat.leb_spec n m); [reflexivity|lia].
Qed.

Lemma rows_all {S} n (t : tree (list S)) : uniform n t -> rows 0 n t = t.
Proof. intros Hu. apply tmap_id. intros x Hx. cbn. apply firstn_all2. rewrite (Hu _ Hx). lia. Qed.

Theorem split_lossless {S} (t : tree (list S)) n size :
  populated t -> uniform n t -> 1 <= size -> size <= n ->
  exists parts remainder pieces,
    pytree_split t size = Ok (parts, remainder) /\
    length pieces = n / size /\
    (forall j p, nth_error pieces j = Some p ->
       uniform size p /\ tmap (fun x => nth_error x j) parts = tmap Some p) /\
    (match remainder with
     | Some r => 1 <= n mod size /\ uniform (n mod size) r /\ joined (pieces ++ [r]) t
     | None => n mod size = 0 /\ joined pieces t
     end).
Proof.
  intros Hp Hu H1 H2. pose proof (pytree_split_eq t n size (populated_first t n Hp Hu) Hu H1 H2) as E.
  do 2 eexists. exists (slices 0 (repeat size (n / size)) t). split; [exact E|].
  pose proof (Nat.div_mod n size ltac:(lia)) as Hd.
  assert (Hnum : 1 <= n / size) by (apply Nat.div_le_lower_bound; lia).
  split; [rewrite slices_repeat, map_length, seq_length; reflexivity|]. split.
  - intros j p Hj. assert (Hjn : j < n / size).
    { rewrite <- (seq_length (n / size) 0), <- (map_length (fun j => rows (0 + j * size) size t) (seq 0 (n / size))), <- slices_repeat.
      apply nth_error_Some. rewrite Hj. discriminate. }
    rewrite slices_repeat, (nth_error_map_seq (fun j => rows (0 + j * size) size t)) in Hj by exact Hjn. injection Hj as <-. split.
    + eapply uniform_rows; [exact Hu|nia].
    + unfold parts_of, rows. rewrite !tmap_tmap. apply tmap_ext. intros x _.
      rewrite (nth_error_map_seq (fun b => firstn size (skipn (b * size) x))) by exact Hjn. reflexivity.
  - destruct (Nat.eqb_spec (n mod size) 0) as [Em|Em].
    + split; [exact Em|]. pose proof (rows_joined n t Hu (repeat size (n / size)) 0) as HJ.
      rewrite Nat.sub_0_r, (rows_all n t Hu) in HJ. apply HJ.
      * rewrite list_sum_repeat. lia.
      * destruct (n / size); [lia|discriminate].
    + split; [lia|]. split; [eapply uniform_rows; [exact Hu|lia]|].
      pose proof (rows_joined n t Hu (repeat size (n / size) ++ [n mod size]) 0) as HJ.
      rewrite slices_app, Nat.sub_0_r, (rows_all n t Hu), list_sum_repeat in HJ. apply HJ.
      * rewrite list_sum_app, list_sum_repeat. cbn. lia.
      * destruct (repeat size (n / size)); discriminate.
Qed.

Theorem shuffle_aligned {Rng S1 S2 S3} (perm : Rng -> nat -> list nat) split_rng n key
         (X X' : tree (list S1)) (Y Y' : tree (list S2)) (U U' : tree (list S3)) :
  Permutation (perm key n) (seq 0 n) -> uniform n X -> uniform n Y -> uniform n U ->
  random_permute_leaves perm split_rng X key false = Ok X' ->
  random_permute_leaves perm split_rng Y key false = Ok Y' ->
  random_permute_leaves perm split_rng U key false = Ok U' ->
  layout X' = layout X /\ layout Y' = layout Y /\ layout U' = layout U /\
  uniform n X' /\ uniform n Y' /\ uniform n U' /\
  Permutation (map (fun i => (sample X' i, sample Y' i, sample U' i)) (seq 0 n))
              (map (fun i => (sample X i, sample Y i, sample U i)) (seq 0 n)).
Proof.
  intros Hp HX HY HU EX EY EU.
  destruct (shuffle_samples perm split_rng n key X X' Hp HX EX) as (L1 & U1 & S1').
  destruct (shuffle_samples perm split_rng n key Y Y' Hp HY EY) as (L2 & U2 & S2').
  destruct (shuffle_samples perm split_rng n key U U' Hp HU EU) as (L3 & U3 & S3').
  do 6 (split; [assumption|]).
  apply (shuffle_perm (perm key n) n (fun i => (sample X i, sample Y i, sample U i)) (fun i => (sample X' i, sample Y' i, sample U' i)) Hp).
  intros i j Hij. rewrite (S1' _ _ Hij), (S2' _ _ Hij), (S3' _ _ Hij). reflexivity.
Qed.

Theorem shuffle_total {Rng S} (perm : Rng -> nat -> list nat) split_rng key (X : tree (list S)) :
  exists X', random_permute_leaves perm split_rng X key false = Ok X'.
Proof. eexists. apply tmapA_ok. intros x _. reflexivity. Qed.
