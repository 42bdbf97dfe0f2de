From Coq Require Import Permutation.
From Verif Require Import Base BaseLemmas TreeUtil TreeSpec NonSeqSpec NonSeqProofs MutableProofs SerialSpec SerialProofs ScalerProofs ReshapeProofs ReshapeMain TrainArgsProofs BatchProofs ScalerFileProofs Params ParamsSpec ParamsProofs Share ShareSpec.
Local Open Scope list_scope.

(* ------------------------------------------------------------------ *)
(** * The modules of a tree of models *)
Definition refs (t : tree (net nat)) : list nat := concat (map atoms (leaves t)).
Lemma atoms_nest t : atoms (Nest t) = refs t.
Proof.
  cbn [atoms]. unfold refs. rewrite leaves_sub. f_equal. induction (leaves t) as [|x l IH]; [reflexivity|]. cbn [map concat]. rewrite IH. reflexivity.
Qed.
Lemma refs_list l : concat (map atoms (concat (map leaves l))) = concat (map refs l).
Proof. induction l as [|t l IH]; [reflexivity|]. cbn. rewrite map_app, concat_app, IH. reflexivity. Qed.
Lemma refs_lst l : refs (Lst l) = concat (map refs l).
Proof. apply refs_list. Qed.
Lemma refs_tup l : refs (Tup l) = concat (map refs l).
Proof. apply refs_list. Qed.
Lemma concat_permutation {A} (l m : list (list A)) : Permutation l m -> Permutation (concat l) (concat m).
Proof.
  induction 1 as [|x l m P IH|x y l|l m k P1 IH1 P2 IH2]; cbn; [constructor|apply Permutation_app_head; exact IH| |eapply perm_trans; eauto].
  rewrite !app_assoc. apply Permutation_app_tail, Permutation_app_comm.
Qed.
Lemma refs_dict d : Permutation (refs (Dict d)) (concat (map (fun kv => refs (snd kv)) d)).
Proof.
  unfold refs at 1. cbn [leaves]. eapply perm_trans.
  - apply concat_permutation, Permutation_map, concat_permutation, Permutation_map, sort_kvs_perm.
  - rewrite map_map. cbn [snd]. rewrite <- (map_map snd leaves). rewrite refs_list, map_map. reflexivity.
Qed.
Lemma refs_in t s : In s (refs t) <-> exists x, has_leaf t x /\ uses x s.
Proof.
  unfold refs. rewrite in_concat. split.
  - intros (l & Hl & Hs). apply in_map_iff in Hl as (x & <- & Hx). exists x. split; [apply leaves_has_leaf; exact Hx|apply atoms_in; exact Hs].
  - intros (x & Hx & Hs). exists (atoms x). split; [apply in_map, leaves_has_leaf; exact Hx|apply atoms_in; exact Hs].
Qed.
Lemma uses_nest t s : uses (Nest t) s <-> In s (refs t).
Proof. unfold uses. rewrite <- atoms_in, atoms_nest. reflexivity. Qed.
Lemma uses_dec m s : {uses m s} + {~ uses m s}.
Proof. destruct (in_dec Nat.eq_dec s (atoms m)) as [H|H]; [left|right]; unfold uses; rewrite <- atoms_in; exact H. Qed.
Lemma Forall2_impl_in {A B} (R S : A -> B -> Prop) l m : (forall a b, In a l -> In b m -> R a b -> S a b) -> Forall2 R l m -> Forall2 S l m.
Proof. intros H F. induction F as [|a b l m E F IH]; constructor; [apply H; cbn; auto|]. apply IH. intros x y Hx Hy. apply H; cbn; auto. Qed.
Lemma nodup_app {A} (l m : list A) : NoDup (l ++ m) -> NoDup l /\ NoDup m /\ (forall x, In x l -> ~ In x m).
Proof.
  induction l as [|x l IH]; cbn; intros H; [split; [constructor|split; [exact H|intros x []]]|]. inversion H as [|? ? N H']; subst. destruct (IH H') as (A1 & A2 & A3).
  split; [constructor; [intros C; apply N, in_or_app; auto|exact A1]|]. split; [exact A2|]. intros y [ -> |Hy] C; [apply N, in_or_app; auto|exact (A3 y Hy C)].
Qed.
Lemma nodup_app_intro {A} (l m : list A) : NoDup l -> NoDup m -> (forall x, In x l -> ~ In x m) -> NoDup (l ++ m).
Proof.
  induction l as [|x l IH]; cbn; intros Nl Nm D; [exact Nm|]. inversion Nl as [|? ? N Nl']; subst. constructor; [|apply IH; auto; intros y Hy; apply D; right; exact Hy].
  intros C. apply in_app_or in C as [C|C]; [exact (N C)|exact (D x (or_introl eq_refl) C)].
Qed.

(* ------------------------------------------------------------------ *)
(** * Walks with effects *)
Section HWalk.
Context {X Y H : Type} (f : X -> tree Y -> H -> H * result unit).
Fixpoint hw_list (l : list (tree X)) (m : list (tree Y)) (h : H) : H * result unit :=
  match l, m with
  | x :: l', y :: m' => let (h', r) := hwalk f x y h in match r with Ok _ => hw_list l' m' h' | Err e => (h', Err e) end
  | _, _ => (h, Ok tt)
  end.
Fixpoint hw_dict (e : list (string * tree Y)) (d : list (string * tree X)) (h : H) : H * result unit :=
  match d with
  | [] => (h, Ok tt)
  | (k, x) :: d' => match dget e k with
                    | Some y => let (h', r) := hwalk f x y h in match r with Ok _ => hw_dict e d' h' | Err e => (h', Err e) end
                    | None => (h, Err ValueError)
                    end
  end.
Lemma hwalk_lst l m h : hwalk f (Lst l) (Lst m) h = hw_list l m h.
Proof. reflexivity. Qed.
Lemma hwalk_tup l m h : hwalk f (Tup l) (Tup m) h = hw_list l m h.
Proof. reflexivity. Qed.
Lemma hwalk_dct d e h : hwalk f (Dict d) (Dict e) h = hw_dict e d h.
Proof.
  cbn [hwalk]. revert h. induction d as [|[k x] d IH]; intros h; [reflexivity|]. cbn [hw_dict]. destruct (dget e k) as [y|]; [|reflexivity].
  destruct (hwalk f x y h) as [h' [[]|er]]; [apply IH|reflexivity].
Qed.
(** Every part was given to its leaf. *)
Lemma hwalk_facing (t : tree X) : wf_tree t -> forall u h h', hwalk f t u h = (h', Ok tt) -> forall x q, facing t u x q -> exists h1 h2, f x q h1 = (h2, Ok tt).
Proof.
  assert (L : forall l, Forall (fun t => wf_tree t -> forall u h h', hwalk f t u h = (h', Ok tt) -> forall x q, facing t u x q -> exists h1 h2, f x q h1 = (h2, Ok tt)) l -> Forall wf_tree l ->
    forall m h h', hw_list l m h = (h', Ok tt) -> forall t u x q, In (t, u) (combine l m) -> facing t u x q -> exists h1 h2, f x q h1 = (h2, Ok tt)).
  { clear t. induction 1 as [|t l Ht _ IH]; intros W m h h' E t0 u x q Hin Hf; [destruct Hin|]. destruct m as [|y m]; [destruct Hin|]. cbn in E. inversion W as [|? ? W1 W2]; subst.
    destruct (hwalk f t y h) as [h1 [[]|er]] eqn:E1; [|discriminate]. destruct Hin as [Eq|Hin]; [injection Eq as <- <-; eapply Ht; eauto|eapply IH; eauto]. }
  induction t as [x0| |d IH|l IH|l IH] using tree_ind2; intros W u h h' E x q Hf; inversion Hf as [|? m ? ? ? ? Hin Hf'|? m ? ? ? ? Hin Hf'|? e k t' u' ? ? Hk He Hf']; subst.
  - exists h, h'. exact E.
  - rewrite hwalk_dct in E. apply wf_dict_inv in W as [N W].
    assert (Hg : forall d0 h h', hw_dict e d0 h = (h', Ok tt) -> In (k, t') d0 -> exists h1 h2, hwalk f t' u' h1 = (h2, Ok tt)).
    { clear -He. induction d0 as [|[k0 x0] d0 IHd]; intros h h' E Hin; [destruct Hin|]. cbn in E. destruct (dget e k0) as [y|] eqn:Eg; [|discriminate].
      destruct (hwalk f x0 y h) as [h1 [[]|er]] eqn:E1; [|discriminate]. destruct Hin as [Eq|Hin]; [injection Eq as -> ->; rewrite He in Eg; injection Eg as <-; eauto|eapply IHd; eauto]. }
    destruct (Hg d h h' E Hk) as (h1 & h2 & Ew). rewrite Forall_forall in IH, W. exact (IH (k, t') Hk (W (k, t') Hk) _ _ _ Ew _ _ Hf').
  - rewrite hwalk_lst in E. eapply L; eauto. apply wf_lst_inv; exact W.
  - rewrite hwalk_tup in E. eapply L; eauto. apply wf_tup_inv; exact W.
Qed.
(** A tree that fits is made of the parts facing its leaves. *)
Lemma parts_facing (t : tree X) : wf_tree t -> forall u : tree Y, fits t u -> parts (fun x q => facing t u x q) t u.
Proof.
  assert (L : forall l : list (tree X), Forall (fun t => wf_tree t -> forall u : tree Y, fits t u -> parts (fun x q => facing t u x q) t u) l -> Forall wf_tree l ->
    forall m : list (tree Y), Forall2 fits l m -> Forall2 (fun t u => parts (fun (x : X) (q : tree Y) => exists t' u', In (t', u') (combine l m) /\ facing t' u' x q) t u) l m).
  { clear t. induction 1 as [|t l Ht _ IH]; intros W m F; inversion F as [|? y ? m' Hp F']; subst; constructor; inversion W as [|? ? W1 W2]; subst.
    - eapply parts_impl; [|apply Ht; [exact W1|exact Hp]]. cbn. intros x q _ Hf. exists t, y. split; [left; reflexivity|exact Hf].
    - eapply Forall2_impl_in; [|apply IH; [exact W2|exact F']]. cbn. intros a b _ _ Hp0. eapply parts_impl; [|exact Hp0]. cbn. intros x q _ (t' & u' & Hin & Hf). exists t', u'. auto. }
  induction t as [x0| |d IH|l IH|l IH] using tree_ind2; intros W u F; inversion F as [? ? HQ| |? m F'|? m F'|? e e' Pe F']; subst.
  - constructor. constructor.
  - constructor.
  - apply wf_dict_inv in W as [N W]. apply pa_dict with (e' := e'); [exact Pe|]. apply (dict_gets _ _ _ _ N Pe) in F'.
    assert (G : forall d1 e1, (forall kv, In kv d1 -> In kv d) -> Forall2 (fun a b => fst a = fst b /\ fits (snd a) (snd b) /\ dget e (fst a) = Some (snd b)) d1 e1 ->
      Forall2 (fun a b => fst a = fst b /\ parts (fun x q => facing (Dict d) (Dict e) x q) (snd a) (snd b)) d1 e1).
    { clear F' Pe. intros d1 e1 Hs F1. induction F1 as [|[k x] [k2 y] d1 e1 (Hk & Hp & Hg) F1 IHF]; constructor; cbn in *.
      - split; [exact Hk|]. assert (I0 : In (k, x) d) by (apply Hs; left; reflexivity). rewrite Forall_forall in IH, W. eapply parts_impl; [|apply (IH _ I0 (W _ I0)); exact Hp]. cbn. intros z q _ Hf. eapply fa_dict; eauto.
      - apply IHF. intros kv Hkv. apply Hs. right. exact Hkv. }
    apply G; [auto|exact F'].
  - constructor. eapply Forall2_impl_in; [|apply (L l IH); [apply wf_lst_inv; exact W|exact F']]. cbn. intros a b _ _ Hp. eapply parts_impl; [|exact Hp]. cbn. intros x q _ (t' & u' & Hin & Hf). eapply fa_lst; eauto.
  - constructor. eapply Forall2_impl_in; [|apply (L l IH); [apply wf_tup_inv; exact W|exact F']]. cbn. intros a b _ _ Hp. eapply parts_impl; [|exact Hp]. cbn. intros x q _ (t' & u' & Hin & Hf). eapply fa_tup; eauto.
Qed.
End HWalk.

(* ------------------------------------------------------------------ *)
(** * Only the modules of the model change *)
Section Frame.
Context {M P : Type}.
Notation heap := (nat -> M).
Lemma upd_same (h : heap) r x : upd h r x r = x.
Proof. unfold upd. rewrite Nat.eqb_refl. reflexivity. Qed.
Lemma upd_other (h : heap) r x s : s <> r -> upd h r x s = h s.
Proof. intros N. unfold upd. destruct (Nat.eqb_spec s r); [contradiction|reflexivity]. Qed.

Lemma hwalk_frame (f : net nat -> tree P -> heap -> heap * result unit) (s : nat) (t : tree (net nat)) :
  (forall x, has_leaf t x -> ~ uses x s -> forall q h, fst (f x q h) s = h s) ->
  ~ In s (refs t) -> forall u h, fst (hwalk f t u h) s = h s.
Proof.
  intros HF N. assert (HL : forall x, has_leaf t x -> forall q h, fst (f x q h) s = h s).
  { intros x Hx. apply HF; [exact Hx|]. intros C. apply N. apply refs_in. eauto. }
  clear HF N. revert HL.
  assert (L : forall l, Forall (fun t => (forall x, has_leaf t x -> forall q h, fst (f x q h) s = h s) -> forall u h, fst (hwalk f t u h) s = h s) l ->
    (forall t x, In t l -> has_leaf t x -> forall q h, fst (f x q h) s = h s) -> forall m h, fst (hw_list f l m h) s = h s).
  { clear t. induction 1 as [|t l Ht _ IH]; intros H m h; [reflexivity|]. destruct m as [|y m]; [reflexivity|]. cbn.
    pose proof (Ht (fun x => H t x (or_introl eq_refl)) y h) as E. destruct (hwalk f t y h) as [h1 [[]|er]]; cbn in E; [|exact E].
    rewrite IH; [exact E|]. intros t' x Hin. apply H. right. exact Hin. }
  induction t as [x| |d IH|l IH|l IH] using tree_ind2; intros HL u h.
  - cbn. apply HL. constructor.
  - destruct u; reflexivity.
  - destruct u as [y| |e|m|m]; try reflexivity. rewrite hwalk_dct.
    assert (G : forall d', (forall kv, In kv d' -> In kv d) -> forall h, fst (hw_dict f e d' h) s = h s).
    { induction d' as [|[k x] d' IHd]; intros Hs h0; [reflexivity|]. cbn. destruct (dget e k) as [y|]; [|reflexivity].
      assert (I0 : In (k, x) d) by (apply Hs; left; reflexivity). rewrite Forall_forall in IH. pose proof (IH _ I0) as IHx. cbn in IHx.
      assert (E : fst (hwalk f x y h0) s = h0 s) by (apply IHx; intros z Hz; apply HL; econstructor; eauto). destruct (hwalk f x y h0) as [h1 [[]|er]]; cbn in E; [|exact E].
      rewrite IHd; [exact E|]. intros kv Hkv. apply Hs. right. exact Hkv. }
    apply G; auto.
  - destruct u as [y| |e|m|m]; try reflexivity. rewrite hwalk_lst. apply (L l IH). intros t x Hin Hl. apply HL. econstructor; eauto.
  - destruct u as [y| |e|m|m]; try reflexivity. rewrite hwalk_tup. apply (L l IH). intros t x Hin Hl. apply HL. econstructor; eauto.
Qed.

Variable m_set : M -> tree P -> M * result unit.
Lemma hput_nest t p h : hput m_set (Nest t) p h = if prefix t p then hwalk (hput m_set) t p h else (h, Err ValueError).
Proof. reflexivity. Qed.
Lemma hput_frame m s : ~ uses m s -> forall p h, fst (hput m_set m p h) s = h s.
Proof.
  induction m as [r|t IH] using net_ind2; intros N p h.
  - cbn. destruct (m_set (h r) p) as [x e]. cbn. apply upd_other. intros ->. apply N. constructor.
  - rewrite hput_nest. destruct (prefix t p); [|reflexivity]. apply hwalk_frame; [exact IH|]. rewrite <- uses_nest. exact N.
Qed.
Variable m_freeze : bool -> M -> M.
Lemma hfreeze_nest b t h : hfreeze m_freeze b (Nest t) h = fold_left (fun h x => hfreeze m_freeze b x h) (leaves t) h.
Proof.
  cbn [hfreeze]. rewrite leaves_sub. revert h. induction (leaves t) as [|x l IH]; intros h; [reflexivity|]. cbn. apply IH.
Qed.
Lemma hfreeze_frame b m s : ~ uses m s -> forall h, hfreeze m_freeze b m h s = h s.
Proof.
  induction m as [r|t IH] using net_ind2; intros N h.
  - cbn. apply upd_other. intros ->. apply N. constructor.
  - rewrite hfreeze_nest. assert (HL : forall x, In x (leaves t) -> forall h, hfreeze m_freeze b x h s = h s).
    { intros x Hx. apply leaves_has_leaf in Hx. apply IH; [exact Hx|]. intros C. apply N. econstructor; eauto. }
    clear IH N. revert h. induction (leaves t) as [|x l IHl]; intros h; [reflexivity|]. cbn. rewrite IHl; [apply HL; left; reflexivity|]. intros y Hy. apply HL. right. exact Hy.
Qed.
Context {Rng Sh : Type}.
Variable m_compile : M -> Rng -> Sh -> M * result unit.
Variable m_out : M -> Sh -> result Sh.
Variable wide : Sh -> bool.
Variable split : Rng -> Rng * Rng.
Definition cstep (st : Rng * heap * result Sh) (x : net nat) : Rng * heap * result Sh :=
  let '(rng, h, e) := st in
  match e with Ok s => let (rng', k) := split rng in let (h', e') := hcompile m_compile m_out wide split x k s h in (rng', h', e') | Err _ => st end.
Lemma hcompile_nest t rng s h : hcompile m_compile m_out wide split (Nest t) rng s h = (let '(_, h', e) := fold_left cstep (leaves t) (rng, h, Ok s) in (h', match e with Ok s => if wide s then Ok s else Err ValueError | Err e => Err e end)).
Proof.
  cbn [hcompile]. rewrite leaves_sub.
  match goal with |- context [fold_left ?F _ _] => assert (E : forall l st, fold_left F (concat (map (fun x => leaves (Leaf (fun rng s h => hcompile m_compile m_out wide split x rng s h))) l)) st = fold_left cstep l st) end.
  { induction l as [|x l IH]; intros st; [reflexivity|]. cbn. rewrite <- IH. f_equal. }
  rewrite E. reflexivity.
Qed.
Lemma hcompile_frame m s : ~ uses m s -> forall rng sh h, fst (hcompile m_compile m_out wide split m rng sh h) s = h s.
Proof.
  induction m as [r|t IH] using net_ind2; intros N rng sh h.
  - cbn. destruct (m_compile (h r) rng sh) as [x e]. cbn. apply upd_other. intros ->. apply N. constructor.
  - rewrite hcompile_nest. assert (HL : forall x, In x (leaves t) -> forall rng sh h, fst (hcompile m_compile m_out wide split x rng sh h) s = h s).
    { intros x Hx. apply leaves_has_leaf in Hx. apply IH; [exact Hx|]. intros C. apply N. econstructor; eauto. }
    clear IH N. set (st := (rng, h, Ok sh)). enough (G : snd (fst (fold_left cstep (leaves t) st)) s = h s) by (destruct (fold_left cstep (leaves t) st) as [[? ?] ?]; exact G).
    subst st. generalize (Ok sh). revert rng h.
    induction (leaves t) as [|x l IHl]; intros rng h e; [reflexivity|]. cbn [fold_left]. unfold cstep at 2. destruct e as [s0|er].
    + destruct (split rng) as [rng' k]. pose proof (HL x (or_introl eq_refl) k s0 h) as E. destruct (hcompile m_compile m_out wide split x k s0 h) as [h1 e1]. cbn in E. rewrite <- E. apply IHl. intros y Hy. apply HL. right. exact Hy.
    + apply IHl. intros y Hy. apply HL. right. exact Hy.
Qed.
Variable m_get : M -> tree P.
Variable m_train : M -> bool.
Lemma step_frame o s : ~ uses (op_model o) s -> forall h, step m_get m_set m_train m_freeze m_compile m_out wide split h o s = h s.
Proof.
  destruct o as [m p|b m|m rng sh|train t]; cbn; intros N h.
  - apply hput_frame; exact N.
  - apply hfreeze_frame; exact N.
  - apply hcompile_frame; exact N.
  - unfold htrain. destruct (train _) as [p|e]; [|reflexivity]. apply (hput_frame (Nest t)). exact N.
Qed.
Lemma run_frame l s : Forall (fun o => ~ uses (op_model o) s) l -> forall h, run m_get m_set m_train m_freeze m_compile m_out wide split h l s = h s.
Proof. induction 1 as [|o l N _ IH]; intros h; [reflexivity|]. unfold run in *. cbn [fold_left]. rewrite IH. apply step_frame; exact N. Qed.
End Frame.

(** What is seen of a model depends on its modules only. *)
Lemma tsub_ext {X Y} (f g : X -> tree Y) (t : tree X) : (forall x, has_leaf t x -> f x = g x) -> tsub f t = tsub g t.
Proof.
  assert (L : forall l, Forall (fun t => (forall x, has_leaf t x -> f x = g x) -> tsub f t = tsub g t) l -> (forall t x, In t l -> has_leaf t x -> f x = g x) -> map (tsub f) l = map (tsub g) l).
  { clear t. induction 1 as [|t l Ht _ IH]; intros H; [reflexivity|]. cbn. f_equal; [apply Ht; intros x; apply H; left; reflexivity|apply IH; intros t' x Hin; apply H; right; exact Hin]. }
  induction t as [x| |d IH|l IH|l IH] using tree_ind2; intros H; cbn [tsub].
  - apply H. constructor.
  - reflexivity.
  - f_equal. apply map_ext_in. intros [k x] Hin. cbn. f_equal. rewrite Forall_forall in IH. apply (IH _ Hin). intros y Hy. apply H. econstructor; eauto.
  - f_equal. apply (L l IH). intros t x Hin Hx. apply H. econstructor; eauto.
  - f_equal. apply (L l IH). intros t x Hin Hx. apply H. econstructor; eauto.
Qed.
Lemma view_ext {M} (h h' : nat -> M) m : (forall r, uses m r -> h r = h' r) -> view h m = view h' m.
Proof.
  induction m as [r|t IH] using net_ind2; intros H; cbn [view].
  - f_equal. apply H. constructor.
  - f_equal. apply tsub_ext. intros x Hx. f_equal. apply IH; [exact Hx|]. intros r Hr. apply H. econstructor; eauto.
Qed.
Lemma hget_view {M P} (m_get : M -> tree P) (h : nat -> M) m : hget m_get h m = get m_get (view h m).
Proof.
  induction m as [r|t IH] using net_ind2; [reflexivity|]. cbn [view hget get].
  assert (E : forall t0, (forall x, has_leaf t0 x -> hget m_get h x = get m_get (view h x)) -> tsub (fun x => hget m_get h x) t0 = tsub (fun x => get m_get x) (tsub (fun x => Leaf (view h x)) t0)); [|apply E; exact IH].
  clear t IH. assert (L : forall l, Forall (fun t0 => (forall x, has_leaf t0 x -> hget m_get h x = get m_get (view h x)) -> tsub (fun x => hget m_get h x) t0 = tsub (fun x => get m_get x) (tsub (fun x => Leaf (view h x)) t0)) l ->
    (forall t x, In t l -> has_leaf t x -> hget m_get h x = get m_get (view h x)) -> map (tsub (fun x => hget m_get h x)) l = map (tsub (fun x => get m_get x)) (map (tsub (fun x => Leaf (view h x))) l)).
  { induction 1 as [|t l Ht _ IH]; intros H; [reflexivity|]. cbn. f_equal; [apply Ht; intros x; apply H; left; reflexivity|apply IH; intros t' x Hin; apply H; right; exact Hin]. }
  induction t0 as [x| |d IH|l IH|l IH] using tree_ind2; intros H; cbn [tsub].
  - apply H. constructor.
  - reflexivity.
  - f_equal. rewrite map_map. apply map_ext_in. intros [k x] Hin. cbn. f_equal. rewrite Forall_forall in IH. apply (IH _ Hin). intros y Hy. apply H. econstructor; eauto.
  - f_equal. apply (L l IH). intros t x Hin Hx. apply H. econstructor; eauto.
  - f_equal. apply (L l IH). intros t x Hin Hx. apply H. econstructor; eauto.
Qed.

(* ------------------------------------------------------------------ *)
(** * Without sharing the references do not matter *)
Section Unshared.
Context {M P : Type}.
Notation heap := (nat -> M).
Notation see h := (tsub (fun x => Leaf (view h x))).
Lemma see_ext (h h' : heap) t : (forall r, In r (refs t) -> h r = h' r) -> see h t = see h' t.
Proof. intros H. apply tsub_ext. intros x Hx. f_equal. apply view_ext. intros r Hr. apply H, refs_in. eauto. Qed.
Lemma prefix_see (h : heap) t : forall p : tree P, prefix (see h t) p = prefix t p.
Proof.
  assert (L : forall l, Forall (fun t => forall p : tree P, prefix (see h t) p = prefix t p) l -> forall m : list (tree P), prefix_list (map (see h) l) m = prefix_list l m).
  { clear t. induction 1 as [|t l Ht _ IH]; intros m; destruct m as [|y m]; try reflexivity. cbn. rewrite Ht, IH. reflexivity. }
  induction t as [x| |d IH|l IH|l IH] using tree_ind2; intros p; cbn [tsub].
  - reflexivity.
  - reflexivity.
  - destruct p as [y| |e|m|m]; try reflexivity. rewrite !prefix_dct, map_length. f_equal. induction IH as [|[k x] d Hx _ IHd]; [reflexivity|]. cbn. destruct (dget e k) as [y|]; [|reflexivity]. cbn in Hx. rewrite Hx, IHd. reflexivity.
  - destruct p as [y| |e|m|m]; try reflexivity. rewrite !prefix_lst. apply L. exact IH.
  - destruct p as [y| |e|m|m]; try reflexivity. rewrite !prefix_tup. apply L. exact IH.
Qed.
Variable f : net nat -> tree P -> heap -> heap * result unit.
Variable g : net M -> tree P -> net M * result unit.
Hypothesis frame : forall x s, ~ uses x s -> forall q h, fst (f x q h) s = h s.
Definition matches (x : net nat) : Prop := NoDup (atoms x) -> forall q h, g (view h x) q = (view (fst (f x q h)) x, snd (f x q h)).
Lemma walk_frame s t : ~ In s (refs t) -> forall u h, fst (hwalk f t u h) s = h s.
Proof. apply hwalk_frame. intros x _. apply frame. Qed.
Lemma list_frame s l : ~ In s (concat (map refs l)) -> forall m h, fst (hw_list f l m h) s = h s.
Proof. rewrite <- refs_lst. intros N m h. exact (walk_frame s (Lst l) N (Lst m) h). Qed.
Lemma dict_frame s d : ~ In s (concat (map (fun kv => refs (snd kv)) d)) -> forall e h, fst (hw_dict f e d h) s = h s.
Proof.
  intros N e h. rewrite <- hwalk_dct. apply walk_frame. intros C. apply N. eapply Permutation_in; [apply refs_dict|exact C].
Qed.
Lemma hwalk_walk t : (forall x, has_leaf t x -> matches x) -> NoDup (refs t) -> forall u h,
  walk g (see h t) u = (see (fst (hwalk f t u h)) t, snd (hwalk f t u h)).
Proof.
  assert (L : forall l, Forall (fun t => (forall x, has_leaf t x -> matches x) -> NoDup (refs t) -> forall u h, walk g (see h t) u = (see (fst (hwalk f t u h)) t, snd (hwalk f t u h))) l ->
    (forall t x, In t l -> has_leaf t x -> matches x) -> NoDup (concat (map refs l)) -> forall m h,
    walk_list g (map (see h) l) m = (map (see (fst (hw_list f l m h))) l, snd (hw_list f l m h))).
  { clear t. induction 1 as [|t l Ht _ IH]; intros H N m h; [reflexivity|]. destruct m as [|y m]; [reflexivity|]. cbn [map concat] in N. apply nodup_app in N as (N1 & N2 & N3).
    cbn [map walk_list hw_list]. rewrite (Ht (fun x => H t x (or_introl eq_refl)) N1 y h).
    assert (E1 : map (see h) l = map (see (fst (hwalk f t y h))) l).
    { apply map_ext_in. intros t' Ht'. apply see_ext. intros r Hr. symmetry. apply walk_frame. intros C. apply (N3 r C). apply in_concat. exists (refs t'). split; [apply in_map; exact Ht'|exact Hr]. }
    destruct (hwalk f t y h) as [h1 [[]|er]] eqn:Eh; cbn [fst snd] in *.
    - rewrite E1, IH; [|intros t' x Hin; apply H; right; exact Hin|exact N2].
      assert (E2 : see h1 t = see (fst (hw_list f l m h1)) t).
      { apply see_ext. intros r Hr. symmetry. apply list_frame. apply N3. exact Hr. }
      rewrite E2. destruct (hw_list f l m h1) as [h2 r2]. reflexivity.
    - rewrite E1. reflexivity. }
  induction t as [x| |d IH|l IH|l IH] using tree_ind2; intros H N u h; cbn [tsub].
  - cbn. rewrite (H x); [|constructor|]. 2: { unfold refs in N. cbn in N. rewrite app_nil_r in N. exact N. } destruct (f x u h). reflexivity.
  - destruct u; reflexivity.
  - destruct u as [y| |e|m|m]; try reflexivity. rewrite walk_dct, hwalk_dct.
    assert (N' : NoDup (concat (map (fun kv => refs (snd kv)) d))) by (eapply Permutation_NoDup; [apply refs_dict|exact N]). clear N.
    assert (G : forall d', (forall kv, In kv d' -> In kv d) -> NoDup (concat (map (fun kv => refs (snd kv)) d')) -> forall h,
      walk_dict g e (map (fun kv => (fst kv, see h (snd kv))) d') = (map (fun kv => (fst kv, see (fst (hw_dict f e d' h)) (snd kv))) d', snd (hw_dict f e d' h))).
    { clear h N'. induction d' as [|[k x] d' IHd]; intros Hs N h; [reflexivity|]. cbn [map concat snd] in N. apply nodup_app in N as (N1 & N2 & N3).
      cbn [map walk_dict hw_dict fst snd]. destruct (dget e k) as [y|]; [|reflexivity].
      assert (I0 : In (k, x) d) by (apply Hs; left; reflexivity). rewrite Forall_forall in IH. pose proof (IH _ I0) as IHx. cbn [snd] in IHx.
      rewrite IHx; [|intros z Hz; apply H; econstructor; eauto|exact N1].
      assert (E1 : map (fun kv => (fst kv, see h (snd kv))) d' = map (fun kv => (fst kv, see (fst (hwalk f x y h)) (snd kv))) d').
      { apply map_ext_in. intros [k' t'] Ht'. cbn. f_equal. apply see_ext. intros r Hr. symmetry. apply walk_frame. intros C. apply (N3 r C). apply in_concat. exists (refs t'). split; [|exact Hr]. apply in_map_iff. exists (k', t'). auto. }
      destruct (hwalk f x y h) as [h1 [[]|er]] eqn:Eh; cbn [fst snd] in *.
      - rewrite E1, IHd; [|intros kv Hkv; apply Hs; right; exact Hkv|exact N2].
        assert (E2 : see h1 x = see (fst (hw_dict f e d' h1)) x).
        { apply see_ext. intros r Hr. symmetry. apply dict_frame. apply N3. exact Hr. }
        rewrite E2. destruct (hw_dict f e d' h1) as [h2 r2]. reflexivity.
      - rewrite E1. reflexivity. }
    rewrite G by auto. reflexivity.
  - destruct u as [y| |e|m|m]; try reflexivity. rewrite walk_lst, hwalk_lst. rewrite (L l IH); [reflexivity| |rewrite <- refs_lst; exact N]. intros t x Hin Hl. apply H. econstructor; eauto.
  - destruct u as [y| |e|m|m]; try reflexivity. rewrite walk_tup, hwalk_tup. rewrite (L l IH); [reflexivity| |rewrite <- refs_tup; exact N]. intros t x Hin Hl. apply H. econstructor; eauto.
Qed.
End Unshared.

Lemma hput_put {M P} (m_set : M -> tree P -> M * result unit) m : unshared m -> forall p h,
  put m_set (view h m) p = (view (fst (hput m_set m p h)) m, snd (hput m_set m p h)).
Proof.
  unfold unshared. induction m as [r|t IH] using net_ind2; intros N p h.
  - cbn. destruct (m_set (h r) p) as [x e]. cbn. rewrite upd_same. reflexivity.
  - rewrite hput_nest. cbn [view]. rewrite put_nest, prefix_see. destruct (prefix t p); [|reflexivity].
    rewrite (hwalk_walk (hput m_set) (fun x q => put m_set x q)); [reflexivity| | |].
    + intros x s Hs q h0. apply hput_frame. exact Hs.
    + intros x Hx N' q h0. apply IH; assumption.
    + rewrite <- atoms_nest. exact N.
Qed.
Lemma htrain_train {M P} (m_get : M -> tree P) m_set m_train train t h : unshared (Nest t) ->
  train_model m_get m_set m_train train (tsub (fun x => Leaf (view h x)) t) =
  (view (fst (htrain m_get m_set m_train train t h)) (Nest t), snd (htrain m_get m_set m_train train t h)).
Proof.
  intros N. unfold train_model, htrain. destruct (train _) as [p|e]; [|reflexivity]. exact (hput_put m_set (Nest t) N p h).
Qed.
Lemma fold_freeze {M} (m_freeze : bool -> M -> M) b l s : (forall x, In x l -> uses x s -> forall h, hfreeze m_freeze b x h s = m_freeze b (h s)) -> (forall a, m_freeze b (m_freeze b a) = m_freeze b a) ->
  forall h, (exists x, In x l /\ uses x s) -> fold_left (fun h x => hfreeze m_freeze b x h) l h s = m_freeze b (h s).
Proof.
  intros H I. induction l as [|x l IH]; intros h (y & Hy & Hu); [destruct Hy|]. cbn.
  assert (IH' := IH (fun z Hz => H z (or_intror Hz))). clear IH.
  assert (E : fold_left (fun h x => hfreeze m_freeze b x h) l (hfreeze m_freeze b x h) s = (if in_dec Nat.eq_dec s (concat (map atoms l)) then m_freeze b (hfreeze m_freeze b x h s) else hfreeze m_freeze b x h s)).
  { destruct (in_dec _ _ _) as [Hi|Hi].
    - apply IH'. apply in_concat in Hi as (a & Ha & Hs). apply in_map_iff in Ha as (z & <- & Hz). exists z. split; [exact Hz|]. apply atoms_in. exact Hs.
    - generalize (hfreeze m_freeze b x h). clear -Hi. induction l as [|z l IHl]; intros h; [reflexivity|]. cbn in *. rewrite IHl; [|intros C; apply Hi, in_or_app; auto]. apply hfreeze_frame. unfold uses. rewrite <- atoms_in. intros C. apply Hi, in_or_app. auto. }
  rewrite E. destruct (uses_dec x s) as [Hx|Hx].
  - rewrite (H x (or_introl eq_refl) Hx). destruct (in_dec _ _ _); [apply I|reflexivity].
  - rewrite (hfreeze_frame m_freeze b x s Hx). destruct (in_dec _ _ _) as [Hi|Hi]; [reflexivity|]. exfalso. destruct Hy as [->|Hy]; [exact (Hx Hu)|]. apply Hi. apply in_concat. exists (atoms y). split; [apply in_map; exact Hy|apply atoms_in; exact Hu].
Qed.
Lemma hfreeze_at {M} (m_freeze : bool -> M -> M) b : (forall a, m_freeze b (m_freeze b a) = m_freeze b a) ->
  forall m s, uses m s -> forall h, hfreeze m_freeze b m h s = m_freeze b (h s).
Proof.
  intros I. induction m as [r|t IH] using net_ind2; intros s U h.
  - inversion U; subst. cbn. apply upd_same.
  - rewrite hfreeze_nest. apply fold_freeze; [intros x Hx; apply IH, leaves_has_leaf; exact Hx|exact I|]. inversion U; subst. exists x. split; [apply leaves_has_leaf; assumption|assumption].
Qed.

(* ------------------------------------------------------------------ *)
(** * With sharing: some part wins *)
Section Some.
Context {M P : Type} (m_set : M -> tree P -> M * result unit).
Notation heap := (nat -> M).
Definition won (m : net nat) (p : tree P) (h' : heap) (r : nat) : Prop := exists q a, part_for m p r q /\ m_set a q = (h' r, Ok tt).
Lemma hwalk_won t r : (forall x, has_leaf t x -> uses x r -> forall q h h', hput m_set x q h = (h', Ok tt) -> won x q h' r) -> In r (refs t) ->
  forall u h h', prefix t u = true -> hwalk (hput m_set) t u h = (h', Ok tt) -> exists x q, facing t u x q /\ won x q h' r.
Proof.
  set (Q := fun t => (forall x, has_leaf t x -> uses x r -> forall q h h', hput m_set x q h = (h', Ok tt) -> won x q h' r) -> In r (refs t) ->
    forall u h h', prefix t u = true -> hwalk (hput m_set) t u h = (h', Ok tt) -> exists x q, facing t u x q /\ won x q h' r).
  assert (KEEP : forall x q h h', h r = h' r -> won x q h r -> won x q h' r).
  { intros x q h h' E (q0 & a & Hp & Hs). exists q0, a. rewrite <- E. auto. }
  assert (L : forall l, Forall Q l -> (forall t x, In t l -> has_leaf t x -> uses x r -> forall q h h', hput m_set x q h = (h', Ok tt) -> won x q h' r) ->
    In r (concat (map refs l)) -> forall m h h', prefix_list l m = true -> hw_list (hput m_set) l m h = (h', Ok tt) -> exists t u x q, In (t, u) (combine l m) /\ facing t u x q /\ won x q h' r).
  { clear t. induction 1 as [|t l Ht _ IH]; intros H Hr m h h' Hp E; [destruct Hr|]. destruct m as [|y m]; [discriminate|]. cbn in Hp, E. apply andb_true_iff in Hp as [Hp1 Hp2].
    destruct (hwalk (hput m_set) t y h) as [h1 [[]|er]] eqn:E1; [|discriminate]. destruct (in_dec Nat.eq_dec r (concat (map refs l))) as [Hi|Hi].
    - destruct (IH (fun t' x Hin => H t' x (or_intror Hin)) Hi m h1 h' Hp2 E) as (t' & u & x & q & Hin & Hf & Hw). exists t', u, x, q. cbn. auto.
    - cbn in Hr. apply in_app_or in Hr as [Hr|Hr]; [|contradiction]. destruct (Ht (fun x => H t x (or_introl eq_refl)) Hr y h h1 Hp1 E1) as (x & q & Hf & Hw).
      exists t, y, x, q. split; [left; reflexivity|]. split; [exact Hf|]. apply (KEEP x q h1); [|exact Hw].
      transitivity (fst (hw_list (hput m_set) l m h1) r); [symmetry; apply list_frame; [intros x0 s Hs q0 h0; apply hput_frame; exact Hs|exact Hi]|rewrite E; reflexivity]. }
  change (Q t). induction t as [x0| |d IH|l IH|l IH] using tree_ind2; intros H Hr u h h' Hp E.
  - cbn in E. exists x0, u. split; [constructor|]. eapply H; [constructor| |exact E]. unfold refs in Hr. cbn in Hr. rewrite app_nil_r in Hr. apply atoms_in. exact Hr.
  - destruct Hr.
  - destruct u as [y| |e|m|m]; try discriminate. rewrite hwalk_dct in E. rewrite prefix_dct in Hp. apply andb_true_iff in Hp as [_ Hp].
    assert (Hr' : In r (concat (map (fun kv => refs (snd kv)) d))) by (eapply Permutation_in; [apply refs_dict|exact Hr]). clear Hr.
    assert (G : forall d', (forall kv, In kv d' -> In kv d) -> In r (concat (map (fun kv => refs (snd kv)) d')) -> forall h h', prefix_dict e d' = true -> hw_dict (hput m_set) e d' h = (h', Ok tt) ->
      exists k t u x q, In (k, t) d' /\ dget e k = Some u /\ facing t u x q /\ won x q h' r).
    { clear Hr' Hp E h h'. induction d' as [|[k x] d' IHd]; intros Hs Hr h h' Hp E; [destruct Hr|]. cbn in Hp, E. destruct (dget e k) as [y|] eqn:Eg; [|discriminate]. apply andb_true_iff in Hp as [Hp1 Hp2].
      destruct (hwalk (hput m_set) x y h) as [h1 [[]|er]] eqn:E1; [|discriminate]. destruct (in_dec Nat.eq_dec r (concat (map (fun kv => refs (snd kv)) d'))) as [Hi|Hi].
      - destruct (IHd (fun kv Hkv => Hs kv (or_intror Hkv)) Hi h1 h' Hp2 E) as (k' & t' & u & z & q & Hin & Hg & Hf & Hw). exists k', t', u, z, q. cbn. auto.
      - cbn in Hr. apply in_app_or in Hr as [Hr|Hr]; [|contradiction]. assert (I0 : In (k, x) d) by (apply Hs; left; reflexivity). rewrite Forall_forall in IH.
        destruct (IH _ I0 (fun z Hz => H z ltac:(econstructor; eauto)) Hr y h h1 Hp1 E1) as (z & q & Hf & Hw). exists k, x, y, z, q. split; [left; reflexivity|]. split; [exact Eg|]. split; [exact Hf|].
        apply (KEEP z q h1); [|exact Hw]. transitivity (fst (hw_dict (hput m_set) e d' h1) r); [symmetry; apply dict_frame; [intros x0 s Hs0 q0 h0; apply hput_frame; exact Hs0|exact Hi]|rewrite E; reflexivity]. }
    destruct (G d (fun kv Hkv => Hkv) Hr' h h' Hp E) as (k & t & u & x & q & Hin & Hg & Hf & Hw). exists x, q. split; [eapply fa_dict; eauto|exact Hw].
  - destruct u as [y| |e|m|m]; try discriminate. rewrite hwalk_lst in E. rewrite prefix_lst in Hp. rewrite refs_lst in Hr.
    destruct (L l IH (fun t x Hin Hl => H x ltac:(econstructor; eauto)) Hr m h h' Hp E) as (t & u & x & q & Hin & Hf & Hw). exists x, q. split; [eapply fa_lst; eauto|exact Hw].
  - destruct u as [y| |e|m|m]; try discriminate. rewrite hwalk_tup in E. rewrite prefix_tup in Hp. rewrite refs_tup in Hr.
    destruct (L l IH (fun t x Hin Hl => H x ltac:(econstructor; eauto)) Hr m h h' Hp E) as (t & u & x & q & Hin & Hf & Hw). exists x, q. split; [eapply fa_tup; eauto|exact Hw].
Qed.
Lemma hput_won m r : uses m r -> forall p h h', hput m_set m p h = (h', Ok tt) -> won m p h' r.
Proof.
  induction m as [s|t IH] using net_ind2; intros U p h h' E.
  - assert (s = r) as -> by (inversion U; reflexivity). cbn in E. destruct (m_set (h r) p) as [x e] eqn:Es. injection E as <- ->. exists p, (h r). rewrite upd_same. split; [constructor|exact Es].
  - rewrite hput_nest in E. destruct (prefix t p) eqn:Ep; [|discriminate].
    destruct (hwalk_won t r (fun x Hx Hu => IH x Hx Hu) (proj1 (uses_nest t r) U) p h h' Ep E) as (x & q & Hf & (q' & a & Hp & Hs)).
    exists q', a. split; [eapply pf_nest; eauto|exact Hs].
Qed.
Context (m_get : M -> tree P) (m_train : M -> bool).
Lemma hput_tied m p h h' : honest_modules m_get m_set m_train -> wfn m -> tied m p -> hput m_set m p h = (h', Ok tt) -> trel eq p (hget m_get h' m).
Proof.
  intros HM W TD E.
  assert (HP : forall r q, uses m r -> part_for m p r q -> trel eq q (m_get (h' r))).
  { intros r q U Hq. destruct (hput_won m r U p h h' E) as (q' & a & Hq' & Hs). rewrite (TD r q q' Hq Hq'). exact (proj1 (HM _ _ _ Hs)). }
  assert (OKM : exists h1 h2, hput m_set m p h1 = (h2, Ok tt)) by eauto. clear TD E.
  revert p OKM HP. generalize h' as H. clear h h'. induction m as [r|t IH] using net_ind2; intros H p (h1 & h2 & E) HP.
  - cbn. apply HP; constructor.
  - rewrite hput_nest in E. destruct (prefix t p) eqn:Ep; [|discriminate]. cbn [hget]. inversion W as [|? Wt Wx]; subst. apply trel_of_parts.
    apply prefix_fits in Ep; [|exact Wt]. eapply parts_impl; [|apply parts_facing; [exact Wt|exact Ep]]. cbn. intros x q Hx Hf. apply IH; [exact Hx|apply Wx; exact Hx| |].
    + destruct (hwalk_facing (hput m_set) t Wt p h1 h2 E x q Hf) as (h3 & h4 & E'). eauto.
    + intros r q' U Hq. apply HP; [econstructor; eauto|eapply pf_nest; eauto].
Qed.
End Some.

(* ------------------------------------------------------------------ *)
(** * Copies *)
Section SMap.
Context {X Y H : Type} (f : X -> H -> result (Y * H)).
Fixpoint sm_list (l : list (tree X)) (h : H) : result (list (tree Y) * H) :=
  match l with [] => Ok ([], h) | x :: l' => let* (y, h1) := smap f x h in let* (m, h2) := sm_list l' h1 in Ok (y :: m, h2) end.
Fixpoint sm_dict (d : list (string * tree X)) (h : H) : result (list (string * tree Y) * H) :=
  match d with [] => Ok ([], h) | (k, x) :: d' => let* (y, h1) := smap f x h in let* (m, h2) := sm_dict d' h1 in Ok ((k, y) :: m, h2) end.
Lemma smap_lst l h : smap f (Lst l) h = let* (m, h') := sm_list l h in Ok (Lst m, h').
Proof. reflexivity. Qed.
Lemma smap_tup l h : smap f (Tup l) h = let* (m, h') := sm_list l h in Ok (Tup m, h').
Proof. reflexivity. Qed.
Lemma smap_dct d h : smap f (Dict d) h = let* (m, h') := sm_dict d h in Ok (Dict m, h').
Proof. reflexivity. Qed.
End SMap.
Section Copy.
Context {M : Type} (m_copy : M -> result M).
Notation heap := (nat -> M).
Definition news (h h' : heap) (n n' : nat) (l : list nat) : Prop :=
  n <= n' /\ (forall s, s < n -> h' s = h s) /\ (forall s, In s l -> n <= s < n') /\ NoDup l.
Lemma news_app h0 h1 h2 n0 n1 n2 l m : news h0 h1 n0 n1 l -> news h1 h2 n1 n2 m -> news h0 h2 n0 n2 (l ++ m).
Proof.
  intros (A1 & A2 & A3 & A4) (B1 & B2 & B3 & B4). split; [lia|]. split; [|split].
  - intros s Hs. rewrite B2 by lia. apply A2. exact Hs.
  - intros s Hs. apply in_app_or in Hs as [Hs|Hs]; [apply A3 in Hs|apply B3 in Hs]; lia.
  - apply nodup_app_intro; [exact A4|exact B4|]. intros x Hx Hy. apply A3 in Hx. apply B3 in Hy. lia.
Qed.
Lemma news_perm h h' n n' l m : Permutation l m -> news h h' n n' l -> news h h' n n' m.
Proof.
  intros Pm (A1 & A2 & A3 & A4). split; [exact A1|]. split; [exact A2|]. split; [|eapply Permutation_NoDup; eauto]. intros s Hs. apply A3. eapply Permutation_in; [symmetry; exact Pm|exact Hs].
Qed.
Definition copied (h h' : heap) : net nat -> net nat -> Prop := nrel (fun r r' => m_copy (h r) = Ok (h' r')).
Lemma copied_later h h' h1 h1' m m' : (forall r, uses m r -> h1 r = h r) -> (forall r, uses m' r -> h1' r = h' r) -> copied h h' m m' -> copied h1 h1' m m'.
Proof.
  revert m'. induction m as [r|t IH] using net_ind2; intros m' A B C; inversion C as [? r' E|? u T]; subst; constructor.
  - rewrite (A r), (B r') by constructor. exact E.
  - assert (AB : forall x y, has_leaf t x -> has_leaf u y -> nrel (fun r r' => m_copy (h r) = Ok (h' r')) x y -> nrel (fun r r' => m_copy (h1 r) = Ok (h1' r')) x y).
    { intros x y Hx Hy. apply IH; [exact Hx| |]; intros r Hr; [apply A|apply B]; econstructor; eauto. }
    clear -T AB. revert u T AB. induction t as [x| |d IH|l IH|l IH] using tree_ind2; intros u T AB; inversion T as [? y Hxy| |? m F|? m F|? e e' Pe F]; subst.
    + constructor. apply AB; [constructor|constructor|exact Hxy].
    + constructor.
    + apply tr_dict with (e' := e'); [exact Pe|]. assert (AB' : forall k t k' t', In (k, t) d -> In (k', t') e' -> forall x y, has_leaf t x -> has_leaf t' y -> nrel (fun r r' => m_copy (h r) = Ok (h' r')) x y -> nrel (fun r r' => m_copy (h1 r) = Ok (h1' r')) x y).
      { intros k t k' t' Hi Hi' x y Hx Hy. apply AB; [econstructor; eauto|]. econstructor; [eapply Permutation_in; [exact Pe|exact Hi']|exact Hy]. }
      clear -F IH AB'. induction F as [|[k t] [k' t'] d e' [Hk Ht] F IHF]; constructor; inversion IH as [|? ? I1 I2]; subst; cbn in *.
      * split; [exact Hk|]. apply I1; [exact Ht|]. intros x y. apply (AB' k t k' t'); auto.
      * apply IHF; [exact I2|]. intros k0 t0 k1 t1 H0 H1. apply (AB' k0 t0 k1 t1); auto.
    + constructor. assert (AB' : forall t t', In t l -> In t' m -> forall x y, has_leaf t x -> has_leaf t' y -> nrel (fun r r' => m_copy (h r) = Ok (h' r')) x y -> nrel (fun r r' => m_copy (h1 r) = Ok (h1' r')) x y).
      { intros t t' Hi Hi' x y Hx Hy. apply AB; econstructor; eauto. }
      clear -F IH AB'. induction F as [|t t' l m Ht F IHF]; constructor; inversion IH as [|? ? I1 I2]; subst.
      * apply I1; [exact Ht|]. intros x y. apply (AB' t t'); cbn; auto.
      * apply IHF; [exact I2|]. intros t0 t1 H0 H1. apply (AB' t0 t1); cbn; auto.
    + constructor. assert (AB' : forall t t', In t l -> In t' m -> forall x y, has_leaf t x -> has_leaf t' y -> nrel (fun r r' => m_copy (h r) = Ok (h' r')) x y -> nrel (fun r r' => m_copy (h1 r) = Ok (h1' r')) x y).
      { intros t t' Hi Hi' x y Hx Hy. apply AB; econstructor; eauto. }
      clear -F IH AB'. induction F as [|t t' l m Ht F IHF]; constructor; inversion IH as [|? ? I1 I2]; subst.
      * apply I1; [exact Ht|]. intros x y. apply (AB' t t'); cbn; auto.
      * apply IHF; [exact I2|]. intros t0 t1 H0 H1. apply (AB' t0 t1); cbn; auto.
Qed.
Definition good_copy (x : net nat) : Prop := forall h n x' h' n', hcopy m_copy x (h, n) = Ok (x', (h', n')) ->
  news h h' n n' (atoms x') /\ ((forall r, uses x r -> r < n) -> copied h h' x x').
Lemma nest_rel h h' t t' : copied h h' (Nest t) (Nest t') <-> trel (nrel (fun r r' => m_copy (h r) = Ok (h' r'))) t t'.
Proof. split; intros C; [inversion C; assumption|constructor; assumption]. Qed.
Lemma smap_copy t : (forall x, has_leaf t x -> good_copy x) -> forall h n t' h' n', smap (hcopy m_copy) t (h, n) = Ok (t', (h', n')) ->
  news h h' n n' (refs t') /\ ((forall r, In r (refs t) -> r < n) -> copied h h' (Nest t) (Nest t')).
Proof.
  set (Q := fun t => (forall x, has_leaf t x -> good_copy x) -> forall h n t' h' n', smap (hcopy m_copy) t (h, n) = Ok (t', (h', n')) ->
    news h h' n n' (refs t') /\ ((forall r, In r (refs t) -> r < n) -> copied h h' (Nest t) (Nest t'))).
  assert (L : forall l, Forall Q l -> (forall t x, In t l -> has_leaf t x -> good_copy x) -> forall h n l' h' n', sm_list (hcopy m_copy) l (h, n) = Ok (l', (h', n')) ->
    news h h' n n' (concat (map refs l')) /\ ((forall r, In r (concat (map refs l)) -> r < n) -> Forall2 (fun t t' => copied h h' (Nest t) (Nest t')) l l')).
  { clear t. induction 1 as [|t l Ht _ IH]; intros H h n l' h' n' E; cbn in E.
    - injection E as <- <- <-. split; [|constructor]. split; [lia|]. split; [auto|]. split; [intros s []|constructor].
    - destruct (smap (hcopy m_copy) t (h, n)) as [[t1 [h1 n1]]|er] eqn:E1; [|discriminate]. cbn in E. destruct (sm_list (hcopy m_copy) l (h1, n1)) as [[l1 [h2 n2]]|er] eqn:E2; [|discriminate]. cbn in E. injection E as <- <- <-.
      destruct (Ht (fun x => H t x (or_introl eq_refl)) _ _ _ _ _ E1) as [N1 C1]. destruct (IH (fun t' x Hin => H t' x (or_intror Hin)) _ _ _ _ _ E2) as [N2 C2].
      split; [cbn; eapply news_app; eauto|]. intros B. constructor.
      + apply (copied_later h h1); [auto| |apply C1; intros r Hr; apply B; cbn; apply in_or_app; auto].
        intros r Hr. apply uses_nest in Hr. destruct N1 as (_ & _ & N1 & _). apply N1 in Hr. apply (proj1 (proj2 N2)). lia.
      + assert (F : Forall2 (fun t t' => copied h1 h2 (Nest t) (Nest t')) l l1).
        { apply C2. intros r Hr. destruct N1 as (Le & _). enough (r < n) by lia. apply B. cbn. apply in_or_app. auto. }
        eapply Forall2_impl_in; [|exact F]. cbn. intros a b Ha Hb Cab. apply (copied_later h1 h2); [|auto|exact Cab].
        intros r Hr. apply uses_nest in Hr. destruct N1 as (_ & Le & _). symmetry. apply Le. apply B. cbn. apply in_or_app. right. apply in_concat. exists (refs a). split; [apply in_map; exact Ha|exact Hr]. }
  change (Q t). induction t as [x0| |d IH|l IH|l IH] using tree_ind2; intros H h n t' h' n' E.
  - cbn in E. destruct (hcopy m_copy x0 (h, n)) as [[y [h1 n1]]|er] eqn:E1; [|discriminate]. cbn in E. injection E as <- <- <-. destruct (H x0 (hl_leaf x0) _ _ _ _ _ E1) as [N C].
    unfold refs. cbn. rewrite !app_nil_r. split; [exact N|]. intros B. constructor. constructor. apply C. intros r Hr. apply B. apply atoms_in. exact Hr.
  - cbn in E. injection E as <- <- <-. split; [|intros _; constructor; constructor]. split; [lia|]. split; [auto|]. split; [intros s []|constructor].
  - rewrite smap_dct in E. destruct (sm_dict (hcopy m_copy) d (h, n)) as [[d1 [h1 n1]]|er] eqn:E1; [|discriminate]. cbn in E. injection E as <- <- <-.
    assert (G : forall d0, (forall kv, In kv d0 -> In kv d) -> forall h n d' h' n', sm_dict (hcopy m_copy) d0 (h, n) = Ok (d', (h', n')) ->
      news h h' n n' (concat (map (fun kv => refs (snd kv)) d')) /\ ((forall r, In r (concat (map (fun kv => refs (snd kv)) d0)) -> r < n) -> Forall2 (fun a b => fst a = fst b /\ copied h h' (Nest (snd a)) (Nest (snd b))) d0 d')).
    { clear E1. clear h n. induction d0 as [|[k x] d0 IHd]; intros Hs h n d' h' n' E; cbn in E.
      - injection E as <- <- <-. split; [|constructor]. split; [lia|]. split; [auto|]. split; [intros s []|constructor].
      - destruct (smap (hcopy m_copy) x (h, n)) as [[t1 [h2 n2]]|er] eqn:E1; [|discriminate]. cbn in E. destruct (sm_dict (hcopy m_copy) d0 (h2, n2)) as [[l1 [h3 n3]]|er] eqn:E2; [|discriminate]. cbn in E. injection E as <- <- <-.
        assert (I0 : In (k, x) d) by (apply Hs; left; reflexivity). rewrite Forall_forall in IH.
        destruct (IH _ I0 (fun z Hz => H z ltac:(econstructor; eauto)) _ _ _ _ _ E1) as [N1 C1]. destruct (IHd (fun kv Hkv => Hs kv (or_intror Hkv)) _ _ _ _ _ E2) as [N2 C2].
        split; [cbn; eapply news_app; eauto|]. intros B. constructor.
        + split; [reflexivity|]. cbn [snd]. apply (copied_later h h2); [auto| |apply C1; intros r Hr; apply B; cbn; apply in_or_app; auto].
          intros r Hr. apply uses_nest in Hr. destruct N1 as (_ & _ & N1 & _). apply N1 in Hr. apply (proj1 (proj2 N2)). lia.
        + assert (F : Forall2 (fun a b => fst a = fst b /\ copied h2 h3 (Nest (snd a)) (Nest (snd b))) d0 l1).
          { apply C2. intros r Hr. destruct N1 as (Le & _). enough (r < n) by lia. apply B. cbn. apply in_or_app. auto. }
          eapply Forall2_impl_in; [|exact F]. cbn. intros a b Ha Hb [Hk Cab]. split; [exact Hk|]. apply (copied_later h2 h3); [|auto|exact Cab].
          intros r Hr. apply uses_nest in Hr. destruct N1 as (_ & Le & _). symmetry. apply Le. apply B. cbn. apply in_or_app. right. apply in_concat. exists (refs (snd a)). split; [apply in_map_iff; exists a; auto|exact Hr]. }
    destruct (G d (fun kv Hkv => Hkv) _ _ _ _ _ E1) as [N C]. split; [eapply news_perm; [symmetry; apply refs_dict|exact N]|]. intros B. constructor. apply tr_dict with (e' := d1); [reflexivity|].
    eapply Forall2_impl_in; [|apply C]. 2: { intros r Hr. apply B. eapply Permutation_in; [symmetry; apply refs_dict|exact Hr]. } cbn. intros a b _ _ [Hk Cab]. split; [exact Hk|]. apply nest_rel. exact Cab.
  - rewrite smap_lst in E. destruct (sm_list (hcopy m_copy) l (h, n)) as [[l1 [h1 n1]]|er] eqn:E1; [|discriminate]. cbn in E. injection E as <- <- <-.
    destruct (L l IH (fun t x Hin Hl => H x ltac:(econstructor; eauto)) _ _ _ _ _ E1) as [N C]. rewrite !refs_lst. split; [exact N|]. intros B. constructor. constructor.
    eapply Forall2_impl_in; [|apply C; exact B]. cbn. intros a b _ _ Cab. apply nest_rel. exact Cab.
  - rewrite smap_tup in E. destruct (sm_list (hcopy m_copy) l (h, n)) as [[l1 [h1 n1]]|er] eqn:E1; [|discriminate]. cbn in E. injection E as <- <- <-.
    destruct (L l IH (fun t x Hin Hl => H x ltac:(econstructor; eauto)) _ _ _ _ _ E1) as [N C]. rewrite !refs_tup. split; [exact N|]. intros B. constructor. constructor.
    eapply Forall2_impl_in; [|apply C; exact B]. cbn. intros a b _ _ Cab. apply nest_rel. exact Cab.
Qed.
Lemma hcopy_good m : good_copy m.
Proof.
  induction m as [r|t IH] using net_ind2; intros h n x' h' n' E.
  - cbn in E. destruct (m_copy (h r)) as [x|er] eqn:Ex; [|discriminate]. cbn in E. injection E as <- <- <-. split.
    + split; [lia|]. split; [intros s Hs; apply upd_other; lia|]. split; [intros s [ <- |[]]; lia|]. cbn. repeat constructor. intros [].
    + intros B. constructor. rewrite upd_same. exact Ex.
  - change (hcopy m_copy (Nest t) (h, n)) with (let* (t', st') := smap (hcopy m_copy) t (h, n) in Ok (Nest t', st')) in E.
    destruct (smap (hcopy m_copy) t (h, n)) as [[t1 [h1 n1]]|er] eqn:E1; [|discriminate]. cbn in E. injection E as <- <- <-. destruct (smap_copy t IH _ _ _ _ _ E1) as [N C].
    rewrite atoms_nest. split; [exact N|]. intros B. apply C. intros r Hr. apply B. apply uses_nest. exact Hr.
Qed.
End Copy.
