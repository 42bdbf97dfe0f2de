(** Proofs about serialising models. *)
From Coq Require Import ZArith Permutation.
From Verif Require Import Base BaseLemmas TreeUtil TreeSpec NonSeqSpec NonSeqProofs MutableProofs Modules ModulesSpec ModulesProofs Serial SerialSpec.
Local Open Scope string_scope.
Local Open Scope list_scope.
Local Open Scope nat_scope.

(* ------------------------------------------------------------------ *)
(** * Mapping over trees *)

Definition krel {X Y} (R : X -> Y -> Prop) (a : string * X) (b : string * Y) : Prop := fst a = fst b /\ R (snd a) (snd b).

Lemma F2_ins {X Y} (R : X -> Y -> Prop) a b d e :
  krel R a b -> Forall2 (krel R) d e -> Forall2 (krel R) (insert_kv a d) (insert_kv b e).
Proof.
  intros H F. destruct a as [k x], b as [k' y]. destruct H as [Hk HR]; cbn in Hk, HR; subst k'.
  induction F as [|[k1 x1] [k2 y2] d e [Hk1 H1] F IH]; cbn.
  - repeat constructor; auto.
  - cbn in Hk1; subst k2. destruct (str_leb k k1).
    + constructor; [split; auto|]. constructor; [split; auto|auto].
    + constructor; [split; auto|]. exact IH.
Qed.
Lemma F2_sort {X Y} (R : X -> Y -> Prop) d e :
  Forall2 (krel R) d e -> Forall2 (krel R) (sort_kvs d) (sort_kvs e).
Proof.
  unfold sort_kvs. induction 1; cbn; [constructor|]. apply F2_ins; auto.
Qed.

(** The image of a tree under a jax map with related leaves. *)
Inductive jrel {X Y} (R : X -> Y -> Prop) : tree X -> tree Y -> Prop :=
| jr_leaf x y : R x y -> jrel R (Leaf x) (Leaf y)
| jr_none : jrel R NoneT NoneT
| jr_dict d e : Forall2 (krel (jrel R)) d e -> jrel R (Dict d) (Dict (sort_kvs e))
| jr_lst l m : Forall2 (jrel R) l m -> jrel R (Lst l) (Lst m)
| jr_tup l m : Forall2 (jrel R) l m -> jrel R (Tup l) (Tup m).

Section Eqs.
Context {X Y : Type} (f : X -> result Y).
Fixpoint jm_list (l : list (tree X)) : result (list (tree Y)) :=
  match l with
  | [] => Ok []
  | x :: l' => let* y := jmapM f x in let* m := jm_list l' in Ok (y :: m)
  end.
Fixpoint jm_dict (d : list (string * tree X)) : result (list (string * tree Y)) :=
  match d with
  | [] => Ok []
  | (k, x) :: d' => let* y := jmapM f x in let* e := jm_dict d' in Ok ((k, y) :: e)
  end.
Lemma jmapM_lst l : jmapM f (Lst l) = (let* m := jm_list l in Ok (Lst m)).
Proof. reflexivity. Qed.
Lemma jmapM_tup l : jmapM f (Tup l) = (let* m := jm_list l in Ok (Tup m)).
Proof. reflexivity. Qed.
Lemma jmapM_dct d : jmapM f (Dict d) = (let* e := jm_dict d in Ok (Dict (sort_kvs e))).
Proof. reflexivity. Qed.
Lemma jm_list_ok l m : Forall2 (fun x y => jmapM f x = Ok y) l m -> jm_list l = Ok m.
Proof. induction 1 as [|x y l m H _ IH]; cbn; [reflexivity|]. rewrite H, IH. reflexivity. Qed.
Lemma jm_dict_ok d e : Forall2 (krel (fun x y => jmapM f x = Ok y)) d e -> jm_dict d = Ok e.
Proof.
  induction 1 as [|[k x] [k' y] d e [Hk H] _ IH]; cbn; [reflexivity|]. cbn in Hk, H. subst k'.
  rewrite H, IH. reflexivity.
Qed.
End Eqs.

Lemma F2_choose {X Y} (R : X -> Y -> Prop) l : Forall (fun x => exists y, R x y) l -> exists m, Forall2 R l m.
Proof. induction 1 as [|x l [y H] _ [m IH]]; [exists []|exists (y :: m)]; constructor; auto. Qed.
Lemma F2_split {X Y} (R S : X -> Y -> Prop) l m :
  Forall2 (fun x y => R x y /\ S x y) l m -> Forall2 R l m /\ Forall2 S l m.
Proof. induction 1 as [|x y l m [? ?] _ [? ?]]; split; constructor; auto. Qed.
Lemma F2_krel_split {X Y} (R S : X -> Y -> Prop) l m :
  Forall2 (krel (fun x y => R x y /\ S x y)) l m -> Forall2 (krel R) l m /\ Forall2 (krel S) l m.
Proof. induction 1 as [|x y l m [? [? ?]] _ [? ?]]; split; constructor; auto; split; auto. Qed.

(** A total map produces an image. *)
Lemma jmapM_total {X Y} (f : X -> result Y) (R : X -> Y -> Prop) t :
  (forall x, has_leaf t x -> exists y, f x = Ok y /\ R x y) ->
  exists u, jmapM f t = Ok u /\ jrel R t u.
Proof.
  induction t as [x| |d IH|l IH|l IH] using tree_ind2; intros H.
  - destruct (H x (hl_leaf x)) as (y & E & HR). exists (Leaf y). cbn. rewrite E. split; [reflexivity|constructor; auto].
  - exists NoneT. split; [reflexivity|constructor].
  - assert (exists e, Forall2 (krel (fun t u => jmapM f t = Ok u /\ jrel R t u)) d e) as [e F].
    { apply F2_choose. rewrite Forall_forall in *. intros [k t] Hin.
      destruct (IH (k, t) Hin) as (u & E & HR).
      { intros x Hx. apply H. econstructor; eauto. }
      exists (k, u). split; auto. }
    apply F2_krel_split in F as [F1 F2]. exists (Dict (sort_kvs e)).
    rewrite jmapM_dct, (jm_dict_ok _ _ _ F1). split; [reflexivity|constructor; auto].
  - assert (exists e, Forall2 (fun t u => jmapM f t = Ok u /\ jrel R t u) l e) as [e F].
    { apply F2_choose. rewrite Forall_forall in *. intros t Hin.
      apply (IH t Hin). intros x Hx. apply H. econstructor; eauto. }
    apply F2_split in F as [F1 F2]. exists (Lst e).
    rewrite jmapM_lst, (jm_list_ok _ _ _ F1). split; [reflexivity|constructor; auto].
  - assert (exists e, Forall2 (fun t u => jmapM f t = Ok u /\ jrel R t u) l e) as [e F].
    { apply F2_choose. rewrite Forall_forall in *. intros t Hin.
      apply (IH t Hin). intros x Hx. apply H. econstructor; eauto. }
    apply F2_split in F as [F1 F2]. exists (Tup e).
    rewrite jmapM_tup, (jm_list_ok _ _ _ F1). split; [reflexivity|constructor; auto].
Qed.

Lemma F2_follow {X Y Z} (R : X -> Y -> Prop) (P : X -> Prop) (Q : Y -> Z -> Prop) (S : X -> Z -> Prop) l m :
  Forall2 R l m -> Forall (fun x => forall y, R x y -> exists z, Q y z /\ S x z) l ->
  exists n, Forall2 Q m n /\ Forall2 S l n.
Proof.
  induction 1 as [|x y l m H _ IH]; intros F.
  - exists []. split; constructor.
  - inversion F as [|? ? Hx F']; subst. destruct (Hx y H) as (z & Q1 & S1). destruct (IH F') as (n & Q2 & S2).
    exists (z :: n). split; constructor; auto.
Qed.

(** Mapping an image of [t] again. *)
Lemma jmapM_again {X Y Z} (g : Y -> result Z) (R : X -> Y -> Prop) (S : X -> Z -> Prop) t :
  (forall x y, has_leaf t x -> R x y -> exists z, g y = Ok z /\ S x z) ->
  forall u, jrel R t u -> exists v, jmapM g u = Ok v /\ jrel S t v.
Proof.
  induction t as [x| |d IH|l IH|l IH] using tree_ind2; intros H u Hu; inversion Hu; subst.
  - destruct (H x y (hl_leaf x)) as (z & E & HS); auto. exists (Leaf z). cbn. rewrite E. split; [reflexivity|constructor; auto].
  - exists NoneT. split; [reflexivity|constructor].
  - destruct (F2_follow (krel (jrel R)) (fun _ => True) (krel (fun u v => jmapM g u = Ok v)) (krel (jrel S)) d e) as (n & F1 & F2); auto.
    { rewrite Forall_forall in *. intros [k x] Hin [k' y] [Hk HR]; cbn in Hk, HR; subst k'.
      destruct (IH _ Hin) with (u := y) as (v & E & HS); auto.
      { intros a b Ha. apply H. econstructor; eauto. }
      exists (k, v). split; split; auto. }
    apply F2_sort in F1. exists (Dict (sort_kvs n)).
    rewrite jmapM_dct, (jm_dict_ok _ _ _ F1). cbn [rbind]. rewrite sort_kvs_idem. split; [reflexivity|constructor; auto].
  - destruct (F2_follow (jrel R) (fun _ => True) (fun u v => jmapM g u = Ok v) (jrel S) l m) as (n & F1 & F2); auto.
    { rewrite Forall_forall in *. intros x Hin y HR. apply (IH _ Hin); auto.
      intros a b Ha. apply H. econstructor; eauto. }
    exists (Lst n). rewrite jmapM_lst, (jm_list_ok _ _ _ F1). split; [reflexivity|constructor; auto].
  - destruct (F2_follow (jrel R) (fun _ => True) (fun u v => jmapM g u = Ok v) (jrel S) l m) as (n & F1 & F2); auto.
    { rewrite Forall_forall in *. intros x Hin y HR. apply (IH _ Hin); auto.
      intros a b Ha. apply H. econstructor; eauto. }
    exists (Tup n). rewrite jmapM_tup, (jm_list_ok _ _ _ F1). split; [reflexivity|constructor; auto].
Qed.

(** Images have the structure of the original. *)
Definition shape_of {X} (t : tree X) : result (tree unit) := jmapM (fun _ => Ok tt) t.
Lemma jrel_shape {X Y} (R : X -> Y -> Prop) t : forall u, jrel R t u -> exists w, shape_of t = Ok w /\ shape_of u = Ok w.
Proof.
  induction t as [x| |d IH|l IH|l IH] using tree_ind2; intros u Hu; inversion Hu; subst.
  - exists (Leaf tt). split; reflexivity.
  - exists NoneT. split; reflexivity.
  - destruct (F2_follow (krel (jrel R)) (fun _ => True) (krel (fun u v => shape_of u = Ok v)) (krel (fun u v => shape_of u = Ok v)) d e) as (n & F1 & F2); auto.
    { rewrite Forall_forall in *. intros [k x] Hin [k' y] [Hk HR]; cbn in Hk, HR; subst k'.
      destruct (IH _ Hin y HR) as (v & E & HS). exists (k, v). split; split; auto. }
    apply F2_sort in F1. exists (Dict (sort_kvs n)). unfold shape_of.
    rewrite !jmapM_dct, (jm_dict_ok _ _ _ F1), (jm_dict_ok _ _ _ F2). cbn [rbind]. rewrite sort_kvs_idem. split; reflexivity.
  - destruct (F2_follow (jrel R) (fun _ => True) (fun u v => shape_of u = Ok v) (fun u v => shape_of u = Ok v) l m) as (n & F1 & F2); auto.
    { rewrite Forall_forall in *. intros x Hin y HR. destruct (IH _ Hin y HR) as (w & ? & ?). exists w; auto. }
    exists (Lst n). unfold shape_of. rewrite !jmapM_lst, (jm_list_ok _ _ _ F1), (jm_list_ok _ _ _ F2). split; reflexivity.
  - destruct (F2_follow (jrel R) (fun _ => True) (fun u v => shape_of u = Ok v) (fun u v => shape_of u = Ok v) l m) as (n & F1 & F2); auto.
    { rewrite Forall_forall in *. intros x Hin y HR. destruct (IH _ Hin y HR) as (w & ? & ?). exists w; auto. }
    exists (Tup n). unfold shape_of. rewrite !jmapM_tup, (jm_list_ok _ _ _ F1), (jm_list_ok _ _ _ F2). split; reflexivity.
Qed.

(* ------------------------------------------------------------------ *)
(** * Zipping *)
Section ZEqs.
Context {X Y Z : Type} (f : X -> Y -> result Z).
Fixpoint tz_list (l : list (tree X)) (m : list (tree Y)) : result (list (tree Z)) :=
  match l, m with
  | [], [] => Ok []
  | x :: l', y :: m' => let* z := tzipM f x y in let* r := tz_list l' m' in Ok (z :: r)
  | _, _ => Err ValueError
  end.
Definition tz_dict (e : list (string * tree Y)) : list (string * tree X) -> result (list (string * tree Z)) :=
  fix go d :=
  match d with
  | [] => Ok []
  | (k, x) :: d' =>
      match dget e k with
      | Some y => let* z := tzipM f x y in let* r := go d' in Ok ((k, z) :: r)
      | None => Err ValueError
      end
  end.
Lemma tzipM_lst l m : tzipM f (Lst l) (Lst m) = (let* r := tz_list l m in Ok (Lst r)).
Proof. reflexivity. Qed.
Lemma tzipM_tup l m : tzipM f (Tup l) (Tup m) = (let* r := tz_list l m in Ok (Tup r)).
Proof. reflexivity. Qed.
Lemma tzipM_dct d e : tzipM f (Dict d) (Dict e) =
  if length d =? length e then let* r := tz_dict e d in Ok (Dict r) else Err ValueError.
Proof. reflexivity. Qed.
Lemma tz_dict_ok e d r :
  Forall2 (fun a b => fst a = fst b /\ exists y, dget e (fst a) = Some y /\ tzipM f (snd a) y = Ok (snd b)) d r ->
  tz_dict e d = Ok r.
Proof.
  induction 1 as [|[k x] [k' z] d r [Hk (y & E1 & E2)] _ IH]; cbn; [reflexivity|]. cbn in *. subst k'.
  rewrite E1, E2, IH. reflexivity.
Qed.
End ZEqs.

Lemma F2_keys {X Y} (R : X -> Y -> Prop) d e : Forall2 (krel R) d e -> dkeys d = dkeys e.
Proof. unfold dkeys. induction 1 as [|a b d e [Hk _] _ IH]; cbn; congruence. Qed.
Lemma F2_length {X Y} (R : X -> Y -> Prop) d e : Forall2 R d e -> length d = length e.
Proof. induction 1; cbn; congruence. Qed.
Lemma sort_length {X} (d : list (string * X)) : length (sort_kvs d) = length d.
Proof. apply Permutation_length, sort_kvs_perm. Qed.

(* sorting respects a relation that knows the key *)
Lemma F2_ins' {X Y} (R : string -> X -> Y -> Prop) k x y d e :
  R k x y -> Forall2 (fun a b => fst a = fst b /\ R (fst a) (snd a) (snd b)) d e ->
  Forall2 (fun a b => fst a = fst b /\ R (fst a) (snd a) (snd b)) (insert_kv (k, x) d) (insert_kv (k, y) e).
Proof.
  intros H F. induction F as [|[k1 x1] [k2 y2] d e [Hk1 H1] F IH]; cbn.
  - repeat constructor; auto.
  - cbn in Hk1, H1; subst k2. destruct (str_leb k k1).
    + constructor; [split; auto|]. constructor; [split; auto|auto].
    + constructor; [split; auto|]. exact IH.
Qed.
Lemma F2_sort' {X Y} (R : string -> X -> Y -> Prop) d e :
  Forall2 (fun a b => fst a = fst b /\ R (fst a) (snd a) (snd b)) d e ->
  Forall2 (fun a b => fst a = fst b /\ R (fst a) (snd a) (snd b)) (sort_kvs d) (sort_kvs e).
Proof.
  unfold sort_kvs. induction 1 as [|[k x] [k' y] d e [Hk H] F IH]; cbn; [constructor|].
  cbn in Hk, H; subst k'. apply F2_ins'; auto.
Qed.

Lemma tzipM_img {X Y Q Z} (h : Y -> Q -> result Z) (R : X -> Y -> Prop) (P : X -> Q -> Prop) (S : X -> Z -> Prop) t :
  wf_tree t ->
  (forall x y q, has_leaf t x -> R x y -> P x q -> exists z, h y q = Ok z /\ S x z) ->
  forall u p, jrel R t u -> jrel P t p -> exists v, tzipM h u p = Ok v /\ jrel S t v.
Proof.
  assert (HL : forall l, Forall (fun t => wf_tree t -> (forall x y q, has_leaf t x -> R x y -> P x q -> exists z, h y q = Ok z /\ S x z) ->
      forall u p, jrel R t u -> jrel P t p -> exists v, tzipM h u p = Ok v /\ jrel S t v) l ->
    Forall wf_tree l ->
    (forall t x y q, In t l -> has_leaf t x -> R x y -> P x q -> exists z, h y q = Ok z /\ S x z) ->
    forall m p, Forall2 (jrel R) l m -> Forall2 (jrel P) l p -> exists r, tz_list h m p = Ok r /\ Forall2 (jrel S) l r).
  { clear t. induction 1 as [|t l Ht _ IH]; intros W H m p F1 F2; inversion F1; subst; inversion F2; subst.
    - exists []. split; [reflexivity|constructor].
    - inversion W as [|? ? W1 W2]; subst.
      destruct (Ht W1 (fun x y q Hx => H t x y q (or_introl eq_refl) Hx) y y0) as (v & E & HS); auto.
      destruct (IH W2 (fun t x y q Hin => H t x y q (or_intror Hin)) l' l'0) as (r & E' & HS'); auto.
      exists (v :: r). cbn. rewrite E. cbn. rewrite E'. split; [reflexivity|constructor; auto]. }
  induction t as [x| |d IH|l IH|l IH] using tree_ind2; intros W H u p Hu Hp; inversion Hu; subst; inversion Hp; subst.
  - destruct (H x y y0) as (z & E & HS); auto. { constructor. }
    exists (Leaf z). cbn. rewrite E. split; [reflexivity|constructor; auto].
  - exists NoneT. split; [reflexivity|constructor].
  - rename e0 into q. inversion W as [| |? ND WF| |]; subst.
    assert (Kq : dkeys d = dkeys q) by (eapply F2_keys; eauto).
    assert (exists n, Forall2 (fun a b => fst a = fst b /\ (exists y, dget (sort_kvs q) (fst a) = Some y /\ tzipM h (snd a) y = Ok (snd b))) e n
                      /\ Forall2 (krel (jrel S)) d n) as (n & F1 & F2).
    { assert (G : forall k y, In (k, y) q -> dget (sort_kvs q) k = Some y).
      { intros k y Hin. rewrite dget_sort by (rewrite <- Kq; exact ND). apply In_dget; [rewrite <- Kq; exact ND|exact Hin]. }
      assert (IH' : Forall (fun kt => forall y q, jrel R (snd kt) y -> jrel P (snd kt) q -> exists v, tzipM h y q = Ok v /\ jrel S (snd kt) v) d).
      { rewrite Forall_forall in *. intros [k t] Hin y' q' Hy' Hq'. refine (IH _ Hin (WF _ Hin) _ _ _ Hy' Hq').
        intros a b c Ha. apply H. econstructor; eauto. }
      clear -G IH' H1 H2. rename H1 into F1. rename H2 into F2.
      set (Q0 := sort_kvs q) in *. clearbody Q0. revert q F2 G. induction F1 as [|[k t] [k1 y] d e [Hk HR] F1 IH]; intros q F2 G; inversion F2; subst.
      - exists []. split; constructor.
      - destruct y0 as [k2 p]. destruct H1 as [Hk2 HP]. cbn in *. subst k1 k2.
        inversion IH'; subst. destruct (H1 y p) as (v & E & HS); auto.
        destruct (IH H2 l') as (n & ? & ?); [auto|intros k' y' Hin'; apply G; right; exact Hin'|].
        exists ((k, v) :: n). split; constructor; auto; split; auto. exists p. split; auto. }
    exists (Dict (sort_kvs n)).
    apply (F2_sort' (fun k x z => exists y, dget (sort_kvs q) k = Some y /\ tzipM h x y = Ok z)) in F1.
    rewrite tzipM_dct, (tz_dict_ok _ _ _ _ F1), !sort_length, <- (F2_length _ _ _ H1), <- (F2_length _ _ _ H2), Nat.eqb_refl.
    split; [reflexivity|constructor; auto].
  - inversion W; subst. destruct (HL l IH H3) with (m := m) (p := m0) as (r & E & HS); auto.
    { intros t x y q Hin Hx. apply H. econstructor; eauto. }
    exists (Lst r). rewrite tzipM_lst, E. split; [reflexivity|constructor; auto].
  - inversion W; subst. destruct (HL l IH H3) with (m := m) (p := m0) as (r & E & HS); auto.
    { intros t x y q Hin Hx. apply H. econstructor; eauto. }
    exists (Tup r). rewrite tzipM_tup, E. split; [reflexivity|constructor; auto].
Qed.

(* ------------------------------------------------------------------ *)
(** * The round trip in memory *)

Inductive isame : mdl -> mdl -> Prop :=
| is_atom c o o' : same_obj o o' -> isame (Atom c o) (Atom c o')
| is_net k f f' ms ms' : same_fields k f f' -> jrel isame ms ms' -> isame (Net k f ms) (Net k f' ms').

Lemma jrel_trel {X Y} (R S : X -> Y -> Prop) t :
  (forall x y, has_leaf t x -> R x y -> S x y) -> forall u, jrel R t u -> trel S t u.
Proof.
  induction t as [x| |d IH|l IH|l IH] using tree_ind2; intros H u Hu; inversion Hu; subst.
  - constructor. apply H; [constructor|auto].
  - constructor.
  - apply tr_dict with (e' := e); [symmetry; apply sort_kvs_perm|].
    assert (H' : forall k t x y, In (k, t) d -> has_leaf t x -> R x y -> S x y) by (intros; eapply H; eauto; econstructor; eauto).
    clear H Hu. induction H1 as [|[k x] [k' y] d e [Hk HR] F IHF]; constructor.
    + split; [exact Hk|]. inversion IH; subst. apply H1; auto. intros a b Ha. apply (H' k x a b); [left; reflexivity|exact Ha].
    + apply IHF. * inversion IH; auto. * intros k0 t x0 y0 Hin. apply (H' k0 t). right; exact Hin.
  - constructor.
    assert (H' : forall t x y, In t l -> has_leaf t x -> R x y -> S x y) by (intros; eapply H; eauto; econstructor; eauto).
    clear H Hu. induction H1 as [|x y d e HR F IHF]; constructor.
    + inversion IH; subst. apply H1; auto. intros a b Ha. apply (H' x a b); [left; reflexivity|exact Ha].
    + apply IHF. * inversion IH; auto. * intros t x0 y0 Hin. apply (H' t). right; exact Hin.
  - constructor.
    assert (H' : forall t x y, In t l -> has_leaf t x -> R x y -> S x y) by (intros; eapply H; eauto; econstructor; eauto).
    clear H Hu. induction H1 as [|x y d e HR F IHF]; constructor.
    + inversion IH; subst. apply H1; auto. intros a b Ha. apply (H' x a b); [left; reflexivity|exact Ha].
    + apply IHF. * inversion IH; auto. * intros t x0 y0 Hin. apply (H' t). right; exact Hin.
Qed.

Section Main.
Context (tower : bool) (ready : fields -> tree mdl -> bool).

Lemma isame_msame m : good tower ready m -> forall m', isame m m' -> msame m m'.
Proof.
  induction 1 as [c o|k f ms W G IH]; intros m' H'; inversion H'; subst.
  - constructor; auto.
  - constructor; auto. apply (jrel_trel isame); auto.
Qed.

Lemma hyper_filter k f :
  leaves_are is_int (f_in f) -> leaves_are is_int (f_out f) ->
  (k = KGraph -> leaves_are is_str (f_order f) /\ leaves_are is_str (f_conns f) /\ leaves_are is_str (f_sep f)) ->
  filter (fun kv => serializable tower (snd kv)) (net_hyper k f) = net_hyper k f.
Proof.
  intros Hi Ho Hk. destruct k; cbn -[serializable].
  - rewrite !ser_int by assumption. reflexivity.
  - destruct Hk as (H1 & H2 & H3); [reflexivity|].
    rewrite (ser_str _ (f_order f)), (ser_str _ (f_conns f)), (ser_str _ (f_sep f)), !ser_int by assumption. reflexivity.
Qed.

Definition trip (m : mdl) : Prop := exists s m1, save tower ready m = Ok s /\ load s = Ok m1 /\ isame m m1.
Definition reset_ok (m : mdl) (p : ptr) : Prop :=
  forall m1, isame m m1 -> exists m2, put_params m1 p = Ok m2 /\ isame m m2.

Lemma jrel_mono {X Y} (R S : X -> Y -> Prop) t :
  (forall x y, has_leaf t x -> R x y -> S x y) -> forall u, jrel R t u -> jrel S t u.
Proof.
  induction t as [x| |d IH|l IH|l IH] using tree_ind2; intros H u Hu; inversion Hu; subst.
  - constructor. apply H; [constructor|auto].
  - constructor.
  - constructor.
    assert (H' : forall k t x y, In (k, t) d -> has_leaf t x -> R x y -> S x y) by (intros; eapply H; eauto; econstructor; eauto).
    clear H Hu. induction H1 as [|[k x] [k' y] d e [Hk HR] F IHF]; constructor.
    + split; [exact Hk|]. inversion IH; subst. apply H1; auto. intros a b Ha. apply (H' k x a b); [left; reflexivity|exact Ha].
    + apply IHF. * inversion IH; auto. * intros k0 t x0 y0 Hin. apply (H' k0 t). right; exact Hin.
  - constructor.
    assert (H' : forall t x y, In t l -> has_leaf t x -> R x y -> S x y) by (intros; eapply H; eauto; econstructor; eauto).
    clear H Hu. induction H1 as [|x y d e HR F IHF]; constructor.
    + inversion IH; subst. apply H1; auto. intros a b Ha. apply (H' x a b); [left; reflexivity|exact Ha].
    + apply IHF. * inversion IH; auto. * intros t x0 y0 Hin. apply (H' t). right; exact Hin.
  - constructor.
    assert (H' : forall t x y, In t l -> has_leaf t x -> R x y -> S x y) by (intros; eapply H; eauto; econstructor; eauto).
    clear H Hu. induction H1 as [|x y d e HR F IHF]; constructor.
    + inversion IH; subst. apply H1; auto. intros a b Ha. apply (H' x a b); [left; reflexivity|exact Ha].
    + apply IHF. * inversion IH; auto. * intros t x0 y0 Hin. apply (H' t). right; exact Hin.
Qed.

Lemma tree_eqb_refl t : wf_tree t -> tree_eqb unit_eqb t t = true.
Proof.
  induction t as [x| |d IH|l IH|l IH] using tree_ind2; intros W; try reflexivity; inversion W; subst; cbn.
  - rewrite Nat.eqb_refl. cbn. 
    assert (forall d', Forall (fun kv => wf_tree (snd kv) -> tree_eqb unit_eqb (snd kv) (snd kv) = true) d' ->
       Forall (fun kv => wf_tree (snd kv)) d' -> (forall kv, In kv d' -> In kv d) ->
       (fix alld (l : list (string * tree unit)) : bool :=
         match l with
         | [] => true
         | (k, x) :: l' =>
             match dget d k with
             | Some y => tree_eqb unit_eqb x y
             | None => false
             end && alld l'
         end) d' = true) as A.
    { induction 1 as [|[k x] d' Hx _ IHd]; intros Wd Hin; [reflexivity|]. inversion Wd; subst.
      rewrite (In_dget d k x) by (auto; apply Hin; left; reflexivity).
      cbn in Hx. rewrite Hx by assumption. apply IHd; [assumption|]. intros kv Hkv. apply Hin. right; exact Hkv. }
    apply A; auto.
  - induction IH as [|x l Hx _ IHl]; [reflexivity|]. inversion H0; subst. rewrite Hx by assumption. apply IHl; [constructor|]; assumption.
  - induction IH as [|x l Hx _ IHl]; [reflexivity|]. inversion H0; subst. rewrite Hx by assumption. apply IHl; [constructor|]; assumption.
Qed.

Lemma F2_wf {X Y} (R : tree X -> tree Y -> Prop) l m :
  Forall2 R l m -> Forall (fun t => wf_tree t -> forall u, R t u -> wf_tree u) l -> Forall wf_tree l -> Forall wf_tree m.
Proof.
  induction 1 as [|x y l m H F IH]; intros H1 H2; [constructor|]. inversion H1; subst. inversion H2; subst. constructor; auto.
Qed.
Lemma shape_wf {X} (t : tree X) : wf_tree t -> forall w, shape_of t = Ok w -> wf_tree w.
Proof.
  intros W w E. destruct (jmapM_total (fun _ : X => Ok tt) (fun _ _ => True) t) as (u & E' & HR).
  { intros x _. exists tt. split; auto. }
  unfold shape_of in E. rewrite E in E'. injection E' as ->. clear E. revert u W HR.
  induction t as [x| |d IH|l IH|l IH] using tree_ind2; intros u W Hu; inversion Hu; subst; try constructor; inversion W; subst.
  - eapply Permutation_NoDup; [|exact H1]. rewrite (F2_keys _ _ _ H0). unfold dkeys. apply Permutation_map. symmetry. apply sort_kvs_perm.
  - apply (Permutation_Forall (Permutation_sym (sort_kvs_perm _))). clear -IH H0 H2.
    induction H0 as [|[k x] [k' y] d e [Hk HR] F IHF]; constructor; inversion IH as [|? ? Hx IH']; subst; inversion H2 as [|? ? Wx W']; subst; cbn in *.
    + eapply Hx; [assumption|exact HR].
    + apply IHF; assumption.
  - eapply F2_wf; [exact H0| |assumption]. rewrite Forall_forall in *. intros t Ht Wt u Hu'. eapply IH; eauto.
  - eapply F2_wf; [exact H0| |assumption]. rewrite Forall_forall in *. intros t Ht Wt u Hu'. eapply IH; eauto.
Qed.

Lemma set_hyper_ok k f : exists f', net_set_hyper k
    (fresh_fields (f_name f) (f_rng f) (match f_opt f with Some (x :: l) => Some (x :: l) | _ => None end)) (net_hyper k f) = Ok f' /\ same_fields k f f'.
Proof.
  destruct f as [nm rng [[|v l]|] i o r c s], k; eexists; (split; [reflexivity|]); repeat split; cbn; auto; discriminate.
Qed.

Lemma round_trip m : good tower ready m -> trip m /\ exists p, params m = Ok p /\ reset_ok m p.
Proof.
  induction 1 as [c o [o' [Hc Hs]] [p [Hp Hset]]|k f ms W G IH Hi Ho Hk].
  - split.
    + unfold copy in Hc. apply rbind_ok in Hc as (d & E1 & E2). exists (SAtom c d), (Atom c o').
      cbn. rewrite E1, E2. repeat split; auto. constructor; exact Hs.
    + exists (PA p). cbn. rewrite Hp. split; [reflexivity|]. intros m1 H1. inversion H1 as [? ? oo Ho|]; subst.
      destruct (Hset _ Ho) as (o2 & E & S2). exists (Atom c o2). cbn. rewrite E. split; [reflexivity|constructor; exact S2].
  - destruct (jmapM_total params (fun x q => reset_ok x q) ms) as (pt & Ep & Rp).
    { intros x Hx. destruct (IH x Hx) as [_ (p & E & HR)]. exists p; auto. }
    assert (Z : forall ms1, jrel isame ms ms1 -> exists ms2, tzipM put_params ms1 pt = Ok ms2 /\ jrel isame ms ms2).
    { intros ms1 H1. eapply (tzipM_img put_params isame reset_ok isame ms W); eauto. }
    split.
    + destruct (jmapM_total (save tower ready) (fun x s => exists m1, load s = Ok m1 /\ isame x m1) ms) as (sms & Es & Rs).
      { intros x Hx. destruct (IH x Hx) as [(s & m1 & E1 & E2 & E3) _]. exists s. split; eauto. }
      destruct (jmapM_again load (fun x s => exists m1, load s = Ok m1 /\ isame x m1) isame ms) with (u := sms) as (ms1 & El & Rl); auto.
      destruct (jrel_shape _ _ _ Rl) as (w & Sh1 & Sh2).
      destruct (set_hyper_ok k f) as (f' & Ef & Sf).
      assert (Hrdy : match k with KSeq => true | KGraph => ready f ms end = true) by (destruct k; [reflexivity|apply Hk; reflexivity]).
      eexists; exists (match pt with NoneT => Net k f' ms1 | _ => match tzipM put_params ms1 pt with Ok ms2 => Net k f' ms2 | Err _ => Net k f' ms1 end end). split; [|split].
      * cbn [save]. rewrite Es. cbn [rbind]. unfold shape_of in Sh1. rewrite Sh1. cbn [rbind]. rewrite Ep. cbn [rbind]. rewrite Hrdy.
        rewrite hyper_filter by (auto; intros Hg; destruct (Hk Hg) as (? & ? & ? & ?); auto). reflexivity.
      * cbn [load]. rewrite El. cbn [rbind]. unfold shape_of in Sh2. rewrite Sh2. cbn [rbind].
        rewrite tree_eqb_refl by (eapply shape_wf; eauto). rewrite Ef. cbn [rbind].
        destruct (Z _ Rl) as (ms2 & E2 & R2). rewrite E2. destruct pt; reflexivity.
      * destruct (Z _ Rl) as (ms2 & E2 & R2). rewrite E2. destruct pt; constructor; auto.
    + exists (PT pt). cbn [params]. rewrite Ep. split; [reflexivity|]. intros m1 H1. inversion H1 as [|? ? f' ? ms' Sf Rm]; subst.
      destruct (Z _ Rm) as (ms2 & E2 & R2). exists (Net k f' ms2). cbn [put_params]. rewrite E2. split; [reflexivity|].
      constructor; auto.
Qed.

Lemma copies_model m : good tower ready m ->
  exists s m', save tower ready m = Ok s /\ load s = Ok m' /\ msame m m'.
Proof.
  intros G. destruct (round_trip m G) as [(s & m1 & E1 & E2 & E3) _]. exists s, m1. repeat split; auto.
  apply isame_msame; auto.
Qed.
End Main.
