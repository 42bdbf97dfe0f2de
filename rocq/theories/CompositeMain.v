From Coq Require Import ZArith.
From Verif Require Import Base BaseLemmas TreeUtil Serial SerialProofs MutableProofs NonSeqSpec NonSeqProofs Modules ModulesProofs Eigen Composite CompositeSpec CompositeProofs.
Local Open Scope string_scope.
Local Open Scope list_scope.
Local Open Scope nat_scope.

Section Run.
Context (herm : arr -> bool).

(** * Edits *)
Lemma made_no_user a l : made a l -> forall k, ~ In (CUser k) l.
Proof.
  intros H k Hi. destruct H as [a n Ms lq q Ds last Hn HM Hl Hq HD Hlast|a n Ms Hn HM]; cbn in Hi.
  - destruct Hi as [E|[E|[E|Hi]]]; try discriminate. destruct Hlast; cbn in Hi; [auto|]. destruct Hi as [E|[]]; discriminate.
  - destruct Hi as [E|[E|[]]]; discriminate.
Qed.
Lemma build_old a l old old' : build herm a old = (l, Ok tt) -> build herm a old' = (l, Ok tt).
Proof.
  destruct a as [a|a]; cbn -[mat_init sum_init vec_init val_init].
  - match goal with |- context [match ?X with _ => _ end] => destruct X; [|discriminate] end.
    destruct (sum_init herm a); [auto|discriminate].
  - match goal with |- context [match ?X with _ => _ end] => destruct X; [auto|discriminate] end.
Qed.
Theorem appended_forgotten draw m c t m' :
  compile herm draw (append m c) t = (m', Ok tt) -> compile herm draw (new (c_args m)) t = (m', Ok tt).
Proof.
  unfold compile, append, new. cbn. destruct (single_leaf t); [|discriminate]. destruct (has_size (c_args m)); [|discriminate]. cbn.
  destruct (build herm (c_args m) (c_mods m ++ [c])) as [l2 [[]|e]] eqn:E; [|discriminate].
  rewrite (build_old _ _ _ [] E). unfold seq_compile. cbn. destruct (compile_mods draw 0 l2 t) as [r [t'|e]]; [auto|discriminate].
Qed.
Theorem appended_lost draw m n t m' :
  compile herm draw (append m (CUser n)) t = (m', Ok tt) -> ~ In (CUser n) (c_mods m').
Proof.
  intros H Hi. apply appended_forgotten in H. apply (supplied_used herm (c_args m) [] draw t) in H as (last & Hp & Hb).
  destruct Hp as [a k Ms w l q Ds last|a k Ms]; cbn in Hi.
  - destruct Hi as [E|[E|[E|Hi]]]; try discriminate. cbn in Hb. destruct (o_bias a); [destruct Hb as (v & _ & ->)|subst last]; cbn in Hi; [|auto].
    destruct Hi as [E|[]]; discriminate.
  - destruct Hi as [E|[E|[]]]; discriminate.
Qed.

Definition hopeless (m : comp) : Prop :=
  c_in m = None /\ match c_args m with AObs a => exists l, o_size a = SMods l | AEig a => exists l, e_size a = SMods l end.
Lemma hopeless_step draw m t : hopeless m -> hopeless (fst (compile herm draw m t)) /\ snd (compile herm draw m t) <> Ok tt.
Proof.
  intros [Hi Ha]. unfold compile. destruct (single_leaf t); [|split; [split; assumption|discriminate]].
  destruct (has_size (c_args m)); [|split; [split; assumption|discriminate]]. rewrite Hi. cbn [negb].
  destruct (c_args m) as [a|a] eqn:Ea; cbn -[mat_init]; destruct Ha as [l0 E0]; rewrite E0; cbn;
    (split; [split; cbn; [first [exact Hi|reflexivity]|rewrite ?Ea; exists l0; first [exact E0|reflexivity]]|discriminate]).
Qed.
Theorem sum_never_compiles draw m c h t : snd (compile herm draw (compiles herm (add m c) h) t) <> Ok tt.
Proof.
  assert (H : forall h m, hopeless m -> hopeless (compiles herm m h)).
  { induction h0 as [|[d t'] h0 IH]; intros m0 H; [exact H|]. unfold compiles in *. cbn. apply IH, hopeless_step, H. }
  apply hopeless_step, H. unfold hopeless, add, append, new. cbn. split; [reflexivity|].
  destruct (c_args m); cbn; eauto.
Qed.

(** * Constant maps *)
Fixpoint cmap {X Y} (c : Y) (t : tree X) : tree Y :=
  match t with
  | Leaf _ => Leaf c
  | NoneT => NoneT
  | Dict d => Dict (sort_kvs (map (fun kv => (fst kv, cmap c (snd kv))) d))
  | Lst l => Lst (map (cmap c) l)
  | Tup l => Tup (map (cmap c) l)
  end.
Lemma jm_const {X Y} (c : Y) (t : tree X) : jmapM (fun _ => Ok c) t = Ok (cmap c t).
Proof.
  induction t as [x| |d IH|l IH|l IH] using tree_ind2; try reflexivity.
  - rewrite jmapM_dct, (jm_dict_ok _ d (map (fun kv => (fst kv, cmap c (snd kv))) d)); [reflexivity|].
    induction IH as [|kv d Hd _ IHd]; cbn; constructor; auto. split; auto.
  - rewrite jmapM_lst, (jm_list_ok _ l (map (cmap c) l)); [reflexivity|].
    induction IH; cbn; constructor; auto.
  - rewrite jmapM_tup, (jm_list_ok _ l (map (cmap c) l)); [reflexivity|].
    induction IH; cbn; constructor; auto.
Qed.
Lemma jm_then_const {X Y Z} (f : X -> result Y) (c : Z) (t : tree X) : forall u, jmapM f t = Ok u -> cmap c u = cmap c t.
Proof.
  induction t as [x| |d IH|l IH|l IH] using tree_ind2; intros u H.
  - cbn in H. apply rbind_ok in H as (y & _ & H). injection H as <-. reflexivity.
  - injection H as <-. reflexivity.
  - rewrite jmapM_dct in H. apply rbind_ok in H as (e & He & H). injection H as <-. cbn [cmap]. f_equal.
    rewrite <- (sort_kvs_map (fun kv => (fst kv, cmap c (snd kv)))) by reflexivity. rewrite sort_kvs_idem. f_equal.
    revert e He. induction IH as [|[k x] d Hx _ IHd]; cbn; intros e He; [injection He as <-; reflexivity|].
    apply rbind_ok in He as (y & Hy & He). apply rbind_ok in He as (e' & He' & He). injection He as <-. cbn.
    rewrite (Hx _ Hy), (IHd _ He'). reflexivity.
  - rewrite jmapM_lst in H. apply rbind_ok in H as (m & Hm & H). injection H as <-. cbn [cmap]. f_equal.
    revert m Hm. induction IH as [|x l Hx _ IHl]; cbn; intros m Hm; [injection Hm as <-; reflexivity|].
    apply rbind_ok in Hm as (y & Hy & Hm). apply rbind_ok in Hm as (m' & Hm' & Hm). injection Hm as <-. cbn.
    rewrite (Hx _ Hy), (IHl _ Hm'). reflexivity.
  - rewrite jmapM_tup in H. apply rbind_ok in H as (m & Hm & H). injection H as <-. cbn [cmap]. f_equal.
    revert m Hm. induction IH as [|x l Hx _ IHl]; cbn; intros m Hm; [injection Hm as <-; reflexivity|].
    apply rbind_ok in Hm as (y & Hy & Hm). apply rbind_ok in Hm as (m' & Hm' & Hm). injection Hm as <-. cbn.
    rewrite (Hx _ Hy), (IHl _ Hm'). reflexivity.
Qed.
Lemma graft_const {X} (s : list nat) (t : tree X) : graft (cmap (Leaf s) t) = cmap s t.
Proof.
  induction t as [x| |d IH|l IH|l IH] using tree_ind2; try reflexivity; cbn [cmap graft]; f_equal.
  - rewrite <- (sort_kvs_map (fun kv => (fst kv, graft (snd kv)))) by reflexivity. f_equal. rewrite map_map. cbn.
    induction IH as [|kv d H _ IHd]; cbn; [reflexivity|]. rewrite H, IHd. reflexivity.
  - rewrite map_map. induction IH as [|x l H _ IHl]; cbn; [reflexivity|]. rewrite H, IHl. reflexivity.
  - rewrite map_map. induction IH as [|x l H _ IHl]; cbn; [reflexivity|]. rewrite H, IHl. reflexivity.
Qed.
Lemma tmap_const {X Y Z} (f : Y -> Z) (c : Y) (t : tree X) : tmap f (cmap c t) = cmap (f c) t.
Proof.
  induction t as [x| |d IH|l IH|l IH] using tree_ind2; try reflexivity; cbn [cmap tmap]; f_equal.
  - rewrite <- (sort_kvs_map (fun kv => (fst kv, tmap f (snd kv)))) by reflexivity. f_equal. rewrite map_map. cbn.
    induction IH as [|kv d H _ IHd]; cbn; [reflexivity|]. rewrite H, IHd. reflexivity.
  - rewrite map_map. induction IH as [|x l H _ IHl]; cbn; [reflexivity|]. rewrite H, IHl. reflexivity.
  - rewrite map_map. induction IH as [|x l H _ IHl]; cbn; [reflexivity|]. rewrite H, IHl. reflexivity.
Qed.

(** * Announced shapes *)
Lemma compile_mods_ok draw i c l t r t' :
  compile_mods draw i (c :: l) t = (r, Ok t') ->
  exists c' t1 r', compile_child (draw i) c t = Ok c' /\ out_of c' t = Ok t1 /\
    compile_mods draw (S i) l t1 = (r', Ok t') /\ r = c' :: r'.
Proof.
  rewrite compile_mods_cons. destruct (compile_child (draw i) c t) as [c'|]; [|discriminate].
  destruct (out_of c' t) as [t1|] eqn:Eo; [|discriminate]. destruct (compile_mods draw (S i) l t1) as [r' o] eqn:E.
  intros H. injection H as <- ->. exists c', t1, r'. repeat split; auto.
Qed.
Lemma mat_out n sm bt Ms mag tr t t1 :
  out_of (CMat (ahm_obj n sm bt Ms mag tr)) t = Ok t1 -> exists k, n = Some k /\ t1 = cmap [k; k] t.
Proof.
  cbn -[nat_of_v]. destruct (single_leaf t) as [[|? [|? ?]]|]; try discriminate. destruct n as [k|]; [|discriminate].
  rewrite nat_of_opt. unfold same_shape. rewrite jm_const. intros H. injection H as <-. eauto.
Qed.
Lemma sum_out ex l q Ds mag ce tr t t1 :
  out_of (CSum ex (evs_obj l q Ds mag ce tr)) t = Ok t1 -> exists k, q = Some k /\ t1 = cmap [k] t.
Proof.
  cbn -[nat_of_v]. destruct (single_leaf t) as [[|? [|? [|? ?]]]|]; try discriminate. destruct q as [k|]; [|discriminate].
  rewrite nat_of_opt. unfold same_shape. rewrite jm_const. intros H. injection H as <-. eauto.
Qed.
Lemma cmap_cmap {X Y Z} (c : Y) (e : Z) (t : tree X) : cmap e (cmap c t) = cmap e t.
Proof. exact (jm_then_const _ e t _ (jm_const c t)). Qed.

Lemma compiled_shape draw a l t r t' :
  made a l -> compile_mods draw 0 l t = (r, Ok t') ->
  match a with
  | AObs a => exists q, given (o_out a) q /\ t' = cmap [q] t
  | AEig a => forall k, e_num a = Some k -> t' = cmap [k] t
  end.
Proof.
  intros Hm H. destruct Hm as [a n Ms lq q Ds last Hn HM Hl Hq HD Hlast|a n Ms Hn HM].
  - apply compile_mods_ok in H as (c1 & t1 & r1 & K1 & O1 & H & ->).
    apply compile_mods_ok in H as (c2 & t2 & r2 & K2 & O2 & H & ->).
    apply compile_mods_ok in H as (c3 & t3 & r3 & K3 & O3 & H & ->).
    cbn [compile_child] in K1, K2, K3.
    destruct (single_leaf t) as [[|d [|? ?]]|]; try discriminate. apply rbind_ok in K1 as (o1 & K1 & E). injection E as <-.
    apply mat_compile in K1 as (Ms' & -> & _). apply mat_out in O1 as (k & -> & ->).
    apply rbind_ok in K2 as (u & _ & E). injection E as <-. cbn [out_of] in O2. unfold eigenvectors_shape in O2.
    apply rbind_ok in O2 as (? & _ & O2). pose proof (fun Z (c : Z) => jm_then_const _ c _ _ O2) as C2.
    destruct (single_leaf t2) as [[|d2 [|? [|? ?]]]|]; try discriminate. apply rbind_ok in K3 as (o3 & K3 & E). injection E as <-.
    apply sum_compile in K3 as (Ds' & l' & q' & -> & _ & -> & ->). apply sum_out in O3 as (q & Eq & ->). injection Eq as ->.
    exists q. split; [intros z Hx; specialize (Hq _ Hx); congruence|].
    assert (Et : t' = cmap [q] t2).
    { destruct Hlast as [Hb|v Hb]; [injection H as _ <-; reflexivity|].
      apply compile_mods_ok in H as (c4 & t4 & r4 & K4 & O4 & H & ->). cbn [compile_child] in K4.
      apply rbind_ok in K4 as (o4 & _ & E). injection E as <-. cbn in O4, H. injection O4 as <-. injection H as _ <-. reflexivity. }
    rewrite Et, C2. apply cmap_cmap.
  - intros k Hk. apply compile_mods_ok in H as (c1 & t1 & r1 & K1 & O1 & H & ->).
    apply compile_mods_ok in H as (c2 & t2 & r2 & K2 & O2 & H & ->). injection H as _ <-.
    cbn [compile_child] in K1, K2.
    destruct (single_leaf t) as [[|d [|? ?]]|]; try discriminate. apply rbind_ok in K1 as (o1 & K1 & E). injection E as <-.
    apply mat_compile in K1 as (Ms' & -> & _). apply mat_out in O1 as (n1 & -> & ->).
    apply rbind_ok in K2 as (u & _ & E). injection E as <-. cbn [out_of] in O2. unfold eigenvalues_shape in O2. rewrite Hk in O2.
    apply rbind_ok in O2 as (? & _ & O2). rewrite jm_const in O2. cbn [rbind] in O2. injection O2 as <-.
    rewrite graft_const. apply cmap_cmap.
Qed.

Definition sized (a : pmm_args) : Prop :=
  match a with AObs a => o_out a <> None | AEig a => e_num a <> None end.
Theorem announced a h draw t m' :
  sized a -> compile herm draw (compiles herm (new a) h) t = (m', Ok tt) ->
  exists o, c_out m' = Some o /\ get_output_shape a t = Ok (tmap (map Some) o).
Proof.
  intros Hz H. destruct (compiles_sound herm h (new a)) as [Hs Ha]; [intros E; cbn in E; congruence|].
  set (m := compiles herm (new a) h) in *. cbn in Ha.
  assert (K : exists m0, made a (c_mods m0) /\ c_args m0 = a /\ seq_compile draw m0 t = (m', Ok tt) /\ exists s, single_leaf t = Some s).
  { unfold compile in H. destruct (single_leaf t) as [sl|]; [|discriminate].
    destruct (has_size (c_args m)); cbn [negb] in H; [|discriminate].
    destruct (match c_in m with Some t' => shape_eqb t t' | None => false end) eqn:Ein.
    - exists m. assert (Hi : c_in m <> None) by (intros E; rewrite E in Ein; discriminate).
      destruct (Hs Hi) as [Hm _]. rewrite Ha in Hm. eauto 8.
    - destruct (build herm (c_args m) (c_mods m)) as [l [[]|e]] eqn:Eb; [|discriminate].
      exists (mk_comp (c_args m) l (c_in m) (c_out m)). cbn. rewrite Ha in Eb. apply build_made in Eb. rewrite Ha. rewrite Ha in H. eauto 8. }
  destruct K as (m0 & Hm & Ha0 & Hc & s & Hsl). unfold seq_compile in Hc.
  destruct (compile_mods draw 0 (c_mods m0) t) as [r [t'|]] eqn:E; [|discriminate].
  destruct (no_axis t'); [discriminate|]. injection Hc as <-. exists t'. split; [reflexivity|].
  pose proof (compiled_shape _ _ _ _ _ _ Hm E) as HT. destruct a as [a|a]; cbn in Hz |- *; rewrite Hsl.
  - destruct HT as (q & Hq & ->). destruct (o_out a) as [q0|]; [|congruence]. rewrite (Hq _ eq_refl), jm_const, tmap_const. reflexivity.
  - destruct (e_num a) as [k|]; [|congruence]. rewrite (HT _ eq_refl), jm_const, tmap_const. reflexivity.
Qed.

(** * Compiling again *)
Lemma str_list_refl s : str_list_eqb s s = true.
Proof. unfold str_list_eqb. destruct (list_eq_dec _ s s); congruence. Qed.
Definition obeys (draw : nat -> list nat -> arr) : Prop := forall i s, a_shape (draw i s) = s.

Lemma child_again draw c s c' draw' :
  (forall s, a_shape (draw s) = s) -> (forall o, c = CBias o -> exists v mag, o = bias_obj v mag true false true) ->
  (forall o, c = CMat o -> exists n sm bt Ms mag, o = ahm_obj n sm bt Ms mag true) ->
  (forall b o, c = CSum b o -> exists l q Ds mag ce, o = evs_obj l q Ds mag ce true) ->
  compile_child draw c (Leaf s) = Ok c' -> compile_child draw' c' (Leaf s) = Ok c'.
Proof.
  intros Hd Hb Hm Hs. destruct c as [o|k w|k w|b o|o|n]; cbn [compile_child].
  - destruct (Hm o eq_refl) as (n & sm & bt & Ms & mag & ->). cbn [single_leaf leaves]. destruct s as [|d [|? ?]]; try discriminate.
    intros H. apply rbind_ok in H as (o' & H & E). injection E as <-. cbn [compile_child single_leaf leaves].
    unfold ahm_compile in *. cbn -[nat_of_v Nat.eqb] in *. destruct Ms as [m|]; cbn -[nat_of_v Nat.eqb] in *.
    + destruct (Nat.eqb _ _) eqn:E; [|discriminate]. injection H as <-. cbn -[nat_of_v Nat.eqb]. rewrite E. reflexivity.
    + destruct (nat_of_v (opt_nat n)); [|discriminate]. injection H as <-. cbn -[nat_of_v Nat.eqb]. rewrite Hd. cbn [hd].
      rewrite Nat.eqb_refl. reflexivity.
  - intros H. pose proof H as H0. apply rbind_ok in H as (u & H & E). injection E as <-. exact H0.
  - intros H. pose proof H as H0. apply rbind_ok in H as (u & H & E). injection E as <-. exact H0.
  - destruct (Hs b o eq_refl) as (l & q & Ds & mag & ce & ->). cbn [single_leaf leaves]. destruct s as [|n [|? [|? ?]]]; try discriminate.
    intros H. apply rbind_ok in H as (o' & H & E). injection E as <-. cbn [compile_child single_leaf leaves].
    unfold evs_compile in *. cbn -[nat_of_v Nat.eqb] in *.
    destruct l as [l|]; [|discriminate]. rewrite nat_of_opt in H.
    destruct q as [q|]; [|discriminate]. rewrite nat_of_opt in H. destruct Ds as [m|]; cbn -[nat_of_v Nat.eqb] in *.
    + destruct (a_shape m) as [|? [|? [|c [|d [|? ?]]]]] eqn:Em; try discriminate. destruct (_ && _) eqn:E; [|discriminate].
      injection H as <-. cbn -[nat_of_v Nat.eqb].
      change (VInt (Z.of_nat l)) with (opt_nat (Some l)). change (VInt (Z.of_nat q)) with (opt_nat (Some q)).
      rewrite !nat_of_opt, Em, E. reflexivity.
    + injection H as <-. cbn -[nat_of_v Nat.eqb].
      change (VInt (Z.of_nat l)) with (opt_nat (Some l)). change (VInt (Z.of_nat q)) with (opt_nat (Some q)).
      rewrite !nat_of_opt, Hd, !Nat.eqb_refl. reflexivity.
  - destruct (Hb o eq_refl) as (v & mag & ->). intros H. apply rbind_ok in H as (o' & H & E). injection E as <-.
    cbn [compile_child]. pose proof H as H0.
    unfold bias_compile in H. cbn -[jmapM same_struct combine any_shape_differs] in H.
    destruct v as [| | | | | |a| | | |]; cbn -[jmapM same_struct combine any_shape_differs] in H; cbn [jmapM rbind] in H.
    1: { injection H as <-. unfold bias_compile. cbn. rewrite Hd.
         destruct (str_list_eqb s [1] || str_list_eqb s []); [reflexivity|].
         unfold any_shape_differs. cbn. rewrite str_list_refl. reflexivity. }
    6: { unfold bias_compile. destruct (str_list_eqb (a_shape a) [1] || str_list_eqb (a_shape a) []) eqn:E1.
         - injection H as <-. cbn. rewrite E1. reflexivity.
         - destruct (any_shape_differs (a_shape a) (Leaf s)) eqn:E2; [discriminate|]. injection H as <-. cbn -[any_shape_differs]. rewrite E1, E2. reflexivity. }
    all: destruct (_ && _) eqn:E; [|discriminate]; cbn in E; rewrite ?andb_false_r in E; discriminate.
  - intros H; injection H as <-. reflexivity.
Qed.

Definition known (c : child) : Prop :=
  match c with
  | CBias o => exists v mag, o = bias_obj v mag true false true
  | CMat o => exists n sm bt Ms mag, o = ahm_obj n sm bt Ms mag true
  | CSum _ o => exists l q Ds mag ce, o = evs_obj l q Ds mag ce true
  | _ => True
  end.
Lemma out_single c s t : known c -> out_of c (Leaf s) = Ok t -> exists s', t = Leaf s'.
Proof.
  destruct c as [o|k w|k w|b o|o|n]; cbn [out_of single_leaf leaves].
  - destruct s as [|? [|? ?]]; try discriminate. intros _ H. apply rbind_ok in H as (v & _ & H). destruct (nat_of_v v); [|discriminate].
    injection H as <-. eauto.
  - intros _ H. unfold eigenvectors_shape in H. apply rbind_ok in H as (? & _ & H). cbn in H. apply rbind_ok in H as (y & _ & H). injection H as <-. eauto.
  - intros _ H. unfold eigenvalues_shape in H. apply rbind_ok in H as (? & _ & H). cbn in H.
    destruct k as [k|]; cbn in H; [injection H as <-; eauto|]. destruct s; cbn in H; [discriminate|]. injection H as <-. cbn. eauto.
  - destruct s as [|? [|? [|? ?]]]; try discriminate. intros _ H. apply rbind_ok in H as (v & _ & H). destruct (nat_of_v v); [|discriminate].
    injection H as <-. eauto.
  - intros _ H; injection H as <-; eauto.
  - intros _ H; injection H as <-; eauto.
Qed.
Lemma known_child draw c t c' : known c -> compile_child draw c t = Ok c' -> known c'.
Proof.
  destruct c as [o|k w|k w|b o|o|n]; cbn [known compile_child].
  - intros (n & sm & bt & Ms & mag & ->) H. destruct (single_leaf t) as [[|? [|? ?]]|]; try discriminate.
    apply rbind_ok in H as (o & H & E). injection E as <-. apply mat_compile in H as (Ms' & -> & _). cbn. eauto 8.
  - intros _ H. apply rbind_ok in H as (? & _ & E). injection E as <-. exact I.
  - intros _ H. apply rbind_ok in H as (? & _ & E). injection E as <-. exact I.
  - intros (l & q & Ds & mag & ce & ->) H. destruct (single_leaf t) as [[|? [|? [|? ?]]]|]; try discriminate.
    apply rbind_ok in H as (o & H & E). injection E as <-. apply sum_compile in H as (Ds' & l' & q' & -> & _). cbn. eauto 8.
  - intros (v & mag & ->) H. apply rbind_ok in H as (o & H & E). injection E as <-. apply bias_compiles in H as (v' & -> & _). cbn. eauto.
  - intros _ H; injection H as <-. exact I.
Qed.
Lemma mods_again draw draw' : obeys draw -> forall l i s r t,
  Forall known l -> compile_mods draw i l (Leaf s) = (r, Ok t) -> compile_mods draw' i r (Leaf s) = (r, Ok t).
Proof.
  intros Hd. induction l as [|c l IH]; intros i s r t Hk H; [injection H as <- <-; reflexivity|].
  inversion Hk as [|? ? Hc Hl]; subst. apply compile_mods_ok in H as (c' & t1 & r' & K & O & H & ->).
  pose proof (known_child _ _ _ _ Hc K) as Hc'. destruct (out_single _ _ _ Hc' O) as [s' ->].
  rewrite compile_mods_cons.
  assert (K' : compile_child (draw' i) c' (Leaf s) = Ok c').
  { apply (child_again (draw i) c s c'); [apply Hd| | | |exact K]; intros; subst c; exact Hc. }
  rewrite K', O, (IH _ _ _ _ Hl H). reflexivity.
Qed.
Lemma made_known a l : made a l -> Forall known l.
Proof.
  intros H. destruct H as [a n Ms lq q Ds last Hn HM Hl Hq HD Hlast|a n Ms Hn HM].
  - constructor; [cbn; eauto 8|]. constructor; [exact I|]. constructor; [cbn; eauto 8|]. destruct Hlast; constructor; cbn; eauto.
  - constructor; [cbn; eauto 8|]. constructor; [exact I|constructor].
Qed.
Theorem compile_again a h draw draw' s m' :
  obeys draw -> compile herm draw (compiles herm (new a) h) (Leaf s) = (m', Ok tt) ->
  compile herm draw' m' (Leaf s) = (m', Ok tt).
Proof.
  intros Hd H. destruct (compiles_sound herm h (new a)) as [Hs Ha]; [intros E; cbn in E; congruence|].
  set (m := compiles herm (new a) h) in *. cbn in Ha.
  assert (K : exists m0, Forall known (c_mods m0) /\ c_args m0 = c_args m /\ seq_compile draw m0 (Leaf s) = (m', Ok tt) /\ has_size (c_args m) = true).
  { unfold compile in H. cbn [single_leaf leaves] in H.
    destruct (has_size (c_args m)) eqn:Ez; cbn [negb] in H; [|discriminate].
    destruct (match c_in m with Some t' => shape_eqb (Leaf s) t' | None => false end) eqn:Ein.
    - exists m. assert (Hi : c_in m <> None) by (intros E; rewrite E in Ein; discriminate).
      destruct (Hs Hi) as [Hm _]. apply made_known in Hm. auto.
    - destruct (build herm (c_args m) (c_mods m)) as [l [[]|e]] eqn:Eb; [|discriminate].
      exists (mk_comp (c_args m) l (c_in m) (c_out m)). cbn. apply build_made in Eb. apply made_known in Eb. auto. }
  destruct K as (m0 & Hk & Ha0 & Hc & Hz). unfold seq_compile in Hc.
  destruct (compile_mods draw 0 (c_mods m0) (Leaf s)) as [r [t'|]] eqn:E; [|discriminate].
  destruct (no_axis t') eqn:En; [discriminate|]. injection Hc as <-. rewrite Ha0.
  unfold compile. cbn [single_leaf leaves c_args c_in]. rewrite Hz. cbn [negb]. cbn [shape_eqb]. unfold shape_eqb. cbn [tree_eqb].
  rewrite str_list_refl. unfold seq_compile. cbn [c_mods c_args c_out]. rewrite (mods_again draw draw' Hd _ _ _ _ _ Hk E), En. reflexivity.
Qed.

End Run.
