(** Proofs about the rearranging modules. *)
From Coq Require Import ZArith Permutation Sorting.Sorted.
From Verif Require Import Base BaseLemmas TreeUtil TreeSpec TreeProofs MutableProofs NonSeqSpec NonSeqProofs NdArray Serial SerialSpec SerialProofs Scaler ScalerProofs EigenProofs TrainArgsProofs Reshape ReshapeSpec.
Local Open Scope list_scope.
Local Open Scope nat_scope.

(* ------------------------------------------------------------------ *)
(** * One leaf *)
Lemma count_in t : count_neg1 t = 0 <-> ~ In (-1)%Z t.
Proof.
  unfold count_neg1. induction t as [|d t IH]; cbn [filter]; [split; auto|].
  destruct (Z.eqb_spec (-1) d) as [ <- |N]; cbn [length In]; [split; [lia|intros H; exfalso; apply H; auto]|].
  rewrite IH. split; [intros H [E|E]; [congruence|auto]|auto].
Qed.
Lemma one_unknown_tail d t : one_unknown (d :: t) -> one_unknown t.
Proof. intros H i j Hi Hj. specialize (H (S i) (S j) Hi Hj). lia. Qed.
Lemma one_count t : one_unknown t -> count_neg1 t <= 1.
Proof.
  induction t as [|d t IH]; intros H; [unfold count_neg1; cbn; lia|].
  unfold count_neg1 in *. cbn [filter]. destruct (Z.eqb_spec (-1) d) as [ <- |N]; [|apply IH, (one_unknown_tail _ _ H)].
  cbn [length]. enough (E : count_neg1 t = 0) by (unfold count_neg1 in E; lia). apply count_in. intros Hin.
  apply In_nth_error in Hin as (j & Hj). specialize (H 0 (S j) eq_refl Hj). lia.
Qed.
Lemma count_one t : count_neg1 t <= 1 -> one_unknown t.
Proof.
  unfold count_neg1. induction t as [|d t IH]; intros H i j Hi Hj; [destruct i; discriminate|]. cbn [filter] in H.
  destruct (Z.eqb_spec (-1) d) as [ <- |N].
  - cbn [length] in H. assert (E : count_neg1 t = 0) by (unfold count_neg1; lia). apply count_in in E.
    destruct i, j; cbn in Hi, Hj; auto; exfalso; apply E; eapply nth_error_In; eauto.
  - destruct i, j; cbn in Hi, Hj; try congruence; []. f_equal. apply IH; auto.
Qed.

Lemma known_none t : ~ In (-1)%Z t -> known_size t = zprod t.
Proof.
  induction t as [|d t IH]; intros H; [reflexivity|]. cbn [known_size zprod fold_right] in *. unfold known_size, zprod in IH.
  destruct (Z.eqb_spec d (-1)) as [ -> |]; [exfalso; apply H; left; reflexivity|]. rewrite IH; [reflexivity|]. intros Hin; apply H; right; exact Hin.
Qed.
Lemma known_nonzero t : ~ In 0%Z t -> (known_size t <> 0)%Z.
Proof.
  induction t as [|d t IH]; intros H; [cbn; lia|]. cbn [known_size fold_right]. fold (known_size t).
  assert (known_size t <> 0)%Z by (apply IH; intros Hin; apply H; right; exact Hin). destruct (Z.eqb_spec d (-1)); [assumption|].
  intros E. apply Z.mul_eq_0 in E as [ -> |E]; [apply H; left; reflexivity|contradiction].
Qed.
Lemma fill_none x t : ~ In (-1)%Z t -> fill_in x t = t.
Proof.
  unfold fill_in. induction t as [|d t IH]; intros H; [reflexivity|]. cbn [map]. rewrite IH by (intros Hin; apply H; right; exact Hin).
  destruct (Z.eqb_spec d (-1)) as [ -> |]; [exfalso; apply H; left; reflexivity|reflexivity].
Qed.
(** A solution is the target with the unknown filled in. *)
Lemma solved t o : Forall2 (fun d k => d = (-1)%Z \/ d = Z.of_nat k) t o -> one_unknown t ->
  (~ In (-1)%Z t -> t = map Z.of_nat o /\ zprod t = Z.of_nat (prod o)) /\
  (In (-1)%Z t -> exists x, fill_in x t = map Z.of_nat o /\ Z.of_nat (prod o) = (known_size t * x)%Z).
Proof.
  induction 1 as [|d k t o Hd F IH]; intros U; [split; [split; reflexivity|intros []]|].
  destruct (IH (one_unknown_tail _ _ U)) as [I1 I2]. rewrite prod_cons, Nat2Z.inj_mul. split.
  - intros N. assert (Nt : ~ In (-1)%Z t) by (intros Hin; apply N; right; exact Hin). destruct Hd as [ -> | -> ]; [exfalso; apply N; left; reflexivity|].
    destruct (I1 Nt) as [E1 E2]. cbn [map zprod fold_right]. fold (zprod t). rewrite E2. split; [rewrite E1 at 1; reflexivity|reflexivity].
  - intros Hin. destruct (Z.eq_dec d (-1)) as [E|E].
    + subst d. assert (Nt : ~ In (-1)%Z t). { intros Hi. apply In_nth_error in Hi as (j & Hj). specialize (U 0 (S j) eq_refl Hj). lia. }
      destruct (I1 Nt) as [E1 E2]. exists (Z.of_nat k). split.
      * unfold fill_in. cbn [map]. fold (fill_in (Z.of_nat k) t). rewrite fill_none by exact Nt. rewrite E1. reflexivity.
      * cbn [known_size fold_right]. fold (known_size t). rewrite known_none by exact Nt. rewrite E2. cbn. ring.
    + destruct Hd as [Hd|Hd]; [contradiction|]. destruct Hin as [Hin|Hin]; [contradiction|]. destruct (I2 Hin) as (x & E1 & E2). exists x. split.
      * unfold fill_in. cbn [map]. fold (fill_in x t). rewrite E1. destruct (Z.eqb_spec d (-1)); [contradiction|]. rewrite Hd. reflexivity.
      * cbn [known_size fold_right]. fold (known_size t). destruct (Z.eqb_spec d (-1)); [contradiction|]. rewrite E2, Hd. ring.
Qed.
Lemma solution_sizes t o : Forall2 (fun d k => d = (-1)%Z \/ d = Z.of_nat k) t o -> forall d, In d t -> (-1 <= d)%Z.
Proof. induction 1 as [|d k t o Hd F IH]; intros e He; [destruct He|]. destruct He as [ <- |He]; [lia|auto]. Qed.

Lemma fill_dims s x t : s <> [] -> map (fun d => if (d =? -1)%Z then size_dim s x else DInt d) t = map DInt (fill_in x t).
Proof.
  intros Hs. unfold fill_in. rewrite map_map. apply map_ext. intros d. destruct (d =? -1)%Z; [|reflexivity]. destruct s; [contradiction|reflexivity].
Qed.

Lemma check_fits s l o : solves (prod s) l o -> one_unknown l -> (In (-1)%Z l -> s <> [] /\ ~ In 0%Z l) ->
  check_leaf (Some s) (Some l) = Ok (Some (map (fun n => DInt (Z.of_nat n)) o)).
Proof.
  intros [F P] U H. destruct (solved l o F U) as [H1 H2]. pose proof (one_count l U) as C. cbn [check_leaf].
  destruct (count_neg1 l) as [|[|c]] eqn:E; [| |lia].
  - apply count_in in E. destruct (H1 E) as [E1 E2]. rewrite E2, P, Z.eqb_refl, E1, map_map. reflexivity.
  - assert (Hin : In (-1)%Z l). { destruct (in_dec Z.eq_dec (-1)%Z l) as [|N]; [assumption|]. apply count_in in N. lia. }
    destruct (H2 Hin) as (x & E1 & E2). destruct (H Hin) as [Hs H0]. pose proof (known_nonzero l H0) as K.
    rewrite <- P, E2. destruct (Z.eqb_spec (known_size l) 0); [contradiction|]. rewrite Z.mul_comm, Z.div_mul by exact K.
    rewrite (Z.mul_comm x), Z.eqb_refl, fill_dims, E1, map_map by exact Hs. reflexivity.
Qed.

Lemma reshape_fits {V} b s l o (a : arr V) : 1 <= b -> shp a = b :: s -> solves (prod s) l o -> one_unknown l -> (In (-1)%Z l -> ~ In 0%Z l) ->
  reshape_array a (Some l) = Ok (mk_arr (b :: o) (dat a)).
Proof.
  intros Hb Hs [F P] U H. cbn [reshape_array]. rewrite Hs. unfold np_reshape. rewrite Hs.
  assert (F' : Forall2 (fun d k => d = (-1)%Z \/ d = Z.of_nat k) (Z.of_nat b :: l) (b :: o)) by (constructor; auto).
  assert (U' : one_unknown (Z.of_nat b :: l)).
  { intros [|i] [|j] Hi Hj; cbn [nth_error] in Hi, Hj; [reflexivity|exfalso; injection Hi as Hi; lia|exfalso; injection Hj as Hj; lia|].
    f_equal. apply U; assumption. }
  destruct (solved _ _ F' U') as [H1 H2]. pose proof (one_count _ U') as C.
  assert (B : existsb (fun d => (d <? -1)%Z) (Z.of_nat b :: l) = false).
  { destruct (existsb (fun d => (d <? -1)%Z) (Z.of_nat b :: l)) eqn:E; [|reflexivity]. apply existsb_exists in E as (d & Hd & L). apply Z.ltb_lt in L.
    pose proof (solution_sizes _ _ F' d Hd). lia. }
  rewrite B.
  assert (Q : prod (b :: s) = prod (b :: o)) by (rewrite !prod_cons, P; reflexivity). rewrite Q.
  destruct (count_neg1 (Z.of_nat b :: l)) as [|[|c]] eqn:E; [| |lia].
  - apply count_in in E. destruct (H1 E) as [E1 E2]. rewrite E2, Z.eqb_refl, E1, map_map. rewrite (map_ext _ (fun n => n)), map_id by (intros; apply Nat2Z.id). reflexivity.
  - assert (Hin : In (-1)%Z (Z.of_nat b :: l)). { destruct (in_dec Z.eq_dec (-1)%Z (Z.of_nat b :: l)) as [|N]; [assumption|]. apply count_in in N. lia. }
    destruct (H2 Hin) as (x & E1 & E2). assert (K : (known_size (Z.of_nat b :: l) <> 0)%Z).
    { apply known_nonzero. intros [Z0|Z0]; [lia|]. apply H; [|exact Z0]. destruct Hin as [Hin|Hin]; [lia|exact Hin]. }
    destruct (Z.eqb_spec (known_size (Z.of_nat b :: l)) 0); [contradiction|]. rewrite E2, Z.mul_comm, Z.mod_mul, Z.div_mul by exact K. cbn [Z.eqb].
    rewrite E1, map_map. rewrite (map_ext _ (fun n => n)), map_id by (intros; apply Nat2Z.id). reflexivity.
Qed.

(** What passes the check has a solution. *)
Lemma known_pos t : sizes_only t -> (0 <= known_size t)%Z.
Proof.
  induction t as [|d t IH]; intros H; [cbn; lia|]. cbn [known_size fold_right]. fold (known_size t).
  assert (0 <= known_size t)%Z by (apply IH; intros e He; apply H; right; exact He). destruct (Z.eqb_spec d (-1)); [assumption|].
  destruct (H d (or_introl eq_refl)); [contradiction|nia].
Qed.
Lemma fill_solution x t : sizes_only t -> (0 <= x)%Z -> Forall2 (fun d k => d = (-1)%Z \/ d = Z.of_nat k) t (map Z.to_nat (fill_in x t)).
Proof.
  intros H Hx. induction t as [|d t IH]; cbn; constructor.
  - destruct (Z.eqb_spec d (-1)); [left; assumption|]. destruct (H d (or_introl eq_refl)); [contradiction|]. right. lia.
  - apply IH. intros e He. apply H. right. exact He.
Qed.
Lemma check_solution s l r : sizes_only l -> check_leaf (Some s) (Some l) = Ok r -> one_unknown l /\ exists o, solves (prod s) l o.
Proof.
  intros S E. cbn [check_leaf] in E. destruct (count_neg1 l) as [|[|c]] eqn:C; [| |discriminate].
  - assert (U : one_unknown l) by (apply count_one; lia). split; [exact U|]. destruct (Z.eqb_spec (Z.of_nat (prod s)) (zprod l)) as [Q|]; [|discriminate].
    exists (map Z.to_nat (fill_in 0 l)). pose proof (fill_solution 0 l S ltac:(lia)) as F. split; [exact F|]. apply count_in in C.
    destruct (solved _ _ F U) as [H1 _]. destruct (H1 C) as [_ E2]. lia.
  - assert (U : one_unknown l) by (apply count_one; lia). split; [exact U|]. destruct (Z.eqb_spec (known_size l) 0) as [|K]; [discriminate|].
    destruct (Z.eqb_spec (Z.of_nat (prod s)) (known_size l * (Z.of_nat (prod s) / known_size l))) as [Q|]; [|discriminate].
    set (x := (Z.of_nat (prod s) / known_size l)%Z) in *. pose proof (known_pos l S) as Kp.
    assert (Hx : (0 <= x)%Z) by (apply Z.div_pos; lia). pose proof (fill_solution x l S Hx) as F. exists (map Z.to_nat (fill_in x l)). split; [exact F|].
    assert (Hin : In (-1)%Z l). { destruct (in_dec Z.eq_dec (-1)%Z l) as [|N]; [assumption|]. apply count_in in N. lia. }
    destruct (solved _ _ F U) as [_ H2]. destruct (H2 Hin) as (y & E1 & E2).
    assert (Y : y = x).
    { clearbody x. clear - E1 Hin Hx. assert (P : fill_in y l = map Z.of_nat (map Z.to_nat (fill_in x l))) by exact E1. clear E1. revert P Hin. unfold fill_in. induction l as [|d l IH]; intros P [].
      - subst d. cbn in P. injection P as P _. rewrite P. apply Z2Nat.id. exact Hx.
      - cbn in P. injection P as _ P. apply IH; assumption. }
    subst y. lia.
Qed.

(* ------------------------------------------------------------------ *)
(** * Trees *)
Lemma mark_solid {A} (u : A) t : solid t -> trel (fun s o => o = Some s) t (mark u t).
Proof.
  induction t as [x| |d IH|l IH|l IH] using tree_ind2; intros S; inversion S as [|? H|? H|? N H]; subst; cbn [mark].
  - constructor. reflexivity.
  - eapply tr_dict; [reflexivity|]. clear S. induction IH as [|[k t] d Ht _ IHd]; cbn [map]; constructor.
    + cbn. split; [reflexivity|]. apply Ht. apply (H k). left; reflexivity.
    + apply IHd. intros k' t' Hin. apply (H k'). right; exact Hin.
  - constructor. clear S. induction IH as [|t l Ht _ IHl]; cbn [map]; constructor; [apply Ht, H; left; reflexivity|]. apply IHl. intros t' Hin. apply H. right; exact Hin.
  - destruct l as [|t0 l0]; [contradiction|]. clear N. constructor. clear S. revert H IH. generalize (t0 :: l0) as l. intros l H IH.
    induction IH as [|t l Ht _ IHl]; cbn [map]; constructor; [apply Ht, H; left; reflexivity|]. apply IHl. intros t' Hin. apply H. right; exact Hin.
Qed.
Lemma solid_none {A} (t : tree A) : solid t -> none_inside t = false /\ t <> NoneT.
Proof.
  intros S. split; [|intros ->; inversion S]. inversion S as [|? H|? H|? N H]; subst; try reflexivity; cbn [none_inside];
    (destruct (existsb _ l) eqn:E; [|reflexivity]; apply existsb_exists in E as (x & Hx & Ex); destruct x; try discriminate; specialize (H _ Hx); inversion H).
Qed.

(** The two promotions agree on trees of the same form. *)
Lemma same_promotion {A} (R : A -> option (list Z) -> Prop) (t : tree A) (u : target) :
  (forall a, ~ R a None) -> trel R t u -> all_ints t = target_ints u.
Proof.
  intros N T. inversion T as [x y HR| |l m F|l m F|d e e' P F]; subst; cbn.
  - destruct y; [reflexivity|]. destruct (N _ HR).
  - reflexivity.
  - inversion F; reflexivity.
  - inversion F; reflexivity.
  - inversion F; subst; [apply Permutation_nil in P; subst; reflexivity|]. destruct e; [symmetry in P; apply Permutation_nil in P; discriminate|reflexivity].
Qed.
Lemma trel_box {X Y} (R : X -> Y -> Prop) t u : trel R t u -> trel R (Tup [t]) (Tup [u]).
Proof. intros T. constructor. constructor; [exact T|constructor]. Qed.

Lemma shape_ok shapes (T : target) : wf_tree shapes -> solid shapes -> trel fits shapes T ->
  exists r A, trel (fun p s => fst p = s) r shapes /\ trel (fun p t => snd p = t /\ fits (fst p) t) r T /\ wf_tree r /\
    reshape_shape (Some T) shapes = Ok A /\
    trel (fun p a => forall l o, snd p = Some l -> solves (prod (fst p)) l o -> a = Some (map (fun n => DInt (Z.of_nat n)) o)) r A.
Proof.
  intros W S F. destruct (trel_pair fits shapes T F) as (r & R1 & R2 & Wr). specialize (Wr W).
  destruct (solid_none shapes S) as [S1 S2]. unfold reshape_shape, validate_and_concretify_shape.
  assert (P : all_ints shapes = target_ints T) by (apply (same_promotion fits); [intros a (l & o & E & _); discriminate|exact F]).
  assert (C : forall (q : list nat * option (list Z)) i t, i = Some (fst q) -> snd q = t /\ fits (fst q) t -> exists a, check_leaf i t = Ok a /\
     forall l o, snd q = Some l -> solves (prod (fst q)) l o -> a = Some (map (fun n => DInt (Z.of_nat n)) o)).
  { intros [s t'] i t -> [ <- (l & o & E & H1 & H2 & H3)]. cbn [fst snd] in *. subst t'. exists (Some (map (fun n => DInt (Z.of_nat n)) o)). split; [apply check_fits; assumption|].
    intros l' o' [= <-] H'. enough (G : Ok (Some (map (fun n => DInt (Z.of_nat n)) o)) = Ok (Some (map (fun n => DInt (Z.of_nat n)) o'))) by congruence.
    rewrite <- (check_fits s l o), <- (check_fits s l o') by assumption. reflexivity. }
  assert (K : forall (r' : tree (list nat * option (list Z))) (i : tree (option (list nat))) (s : target), wf_tree r' -> trel (fun p i => i = Some (fst p)) r' i -> trel (fun p t => snd p = t /\ fits (fst p) t) r' s ->
    (exists v, tzipM (fun _ _ => Ok tt) i s = Ok v) /\
    exists v, jzipM check_leaf i s = Ok v /\ trel (fun p a => forall l o, snd p = Some l -> solves (prod (fst p)) l o -> a = Some (map (fun n => DInt (Z.of_nat n)) o)) r' v).
  { intros r' i s W' T1 T2. split.
    - destruct (tzip3 (fun (_ : option (list nat)) (_ : option (list Z)) => Ok tt) _ _ (fun _ _ => True) r' W' ltac:(intros; eauto) i s T1 T2) as (v & E & _). eauto.
    - apply (jzip3 check_leaf (fun p i => i = Some (fst p)) (fun p t => snd p = t /\ fits (fst p) t)); auto. }
  assert (M : trel (fun p i => i = Some (fst p)) r (mark [] shapes)).
  { pose proof (mark_solid (@nil nat) shapes S) as M. clear - R1 M. revert R1 M. generalize (mark [] shapes) as i. revert shapes.
    assert (G : forall (r : tree (list nat * option (list Z))) sh, trel (fun p s => fst p = s) r sh -> forall i, trel (fun s o => o = Some s) sh i -> trel (fun p i => i = Some (fst p)) r i); [|intros; eapply G; eauto].
    clear. intros r sh R1 i M.
    assert (R1' : trel (fun s p => fst p = s) sh r).
    { eapply (trel_join (fun p s => fst p = s) (fun p q => p = q) (fun s p => fst p = s)); [|exact R1|apply trel_refl]. cbn. intros x y z <- <-. reflexivity. }
    eapply (trel_join (fun s p => fst p = s) (fun s o => o = Some s)); [|exact R1'|exact M]. cbn. intros s p i' <- ->. reflexivity. }
  exists r.
  destruct (all_ints shapes) eqn:A1.
  - rewrite <- P.
    destruct (K (Tup [r]) (Tup [mark [] shapes]) (Tup [T])) as [(v0 & E0) (v & E & Tv)]; [constructor; constructor; [exact Wr|constructor]|apply trel_box; exact M|apply trel_box; exact R2|].
    inversion Tv as [| | |? m Fm|]; subst. inversion Fm as [|? a ? m' Ha Fm']; subst. inversion Fm'; subst.
    exists a. split; [exact R1|]. split; [exact R2|]. split; [exact Wr|]. split; [|exact Ha].
    destruct shapes; try (exfalso; apply S2; reflexivity); rewrite S1; cbn [mark map] in *; rewrite E0, E; reflexivity.
  - rewrite <- P. destruct (K r (mark [] shapes) T Wr M R2) as [(v0 & E0) (v & E & Tv)]. exists v. split; [exact R1|]. split; [exact R2|]. split; [exact Wr|]. split; [|exact Tv].
    destruct shapes; try (exfalso; apply S2; reflexivity); rewrite S1, E0, E; reflexivity.
Qed.

Lemma trel_flip {X Y} (R : X -> Y -> Prop) t u : trel R t u -> trel (fun y x => R x y) u t.
Proof. intros T. eapply (trel_join R (fun x y => x = y) (fun y x => R x y)); [|exact T|apply trel_refl]. cbn. intros x y z H <-. exact H. Qed.
Lemma trel_comp {X Y Z} (R : X -> Y -> Prop) (S : Y -> Z -> Prop) (Q : X -> Z -> Prop) t u v :
  (forall x y z, R x y -> S y z -> Q x z) -> trel R t u -> trel S u v -> trel Q t v.
Proof. intros H T1 T2. eapply (trel_join (fun y x => R x y) S Q); [|apply trel_flip; exact T1|exact T2]. cbn. eauto. Qed.

Theorem reshape_ok {V} b shapes (T : target) (data : tree (arr V)) :
  1 <= b -> wf_tree shapes -> solid shapes -> trel fits shapes T -> trel (batch_of b) shapes data ->
  exists A out, reshape_shape (Some T) shapes = Ok A /\ reshape_call (Some T) data = Ok out /\
    trel (announced b) A out /\ trel same_entries data out.
Proof.
  intros Hb W S F D. destruct (shape_ok shapes T W S F) as (r & A & R1 & R2 & Wr & EA & TA).
  assert (RD : trel (fun p a => shp a = b :: fst p) r data) by (eapply trel_comp; [|exact R1|exact D]; cbn; intros p s a <- H; exact H).
  (* keep the array next to its target *)
  destruct (trel_pair _ r data RD) as (q & Q1 & Q2 & Wq). specialize (Wq Wr).
  assert (QT : trel (fun p t => snd (fst p) = t /\ fits (fst (fst p)) t) q T) by (eapply trel_comp; [|exact Q1|exact R2]; cbn; intros p p' t <- H; exact H).
  assert (QA : trel (fun p a => forall l o, snd (fst p) = Some l -> solves (prod (fst (fst p))) l o -> a = Some (map (fun n => DInt (Z.of_nat n)) o)) q A)
    by (eapply trel_comp; [|exact Q1|exact TA]; cbn; intros p p' a <- H; exact H).
  destruct (jzip3 (@reshape_array V) (fun p a => snd p = a /\ shp a = b :: fst (fst p)) (fun p t => snd (fst p) = t /\ fits (fst (fst p)) t)
      (fun p y => exists l o, snd (fst p) = Some l /\ solves (prod (fst (fst p))) l o /\ y = mk_arr (b :: o) (dat (snd p))) q Wq) with (u := data) (p := T) as (out & EO & TO); [|exact Q2|exact QT|].
  { intros [[s t] a] y t' _ [ <- Hs] [ <- (l & o & E & H1 & H2 & H3)]. cbn [fst snd] in *. subst t. exists (mk_arr (b :: o) (dat a)). split; [|exists l, o; auto].
    apply (reshape_fits b s l o); auto. intros Hin. apply (H3 Hin). }
  exists A, out. split; [exact EA|]. split; [exact EO|]. split.
  - eapply trel_join; [|exact QA|exact TO]. cbn. intros p a y Ha (l & o & E & H & ->). exists o. split; [apply (Ha l o E H)|reflexivity].
  - eapply trel_join; [|exact Q2|exact TO]. cbn. intros p a y [ <- _] (l & o & E & H & ->). reflexivity.
Qed.
