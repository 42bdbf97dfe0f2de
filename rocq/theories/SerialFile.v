(** Proofs about saving models to files. *)
From Coq Require Import ZArith Permutation.
From Verif Require Import Base BaseLemmas TreeUtil TreeSpec NonSeqSpec NonSeqProofs MutableProofs Modules ModulesSpec ModulesProofs Serial SerialSpec SerialProofs.
Local Open Scope string_scope.
Local Open Scope list_scope.
Local Open Scope nat_scope.

Lemma jmapM_inv {X Y} (f : X -> result Y) t : forall u, jmapM f t = Ok u -> jrel (fun x y => f x = Ok y) t u.
Proof.
  assert (L : forall l, Forall (fun t => forall u, jmapM f t = Ok u -> jrel (fun x y => f x = Ok y) t u) l ->
    forall m, jm_list f l = Ok m -> Forall2 (jrel (fun x y => f x = Ok y)) l m).
  { induction 1 as [|x l Hx _ IH]; intros m E; cbn in E.
    - injection E as <-. constructor.
    - apply rbind_ok in E as (y & E1 & E). apply rbind_ok in E as (m' & E2 & E). injection E as <-. constructor; auto. }
  induction t as [x| |d IH|l IH|l IH] using tree_ind2; intros u E.
  - cbn in E. apply rbind_ok in E as (y & E1 & E). injection E as <-. constructor; auto.
  - injection E as <-. constructor.
  - rewrite jmapM_dct in E. apply rbind_ok in E as (e & E1 & E). injection E as <-. constructor.
    revert e E1. induction IH as [|[k x] d Hx _ IHd]; intros e E; cbn in E.
    + injection E as <-. constructor.
    + apply rbind_ok in E as (y & E1 & E). apply rbind_ok in E as (m' & E2 & E). injection E as <-.
      constructor; [split; [reflexivity|apply Hx; exact E1]|auto].
  - rewrite jmapM_lst in E. apply rbind_ok in E as (e & E1 & E). injection E as <-. constructor; auto.
  - rewrite jmapM_tup in E. apply rbind_ok in E as (e & E1 & E). injection E as <-. constructor; auto.
Qed.

Fixpoint cut (s : list nat) : list nat :=
  match s with [] => [] | 0 :: _ => [0] | n :: s' => n :: cut s' end.

Definition ash_list {X} : list (tree X) -> option (list (list nat)) :=
  fix go l := match l with
              | [] => Some []
              | x :: l' => match ashape x, go l' with
                           | Some s, Some ss => Some (s :: ss)
                           | _, _ => None
                           end
              end.
Lemma ashape_lst {X} (l : list (tree X)) :
  ashape (Lst l) = match ash_list l with
                   | Some [] => Some [0]
                   | Some (s :: ss) => if forallb (str_list_eqb s) ss then Some (length l :: s) else None
                   | None => None
                   end.
Proof. reflexivity. Qed.
Lemma sleq s t : str_list_eqb s t = true <-> s = t.
Proof. unfold str_list_eqb. destruct (list_eq_dec _ s t); split; auto; discriminate. Qed.

Lemma array_ashape {X} (t : tree X) : forall s, array_of s t -> ashape t = Some (cut s) /\ listify t = t.
Proof.
  induction t as [x| |d IH|l IH|l IH] using tree_ind2; intros s H; inversion H as [| | |s0 ? FA]; subst; try (split; reflexivity).
  rewrite ashape_lst. cbn [listify].
  assert (ash_list l = Some (repeat (cut s0) (length l)) /\ map listify l = l) as [E1 E2].
  { clear H. induction IH as [|x l Hx _ IHl]; [split; reflexivity|]. inversion FA as [|? ? F1 F2]; subst.
    destruct (Hx _ F1) as [A B]. destruct (IHl F2) as [C D]. cbn [ash_list map length repeat]. rewrite A, B, D.
    rewrite C. split; reflexivity. }
  rewrite E1, E2. split; [|reflexivity]. destruct l as [|x l]; [reflexivity|]. cbn [length repeat cut].
  replace (forallb _ _) with true; [reflexivity|]. symmetry. apply forallb_forall. intros y Hy.
  apply repeat_spec in Hy. apply sleq. auto.
Qed.
Lemma ashape_array {X} (t : tree X) : forall s, ashape t = Some s -> listify t = t -> array_of s t.
Proof.
  induction t as [x| |d IH|l IH|l IH] using tree_ind2; intros s E El; try (injection E as <-; constructor).
  - rewrite ashape_lst in E. cbn in El. injection El as El.
    assert (A : forall ss, ash_list l = Some ss -> Forall2 (fun t s => array_of s t) l ss).
    { clear E. induction IH as [|x l Hx _ IHl]; intros ss E; cbn in E.
      - injection E as <-. constructor.
      - cbn in El. injection El as El1 El2. destruct (ashape x) eqn:Ex; [|discriminate].
        fold (@ash_list X) in E. destruct (ash_list l); [|discriminate]. injection E as <-. constructor; auto. }
    destruct (ash_list l) as [ss|]; [|discriminate]. specialize (A ss eq_refl).
    destruct ss as [|s0 ss].
    + injection E as <-. inversion A; subst. apply (ar_lst [] []). constructor.
    + destruct (forallb _ ss) eqn:Ef; [|discriminate]. injection E as <-. constructor.
      rewrite forallb_forall in Ef.
      assert (Ef' : Forall (fun y => y = s0) (s0 :: ss)).
      { constructor; [reflexivity|]. apply Forall_forall. intros y Hy. symmetry. apply sleq. auto. }
      revert A Ef'. generalize (s0 :: ss). clear. intros m A F.
      induction A as [|x y l m H A IH]; constructor; inversion F; subst; auto.
  - cbn in El. discriminate.
Qed.

Lemma F2_Forall_iff {X Y} (R : X -> Y -> Prop) (P : X -> Prop) (Q : Y -> Prop) l m :
  Forall2 R l m -> Forall (fun x => forall y, R x y -> (P x <-> Q y)) l -> (Forall P l <-> Forall Q m).
Proof.
  induction 1 as [|x y l m H F IH]; intros A; [split; constructor|].
  inversion A as [|? ? Ax A']; subst. specialize (IH A'). specialize (Ax y H).
  split; intros B; inversion B; subst; constructor; tauto.
Qed.
Lemma jrel_array {X Y} (R : X -> Y -> Prop) t : forall u s, jrel R t u -> (array_of s t <-> array_of s u).
Proof.
  induction t as [x| |d IH|l IH|l IH] using tree_ind2; intros u s Hu; inversion Hu; subst.
  1-3: split; intros A; inversion A; subst; constructor.
  - assert (E : forall s, Forall (array_of s) l <-> Forall (array_of s) m).
    { intros s'. apply (F2_Forall_iff (jrel R)); auto. rewrite Forall_forall in *. intros x Hx y Hy. apply IH; auto. }
    split; intros A; inversion A; subst.
    + rewrite (F2_length _ _ _ H0). constructor. apply E; assumption.
    + rewrite <- (F2_length _ _ _ H0). constructor. apply E; assumption.
  - split; intros A; inversion A.
Qed.

(* the structure reveals tuples *)
Lemma shape_listify {X} (t : tree X) : forall w w', shape_of t = Ok w -> shape_of (listify t) = Ok w' ->
  tree_eqb unit_eqb w' w = true -> listify t = t.
Proof.
  induction t as [x| |d IH|l IH|l IH] using tree_ind2; intros w w' E1 E2 E3; try reflexivity.
  - unfold shape_of in E1, E2. cbn [listify] in E2. rewrite jmapM_lst in E1, E2.
    apply rbind_ok in E1 as (m1 & E1 & A1). injection A1 as <-.
    apply rbind_ok in E2 as (m2 & E2 & A2). injection A2 as <-. cbn [listify]. f_equal.
    revert m1 m2 E1 E2 E3. induction IH as [|x l Hx _ IHl]; intros m1 m2 E1 E2 E3; [reflexivity|].
    cbn [jm_list map] in E1, E2.
    apply rbind_ok in E1 as (y1 & B1 & E1). apply rbind_ok in E1 as (n1 & E1 & A1). injection A1 as <-.
    apply rbind_ok in E2 as (y2 & B2 & E2). apply rbind_ok in E2 as (n2 & E2 & A2). injection A2 as <-.
    cbn in E3. apply andb_true_iff in E3 as [C1 C2]. cbn [map]. f_equal.
    + exact (Hx _ _ B1 B2 C1).
    + exact (IHl _ _ E1 E2 C2).
  - unfold shape_of in E1, E2. cbn [listify] in E2. rewrite jmapM_lst in E2. rewrite jmapM_tup in E1.
    apply rbind_ok in E1 as (m1 & E1 & A1). injection A1 as <-.
    apply rbind_ok in E2 as (m2 & E2 & A2). injection A2 as <-. discriminate E3.
Qed.

Section File.
Context (tower : bool) (ready : fields -> tree mdl -> bool).

Lemma file_ok k f ms s : good tower ready (Net k f ms) -> array_of s ms ->
  exists m', save_load tower ready (Net k f ms) = Ok m' /\ msame (Net k f ms) m'.
Proof.
  intros G A. destruct (copies_model _ _ _ G) as (d & m' & E1 & E2 & E3). exists m'. split; [|exact E3].
  unfold save_load. rewrite E1. cbn [rbind]. cbn [save] in E1.
  apply rbind_ok in E1 as (sms & Es & E1). apply rbind_ok in E1 as (st & Et & E1). apply rbind_ok in E1 as (p & Ep & E1).
  destruct (match k with KSeq => true | KGraph => ready f ms end); [|discriminate]. injection E1 as <-.
  apply jmapM_inv in Es. apply (jrel_array _ _ _ s Es) in A. apply array_ashape in A as [A1 A2].
  unfold through_file. rewrite A1, A2. exact E2.
Qed.

Lemma file_only k f ms m' : save_load tower ready (Net k f ms) = Ok m' -> exists s, array_of s ms.
Proof.
  unfold save_load. intros H. apply rbind_ok in H as (d & E1 & H). cbn [save] in E1.
  apply rbind_ok in E1 as (sms & Es & E1). apply rbind_ok in E1 as (st & Et & E1). apply rbind_ok in E1 as (p & Ep & E1).
  destruct (match k with KSeq => true | KGraph => ready f ms end); [|discriminate]. injection E1 as <-.
  apply rbind_ok in H as (sms' & Ef & H). unfold through_file in Ef.
  destruct (ashape sms) as [s|] eqn:Ea; [|discriminate]. injection Ef as <-.
  cbn [load] in H. apply rbind_ok in H as (ms1 & El & H). apply rbind_ok in H as (st' & Et' & H).
  destruct (tree_eqb unit_eqb st' st) eqn:Eq; [|discriminate].
  apply jmapM_inv in Es. exists s. apply (jrel_array _ _ _ s Es). apply ashape_array; [exact Ea|].
  destruct (jrel_shape _ _ _ Es) as (w & W1 & W2). unfold shape_of in W1. rewrite Et in W1. injection W1 as <-.
  apply jmapM_inv in El. destruct (jrel_shape _ _ _ El) as (w' & V1 & V2). unfold shape_of in V2. rewrite Et' in V2. injection V2 as <-.
  exact (shape_listify _ _ _ W2 V1 Eq).
Qed.
End File.

(* ------------------------------------------------------------------ *)
(** * Leaves in evaluation order *)
Lemma F2_concat {X Y} (R : X -> Y -> Prop) ll mm : Forall2 (Forall2 R) ll mm -> Forall2 R (concat ll) (concat mm).
Proof. induction 1; cbn; [constructor|]. apply Forall2_app; auto. Qed.
Lemma jrel_leaves {X Y} (R : X -> Y -> Prop) t : forall u, jrel R t u -> Forall2 R (leaves t) (leaves u).
Proof.
  induction t as [x| |d IH|l IH|l IH] using tree_ind2; intros u Hu; inversion Hu; subst.
  - cbn. repeat constructor; auto.
  - constructor.
  - rewrite leaves_dict_sort. cbn. apply F2_concat.
    assert (F : Forall2 (krel (Forall2 R)) (map (fun kv => (fst kv, leaves (snd kv))) d) (map (fun kv => (fst kv, leaves (snd kv))) e)).
    { clear Hu. induction H0 as [|[k x] [k' y] d e [Hk HR] F IHF]; constructor.
      - split; [exact Hk|]. inversion IH; subst. cbn in *. auto.
      - apply IHF. inversion IH; auto. }
    apply F2_sort in F. revert F. clear. generalize (sort_kvs (map (fun kv : string * tree X => (fst kv, leaves (snd kv))) d)).
    generalize (sort_kvs (map (fun kv : string * tree Y => (fst kv, leaves (snd kv))) e)).
    clear. intros e' d' F. induction F as [|a b d0 e0 [_ H] F IH]; constructor; auto.
  - cbn. apply F2_concat. clear Hu. induction H0; constructor; inversion IH; subst; auto.
  - cbn. apply F2_concat. clear Hu. induction H0; constructor; inversion IH; subst; auto.
Qed.

Lemma copies_leaves tower ready k f ms s m' : good tower ready (Net k f ms) ->
  save tower ready (Net k f ms) = Ok s -> load s = Ok m' ->
  exists f' ms', m' = Net k f' ms' /\ same_fields k f f' /\ Forall2 msame (leaves ms) (leaves ms').
Proof.
  intros G E1 E2. destruct (round_trip _ _ _ G) as [(s1 & m1 & A1 & A2 & A3) _].
  rewrite E1 in A1. injection A1 as <-. rewrite E2 in A2. injection A2 as <-.
  inversion A3 as [|? ? f' ? ms' Sf Rm]; subst. exists f', ms'. repeat split; try apply Sf; auto.
  inversion G; subst. apply jrel_leaves. eapply jrel_mono; [|exact Rm]. intros x y Hx Hy.
  eapply isame_msame; eauto.
Qed.
