From Coq Require Import ZArith Permutation.
From Verif Require Import Base BaseLemmas TreeUtil TreeSpec NonSeqSpec NonSeqProofs MutableProofs Serial SerialSpec SerialProofs SerialFile Precision PrecisionSpec.
Local Open Scope string_scope.
Local Open Scope list_scope.
Local Open Scope nat_scope.

Lemma dtype_eqb_eq a b : dtype_eqb a b = true <-> a = b.
Proof.
  destruct a, b; cbn; try (rewrite Nat.eqb_eq; split; congruence); split; auto; discriminate.
Qed.
Lemma prec_eqb_eq a b : match b with POther _ => False | _ => True end -> prec_eqb a b = true <-> a = b.
Proof.
  destruct a, b; cbn; intros H; try contradiction; try (split; [discriminate | discriminate]).
  - rewrite dtype_eqb_eq. split; congruence.
  - rewrite String.eqb_eq. split; congruence.
  - rewrite Z.eqb_eq. split; congruence.
Qed.

Ltac spell := repeat (rewrite orb_true_iff; rewrite prec_eqb_eq by exact I).

Lemma single_iff p : existsb (prec_eqb p) [PType (DFloat 32); PType (DComplex 64); PStr "float32"; PStr "complex64";
                           PStr "single"; PStr "f32"; PStr "c64"; PNum 32] = true <-> single_spelling p.
Proof.
  cbn [existsb]. repeat (rewrite orb_true_iff; rewrite prec_eqb_eq by exact I).
  split; [intuition (subst; try constructor; discriminate)|intros []; tauto].
Qed.
Lemma double_iff p : existsb (prec_eqb p) [PType (DFloat 64); PType (DComplex 128); PStr "float64"; PStr "complex128";
                                PStr "double"; PStr "f64"; PStr "c128"; PNum 64] = true <-> double_spelling p.
Proof.
  cbn [existsb]. repeat (rewrite orb_true_iff; rewrite prec_eqb_eq by exact I).
  split; [intuition (subst; try constructor; discriminate)|intros []; tauto].
Qed.
Definition l32 := [PType (DFloat 32); PType (DComplex 64); PStr "float32"; PStr "complex64";
                           PStr "single"; PStr "f32"; PStr "c64"; PNum 32].
Definition l64 := [PType (DFloat 64); PType (DComplex 128); PStr "float64"; PStr "complex128";
                                PStr "double"; PStr "f64"; PStr "c128"; PNum 64].
Lemma bits_eq p : bits_of p = if existsb (prec_eqb p) l32 then Ok false else if existsb (prec_eqb p) l64 then Ok true else Err ValueError.
Proof. reflexivity. Qed.
Lemma single_double p : single_spelling p -> double_spelling p -> False.
Proof. intros [] H; inversion H. Qed.
Lemma bits_cases p :
  (single_spelling p /\ bits_of p = Ok false) \/ (double_spelling p /\ bits_of p = Ok true) \/
  (~ single_spelling p /\ ~ double_spelling p /\ bits_of p = Err ValueError).
Proof.
  rewrite bits_eq. pose proof (single_iff p) as S. pose proof (double_iff p) as D. fold l32 in S. fold l64 in D.
  destruct (existsb (prec_eqb p) l32); [left; tauto|]. destruct (existsb (prec_eqb p) l64); [right; left; tauto|].
  right; right. split; [|split; [|reflexivity]]; intros H; [apply S in H|apply D in H]; discriminate.
Qed.
Lemma bits_single p : bits_of p = Ok false <-> single_spelling p.
Proof. destruct (bits_cases p) as [[H E]|[[H E]|(H1 & H2 & E)]]; rewrite E; split; intros; try congruence; try contradiction; auto. destruct (single_double p); auto. Qed.
Lemma bits_double p : bits_of p = Ok true <-> double_spelling p.
Proof. destruct (bits_cases p) as [[H E]|[[H E]|(H1 & H2 & E)]]; rewrite E; split; intros; try congruence; try contradiction; auto. destruct (single_double p); auto. Qed.
Lemma bits_other p : ~ single_spelling p -> ~ double_spelling p -> bits_of p = Err ValueError.
Proof. destruct (bits_cases p) as [[H E]|[[H E]|(H1 & H2 & E)]]; tauto. Qed.
Lemma bits_err p e : bits_of p = Err e -> bits_of p = Err ValueError.
Proof. destruct (bits_cases p) as [[H E]|[[H E]|(H1 & H2 & E)]]; congruence. Qed.

Section Eqs.
Context {X : Type} (f : X -> result X).
Fixpoint ip_list (l : list (tree X)) : result (list (tree X)) :=
  match l with
  | [] => Ok []
  | x :: l' => let* y := tmap_in_place f x in let* m := ip_list l' in Ok (y :: m)
  end.
Fixpoint ip_dict (d : list (string * tree X)) : result (list (string * tree X)) :=
  match d with
  | [] => Ok []
  | (k, x) :: d' => let* y := tmap_in_place f x in let* e := ip_dict d' in Ok ((k, y) :: e)
  end.
Lemma ip_lst l : tmap_in_place f (Lst l) = (let* m := ip_list l in Ok (Lst m)).
Proof. reflexivity. Qed.
Lemma ip_tup l : tmap_in_place f (Tup l) = (let* m := ip_list l in Ok (Tup m)).
Proof. reflexivity. Qed.
Lemma ip_dct d : tmap_in_place f (Dict d) = (let* e := ip_dict d in Ok (Dict e)).
Proof. reflexivity. Qed.

Lemma ip_spec (R : X -> X -> Prop) t : (forall x, has_leaf t x -> exists y, f x = Ok y /\ R x y) ->
  exists u, tmap_in_place f t = Ok u /\ orel R t u.
Proof.
  assert (L : forall l, Forall (fun t => (forall x, has_leaf t x -> exists y, f x = Ok y /\ R x y) ->
      exists u, tmap_in_place f t = Ok u /\ orel R t u) l ->
    (forall t x, In t l -> has_leaf t x -> exists y, f x = Ok y /\ R x y) ->
    exists m, ip_list l = Ok m /\ Forall2 (orel R) l m).
  { induction 1 as [|s l Hs _ IH]; intros H; cbn.
    - exists []. split; [reflexivity|constructor].
    - destruct Hs as (u & E & O). { intros x Hx. apply (H s x); [left; reflexivity|exact Hx]. }
      destruct IH as (m & E' & O'). { intros s' x Hin. apply H. right; exact Hin. }
      rewrite E. cbn. rewrite E'. eexists; split; [reflexivity|constructor; auto]. }
  induction t as [x| |d IH|l IH|l IH] using tree_ind2; intros H.
  - destruct (H x (hl_leaf x)) as (y & E & HR). cbn. rewrite E. eexists; split; [reflexivity|constructor; auto].
  - exists NoneT. split; [reflexivity|constructor].
  - rewrite ip_dct.
    assert (D : exists e, ip_dict d = Ok e /\ Forall2 (fun a b => fst a = fst b /\ orel R (snd a) (snd b)) d e).
    { assert (H' : forall k t x, In (k, t) d -> has_leaf t x -> exists y, f x = Ok y /\ R x y).
      { intros k t x Hin Hx. apply H. econstructor; eauto. } clear H.
      induction IH as [|[k s] d Hs _ IHd]; cbn.
      - exists []. split; [reflexivity|constructor].
      - destruct Hs as (u & E & O). { intros x Hx. apply (H' k s x); [left; reflexivity|exact Hx]. }
        destruct IHd as (m & E' & O'). { intros k' s' x Hin. apply (H' k'). right; exact Hin. }
        cbn in E. rewrite E. cbn. rewrite E'. eexists; split; [reflexivity|constructor; auto]. }
    destruct D as (e & E & O). rewrite E. eexists; split; [reflexivity|constructor; auto].
  - rewrite ip_lst. destruct (L l IH) as (m & E & O). { intros s x Hin Hx. apply H. econstructor; eauto. }
    rewrite E. eexists; split; [reflexivity|constructor; auto].
  - rewrite ip_tup. destruct (L l IH) as (m & E & O). { intros s x Hin Hx. apply H. econstructor; eauto. }
    rewrite E. eexists; split; [reflexivity|constructor; auto].
Qed.

Lemma ip_fix (R : X -> X -> Prop) t : (forall x y, has_leaf t x -> R x y -> f y = Ok y) ->
  forall u, orel R t u -> tmap_in_place f u = Ok u.
Proof.
  assert (L : forall l, Forall (fun t => (forall x y, has_leaf t x -> R x y -> f y = Ok y) ->
      forall u, orel R t u -> tmap_in_place f u = Ok u) l ->
    (forall t x y, In t l -> has_leaf t x -> R x y -> f y = Ok y) ->
    forall m, Forall2 (orel R) l m -> ip_list m = Ok m).
  { induction 1 as [|s l Hs _ IH]; intros H m O; inversion O as [|? u ? m' O1 O2]; subst; cbn; [reflexivity|].
    rewrite (Hs (fun x y Hx => H s x y (or_introl eq_refl) Hx) u O1). cbn.
    rewrite (IH (fun s x y Hin => H s x y (or_intror Hin)) m' O2). reflexivity. }
  induction t as [x| |d IH|l IH|l IH] using tree_ind2; intros H u O; inversion O as [? y HR| |? e F|? m F|? m F]; subst.
  - cbn. rewrite (H x y (hl_leaf x) HR). reflexivity.
  - reflexivity.
  - rewrite ip_dct. replace (ip_dict e) with (Ok e); [reflexivity|]. symmetry.
    assert (H' : forall k t x y, In (k, t) d -> has_leaf t x -> R x y -> f y = Ok y).
    { intros k t x y Hin Hx. apply H. econstructor; eauto. } clear H O.
    induction F as [|[k s] [k' u] d e [Hk O] F IHF]; cbn; [reflexivity|]. inversion IH as [|? ? Hs IH']; subst. cbn in *.
    rewrite (Hs (fun x y Hx => H' k s x y (or_introl eq_refl) Hx) u O). cbn.
    rewrite (IHF IH' (fun k s x y Hin => H' k s x y (or_intror Hin))). reflexivity.
  - rewrite ip_lst. rewrite (L l IH (fun s x y Hin Hx => H x y (hl_lst l s x Hin Hx)) m F). reflexivity.
  - rewrite ip_tup. rewrite (L l IH (fun s x y Hin Hx => H x y (hl_tup l s x Hin Hx)) m F). reflexivity.
Qed.
End Eqs.

Lemma jm_fix {X Y} (g : Y -> result Y) (R : X -> Y -> Prop) t : (forall x y, has_leaf t x -> R x y -> g y = Ok y) ->
  forall u, jrel R t u -> jmapM g u = Ok u.
Proof.
  assert (L : forall l, Forall (fun t => (forall x y, has_leaf t x -> R x y -> g y = Ok y) ->
      forall u, jrel R t u -> jmapM g u = Ok u) l ->
    (forall t x y, In t l -> has_leaf t x -> R x y -> g y = Ok y) ->
    forall m, Forall2 (jrel R) l m -> jm_list g m = Ok m).
  { induction 1 as [|s l Hs _ IH]; intros H m O; inversion O as [|? u ? m' O1 O2]; subst; cbn; [reflexivity|].
    rewrite (Hs (fun x y Hx => H s x y (or_introl eq_refl) Hx) u O1). cbn.
    rewrite (IH (fun s x y Hin => H s x y (or_intror Hin)) m' O2). reflexivity. }
  induction t as [x| |d IH|l IH|l IH] using tree_ind2; intros H u O; inversion O as [? y HR| |? e F|? m F|? m F]; subst.
  - cbn. rewrite (H x y (hl_leaf x) HR). reflexivity.
  - reflexivity.
  - assert (F' : Forall2 (krel (fun u v => jmapM g u = Ok v)) e e).
    { assert (H' : forall k t x y, In (k, t) d -> has_leaf t x -> R x y -> g y = Ok y).
      { intros k t x y Hin Hx. apply H. econstructor; eauto. } clear H O.
      induction F as [|[k s] [k' u] d e [Hk O] F IHF]; constructor; inversion IH as [|? ? Hs IH']; subst; cbn in *.
      - split; [reflexivity|]. exact (Hs (fun x y Hx => H' k s x y (or_introl eq_refl) Hx) u O).
      - exact (IHF IH' (fun k s x y Hin => H' k s x y (or_intror Hin))). }
    apply F2_sort in F'. rewrite jmapM_dct, (jm_dict_ok _ _ _ F'). cbn. rewrite sort_kvs_idem. reflexivity.
  - rewrite jmapM_lst. rewrite (L l IH (fun s x y Hin Hx => H x y (hl_lst l s x Hin Hx)) m F). reflexivity.
  - rewrite jmapM_tup. rewrite (L l IH (fun s x y Hin Hx => H x y (hl_tup l s x Hin Hx)) m F). reflexivity.
Qed.

Section Cast.
Context {V : Type} (astype : arr V -> dtype -> arr V).
Context (Hdt : forall a d, a_dt (astype a d) = d).
Context (Hid : forall a, astype a (a_dt a) = a).

Definition w_of (b : bool) : nat := if b then 64 else 32.
Lemma spp_conv b a : converted astype (w_of b) a (set_param_prec astype b a).
Proof. unfold converted, set_param_prec. destruct b, (is_complex (a_dt a)); reflexivity. Qed.
Lemma spp_idem b a : set_param_prec astype b (set_param_prec astype b a) = set_param_prec astype b a.
Proof.
  assert (A : forall d, set_param_prec astype b a = astype a d -> a_dt (set_param_prec astype b a) = d).
  { intros d ->. apply Hdt. }
  unfold set_param_prec at 1.
  destruct (is_complex (a_dt a)) eqn:E.
  - assert (E1 : set_param_prec astype b a = astype a (if b then DComplex 128 else DComplex 64)) by (unfold set_param_prec; rewrite E; reflexivity).
    rewrite (A _ E1). replace (is_complex _) with true by (destruct b; reflexivity).
    rewrite <- (A _ E1). apply Hid.
  - assert (E1 : set_param_prec astype b a = astype a (if b then DFloat 64 else DFloat 32)) by (unfold set_param_prec; rewrite E; reflexivity).
    rewrite (A _ E1). replace (is_complex _) with false by (destruct b; reflexivity).
    rewrite <- (A _ E1). apply Hid.
Qed.

Lemma jm_prec b t : exists u, jmapM (fun a => Ok (set_param_prec astype b a)) t = Ok u /\
  trel (converted astype (w_of b)) t u /\ jmapM (fun a => Ok (set_param_prec astype b a)) u = Ok u.
Proof.
  destruct (jmapM_total (fun a => Ok (set_param_prec astype b a)) (fun a a' => a' = set_param_prec astype b a) t) as (u & E & J).
  { intros x _. eexists; split; reflexivity. }
  exists u. split; [exact E|]. split.
  - eapply jrel_trel; [|exact J]. intros x y _ ->. apply spp_conv.
  - eapply jm_fix; [|exact J]. intros x y _ ->. cbn. rewrite spp_idem. reflexivity.
Qed.

Context (x64 : bool).

(* what one pass does *)
Definition pass (p : prec) (b : bool) (m m' : pmdl V) : Prop :=
  mconv astype (w_of b) m m' /\ all_ready m' /\ forall p', bits_of p' = Ok b -> set_precision astype x64 p' m' = Ok m'.

Lemma check_ok (p : prec) (b : bool) : bits_of p = Ok b -> (b = true -> x64 = true) -> check x64 p true = Ok b.
Proof. intros E Hx. unfold check. rewrite E. cbn. destruct b; [rewrite Hx by reflexivity|]; rewrite ?andb_false_r; reflexivity. Qed.
Lemma bits_num (b : bool) : bits_of (PNum (if b then 64%Z else 32%Z)) = Ok b.
Proof. destruct b; reflexivity. Qed.

Lemma orel_mono {X Y} (R S : X -> Y -> Prop) t :
  (forall x y, has_leaf t x -> R x y -> S x y) -> forall u, orel R t u -> orel S t u.
Proof.
  assert (L : forall l, Forall (fun t => (forall x y, has_leaf t x -> R x y -> S x y) -> forall u, orel R t u -> orel S t u) l ->
    (forall t x y, In t l -> has_leaf t x -> R x y -> S x y) -> forall m, Forall2 (orel R) l m -> Forall2 (orel S) l m).
  { induction 1 as [|s l Hs _ IH]; intros H m O; inversion O as [|? u ? m' O1 O2]; subst; constructor.
    - exact (Hs (fun x y Hx => H s x y (or_introl eq_refl) Hx) u O1).
    - exact (IH (fun s x y Hin => H s x y (or_intror Hin)) m' O2). }
  induction t as [x| |d IH|l IH|l IH] using tree_ind2; intros H u O; inversion O as [? y HR| |? e F|? m F|? m F]; subst; constructor.
  - apply H; [constructor|exact HR].
  - assert (H' : forall k t x y, In (k, t) d -> has_leaf t x -> R x y -> S x y).
    { intros k t x y Hin Hx. apply H. econstructor; eauto. } clear H O.
    induction F as [|[k s] [k' u] d e [Hk O] F IHF]; constructor; inversion IH as [|? ? Hs IH']; subst; cbn in *.
    + split; [exact Hk|]. exact (Hs (fun x y Hx => H' k s x y (or_introl eq_refl) Hx) u O).
    + exact (IHF IH' (fun k s x y Hin => H' k s x y (or_intror Hin))).
  - exact (L l IH (fun s x y Hin Hx => H x y (hl_lst l s x Hin Hx)) m F).
  - exact (L l IH (fun s x y Hin Hx => H x y (hl_tup l s x Hin Hx)) m F).
Qed.
Lemma orel_leaf {X Y} (R : X -> Y -> Prop) t : forall u, orel R t u -> forall y, has_leaf u y -> exists x, has_leaf t x /\ R x y.
Proof.
  assert (L : forall l, Forall (fun t => forall u, orel R t u -> forall y, has_leaf u y -> exists x, has_leaf t x /\ R x y) l ->
    forall m, Forall2 (orel R) l m -> forall u y, In u m -> has_leaf u y -> exists t x, In t l /\ has_leaf t x /\ R x y).
  { clear t. induction 1 as [|s l Hs _ IH]; intros m O u y Hin Hy; inversion O as [|? u' ? m' O1 O2]; subst; [destruct Hin|].
    destruct Hin as [<-|Hin].
    - destruct (Hs _ O1 y Hy) as (x & ? & ?). exists s, x. repeat split; auto. left; reflexivity.
    - destruct (IH _ O2 u y Hin Hy) as (t & x & ? & ? & ?). exists t, x. repeat split; auto. right; assumption. }
  induction t as [x| |d IH|l IH|l IH] using tree_ind2; intros u O z Hz; inversion O as [? y HR| |? e F|? m F|? m F]; subst.
  - inversion Hz; subst. exists x. split; [constructor|exact HR].
  - inversion Hz.
  - inversion Hz as [|? k u ? Hin Hl| |]; subst.
    assert (exists k t x, In (k, t) d /\ has_leaf t x /\ R x z) as (k' & t & x & ? & ? & ?).
    { clear O Hz. induction F as [|[k1 s] [k2 u'] d e [Hk O] F IHF]; [destruct Hin|]. inversion IH as [|? ? Hs IH']; subst. cbn in *.
      destruct Hin as [[= -> ->]|Hin].
      - destruct (Hs _ O z Hl) as (x & ? & ?). exists k1, s, x. auto.
      - destruct (IHF IH' Hin) as (k' & t & x & ? & ?). exists k', t, x. auto. }
    exists x. split; [econstructor; eauto|assumption].
  - inversion Hz as [| |? u ? Hin Hl|]; subst. destruct (L l IH m F u z Hin Hl) as (t & x & ? & ? & ?).
    exists x. split; [econstructor; eauto|assumption].
  - inversion Hz as [| | |? u ? Hin Hl]; subst. destruct (L l IH m F u z Hin Hl) as (t & x & ? & ? & ?).
    exists x. split; [econstructor; eauto|assumption].
Qed.

Lemma set_precision_ok m : all_ready m -> forall p b, bits_of p = Ok b -> (b = true -> x64 = true) ->
  exists m', set_precision astype x64 p m = Ok m' /\ pass p b m m'.
Proof.
  induction 1 as [a Ha|ms H IH]; intros p b Hb Hx.
  - cbn. unfold mod_set_precision. rewrite Ha, (check_ok p b Hb Hx). cbn [rbind].
    destruct (jm_prec b (m_params a)) as (u & E1 & T1 & F1). destruct (jm_prec b (m_state a)) as (v & E2 & T2 & F2).
    rewrite E1. cbn [rbind]. rewrite E2. cbn [rbind]. eexists; split; [reflexivity|]. split; [|split].
    + constructor; cbn; auto.
    + constructor; reflexivity.
    + intros p' Hb'. cbn. unfold mod_set_precision. cbn [m_ready m_params m_state]. rewrite (check_ok p' b Hb' Hx). cbn [rbind].
      rewrite F1. cbn [rbind]. rewrite F2. reflexivity.
  - cbn [set_precision]. rewrite (check_ok p b Hb Hx). cbn [rbind].
    destruct (ip_spec (set_precision astype x64 (PNum (if b then 64%Z else 32%Z))) (pass p b) ms) as (u & E & O).
    { intros m Hm. destruct (IH m Hm (PNum (if b then 64%Z else 32%Z)) b (bits_num b) Hx) as (m' & E & P). exists m'. split; [exact E|exact P]. }
    rewrite E. cbn [rbind]. eexists; split; [reflexivity|]. split; [|split].
    + constructor. eapply orel_mono; [|exact O]. intros x y _ [P _]. exact P.
    + constructor. intros y Hy. destruct (orel_leaf _ _ _ O y Hy) as (x & _ & _ & P & _). exact P.
    + intros p' Hb'. cbn [set_precision]. rewrite (check_ok p' b Hb' Hx). cbn [rbind].
      rewrite (ip_fix _ (pass p b) ms) with (u := u); [reflexivity| |exact O].
      intros x y _ (_ & _ & P). apply P. apply bits_num.
Qed.

Lemma set_precision_bad m p : (bits_of p = Err ValueError \/ (bits_of p = Ok true /\ x64 = false)) -> all_ready m ->
  set_precision astype x64 p m = Err ValueError.
Proof.
  intros H R. assert (C : check x64 p true = Err ValueError).
  { unfold check. destruct H as [->|[-> ->]]; reflexivity. }
  destruct R as [a Ha|ms Hm]; cbn [set_precision]; unfold mod_set_precision; rewrite ?Ha, C; reflexivity.
Qed.

Lemma set_precision_iff m p : all_ready m ->
  ((exists m', set_precision astype x64 p m = Ok m') <-> single_spelling p \/ (double_spelling p /\ x64 = true)) /\
  ((forall m', set_precision astype x64 p m <> Ok m') -> set_precision astype x64 p m = Err ValueError).
Proof.
  intros R. destruct (bits_of p) as [[|]|e] eqn:E.
  - destruct x64 eqn:Ex.
    + destruct (set_precision_ok m R p true E (fun _ => Ex)) as (m' & E' & _). rewrite Ex in E'. split.
      * split; [intros _; right; split; [apply bits_double; exact E|reflexivity]|intros _; exists m'; exact E'].
      * intros H. destruct (H m' E').
    + assert (B : set_precision astype false p m = Err ValueError). { rewrite <- Ex. apply set_precision_bad; [right; auto|exact R]. }
      split; [|auto]. split; [intros [m' E']; congruence|]. intros [S|[_ A]]; [|discriminate].
      apply bits_single in S. congruence.
  - destruct (set_precision_ok m R p false E) as (m' & E' & _); [discriminate|]. split.
    + split; [intros _; left; apply bits_single; exact E|intros _; exists m'; exact E'].
    + intros H. destruct (H m' E').
  - assert (Ee : bits_of p = Err ValueError). { eapply bits_err; eassumption. }
    pose proof (set_precision_bad m p (or_introl Ee) R) as B. split; [|auto].
    split; [intros [m' E']; congruence|]. intros [S|[S _]]; [apply bits_single in S|apply bits_double in S]; congruence.
Qed.

Lemma set_precision_result m p m' : all_ready m -> set_precision astype x64 p m = Ok m' ->
  exists w, (single_spelling p /\ w = 32 \/ double_spelling p /\ w = 64) /\ mconv astype w m m'.
Proof.
  intros R E. destruct (bits_of p) as [b|e] eqn:Eb.
  - assert (Hx : b = true -> x64 = true).
    { intros ->. destruct x64 eqn:Ex; [reflexivity|]. rewrite <- Ex in E. rewrite set_precision_bad in E; [discriminate|right; auto|exact R]. }
    destruct (set_precision_ok m R p b Eb Hx) as (m1 & E1 & P & _). rewrite E in E1. injection E1 as <-.
    exists (w_of b). split; [|exact P]. destruct b; [right|left]; split; try reflexivity; [apply bits_double|apply bits_single]; exact Eb.
  - assert (Ee : bits_of p = Err ValueError). { eapply bits_err; eassumption. }
    rewrite set_precision_bad in E; [discriminate|left; exact Ee|exact R].
Qed.

Lemma set_precision_idem m p m' p' : all_ready m -> set_precision astype x64 p m = Ok m' ->
  (single_spelling p /\ single_spelling p' \/ double_spelling p /\ double_spelling p') ->
  set_precision astype x64 p' m' = Ok m'.
Proof.
  intros R E S. assert (exists b, bits_of p = Ok b /\ bits_of p' = Ok b) as (b & E1 & E2).
  { destruct S as [[A B]|[A B]]; [exists false|exists true]; split; (apply bits_single || apply bits_double); assumption. }
  assert (Hx : b = true -> x64 = true).
  { intros ->. destruct x64 eqn:Ex; [reflexivity|]. rewrite <- Ex in E. rewrite set_precision_bad in E; [discriminate|right; auto|exact R]. }
  destruct (set_precision_ok m R p b E1 Hx) as (m1 & E3 & P1 & P2 & P3). rewrite E in E3. injection E3 as <-. apply P3; exact E2.
Qed.

Lemma converted_kind w a a' : converted astype w a a' -> floating (a_dt a) = true -> same_kind (a_dt a) (a_dt a').
Proof. unfold converted. intros -> F. destruct (a_dt a) eqn:E; try discriminate; cbn; rewrite Hdt; exact I. Qed.

Lemma safecast_iff t d : (exists u, safecast astype t d = Ok u) <-> (forall a, has_leaf t a -> is_complex (a_dt a) = true -> is_complex d = true).
Proof.
  split.
  - intros [u E] a Ha Hc. apply jmapM_inv in E.
    assert (G : forall x, has_leaf t x -> exists y, (if is_complex (a_dt x) && negb (is_complex d) then Err ValueError else Ok (astype x d)) = Ok y).
    { revert u E. clear. induction t as [x| |dd IH|l IH|l IH] using tree_ind2; intros u E z Hz; inversion E as [? y HR| |? e F|? m F|? m F]; subst.
      - inversion Hz; subst. eauto.
      - inversion Hz.
      - inversion Hz as [|? k t ? Hin Hl| |]; subst. clear E Hz.
        induction F as [|[k1 s] [k2 u'] dd e [Hk O] F IHF]; [destruct Hin|]. inversion IH as [|? ? Hs IH']; subst. cbn in *.
        destruct Hin as [[= -> ->]|Hin]; [exact (Hs _ O z Hl)|exact (IHF IH' Hin)].
      - inversion Hz as [| |? t ? Hin Hl|]; subst. clear E Hz.
        induction F as [|s u' l m O F IHF]; [destruct Hin|]. inversion IH as [|? ? Hs IH']; subst. cbn in *.
        destruct Hin as [<-|Hin]; [exact (Hs _ O z Hl)|exact (IHF IH' Hin)].
      - inversion Hz as [| | |? t ? Hin Hl]; subst. clear E Hz.
        induction F as [|s u' l m O F IHF]; [destruct Hin|]. inversion IH as [|? ? Hs IH']; subst. cbn in *.
        destruct Hin as [<-|Hin]; [exact (Hs _ O z Hl)|exact (IHF IH' Hin)]. }
    destruct (G a Ha) as [y Ey]. rewrite Hc in Ey. destruct (is_complex d); [reflexivity|discriminate].
  - intros H. destruct (jmapM_total (fun a => if is_complex (a_dt a) && negb (is_complex d) then Err ValueError else Ok (astype a d)) (fun a a' => True) t) as (u & E & _).
    { intros x Hx. destruct (is_complex (a_dt x)) eqn:Ec; cbn; [rewrite (H x Hx Ec); cbn|]; eauto. }
    exists u. exact E.
Qed.
Lemma safecast_dt t d u : safecast astype t d = Ok u -> trel (fun a a' => a' = astype a d) t u.
Proof.
  intros E. apply jmapM_inv in E. eapply jrel_trel; [|exact E]. intros x y _ H. cbn in H.
  destruct (is_complex (a_dt x) && negb (is_complex d)); [discriminate|]. injection H as <-. reflexivity.
Qed.
End Cast.
