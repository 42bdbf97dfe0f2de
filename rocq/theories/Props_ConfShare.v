(** C105: conformal models do not influence each other. *)
From Coq Require Import Reals Lra.
From Verif Require Import Base TreeUtil TreeSpec NonSeqSpec SerialSpec OneHot Conformal ConformalSpec ConformalProofs Props_Conformal ConfShare.
Local Open Scope R_scope.
Local Open Scope list_scope.

(** What an action does to the [i]-th model. *)
Definition own (i : nat) (a : action) : list event :=
  match a with
  | Calibrate j s => if Nat.eqb i j then [Calibrated s] else []
  | Ask j al => if Nat.eqb i j then [Asked al] else []
  | _ => []
  end.
Definition in_memory (a : action) : Prop := match a with Restore _ => True | _ => False end.
(** The [i]-th model after some actions. *)
Definition model_after (w : world) (i : nat) (c : conf) : Prop := exists m, nth_error (w_models w) i = Some m /\ seen w m = c.
(** No two models have the same dictionary. *)
Definition separate (w : world) : Prop := NoDup (map q_ref (w_models w)) /\ forall m, In m (w_models w) -> (q_ref m < w_next w)%nat.

Lemma replace_refs i m l x : nth_error l i = Some x -> q_ref m = q_ref x -> map q_ref (replace i m l) = map q_ref l.
Proof. revert l. induction i as [|i IH]; intros [|y l] E Q; try discriminate; cbn in *; [injection E as ->; rewrite Q; reflexivity|rewrite (IH l E Q); reflexivity]. Qed.
Lemma replace_same i m l x : nth_error l i = Some x -> nth_error (replace i m l) i = Some m.
Proof. revert l. induction i as [|i IH]; intros [|y l] E; try discriminate; cbn in *; [reflexivity|auto]. Qed.
Lemma replace_other i j m l : i <> j -> nth_error (replace i m l) j = nth_error l j.
Proof. revert j l. induction i as [|i IH]; intros [|j] [|y l] N; cbn; try reflexivity; [contradiction|apply IH; lia]. Qed.
Lemma refs_distinct l i j x y : NoDup (map q_ref l) -> nth_error l i = Some x -> nth_error l j = Some y -> i <> j -> q_ref x <> q_ref y.
Proof.
  intros N Ei Ej D E. apply D. apply (proj1 (NoDup_nth_error _) N); [rewrite map_length; apply nth_error_Some; congruence|].
  rewrite !nth_error_map, Ei, Ej. cbn. congruence.
Qed.
Lemma in_refs_lt w : separate w -> forall r, In r (map q_ref (w_models w)) -> (r < w_next w)%nat.
Proof. intros [_ H] r Hr. apply in_map_iff in Hr as (m & <- & Hm). auto. Qed.
Lemma added w m c : separate w -> q_ref m = w_next w -> separate (mk_world (w_models w ++ [m]) c (S (w_next w))).
Proof.
  intros S E. pose proof (in_refs_lt w S) as L. destruct S as [N B]. split.
  - cbn. rewrite map_app. cbn. apply NoDup_rev in N. rewrite <- (rev_involutive (map q_ref (w_models w) ++ [q_ref m])). apply NoDup_rev. rewrite rev_app_distr. cbn. constructor; [|exact N].
    rewrite <- in_rev. intros C. apply L in C. lia.
  - cbn. intros x Hx. apply in_app_or in Hx as [Hx|[ <- | [] ] ]; [apply B in Hx; lia|lia].
Qed.
Lemma act_ok w a i c : separate w -> ~ in_memory a -> model_after w i c -> separate (act w a) /\ model_after (act w a) i (fold_left step (own i a) c).
Proof.
  intros S NR (m & Em & Es). pose proof S as [N B].
  assert (Lm : (q_ref m < w_next w)%nat) by (apply B; eapply nth_error_In; eauto).
  assert (Li : (i < length (w_models w))%nat) by (apply nth_error_Some; congruence).
  destruct a as [alpha|j s|j a|j|j]; cbn [act own in_memory] in *.
  - split; [apply added; [exact S|reflexivity]|]. exists m. split; [cbn; rewrite nth_error_app1 by exact Li; exact Em|].
    rewrite <- Es. unfold seen, set_cache. cbn. destruct (Nat.eqb_spec (q_ref m) (w_next w)); [lia|reflexivity].
  - destruct (nth_error (w_models w) j) as [x|] eqn:Ej.
    + split.
      * split; [cbn; rewrite (replace_refs _ _ _ x); [exact N|exact Ej|reflexivity]|]. cbn. intros y Hy.
        assert (Hq : In (q_ref y) (map q_ref (w_models w))); [|apply (in_refs_lt w S); exact Hq].
        rewrite <- (replace_refs j (mk_cmodel (q_alpha x) (Some s) (q_ref x)) (w_models w) x Ej eq_refl). apply in_map. exact Hy.
      * destruct (Nat.eqb_spec i j) as [ -> |D].
        -- rewrite Em in Ej. injection Ej as <-. eexists. split; [cbn; eapply replace_same; eauto|]. rewrite <- Es. reflexivity.
        -- exists m. split; [cbn; rewrite replace_other by congruence; exact Em|exact Es].
    + destruct (Nat.eqb_spec i j) as [ -> |D]; [congruence|]. split; [exact S|exists m; auto].
  - destruct (nth_error (w_models w) j) as [x|] eqn:Ej.
    + destruct (Nat.eqb_spec i j) as [ -> |D].
      * rewrite Em in Ej. injection Ej as <-. cbn [fold_left step]. rewrite <- Es. destruct (get_qhat (seen w m) a) as [[q c']|e] eqn:Eq.
        -- split; [split; [exact N|exact B]|]. exists m. split; [exact Em|]. unfold seen. cbn. unfold set_cache. rewrite Nat.eqb_refl.
           unfold get_qhat in Eq. destruct (existsb _ _); [discriminate|]. cbn [seen c_scores c_alpha c_qhats] in Eq. destruct (q_scores m) as [s|]; [|discriminate].
           destruct (get_new s _ _) as [r|]; [|discriminate]. cbn in Eq. injection Eq as _ <-. reflexivity.
        -- split; [exact S|]. exists m. auto.
      * destruct (get_qhat (seen w x) a) as [[q c']|e] eqn:Eq; [|split; [exact S|exists m; auto]].
        split; [split; [exact N|exact B]|]. exists m. split; [exact Em|]. rewrite <- Es. unfold seen. cbn. unfold set_cache.
        destruct (Nat.eqb_spec (q_ref m) (q_ref x)) as [C|_]; [|reflexivity]. exfalso. exact (refs_distinct _ i j m x N Em Ej D C).
    + destruct (Nat.eqb_spec i j) as [ -> |D]; [congruence|]. split; [exact S|exists m; auto].
  - exfalso. exact (NR I).
  - destruct (nth_error (w_models w) j) as [x|] eqn:Ej; [|split; [exact S|exists m; auto] ].
    split; [apply added; [exact S|reflexivity]|]. exists m. split; [cbn; rewrite nth_error_app1 by exact Li; exact Em|].
    rewrite <- Es. unfold seen, set_cache. cbn. destruct (Nat.eqb_spec (q_ref m) (w_next w)); [lia|reflexivity].
Qed.
Lemma acts_ok l : forall w i c, separate w -> Forall (fun a => ~ in_memory a) l -> model_after w i c ->
  separate (acts w l) /\ model_after (acts w l) i (fold_left step (concat (map (own i) l)) c).
Proof.
  induction l as [|a l IH]; intros w i c S F A; [split; assumption|]. inversion F as [|? ? NR F']; subst. destruct (act_ok w a i c S NR A) as [S' A'].
  cbn [map concat]. rewrite fold_left_app. exact (IH _ _ _ S' F' A').
Qed.
(** As long as models are made by the constructor and loaded from files, every
    model is what its own calibrations and questions make of it, whatever
    happens to others. *)
Theorem C105_own_history_partial : forall w i c l, separate w -> Forall (fun a => ~ in_memory a) l -> model_after w i c ->
  model_after (acts w l) i (fold_left step (concat (map (own i) l)) c).
Proof. intros w i c l S F A. exact (proj2 (acts_ok l w i c S F A)). Qed.
(** [separate] is what one gets that way. *)
Theorem C105_separate : forall l, Forall (fun a => ~ in_memory a) l -> separate (acts nothing l).
Proof.
  intros l F. assert (G : forall w, separate w -> separate (acts w l)); [|apply G; split; [constructor|intros m []] ].
  induction F as [|a l NR F IH]; intros w S; [exact S|]. cbn. apply IH. destruct (w_models w) as [|m ms] eqn:E.
  - destruct a as [alpha|j s|j a|j|j]; cbn [act]; [apply added; [exact S|reflexivity]| | | |]; rewrite E; destruct j; exact S.
  - destruct (act_ok w a 0 (seen w m) S NR) as [S' _]; [exists m; rewrite E; auto|exact S'].
Qed.
(** A reloaded model starts as the original is. *)
Theorem C105_reloaded : forall w i c, separate w -> model_after w i c -> model_after (act w (Reload i)) (length (w_models w)) c.
Proof.
  intros w i c S (m & Em & Es). cbn [act]. rewrite Em. eexists. split; [cbn; rewrite nth_error_app2 by lia; rewrite Nat.sub_diag; reflexivity|].
  rewrite <- Es. unfold seen, set_cache. cbn. rewrite Nat.eqb_refl. reflexivity.
Qed.
(** In memory the dictionary is shared: the copy is calibrated anew and asked,
    and from then on the original gives the answer of the copy. *)
Definition C105_always : Prop := forall w i c l, separate w -> model_after w i c -> model_after (acts w l) i (fold_left step (concat (map (own i) l)) c).
Definition C105_story : list action := [Restore 0; Calibrate 1 C44_s2; Ask 1 (AOne (1/2))].
Theorem C105_refuted :
  exists w c q c', separate w /\ model_after w 0 c /\ c = calibrate (conf_new (1/10)) C44_s1 /\ concat (map (own 0) C105_story) = [] /\
    (exists m, nth_error (w_models (acts w C105_story)) 0 = Some m /\ get_qhat (seen (acts w C105_story) m) (AOne (1/2)) = Ok (q, c')) /\ ~ fresh (1/10) (1/2) C44_s1 q.
Proof.
  assert (V : valid_alpha (1/2)) by (unfold valid_alpha; lra).
  set (h := [Calibrated C44_s2; Asked (AOne (1/2))] ++ [Calibrated C44_s1]).
  assert (N : nonempty_scores h) by (apply C44_nonempty; intros s; cbn; intuition congruence).
  assert (U : uses (1/10) (1/2) None h (Some C44_s2)) by (constructor; apply uses_asked; [left; reflexivity|]; repeat constructor; lra).
  destruct (C44_exact (1/10) (1/2) h (Some C44_s2) V N U) as (q & c' & E & F).
  exists (acts nothing [New (1/10); Calibrate 0 C44_s1]), (calibrate (conf_new (1/10)) C44_s1), q, c'.
  split; [apply C105_separate; repeat constructor; cbn; auto|]. split; [eexists; split; [reflexivity|reflexivity]|]. split; [reflexivity|]. split; [reflexivity|]. split.
  - exists (mk_cmodel (1/10) (Some C44_s1) 0). rewrite <- E. clear E F U N. unfold h. clear h.
    cbn [acts fold_left C105_story act nothing w_models app nth_error w_caches w_next replace q_alpha q_scores q_ref].
    set (cc := seen _ _). assert (Ec : cc = calibrate (conf_new (1/10)) C44_s2) by reflexivity. rewrite Ec. clear cc Ec.
    unfold history. cbn [app fold_left step]. destruct (get_qhat (calibrate (conf_new (1/10)) C44_s2) (AOne (1/2))) as [[q0 c0]|e] eqn:Eq; [|split; reflexivity].
    split; [reflexivity|]. f_equal. unfold get_qhat in Eq. destruct (existsb _ _); [discriminate|]. cbn [calibrate conf_new c_scores c_alpha c_qhats] in Eq.
    destruct (get_new C44_s2 _ _) as [r|]; [|discriminate]. cbn in Eq. injection Eq as _ <-. reflexivity.
  - intros F2. apply fresh_single in F; [|exact V]. apply fresh_single in F2; [|exact V]. rewrite F in F2. injection F2 as F2. lra.
Qed.
Theorem C105_always_refuted : ~ C105_always.
Proof.
  intros H. destruct C105_refuted as (w & c & q & c' & S & A & Ec & O & (m & Em & Eq) & NF). destruct (H w 0%nat c C105_story S A) as (m' & Em' & Es).
  rewrite Em in Em'. injection Em' as <-. rewrite O in Es. cbn [fold_left] in Es. apply NF. exists c'. rewrite <- Ec, <- Es. exact Eq.
Qed.
Example C105_example : let w := acts nothing [New (1/10); Calibrate 0 C44_s1; Reload 0; Calibrate 1 C44_s2; Ask 1 (AOne (1/2))] in
  separate w /\ model_after w 0 (calibrate (conf_new (1/10)) C44_s1) /\ exists c, model_after w 1 (step (calibrate (calibrate (conf_new (1/10)) C44_s1) C44_s2) c) /\ c = Asked (AOne (1/2)).
Proof.
  cbn zeta. split; [apply C105_separate; repeat constructor; cbn; auto|].
  set (w1 := acts nothing [New (1/10); Calibrate 0 C44_s1; Reload 0]).
  assert (S1 : separate w1) by (apply C105_separate; repeat constructor; cbn; auto).
  assert (A : forall i, model_after w1 i (calibrate (conf_new (1/10)) C44_s1) -> model_after (acts w1 [Calibrate 1 C44_s2; Ask 1 (AOne (1/2))]) i
    (fold_left step (concat (map (own i) [Calibrate 1 C44_s2; Ask 1 (AOne (1/2))])) (calibrate (conf_new (1/10)) C44_s1))).
  { intros i Hi. apply C105_own_history_partial; [exact S1|repeat constructor; cbn; auto|exact Hi]. }
  split; [apply (A 0%nat); eexists; split; reflexivity|]. exists (Asked (AOne (1/2))). split; [|reflexivity]. apply (A 1%nat). eexists; split; reflexivity.
Qed.
Print Assumptions C105_own_history_partial.
Print Assumptions C105_separate.
Print Assumptions C105_reloaded.
Print Assumptions C105_refuted.
Print Assumptions C105_always_refuted.
