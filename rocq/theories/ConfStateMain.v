(** A calibration does not depend on the previous ones. *)
From Coq Require Import Bool.
From Verif Require Import Base BaseLemmas TreeUtil TreeSpec NonSeqSpec TrainArgs Serial SerialSpec Scaler Strata ScalerFile ConfState ConfStateSpec ConfStateProofs.
Local Open Scope list_scope.
Local Open Scope nat_scope.

Section Main.
Context {N D V A : Type} (n : numerics N D V A).
Notation obj := (cobj N D V A).
Definition ag0 (o p : obj) : Prop := o_model o = o_model p /\ o_quantile o = o_quantile p.
Definition ag1 (o p : obj) : Prop := ag0 o p /\ o_cont o = o_cont p /\ o_sbc o = o_sbc p /\ o_fpar o = o_fpar p /\ o_finp o = o_finp p /\ o_fdist o = o_fdist p.
Definition ag2 (o p : obj) : Prop := ag1 o p /\
  match mode_o o with MNone => True | MGlobal => o_biases o = o_biases p | MStrata _ => o_biases o = o_biases p /\ o_strata o = o_strata p end.
Definition ag3 (o p : obj) : Prop := ag2 o p /\ o_train o = o_train p /\ o_cinp o = o_cinp p /\ o_cpar o = o_cpar p /\ o_cdist o = o_cdist p.
Definition ag4 (o p : obj) : Prop := ag3 o p /\
  (o_train o <> None -> o_iqr o = o_iqr p /\ o_range o = o_range p /\ o_enc o = o_enc p /\ o_kd o = o_kd p /\ o_cutoff o = o_cutoff p).
Definition ag5 (o p : obj) : Prop := ag4 o p /\ (anyf (o_fpar o) = true -> o_npar o = o_npar p) /\
  (o_train o <> None -> (anyf (o_finp o) = true -> o_ninp o = o_ninp p) /\ o_ndist o = o_ndist p).
Definition ag6 (o p : obj) : Prop := ag5 o p /\ o_scores o = o_scores p.

Ltac run := unfold bind, look, lift, store, ret; cbn [fst snd].
Ltac runin H := unfold bind, look, lift, store, ret in H; cbn [fst snd] in H.

Lemma ag_arguments a o p o' : ag0 o p -> stage_arguments n a o = (o', Ok tt) -> exists p', stage_arguments n a p = (p', Ok tt) /\ ag1 o' p'.
Proof.
  intros (E1 & E2) H. unfold stage_arguments in *. runin H. run. cbn [set_cont set_sbc set_fpar set_finp o_model] in *. rewrite <- E1.
  destruct (n_checks n _ _); [|discriminate]. destruct (match a_cont a with Some _ => _ | None => _ end); [|discriminate]. destruct (check_corrections _ _ _); [|discriminate].
  destruct (fill (a_par a) _); [|discriminate]. destruct (fill (a_inp a) _); [|discriminate]. destruct (fill (a_dist a) _); [|discriminate]. injection H as <-.
  eexists. split; [reflexivity|]. repeat split; assumption.
Qed.
Lemma ag_bias a o p o' P : ag1 o p -> stage_bias n a o = (o', Ok P) -> exists p', stage_bias n a p = (p', Ok P) /\ ag2 o' p'.
Proof.
  intros K H. assert (M : mode_o p = mode_o o) by (unfold mode_o; destruct K as (_ & _ & -> & _); reflexivity). assert (E : o_model p = o_model o) by (symmetry; apply K).
  unfold stage_bias in *. runin H. run. rewrite M. unfold ag2. destruct (mode_o o) as [| |t] eqn:Mo.
  - unfold ret in *. injection H as <- <-. eexists. split; [reflexivity|]. rewrite Mo. auto.
  - runin H. run. rewrite E. destruct (n_predict n _ _); [|discriminate]. destruct (n_global_fit n _ _ _); [|discriminate]. injection H as <- <-. eexists. split; [reflexivity|].
    unfold mode_o in *. cbn [set_biases o_sbc]. rewrite Mo. split; [exact K|reflexivity].
  - runin H. run. cbn [set_strata o_model] in *. rewrite E. destruct (n_strata n _ _); [|discriminate]. destruct (n_predict n _ _); [|discriminate]. destruct (n_strata_fit n _ _ _ _ _); [|discriminate]. injection H as <- <-. eexists. split; [reflexivity|].
    unfold mode_o in *. cbn [set_biases set_strata o_sbc]. rewrite Mo. split; [exact K|split; reflexivity].
Qed.
Lemma ag_counts a o p o' : ag2 o p -> stage_counts n a o = (o', Ok tt) -> exists p', stage_counts n a p = (p', Ok tt) /\ ag3 o' p' /\ o_train o' = a_train a.
Proof.
  intros K H. assert (K' := K). destruct K as (((E1 & E2) & E3 & E4 & E5 & E6 & E7) & _). unfold stage_counts in *. runin H. run.
  unfold conto, finpo, fparo, fdisto in *. cbn [set_train set_cinp set_cpar set_cdist o_model o_cont o_finp o_fpar o_fdist] in *. rewrite <- E1, <- E3, <- E5, <- E6, <- E7.
  destruct (n_count_inp n _ _ _); [|discriminate]. destruct (n_count_par n _ _); [|discriminate]. destruct (n_count_dist n _ _ _); [|discriminate]. injection H as <-.
  eexists. split; [reflexivity|]. split; [|reflexivity]. split; [exact K'|]. repeat split.
Qed.
Lemma ag_distance a o p o' : ag3 o p -> o_train o = a_train a -> stage_distance n a o = (o', Ok tt) -> exists p', stage_distance n a p = (p', Ok tt) /\ ag4 o' p' /\ o_train o' = a_train a.
Proof.
  intros K T H. assert (K' := K). destruct K as ((((E1 & E2) & E3 & E4 & E5 & E6 & E7) & _) & _). unfold stage_distance in *. destruct (a_train a) as [X|].
  - runin H. run. unfold conto, finpo, fdisto, prepare in *.
    cbn [set_iqr set_range set_enc set_kd o_cont o_finp o_fdist o_enc o_range o_quantile] in *. rewrite <- E2, <- E3, <- E6, <- E7.
    destruct (n_iqr n _ _ _); [|discriminate]. destruct (n_range n _ _); [|discriminate]. destruct (encoder _ _); [|discriminate]. destruct (n_fit n _ _); [|discriminate].
    cbn [the rbind] in *. destruct (let* E := _ in _); [|discriminate]. destruct (n_tree n _); [|discriminate]. destruct (n_cutoff n _ _); [|discriminate]. injection H as <-.
    eexists. split; [reflexivity|]. split; [|exact T]. split; [exact K'|]. repeat split.
  - unfold ret in *. injection H as <-. eexists. split; [reflexivity|]. split; [|exact T]. split; [exact K'|]. rewrite T. intros F. destruct (F eq_refl).
Qed.
Lemma par_ag o p X b : ag4 o p -> (b = true -> o_npar o = o_npar p) -> parameter_sensitivity n p X b = parameter_sensitivity n o X b.
Proof.
  intros (((((E1 & E2) & E3 & E4 & E5 & E6 & E7) & _) & E8 & E9 & E10 & E11) & _) Hb. unfold parameter_sensitivity. rewrite <- E1, <- E5, <- E10. destruct b; [rewrite <- Hb by reflexivity|]; reflexivity.
Qed.
Lemma inp_ag o p X unc b : ag4 o p -> o_train o <> None -> (b = true -> o_ninp o = o_ninp p) -> input_sensitivity n p X unc b = input_sensitivity n o X unc b.
Proof.
  intros (((((E1 & E2) & E3 & E4 & E5 & E6 & E7) & _) & E8 & E9 & E10 & E11) & F) T Hb. destruct (F T) as (F1 & F2 & F3 & F4 & F5). unfold input_sensitivity. rewrite <- E1, <- E3, <- E6, <- E9, <- F1.
  destruct b; [rewrite <- Hb by reflexivity|]; reflexivity.
Qed.
Lemma dist_ag o p X b : ag4 o p -> (b = true -> o_train o <> None -> o_ndist o = o_ndist p) -> distance_sensitivity n p X b = distance_sensitivity n o X b.
Proof.
  intros (((((E1 & E2) & E3 & E4 & E5 & E6 & E7) & _) & E8 & E9 & E10 & E11) & F) Hb. unfold distance_sensitivity, prepare. rewrite <- E7, <- E8, <- E11. destruct (o_train o) as [T|] eqn:ET; [|reflexivity].
  destruct F as (F1 & F2 & F3 & F4 & F5); [discriminate|]. rewrite <- F2, <- F3, <- F4, <- F5. destruct b; [rewrite <- Hb by (reflexivity || discriminate)|]; reflexivity.
Qed.
Lemma ag4_npar o p v w : ag4 o p -> ag4 (set_npar v o) (set_npar w p). Proof. exact (fun H => H). Qed.
Lemma ag4_ninp o p v w : ag4 o p -> ag4 (set_ninp v o) (set_ninp w p). Proof. exact (fun H => H). Qed.

Lemma ag_norms_par a o p o' : ag4 o p ->
  (if anyf (o_fpar o) then bind (look (fun o => parameter_sensitivity n o (a_X a) false)) (fun s => bind (lift (let* s := the TypeError s in n_norm n (a_Yunc a) s)) (fun w => store (set_npar (Some w)))) else ret tt) o = (o', Ok tt) ->
  exists p', (if anyf (o_fpar p) then bind (look (fun o => parameter_sensitivity n o (a_X a) false)) (fun s => bind (lift (let* s := the TypeError s in n_norm n (a_Yunc a) s)) (fun w => store (set_npar (Some w)))) else ret tt) p = (p', Ok tt) /\
   ag4 o' p' /\ (anyf (o_fpar o') = true -> o_npar o' = o_npar p') /\ o_train o' = o_train o.
Proof.
  intros K H. assert (E : o_fpar p = o_fpar o) by (symmetry; apply K). rewrite E. destruct (anyf (o_fpar o)) eqn:F.
  - runin H. run. rewrite (par_ag o p) by (auto || discriminate). destruct (parameter_sensitivity n o (a_X a) false); [|discriminate]. destruct (let* s := _ in _); [|discriminate]. injection H as <-.
    eexists. split; [reflexivity|]. split; [apply ag4_npar; exact K|]. split; reflexivity.
  - unfold ret in *. injection H as <-. eexists. split; [reflexivity|]. split; [exact K|]. split; [congruence|reflexivity].
Qed.
Lemma ag_norms_inp a o p o' : ag4 o p -> o_train o <> None -> (anyf (o_fpar o) = true -> o_npar o = o_npar p) ->
  (if anyf (o_finp o) then bind (look (fun o => input_sensitivity n o (a_X a) (a_Xunc a) false)) (fun s => bind (lift (let* s := the TypeError s in n_norm n (a_Yunc a) s)) (fun w => store (set_ninp (Some w)))) else ret tt) o = (o', Ok tt) ->
  exists p', (if anyf (o_finp p) then bind (look (fun o => input_sensitivity n o (a_X a) (a_Xunc a) false)) (fun s => bind (lift (let* s := the TypeError s in n_norm n (a_Yunc a) s)) (fun w => store (set_ninp (Some w)))) else ret tt) p = (p', Ok tt) /\
   ag4 o' p' /\ (anyf (o_fpar o') = true -> o_npar o' = o_npar p') /\ (anyf (o_finp o') = true -> o_ninp o' = o_ninp p') /\ o_train o' = o_train o.
Proof.
  intros K T Hp H. assert (E : o_finp p = o_finp o) by (symmetry; apply K). rewrite E. destruct (anyf (o_finp o)) eqn:F.
  - runin H. run. rewrite (inp_ag o p) by (auto || discriminate). destruct (input_sensitivity n o (a_X a) _ false); [|discriminate]. destruct (let* s := _ in _); [|discriminate]. injection H as <-.
    eexists. split; [reflexivity|]. split; [apply ag4_ninp; exact K|]. split; [exact Hp|]. split; reflexivity.
  - unfold ret in *. injection H as <-. eexists. split; [reflexivity|]. split; [exact K|]. split; [exact Hp|]. split; [congruence|reflexivity].
Qed.
Lemma ag_norms a o p o' : ag4 o p -> o_train o = a_train a -> stage_norms n a o = (o', Ok tt) -> exists p', stage_norms n a p = (p', Ok tt) /\ ag5 o' p'.
Proof.
  intros K T H. unfold stage_norms in *. unfold bind at 1 in H. unfold bind at 1. unfold look at 1 in H. unfold look at 1.
  unfold bind at 1 in H. unfold bind at 1.
  match type of H with (let '(_, _) := ?c in _) = _ => destruct c as [o1 [[]|]] eqn:E1 end; [|discriminate].
  destruct (ag_norms_par a o p o1 K E1) as (p1 & Ep1 & K1 & Hp1 & T1). rewrite Ep1. rewrite <- T1 in T.
  destruct (a_train a) as [X|].
  - unfold bind at 1 in H. unfold bind at 1. unfold look at 1 in H. unfold look at 1. unfold bind at 1 in H. unfold bind at 1.
    match type of H with (let '(_, _) := ?c in _) = _ => destruct c as [o2 [[]|]] eqn:E2 end; [|discriminate].
    destruct (ag_norms_inp a o1 p1 o2 K1 ltac:(congruence) Hp1 E2) as (p2 & Ep2 & K2 & Hp2 & Hi2 & T2). rewrite Ep2.
    runin H. run. rewrite (dist_ag o2 p2) by (auto || discriminate). destruct (distance_sensitivity n o2 _ false) as [s|]; [|discriminate].
    destruct (match s with Some _ => _ | None => _ end); [|discriminate]. injection H as <-. eexists. split; [reflexivity|]. split; [exact K2|]. split; [exact Hp2|]. intros _. split; [exact Hi2|reflexivity].
  - unfold ret in *. injection H as <-. eexists. split; [reflexivity|]. split; [exact K1|]. split; [exact Hp1|]. rewrite T. intros F. destruct (F eq_refl).
Qed.
Lemma unc_ag o p X unc : ag5 o p -> uncertainty n p X unc = uncertainty n o X unc.
Proof.
  intros (K & Hp & Hi). assert (K' := K). destruct K as (((((E1 & E2) & E3 & E4 & E5 & E6 & E7) & _) & E8 & E9 & E10 & E11) & F). unfold uncertainty. rewrite <- E1, <- E5, <- E6, <- E7, <- E8.
  assert (EP : (if anyf (o_fpar o) then fun u => let* s := parameter_sensitivity n p X true in let* s := the TypeError s in n_add n u s else fun u => Ok u)
             = (if anyf (o_fpar o) then fun u => let* s := parameter_sensitivity n o X true in let* s := the TypeError s in n_add n u s else fun u => Ok u)).
  { destruct (anyf (o_fpar o)) eqn:A0; [|reflexivity]. rewrite (par_ag o p) by auto. reflexivity. }
  assert (EQ : forall u, (if anyf (o_fpar o) then let* s := parameter_sensitivity n p X true in let* s := the TypeError s in n_add n u s else Ok u)
             = (if anyf (o_fpar o) then let* s := parameter_sensitivity n o X true in let* s := the TypeError s in n_add n u s else Ok u)).
  { intros u. destruct (anyf (o_fpar o)) eqn:A0; [|reflexivity]. rewrite (par_ag o p) by auto. reflexivity. }
  clear EP. destruct (n_hchecks n _ _ _); [|reflexivity]. cbn [rbind]. destruct (n_zeros n _ _); [|reflexivity]. cbn [rbind]. rewrite EQ.
  destruct (if anyf (o_fpar o) then _ else _); [|reflexivity]. cbn [rbind]. destruct (o_train o) as [T|] eqn:ET; [|reflexivity]. destruct Hi as (Hi & Hd); [discriminate|].
  rewrite (dist_ag o p) by (auto || congruence). destruct (anyf (o_finp o)); [|reflexivity]. rewrite (inp_ag o p) by (auto || congruence). reflexivity.
Qed.
Lemma correct_ag o p X P : ag2 o p -> correct n p X P = correct n o X P.
Proof.
  intros (K & M). unfold correct, mode_o in *. assert (E : o_sbc p = o_sbc o) by (symmetry; apply K). rewrite E. destruct (o_sbc o) as [c|]; [|reflexivity].
  destruct (mode_of c); [reflexivity|rewrite <- M; reflexivity|]. destruct M as (-> & ->). reflexivity.
Qed.
Lemma ag_scores a P o p o' : ag5 o p -> stage_scores n a P o = (o', Ok tt) -> exists p', stage_scores n a P p = (p', Ok tt) /\ ag6 o' p'.
Proof.
  intros K H. assert (E : o_model p = o_model o) by (symmetry; apply K). unfold stage_scores in *. runin H. run. rewrite (unc_ag o p) by exact K.
  destruct (uncertainty n o _ _); [|discriminate]. rewrite E. destruct (match P with Some _ => _ | None => _ end); [|discriminate]. rewrite (correct_ag o p) by apply K.
  destruct (correct n o _ _); [|discriminate]. destruct (n_scores n _ _ _ _); [|discriminate]. injection H as <-. eexists. split; [reflexivity|]. split; [exact K|reflexivity].
Qed.
Lemma recalibrate a o p o' : o_model o = o_model p -> o_quantile o = o_quantile p -> calibrate n a o = (o', Ok tt) -> exists p', calibrate n a p = (p', Ok tt) /\ ag6 o' p'.
Proof.
  intros E1 E2 H. destruct (calibrate_stages n _ _ _ H) as (o1 & o2 & P & o3 & o4 & o5 & S1 & S2 & S3 & S4 & S5 & S6).
  destruct (ag_arguments a o p o1 (conj E1 E2) S1) as (p1 & Q1 & K1). destruct (ag_bias a o1 p1 o2 P K1 S2) as (p2 & Q2 & K2).
  destruct (ag_counts a o2 p2 o3 K2 S3) as (p3 & Q3 & K3 & T3). destruct (ag_distance a o3 p3 o4 K3 T3 S4) as (p4 & Q4 & K4 & T4).
  destruct (ag_norms a o4 p4 o5 K4 T4 S5) as (p5 & Q5 & K5). destruct (ag_scores a P o5 p5 o' K5 S6) as (p' & Q6 & K6). exists p'. split; [|exact K6].
  unfold calibrate, bind. rewrite Q1, Q2, Q3, Q4, Q5. exact Q6.
Qed.
Lemma parts_ag o p X unc l : ag6 o p -> levels o l = levels p l -> parts n p X unc l = parts n o X unc l.
Proof.
  intros (K & E) L. unfold parts. assert (E1 : o_model p = o_model o) by (symmetry; apply K). rewrite E1, <- L, <- E, (unc_ag o p) by exact K.
  destruct (negb (forallb _ _)); [reflexivity|]. destruct (negb _); [reflexivity|]. destruct (the _ _); [|reflexivity]. cbn [rbind]. destruct (n_predict n _ _); [|reflexivity]. cbn [rbind].
  rewrite (correct_ag o p) by apply K. reflexivity.
Qed.
End Main.

(** Calibration changes neither the cache of quantiles nor the default level. *)
Section Keep.
Context {N D V A : Type} (n : numerics N D V A).
Notation obj := (cobj N D V A).
Definition kept (o o' : obj) : Prop := o_qhats o' = o_qhats o /\ o_alpha o' = o_alpha o.
Definition keeps {X} (p : prog obj X) : Prop := forall o, kept o (fst (p o)).
Lemma keeps_ret {X} (x : X) : keeps (ret x). Proof. intros o. split; reflexivity. Qed.
Lemma keeps_lift {X} (x : result X) : keeps (lift x). Proof. intros o. split; reflexivity. Qed.
Lemma keeps_look {X} (f : obj -> result X) : keeps (look f). Proof. intros o. split; reflexivity. Qed.
Lemma keeps_store f : (forall o, kept o (f o)) -> keeps (store f). Proof. intros H o. apply H. Qed.
Lemma keeps_bind {X Y} (p : prog obj X) (f : X -> prog obj Y) : keeps p -> (forall x, keeps (f x)) -> keeps (bind p f).
Proof.
  intros Hp Hf o. unfold bind. specialize (Hp o). destruct (p o) as [o1 [x|e]]; [|exact Hp]. cbn [fst] in *. destruct Hp as (P1 & P2), (Hf x o1) as (F1 & F2). split; congruence.
Qed.
Lemma calibrate_keeps a : keeps (calibrate n a).
Proof.
  unfold calibrate, stage_arguments, stage_bias, stage_counts, stage_distance, stage_norms, stage_scores.
  repeat first [apply keeps_bind; [|intros ?] | apply keeps_ret | apply keeps_lift | apply keeps_look | (apply keeps_store; intros ?; split; reflexivity)
               | match goal with |- keeps (match ?x with _ => _ end) => destruct x end].
Qed.
Lemma call_ag o p X unc l : ag6 o p -> o_alpha o = o_alpha p -> o_qhats o = o_qhats p -> snd (ask n (QCall X unc l) p) = snd (ask n (QCall X unc l) o).
Proof.
  intros K EA EQ. rewrite !ask_call. assert (L : levels o l = levels p l) by (unfold levels; rewrite EA; reflexivity). rewrite (parts_ag n o p) by assumption. destruct (parts n o X unc l) as [r|]; [|reflexivity].
  unfold get_qhat, bind, look, store, ret. rewrite <- L, <- EQ. destruct K as (_ & ES). rewrite <- ES. destruct (if forallb _ _ then _ else _); reflexivity.
Qed.
End Keep.

(** A quantile in the cache stays there, and scores stay available. *)
Section Stay.
Context {N D V A : Type} (n : numerics N D V A) (EQ : forall b c, n_aeq n b c = true <-> b = c).
Notation obj := (cobj N D V A).
Definition scored (o o' : obj) : Prop := o_scores o <> None -> o_scores o' <> None.
Definition scores {X} (p : prog obj X) : Prop := forall o, scored o (fst (p o)).
Lemma scores_same {X} (p : prog obj X) : (forall o, o_scores (fst (p o)) = o_scores o) -> scores p.
Proof. intros H o. unfold scored. rewrite H. auto. Qed.
Lemma scores_bind {X Y} (p : prog obj X) (f : X -> prog obj Y) : scores p -> (forall x, scores (f x)) -> scores (bind p f).
Proof. intros Hp Hf o K. unfold bind. specialize (Hp o). destruct (p o) as [o1 [x|e]]; [|exact (Hp K)]. cbn [fst] in *. exact (Hf x o1 (Hp K)). Qed.
Lemma calibrate_scores a : scores (calibrate n a).
Proof.
  unfold calibrate, stage_arguments, stage_bias, stage_counts, stage_distance, stage_norms, stage_scores.
  repeat first [apply scores_bind; [|intros ?] | (apply scores_same; intros ?; reflexivity) | (intros ? ?; discriminate)
               | match goal with |- scores (match ?x with _ => _ end) => destruct x end].
Qed.
Lemma aget_app d d' a : aget n (d ++ d') a = match aget n d a with Some v => Some v | None => aget n d' a end.
Proof. induction d as [|[b v] d IH]; cbn [aget app]; [reflexivity|]. destruct (n_aeq n a b); [reflexivity|exact IH]. Qed.
Lemma new_absent s old : forall l r, new_qhats n s old l = Ok r -> forall a, aget n old a <> None -> aget n (snd r) a = None.
Proof.
  induction l as [|b l IH]; intros r H a Ha; cbn [new_qhats] in H; [injection H as <-; reflexivity|].
  destruct (aget n old b) as [v|] eqn:Eb.
  - destruct (new_qhats n s old l) as [r1|] eqn:E1; [|discriminate]. injection H as <-. cbn [snd]. exact (IH r1 eq_refl a Ha).
  - destruct (n_qhat n s b) as [v|]; [|discriminate]. cbn [rbind] in H. destruct (new_qhats n s old l) as [r1|] eqn:E1; [|discriminate]. injection H as <-. cbn [snd aget].
    destruct (n_aeq n a b) eqn:Eab; [|exact (IH r1 eq_refl a Ha)]. apply EQ in Eab. subst b. congruence.
Qed.
Definition has_qhat (a : A) (q : V) (o : obj) : Prop := n_level n a = true /\ o_scores o <> None /\ aget n (o_qhats o) a = Some q.
Lemma get_has a q l o : has_qhat a q o -> has_qhat a q (fst (get_qhat n l o)).
Proof.
  intros (H1 & H2 & H3). unfold get_qhat, bind, look, store, ret.
  destruct (if forallb _ _ then _ else _) as [r|] eqn:E; cbn [fst]; [|repeat split; assumption]. split; [exact H1|]. split; [exact H2|].
  cbn [set_qhats o_qhats]. rewrite aget_app. destruct (forallb _ _); [|discriminate]. destruct (the _ _) as [s|]; [|discriminate]. cbn [rbind] in E.
  rewrite (new_absent _ _ _ _ E); [exact H3|congruence].
Qed.
Lemma ask_has a q x o : has_qhat a q o -> has_qhat a q (fst (ask n x o)).
Proof.
  intros H. destruct x; try exact H.
  - rewrite ask_call. destruct (parts n o X unc l); [|exact H]. pose proof (get_has a q l o H) as G. destruct (get_qhat n l o). exact G.
  - cbn [ask]. unfold bind. pose proof (get_has a q l o H) as G. destruct (get_qhat n l o) as [o1 [v|]]; exact G.
Qed.
Lemma later_has a q o p : later n o p -> has_qhat a q o -> has_qhat a q p.
Proof.
  induction 1 as [|o p x L IH|o p c L IH]; intros H; [exact H|apply ask_has; auto|]. destruct (IH H) as (H1 & H2 & H3).
  split; [exact H1|]. split; [exact (calibrate_scores c p H2)|]. rewrite (proj1 (calibrate_keeps n c p)). exact H3.
Qed.
Lemma ask_one a o : snd (ask n (QQuantile (Some [a])) o) =
  if n_level n a then match o_scores o with
                      | Some s => match aget n (o_qhats o) a with Some v => Ok (AQuantiles [v]) | None => let* v := n_qhat n s a in Ok (AQuantiles [v]) end
                      | None => Err ValueError
                      end
  else Err ValueError.
Proof.
  cbn [ask]. unfold get_qhat, bind, look, store, ret, levels. cbn [forallb]. rewrite andb_true_r. destruct (n_level n a); [|reflexivity].
  destruct (o_scores o) as [s|]; [|reflexivity]. cbn [the rbind new_qhats]. destruct (aget n (o_qhats o) a) as [v|]; [reflexivity|]. destruct (n_qhat n s a); reflexivity.
Qed.
Lemma asked_has a q o : snd (ask n (QQuantile (Some [a])) o) = Ok (AQuantiles [q]) -> has_qhat a q (fst (ask n (QQuantile (Some [a])) o)).
Proof.
  intros H. pose proof H as H0. rewrite ask_one in H0. destruct (n_level n a) eqn:E1; [|discriminate]. destruct (o_scores o) as [s|] eqn:E2; [|discriminate].
  split; [exact E1|]. cbn [ask]. unfold get_qhat, bind, look, store, ret, levels. cbn [forallb]. rewrite andb_true_r, E1, E2. cbn [the rbind new_qhats].
  assert (R : n_aeq n a a = true) by (apply EQ; reflexivity).
  destruct (aget n (o_qhats o) a) as [v|] eqn:E3.
  - injection H0 as <-. cbn [fst snd app set_qhats o_scores o_qhats]. split; [congruence|exact E3].
  - destruct (n_qhat n s a) as [v|] eqn:E4; [|discriminate]. injection H0 as <-. cbn [rbind fst snd app set_qhats o_scores o_qhats aget]. rewrite R. split; [congruence|reflexivity].
Qed.
Theorem quantiles_stay (o o' : obj) a q : snd (ask n (QQuantile (Some [a])) o) = Ok (AQuantiles [q]) -> later n (fst (ask n (QQuantile (Some [a])) o)) o' ->
  snd (ask n (QQuantile (Some [a])) o') = Ok (AQuantiles [q]).
Proof.
  intros H L. destruct (later_has a q _ _ L (asked_has a q o H)) as (H1 & H2 & H3). rewrite ask_one, H1. destruct (o_scores o'); [|congruence]. rewrite H3. reflexivity.
Qed.
End Stay.
