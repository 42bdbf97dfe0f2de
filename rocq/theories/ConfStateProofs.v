(** Conformal models as objects: proofs. *)
From Coq Require Import Bool.
From Verif Require Import Base BaseLemmas TreeUtil TreeSpec NonSeqSpec TrainArgs Serial SerialSpec SerialProofs Scaler Strata ScalerFile ScalerFileSpec ScalerFileProofs ScalerFileMain ConfState ConfStateSpec.
Local Open Scope list_scope.
Local Open Scope nat_scope.

Section Proofs.
Context {N D V A : Type} (n : numerics N D V A) (ofnat : nat -> N).
Notation obj := (cobj N D V A).

(** ** An object and its copy *)
Definition enc_alike (e e' : option (sobj N)) : Prop :=
  match e, e' with
  | Some s, Some s' => proper s /\ cls_of s = CMixed /\ same_scaler ofnat s s'
  | None, None => True
  | _, _ => False
  end.
Record alike (o o' : obj) : Prop := mk_alike {
  k_model : msame (o_model o) (o_model o');
  k_alpha : o_alpha o = o_alpha o';
  k_scores : o_scores o = o_scores o'; k_qhats : o_qhats o = o_qhats o'; k_train : o_train o = o_train o';
  k_kd : o_train o <> None -> o_kd o = o_kd o';
  k_iqr : o_iqr o = o_iqr o'; k_range : o_range o = o_range o';
  k_npar : o_npar o = o_npar o'; k_ninp : o_ninp o = o_ninp o'; k_ndist : o_ndist o = o_ndist o';
  k_cont : o_cont o = o_cont o'; k_cutoff : o_cutoff o = o_cutoff o';
  k_enc : enc_alike (o_enc o) (o_enc o');
  k_sbc : o_sbc o = o_sbc o'; k_strata : o_strata o = o_strata o'; k_biases : o_biases o = o_biases o';
  k_cpar : o_cpar o = o_cpar o'; k_cinp : o_cinp o = o_cinp o'; k_cdist : o_cdist o = o_cdist o';
  k_finp : o_finp o = o_finp o'; k_fpar : o_fpar o = o_fpar o'; k_fdist : o_fdist o = o_fdist o' }.

Lemma ask_call X unc l (o : obj) : ask n (QCall X unc l) o =
  match parts n o X unc l with
  | Ok r => let '(o1, q) := get_qhat n l o in
            (o1, let* q := q in let* b := rmapM (fun q => n_bounds n (fst r) q (snd r)) q in Ok (ACall (fst r) b))
  | Err e => (o, Err e)
  end.
Proof.
  cbn [ask]. unfold call, bind, look, lift, ret. destruct (parts n o X unc l) as [r|]; [|reflexivity]. destruct (get_qhat n l o) as [o1 [q|]]; [|reflexivity]. cbn [rbind].
  destruct (rmapM _ q); reflexivity.
Qed.
Context (FAIR : fair n ofnat).
Section Two.
Context (o o' : obj) (K : alike o o').
Lemma same_calls : n_predict n (o_model o) = n_predict n (o_model o') /\ n_spar n (o_model o) = n_spar n (o_model o') /\ n_sinp n (o_model o) = n_sinp n (o_model o') /\
     n_hchecks n (o_model o) = n_hchecks n (o_model o') /\ n_zeros n (o_model o) = n_zeros n (o_model o') /\ n_ccheck n (o_model o) = n_ccheck n (o_model o') /\ n_mname n (o_model o) = n_mname n (o_model o').
Proof. destruct FAIR as (H & _). apply H, K. Qed.
Lemma par_alike X b : parameter_sensitivity n o' X b = parameter_sensitivity n o X b.
Proof.
  destruct same_calls as (_ & E & _). unfold parameter_sensitivity. rewrite <- (k_fpar _ _ K), <- (k_npar _ _ K), <- (k_cpar _ _ K), <- E. reflexivity.
Qed.
Lemma inp_alike X unc b : input_sensitivity n o' X unc b = input_sensitivity n o X unc b.
Proof.
  destruct same_calls as (_ & _ & E & _). unfold input_sensitivity. rewrite <- (k_finp _ _ K), <- (k_ninp _ _ K), <- (k_cinp _ _ K), <- (k_iqr _ _ K), <- (k_cont _ _ K), <- E. reflexivity.
Qed.
Lemma prepare_alike X : prepare n o' X = prepare n o X.
Proof.
  unfold prepare. pose proof (k_enc _ _ K) as E. unfold enc_alike in E. rewrite <- (k_range _ _ K), <- (k_fdist _ _ K).
  destruct (o_enc o) as [s|], (o_enc o') as [s'|]; try contradiction; [|reflexivity]. destruct E as (P & _ & S). cbn [the rbind].
  destruct FAIR as (_ & _ & I). rewrite (apply_same ofnat (n_kern n) I false s P s' S X). reflexivity.
Qed.
Lemma dist_alike X b : distance_sensitivity n o' X b = distance_sensitivity n o X b.
Proof.
  unfold distance_sensitivity. rewrite <- (k_fdist _ _ K), <- (k_train _ _ K), <- (k_range _ _ K), <- (k_cutoff _ _ K), <- (k_ndist _ _ K), <- (k_cdist _ _ K), prepare_alike.
  destruct (anyf (o_fdist o)); [|reflexivity]. cbn [negb]. pose proof (k_kd _ _ K) as Hk. destruct (o_train o) as [T|]; [|reflexivity]. rewrite <- Hk by discriminate.
  pose proof (k_enc _ _ K) as E. unfold enc_alike in E. destruct (o_enc o), (o_enc o'); try contradiction; reflexivity.
Qed.
Lemma unc_alike X unc : uncertainty n o' X unc = uncertainty n o X unc.
Proof.
  destruct same_calls as (_ & _ & _ & E1 & E2 & _). unfold uncertainty. rewrite <- E1, <- E2, <- (k_fpar _ _ K), <- (k_train _ _ K), <- (k_finp _ _ K), <- (k_fdist _ _ K), par_alike, inp_alike, dist_alike. reflexivity.
Qed.
Lemma correct_alike X P : correct n o' X P = correct n o X P.
Proof. unfold correct. rewrite <- (k_sbc _ _ K), <- (k_biases _ _ K), <- (k_strata _ _ K). reflexivity. Qed.
Lemma parts_alike X unc l : parts n o' X unc l = parts n o X unc l.
Proof.
  destruct same_calls as (E1 & _ & _ & _ & _ & E2 & _). unfold parts, levels. rewrite <- (k_alpha _ _ K), <- E1, <- E2, <- (k_scores _ _ K), unc_alike.
  destruct (negb (forallb _ _)); [reflexivity|]. destruct (negb _); [reflexivity|]. destruct (the _ _); [|reflexivity]. cbn [rbind]. destruct (n_predict n _ _); [|reflexivity]. cbn [rbind]. rewrite correct_alike. reflexivity.
Qed.
Lemma qhats_alike q : alike (set_qhats q o) (set_qhats q o').
Proof. destruct K. constructor; cbn; auto. Qed.
Lemma get_alike l : snd (get_qhat n l o') = snd (get_qhat n l o) /\ alike (fst (get_qhat n l o)) (fst (get_qhat n l o')).
Proof.
  unfold get_qhat, bind, look, store, ret, levels. rewrite <- (k_scores _ _ K), <- (k_qhats _ _ K), <- (k_alpha _ _ K).
  destruct (if forallb _ _ then _ else _) as [r|]; cbn [fst snd]; (split; [reflexivity|]); [apply qhats_alike|exact K].
Qed.
End Two.
Lemma ask_alike q o o' : not_name q \/ o_name o = o_name o' -> alike o o' -> snd (ask n q o') = snd (ask n q o) /\ alike (fst (ask n q o)) (fst (ask n q o')).
Proof.
  intros Q K. destruct q as [X unc l|X unc|X b|X unc b|X b|l|].
  - rewrite !ask_call, (parts_alike _ _ K). destruct (parts n o X unc l) as [r|]; [|split; [reflexivity|exact K]].
    destruct (get_alike o o' K l) as (G1 & G2). destruct (get_qhat n l o) as [o1 r1], (get_qhat n l o') as [o1' r1']. cbn [fst snd] in *. subst r1'.
    split; [reflexivity|exact G2].
  - cbn [ask]. unfold look. cbn. rewrite (unc_alike _ _ K). auto.
  - cbn [ask]. unfold look. cbn. rewrite (par_alike _ _ K). auto.
  - cbn [ask]. unfold look. cbn. rewrite (inp_alike _ _ K). auto.
  - cbn [ask]. unfold look. cbn. rewrite (dist_alike _ _ K). auto.
  - cbn [ask]. destruct (get_alike o o' K l) as (G1 & G2). unfold bind. destruct (get_qhat n l o) as [o1 r1], (get_qhat n l o') as [o1' r1']. cbn [fst snd] in *. subst r1'.
    destruct r1; cbn; auto.
  - cbn [ask]. unfold look. cbn. destruct Q as [Q|Q]; [exfalso; apply Q; reflexivity|]. split; [|exact K]. unfold name. rewrite <- Q. destruct (same_calls o o' K) as (_ & _ & _ & _ & _ & _ & E). rewrite E. reflexivity.
Qed.
Lemma get_name l o : o_name (fst (get_qhat n l o)) = o_name o.
Proof. unfold get_qhat, bind, look, store, ret. destruct (if forallb _ _ then _ else _); reflexivity. Qed.
Lemma ask_name q o : o_name (fst (ask n q o)) = o_name o.
Proof.
  destruct q as [X unc l|X unc|X b|X unc b|X b|l|]; try reflexivity.
  - rewrite ask_call. destruct (parts n o X unc l); [|reflexivity]. pose proof (get_name l o) as H. destruct (get_qhat n l o). exact H.
  - cbn [ask]. unfold bind. pose proof (get_name l o) as H. destruct (get_qhat n l o) as [o1 [q|]]; exact H.
Qed.
Lemma asks_alike qs : forall o o', Forall not_name qs \/ o_name o = o_name o' -> alike o o' -> asks n qs o' = asks n qs o.
Proof.
  induction qs as [|q qs IH]; intros o o' Q K; [reflexivity|]. cbn [asks].
  destruct (ask_alike q o o') as (E & K'); [destruct Q as [Q|Q]; [left; inversion Q; assumption|right; exact Q]|exact K|].
  pose proof (ask_name q o) as N1. pose proof (ask_name q o') as N2.
  destruct (ask n q o) as [o1 r1], (ask n q o') as [o1' r1']. cbn [fst snd] in *. subst r1'. f_equal. apply IH; [|exact K'].
  destruct Q as [Q|Q]; [left; inversion Q; assumption|right; congruence].
Qed.

(** ** Consistent objects *)
(** The k-d tree is the one of the training data, the encoder is proper. *)
Definition consistent (o : obj) : Prop :=
  (forall e, o_enc o = Some e -> proper e /\ cls_of e = CMixed) /\
  (forall T, o_train o = Some T -> exists k, o_kd o = Some k /\ (let* P := prepare n o T in n_tree n P) = Ok k).
Lemma prepare_fields o o' X : o_enc o = o_enc o' -> o_range o = o_range o' -> o_fdist o = o_fdist o' -> prepare n o X = prepare n o' X.
Proof. intros E1 E2 E3. unfold prepare. rewrite E1, E2, E3. reflexivity. Qed.
Lemma consistent_fields o o' : o_enc o = o_enc o' -> o_range o = o_range o' -> o_fdist o = o_fdist o' -> o_train o = o_train o' -> o_kd o = o_kd o' -> consistent o -> consistent o'.
Proof.
  intros E1 E2 E3 E4 E5 (C1 & C2). split; [rewrite <- E1; exact C1|]. rewrite <- E4, <- E5. intros T HT. destruct (C2 T HT) as (k & Ek & Hk). exists k. split; [exact Ek|].
  rewrite <- (prepare_fields o o' T); assumption.
Qed.
Definition same_distance (o o' : obj) : Prop := o_enc o = o_enc o' /\ o_range o = o_range o' /\ o_fdist o = o_fdist o' /\ o_train o = o_train o' /\ o_kd o = o_kd o'.
Lemma get_distance l o : same_distance o (fst (get_qhat n l o)).
Proof. unfold get_qhat, bind, look, store, ret. destruct (if forallb _ _ then _ else _); repeat split. Qed.
Lemma ask_distance q o : same_distance o (fst (ask n q o)).
Proof.
  destruct q as [X unc l|X unc|X b|X unc b|X b|l|]; try (repeat split; fail).
  - rewrite ask_call. destruct (parts n o X unc l); [|repeat split]. pose proof (get_distance l o) as H. destruct (get_qhat n l o). exact H.
  - cbn [ask]. unfold bind. pose proof (get_distance l o) as H. destruct (get_qhat n l o) as [o1 [q|]]; exact H.
Qed.

Ltac run H := unfold bind, look, lift, store, ret in H; cbn [fst snd] in H.
(** Later stages leave the distances alone. *)
Lemma norms_distance a o o' : stage_norms n a o = (o', Ok tt) -> same_distance o o'.
Proof.
  intros H. unfold stage_norms in H. run H.
  assert (S1 : forall o1 r, (if anyf (o_fpar o)
        then bind (look (fun o => parameter_sensitivity n o (a_X a) false)) (fun s => bind (lift (let* s := the TypeError s in n_norm n (a_Yunc a) s)) (fun w => store (set_npar (Some w))))
        else ret tt) o = (o1, r) -> same_distance o o1).
  { intros o1 r. destruct (anyf (o_fpar o)); unfold bind, look, lift, store, ret.
    - destruct (parameter_sensitivity n o (a_X a) false); [|intros E; injection E as <- <-; repeat split]. destruct (let* s := _ in _); intros E; injection E as <- <-; repeat split.
    - intros E. injection E as <- <-. repeat split. }
  match goal with H : (let '(_, _) := ?c in _) = _ |- _ => destruct c as [o1 r1] eqn:E1 end. apply S1 in E1. destruct r1; [|discriminate].
  destruct (a_train a); [|injection H as <-; exact E1].
  assert (S2 : forall o2 r, (if anyf (o_finp o1)
        then bind (look (fun o => input_sensitivity n o (a_X a) (a_Xunc a) false)) (fun s => bind (lift (let* s := the TypeError s in n_norm n (a_Yunc a) s)) (fun w => store (set_ninp (Some w))))
        else ret tt) o1 = (o2, r) -> same_distance o1 o2).
  { intros o2 r. destruct (anyf (o_finp o1)); unfold bind, look, lift, store, ret.
    - destruct (input_sensitivity n o1 (a_X a) _ false); [|intros E; injection E as <- <-; repeat split]. destruct (let* s := _ in _); intros E; injection E as <- <-; repeat split.
    - intros E. injection E as <- <-. repeat split. }
  match goal with H : (let '(_, _) := ?c in _) = _ |- _ => destruct c as [o2 r2] eqn:E2 end. apply S2 in E2. destruct r2; [|discriminate].
  destruct (distance_sensitivity n o2 (a_X a) false) as [s|]; [|discriminate]. destruct (match s with Some _ => _ | None => _ end); [|discriminate]. injection H as <-.
  destruct E1 as (? & ? & ? & ? & ?), E2 as (? & ? & ? & ? & ?). repeat split; cbn; congruence.
Qed.
Lemma scores_distance a P o o' : stage_scores n a P o = (o', Ok tt) -> same_distance o o'.
Proof.
  intros H. unfold stage_scores in H. run H. destruct (uncertainty n o _ _); [|discriminate]. destruct (match P with Some _ => _ | None => _ end); [|discriminate].
  destruct (correct n o _ _); [|discriminate]. destruct (n_scores n _ _ _ _); [|discriminate]. injection H as <-. repeat split.
Qed.
(** After the stage of the distances the object is consistent if its encoder was
    proper and its training data are those of the arguments. *)
Lemma distance_consistent a o o' : (forall e, o_enc o = Some e -> proper e /\ cls_of e = CMixed) -> o_train o = a_train a -> stage_distance n a o = (o', Ok tt) -> consistent o'.
Proof.
  intros HE HT H. unfold stage_distance in H. destruct (a_train a) as [T|]; [|unfold ret in H; injection H as <-; split; [exact HE|rewrite HT; discriminate]].
  run H. destruct (n_iqr n _ _ _) as [i|]; [|discriminate]. destruct (n_range n _ _) as [r|]; [|discriminate]. destruct (encoder _ _) as [e|]; [|discriminate].
  destruct (n_fit n e T) as [e'|] eqn:Ef; [|discriminate]. 
  match type of H with (let '(_, _) := (let '(_, _) := (_, prepare n ?x T) in _) in _) = _ => idtac | _ => idtac end.
  destruct (prepare n _ T) as [P|] eqn:EP; [|discriminate]. destruct (n_tree n P) as [k|] eqn:Ek; [|discriminate]. destruct (n_cutoff n k _) as [c|]; [|discriminate]. injection H as <-.
  split.
  - cbn. intros x Hx. injection Hx as <-. destruct FAIR as (_ & F & _). exact (F _ _ _ Ef).
  - cbn [o_train set_cutoff set_kd set_enc set_range set_iqr]. rewrite HT. intros T' HT'. injection HT' as <-. exists k. split; [reflexivity|].
    erewrite prepare_fields; [rewrite EP; exact Ek|reflexivity..].
Qed.
Lemma arguments_enc a o o' : stage_arguments n a o = (o', Ok tt) -> o_enc o' = o_enc o.
Proof.
  intros H. unfold stage_arguments in H. run H.
  destruct (n_checks n _ _); [|discriminate]. destruct (match a_cont a with Some _ => _ | None => _ end); [|discriminate]. destruct (check_corrections _ _ _); [|discriminate].
  destruct (fill (a_par a) _); [|discriminate]. destruct (fill (a_inp a) _); [|discriminate]. destruct (fill (a_dist a) _); [|discriminate]. injection H as <-. reflexivity.
Qed.
Lemma bias_enc a o o' P : stage_bias n a o = (o', Ok P) -> o_enc o' = o_enc o.
Proof.
  intros H. unfold stage_bias in H. run H. destruct (mode_o o) as [| |t].
  - injection H as <- <-. reflexivity.
  - run H. destruct (n_predict n _ _); [|discriminate]. destruct (n_global_fit n _ _ _); [|discriminate]. injection H as <- <-. reflexivity.
  - run H. destruct (n_strata n _ _); [|discriminate]. destruct (n_predict n _ _); [|discriminate]. destruct (n_strata_fit n _ _ _ _ _); [|discriminate]. injection H as <- <-. reflexivity.
Qed.
Lemma counts_enc a o o' : stage_counts n a o = (o', Ok tt) -> o_enc o' = o_enc o /\ o_train o' = a_train a.
Proof.
  intros H. unfold stage_counts in H. run H. destruct (n_count_inp n _ _ _); [|discriminate]. destruct (n_count_par n _ _); [|discriminate]. destruct (n_count_dist n _ _ _); [|discriminate].
  injection H as <-. split; reflexivity.
Qed.
(** The stages of a successful calibration. *)
Lemma calibrate_stages a o o' : calibrate n a o = (o', Ok tt) -> exists o1 o2 P o3 o4 o5,
  stage_arguments n a o = (o1, Ok tt) /\ stage_bias n a o1 = (o2, Ok P) /\ stage_counts n a o2 = (o3, Ok tt) /\ stage_distance n a o3 = (o4, Ok tt) /\
  stage_norms n a o4 = (o5, Ok tt) /\ stage_scores n a P o5 = (o', Ok tt).
Proof.
  intros H. unfold calibrate, bind in H.
  destruct (stage_arguments n a o) as [o1 [[]|]] eqn:E1; [|discriminate]. destruct (stage_bias n a o1) as [o2 [P|]] eqn:E2; [|discriminate].
  destruct (stage_counts n a o2) as [o3 [[]|]] eqn:E3; [|discriminate]. destruct (stage_distance n a o3) as [o4 [[]|]] eqn:E4; [|discriminate].
  destruct (stage_norms n a o4) as [o5 [[]|]] eqn:E5; [|discriminate]. exists o1, o2, P, o3, o4, o5. repeat split; assumption.
Qed.
Lemma history_consistent o : history n o -> consistent o.
Proof.
  induction 1 as [m al q nm|o a o' H IH E|o q H IH].
  - split; discriminate.
  - destruct (calibrate_stages _ _ _ E) as (o1 & o2 & P & o3 & o4 & o5 & E1 & E2 & E3 & E4 & E5 & E6).
    apply arguments_enc in E1. apply bias_enc in E2. apply counts_enc in E3 as (E3 & T3). assert (C : consistent o4).
    { apply (distance_consistent a o3); [|exact T3|exact E4]. intros e He. apply IH. congruence. }
    apply norms_distance in E5 as (? & ? & ? & ? & ?). apply scores_distance in E6 as (? & ? & ? & ? & ?). eapply consistent_fields; [..|exact C]; congruence.
  - destruct (ask_distance q o) as (? & ? & ? & ? & ?). eapply consistent_fields; [..|exact IH]; assumption.
Qed.

(** ** Loading *)
Context (tower : bool) (ready : fields -> tree mdl -> bool).
Lemma deser_ok o nm : consistent o -> good tower ready (o_model o) ->
  exists o', (let* d := conf_ser tower ready o in conf_deser n (mk_cdata (d_model d) (d_enc d) (set_name nm (d_rest d)))) = Ok o' /\ alike o o' /\ o_name o' = nm.
Proof.
  intros (C1 & C2) G. destruct (copies_model tower ready (o_model o) G) as (sd & m' & Es & El & Sm).
  unfold conf_ser. rewrite Es. cbn [rbind d_model d_enc d_rest]. unfold conf_deser. cbn [d_model d_enc d_rest]. rewrite El. cbn [rbind].
  assert (X : exists e', (match match o_enc o with Some e => Some (ser e) | None => None end with Some x => let* e := deser CMixed x in Ok (Some e) | None => Ok None end) = Ok e' /\ enc_alike (o_enc o) e').
  { destruct (o_enc o) as [e|]; [|exists None; split; [reflexivity|exact I]]. destruct (C1 e eq_refl) as (Pe & Ce). destruct (memory_ok ofnat e Pe) as (e' & Ed & Se). rewrite Ce in Ed. exists (Some e').
    rewrite Ed. split; [reflexivity|]. cbn. auto. }
  destruct X as (e' & -> & Ke). cbn [rbind]. 
  assert (K0 : forall kd, (o_train o <> None -> o_kd o = kd) -> alike o (set_kd kd (set_model m' (set_enc e' (set_name nm (set_enc None (set_kd None o))))))).
  { intros kd Hk. constructor; cbn; auto. }
  cbn [o_train set_model set_enc set_name set_kd]. destruct (o_train o) as [T|] eqn:ET.
  - destruct (C2 T eq_refl) as (k & Ek & Hk).
    assert (EP : prepare n (set_model m' (set_enc e' (set_name nm (set_enc None (set_kd None o))))) T = prepare n o T).
    { erewrite <- (prepare_alike o (set_kd (Some k) (set_model m' (set_enc e' (set_name nm (set_enc None (set_kd None o))))))); [apply prepare_fields; reflexivity|]. apply K0. intros _. exact Ek. }
    rewrite EP. destruct (prepare n o T) as [P|] eqn:E; [|discriminate]. cbn [rbind] in *. rewrite Hk. cbn [rbind]. eexists. split; [reflexivity|]. split; [|reflexivity]. apply K0. intros _. exact Ek.
  - eexists. split; [reflexivity|]. split; [|reflexivity]. apply (K0 None). intros H. destruct (H eq_refl).
Qed.
End Proofs.
