(** Property C109: what a calibrated conformal model answers, from the arguments
    of the calibration. *)
From Coq Require Import Bool Permutation.
From Verif Require Import Base BaseLemmas TreeUtil TreeSpec NonSeqSpec TrainArgs Modules Serial SerialSpec Scaler Strata ScalerFile ConfState ConfStateSpec ConfStateProofs ConfStateMain
  NonSeqProofs ScalerProofs ReshapeProofs ReshapeMain ConfCalSpec ConfCalProofs Props_Serial Props_ConfState.
Local Open Scope string_scope.
Local Open Scope list_scope.
Local Open Scope nat_scope.

Section Props.
Context {N D V A : Type} (n : numerics N D V A).
Notation obj := (cobj N D V A).

(** After a successful calibration the uncertainty is the sum of the selected
    terms, each over its size on the calibration data, whatever happened to the
    object before. *)
Theorem C109_uncertainty a (o o' : obj) : calibrate n a o = (o', Ok tt) -> exists F, facts_of n (o_model o) a F /\
  forall X unc u, snd (ask n (QUncertainty X unc) o') = Ok (AVal (Some u)) <-> heuristic n (o_model o) (o_quantile o) a F X unc u.
Proof.
  intros H. destruct (calibrate_derived n a o o' H) as (F & K & EM & EQ & _). exists F. rewrite <- EM, <- EQ. split; [apply K|]. intros X unc u. rewrite <- (unc_answer n a F o' X unc u K).
  cbn [ask]. unfold look. cbn [snd]. destruct (uncertainty n o' X unc); cbn [rbind]; split; congruence.
Qed.

Lemma new_from_nothing s : forall l r, new_qhats n s [] l = Ok r <-> rmapM (n_qhat n s) l = Ok (fst r) /\ snd r = combine l (fst r).
Proof.
  induction l as [|b l IH]; intros [qs new]; cbn [new_qhats rmapM aget fst snd].
  - split; [intros H; injection H as <- <-; auto|]. intros (H & ->). injection H as <-. reflexivity.
  - destruct (n_qhat n s b) as [q|]; cbn [rbind]; [|split; [discriminate|intros (H & _); discriminate]].
    destruct (new_qhats n s [] l) as [[qs' new']|e] eqn:E; cbn [rbind fst snd].
    + destruct (proj1 (IH (qs', new')) eq_refl) as (I1 & I2). cbn [fst snd] in *. rewrite I1. cbn [rbind]. split.
      * intros H. injection H as <- <-. cbn [combine]. rewrite <- I2. auto.
      * intros (H & ->). injection H as <-. cbn [combine]. rewrite <- I2. reflexivity.
    + split; [discriminate|]. intros (H & ->). destruct (rmapM (n_qhat n s) l) as [qs'|] eqn:EM; [|discriminate]. cbn [rbind] in H. injection H as <-.
      pose proof (proj2 (IH (qs', combine l qs')) (conj eq_refl eq_refl)) as C. discriminate C.
Qed.
Lemma rmapM_forall2 {X Y} (f : X -> result Y) : forall l m, rmapM f l = Ok m <-> Forall2 (fun x y => f x = Ok y) l m.
Proof.
  induction l as [|x l IH]; intros m; cbn [rmapM].
  - split; [intros H; injection H as <-; constructor|]. intros H; inversion H; reflexivity.
  - split.
    + intros H. destruct (f x) as [y|] eqn:Ef; [|discriminate]. cbn [rbind] in H. destruct (rmapM f l) as [m'|] eqn:Em; [|discriminate]. injection H as <-. constructor; [exact Ef|]. apply IH. reflexivity.
    + intros H. inversion H as [|? y ? m' H1 H2]; subst. rewrite H1. cbn [rbind]. rewrite (proj2 (IH m') H2). reflexivity.
Qed.

(** ... and a call gives the corrected prediction and, for every level, the
    interval of the quantile of the calibration scores times the uncertainty (if
    no quantiles were asked for before). *)
Theorem C109_answers_partial a (o o' : obj) : calibrate n a o = (o', Ok tt) -> o_qhats o = [] -> exists F, facts_of n (o_model o) a F /\
  forall X unc l P bs, snd (ask n (QCall X unc l) o') = Ok (ACall P bs) <->
    answered n (o_model o) (o_quantile o) a F X unc (match l with Some l => l | None => [o_alpha o] end) P bs.
Proof.
  intros H HQ. destruct (calibrate_derived n a o o' H) as (F & K & EM & EQ & s & ES & HS). exists F. rewrite <- EM, <- EQ. split; [apply K|]. intros X unc l P bs.
  pose proof (calibrate_keeps n a o) as (Q1 & Q2). rewrite H in Q1, Q2. cbn [fst] in Q1, Q2. rewrite HQ in Q1. rewrite <- Q2.
  change (match l with Some l => l | None => [o_alpha o'] end) with (levels o' l). rewrite ask_call. unfold parts, answered. rewrite ES. cbn [the rbind].
  assert (HU : forall P', (let* P0 := n_predict n (o_model o') X in let* P1 := correct n o' X P0 in Ok P1) = Ok P' <-> corrected n (o_model o') a F X P').
  { intros P'. rewrite <- (correct_answer n a F o' X P' K). destruct (n_predict n (o_model o') X) as [v|]; [|reflexivity]. cbn [rbind]. destruct (correct n o' X v); reflexivity. }
  assert (HS1 : forall s', score n (o_model o') (o_quantile o') a F s' -> s' = s).
  { intros s' (P1 & u1 & A1 & A2 & A3). destruct HS as (P2 & u2 & B1 & B2 & B3). apply (correct_answer n a F o' _ _ K) in A1, B1. apply (unc_answer n a F o' _ _ _ K) in A2, B2. congruence. }
  assert (HG : forall l, get_qhat n l o' = (fst (get_qhat n l o'), snd (get_qhat n l o'))) by (intros l0; destruct (get_qhat n l0 o'); reflexivity).
  assert (HQs : forall qs, snd (get_qhat n l o') = Ok qs <-> Forall (fun l => n_level n l = true) (levels o' l) /\ Forall2 (fun l q => n_qhat n s l = Ok q) (levels o' l) qs).
  { intros qs. unfold get_qhat, bind, look, store, ret. rewrite ES, Q1. cbn [the rbind]. destruct (forallb (n_level n) (levels o' l)) eqn:EL.
    - rewrite <- rmapM_forall2. destruct (new_qhats n s [] (levels o' l)) as [r|] eqn:EN; cbn [snd].
      + apply new_from_nothing in EN as (N1 & N2). rewrite N1. split.
        * intros E0. injection E0 as <-. split; [|reflexivity]. apply Forall_forall. apply forallb_forall. exact EL.
        * intros (_ & E0). congruence.
      + split; [discriminate|]. intros (_ & E0). pose proof (proj2 (new_from_nothing s (levels o' l) (qs, combine (levels o' l) qs)) (conj E0 eq_refl)) as C. congruence.
    - cbn [snd]. split; [discriminate|]. intros (E0 & _). assert (C : forallb (n_level n) (levels o' l) = true) by (apply forallb_forall; apply Forall_forall; exact E0). congruence. }
  split.
  - intros HA. destruct (negb (forallb (n_level n) (levels o' l))); [discriminate|]. destruct (n_ccheck n (o_model o') X) eqn:EC; [|discriminate]. cbn [negb] in HA. split; [reflexivity|].
    destruct (let* P0 := n_predict n (o_model o') X in let* P1 := correct n o' X P0 in let* u := uncertainty n o' X unc in Ok (P1, u)) as [[P1 u]|] eqn:EP; [|discriminate].
    rewrite (HG l) in HA. cbn [snd fst] in HA. apply bind_ok in EP as (P0 & EP0 & EP). apply bind_ok in EP as (P1' & EP1 & EP). apply bind_ok in EP as (u' & Eu & EP). injection EP as -> ->.
    apply bind_ok in HA as (qs & Hqs & HA). apply bind_ok in HA as (bs' & Hb & HA). injection HA as <- <-.
    split. { apply HU. rewrite EP0. cbn [rbind]. rewrite EP1. reflexivity. } exists s, u. split; [exact HS|]. split; [apply (unc_answer n a F o' _ _ _ K); exact Eu|].
    apply HQs in Hqs as (HL & HF). apply rmapM_forall2 in Hb. clear -HL HF Hb. revert qs bs' HL HF Hb. induction (levels o' l) as [|b ls IH]; intros qs bs HL HF Hb.
    + inversion HF; subst. inversion Hb; subst. constructor.
    + inversion HF as [|? q ? qs' F1 F2]; subst. inversion Hb as [|? bb ? bs' B1 B2]; subst. inversion HL; subst. constructor; [split; [assumption|exists q; auto]|]. apply (IH qs'); assumption.
  - intros (EC & HC & s' & u & Hs' & Hu & HB). rewrite (HS1 s' Hs') in *. clear s' Hs'. rewrite EC. cbn [negb].
    assert (HL : Forall (fun l => n_level n l = true) (levels o' l)). { clear -HB. induction HB as [|x y ls m (H1 & _) H2 IH]; constructor; assumption. }
    rewrite (proj2 (forallb_forall (n_level n) (levels o' l))) by (apply Forall_forall; exact HL). cbn [negb].
    apply HU in HC. apply bind_ok in HC as (P0 & EP0 & HC). apply bind_ok in HC as (P1 & EP1 & HC). injection HC as ->. rewrite EP0. cbn [rbind]. rewrite EP1. cbn [rbind].
    apply (unc_answer n a F o' _ _ _ K) in Hu. rewrite Hu. cbn [rbind]. rewrite (HG l). cbn [snd fst].
    assert (HQ2 : exists qs, Forall2 (fun l q => n_qhat n s l = Ok q) (levels o' l) qs /\ Forall2 (fun q b => n_bounds n P q u = Ok b) qs bs).
    { clear -HB. induction HB as [|x y ls m (_ & q & H1 & H2) H3 (qs & I1 & I2)]; [exists []; split; constructor|]. exists (q :: qs). split; constructor; assumption. }
    destruct HQ2 as (qs & Q3 & Q4). rewrite (proj2 (HQs qs) (conj HL Q3)). cbn [rbind]. rewrite (proj2 (rmapM_forall2 _ qs bs) Q4). reflexivity.
Qed.
End Props.

(** The encoding used for the distances, in the words of the specification. *)
Lemma encodes_without {N} : forall (r : tree (bool * bool)) (v : tree (option (sobj N))),
  trel (fun p o => o = if fst p || negb (snd p) then None else Some (OneHot NoneT NoneT)) r v -> encodes r (without_none v).
Proof.
  assert (HL : forall l, Forall (fun r => forall v : tree (option (sobj N)), trel (fun p o => o = if fst p || negb (snd p) then None else Some (OneHot NoneT NoneT)) r v -> encodes r (without_none v)) l ->
    forall m, Forall2 (trel (fun p o => o = if fst p || negb (snd p) then None else Some (OneHot NoneT NoneT))) l m -> Forall2 (@encodes N) l (map without_none m)).
  { intros l IH. induction IH as [|r l H1 H2 IHl]; intros m Hm; inversion Hm; subst; cbn [map]; constructor; auto. }
  intros r. induction r as [x| |d IH|l IH|l IH] using tree_ind2; intros v Hv.
  - inversion Hv as [x' y E| | | |]; subst. destruct x as [[|] [|]]; cbn; constructor.
  - inversion Hv; subst. constructor.
  - inversion Hv as [| | | |d' e e' P F]; subst. cbn. apply en_dict with (e' := map (fun kv => (fst kv, without_none (snd kv))) e'); [apply Permutation_map; exact P|]. clear P Hv.
    revert e' F. induction IH as [|kv d H1 H2 IHd]; intros e' F; inversion F as [|a b d1 e1 (F1 & F2) F3]; subst; constructor; [split; [exact F1|apply H1; exact F2]|apply IHd; exact F3].
  - inversion Hv; subst. cbn. constructor. apply HL; assumption.
  - inversion Hv; subst. cbn. constructor. apply HL; assumption.
Qed.
Theorem C109_encoding {N} (cont dist : tree bool) (s : sobj N) : wf_tree cont -> wf_tree dist -> encoder cont dist = Ok s ->
  exists p e, s = Mixed e /\ trel (fun q c => fst q = c) p cont /\ trel (fun q d => snd q = d) p dist /\ encodes p e.
Proof.
  intros W1 W2 H. unfold encoder in H. apply rbind_ok in H as (t & Et & H). injection H as <-.
  destruct (trel_pair _ _ _ (jzip_inv _ _ _ _ W1 W2 Et)) as (r & R1 & R2 & Wr). specialize (Wr W1).
  assert (R3 : trel (fun q d => snd q = d) r dist) by (eapply trel_impl; [|exact R2]; cbn; intros ? ? [E _]; exact E).
  exists r, (without_none t). split; [reflexivity|]. split; [exact R1|]. split; [exact R3|]. apply encodes_without.
  destruct (jzip3 (fun c d : bool => Ok (if c || negb d then None else Some (OneHot NoneT NoneT))) (fun q c => fst q = c) (fun q d => snd q = d)
    (fun p (o : option (sobj N)) => o = if fst p || negb (snd p) then None else Some (OneHot NoneT NoneT)) r) with (u := cont) (p := dist) as (v & Ev & T); auto.
  { intros x y q _ <- <-. eexists. split; reflexivity. }
  rewrite Ev in Et. injection Et as <-. exact T.
Qed.

(** Without training data and without parameters selected the uncertainty is zero:
    the terms about the inputs are left out silently. *)
Theorem C109_nothing {N D V A} (n : numerics N D V A) a (o o' : cobj N D V A) t : calibrate n a o = (o', Ok tt) -> a_train a = None ->
  (a_par a = FAll false \/ (a_par a = FTree t /\ ~ has_leaf t true)) ->
  forall X unc u, snd (ask n (QUncertainty X unc) o') = Ok (AVal (Some u)) <-> n_hchecks n (o_model o) X unc = Ok tt /\ n_zeros n (o_model o) X = Ok u.
Proof.
  intros H HT HP X unc u. destruct (C109_uncertainty n a o o' H) as (F & (_ & HF & _) & HU). rewrite HU. unfold heuristic. rewrite HT.
  assert (Off : ~ some_on (f_par F)).
  { destruct HP as [HP|(HP & HN)]; rewrite HP in HF; cbn [selects] in HF.
    - intros On. destruct (trel_leafless _ _ _ true (trel_flip _ _ _ HF) On) as (y & _ & C). discriminate.
    - rewrite HF. exact HN. }
  split.
  - intros (H0 & u0 & u1 & H1 & [(On & _)|(_ & ->)] & ->); [destruct (Off On)|]. auto.
  - intros (H0 & H1). split; [exact H0|]. exists u, u. split; [exact H1|]. split; [right; auto|reflexivity].
Qed.
(** A model that was never calibrated reports zero uncertainties instead of refusing. *)
Theorem C109_uncalibrated {N D V A} (n : numerics N D V A) m alpha q nm X unc : snd (ask n (QUncertainty X unc) (conf_new m alpha q nm)) =
  let* _ := n_hchecks n m X unc in let* u := n_zeros n m X in Ok (AVal (Some u)).
Proof. cbn [ask]. unfold look, uncertainty. cbn [snd conf_new o_model o_fpar o_train]. destruct (n_hchecks n m X unc); [|reflexivity]. cbn. destruct (n_zeros n m X); reflexivity. Qed.

(** A term that is not selected: the method for the distances gives None after
    any calibration; *)
Theorem C109_distance_off {N D V A} (n : numerics N D V A) a (o o' : cobj N D V A) : calibrate n a o = (o', Ok tt) -> a_dist a = FAll false ->
  forall X b, snd (ask n (QDistance X b) o') = Ok (AVal None).
Proof.
  intros H HD X b. destruct (calibrate_derived n a o o' H) as (F & K & _). destruct K as [(_ & _ & _ & HF & _) (_ & _ & _ & E4 & _) _ _ _ _]. rewrite HD in HF. cbn [selects] in HF.
  cbn [ask]. unfold look, distance_sensitivity. rewrite E4. assert (E : anyf (Some (f_dist F)) = false).
  { apply anyf_off. intros On. destruct (trel_leafless _ _ _ true (trel_flip _ _ _ HF) On) as (y & _ & C). discriminate. }
  rewrite E. reflexivity.
Qed.
(** ... the one for the inputs as well if the input is a single array (and the one
    for the parameters likewise), *)
Theorem C109_input_off_partial {N D V A} (n : numerics N D V A) a (o o' : cobj N D V A) : calibrate n a o = (o', Ok tt) -> a_inp a = FAll false -> n_inputs n (o_model o') = Leaf tt ->
  forall X unc b, snd (ask n (QInput X unc b) o') = Ok (AVal None).
Proof.
  intros H HD HS X unc b. destruct (calibrate_derived n a o o' H) as (F & K & _). destruct K as [(_ & _ & HF & _) (_ & _ & E3 & _) _ _ _ _]. rewrite HD, HS in HF. cbn [selects] in HF.
  remember (f_inp F) as t eqn:Et. clear Et. inversion HF as [x y E| | | |]; subst. cbn [ask]. unfold look, input_sensitivity. rewrite E3. reflexivity.
Qed.
(** ... but a container of flags counts as true: the method for the parameters
    raises an exception, or, after an earlier calibration with the term, answers
    with the size of that calibration. *)
Definition off (par : flags) : cargs nat (option nat) := mk_cargs (Leaf 3) (Some (Some 5)) None None (Some (Leaf 4)) par (FAll true) (FAll true) (Some (Leaf true)) None.
Definition C109_off_always : Prop := forall (o o' : cobj nat nat (option nat) nat) a, a_par a = FAll false -> calibrate toy a o = (o', Ok tt) ->
  forall X b, snd (ask toy (QParameter X b) o') = Ok (AVal None).
Theorem C109_off_refuted : exists (o o' : cobj nat nat (option nat) nat), calibrate toy (off (FAll false)) o = (o', Ok tt) /\ snd (ask toy (QParameter (Leaf 7) true) o') = Err ValueError.
Proof. exists start. eexists. split; vm_compute; reflexivity. Qed.
Theorem C109_off_stale_refuted : exists (o o' : cobj nat nat (option nat) nat), calibrate toy (off (FAll false)) o = (o', Ok tt) /\ snd (ask toy (QParameter (Leaf 7) true) o') = Ok (AVal (Some (Some 2))).
Proof. exists (calibrated None true). eexists. split; vm_compute; reflexivity. Qed.

(** All three terms: 7 over 3, 7 and 4 over 3 and 4, and the distance 7 over 3. *)
Example C109_ex : exists o', calibrate toy (off (FAll true)) start = (o', Ok tt) /\ o_qhats start = [] /\
  snd (ask toy (QUncertainty (Leaf 7) None) o') = Ok (AVal (Some (Some 5))) /\
  snd (ask toy (QCall (Leaf 7) None (Some [1; 2])) o') = Ok (ACall (Some 7) [(Some 0, Some 17); (Some 0, Some 27)]).
Proof. eexists. split; [vm_compute; reflexivity|]. split; [reflexivity|]. split; vm_compute; reflexivity. Qed.
Example C109_ex_less : exists o', calibrate toy (off (FTree (Tup [Leaf false; Leaf false]))) start = (o', Ok tt) /\
  snd (ask toy (QUncertainty (Leaf 7) None) o') = Ok (AVal (Some (Some 3))).
Proof. eexists. split; vm_compute; reflexivity. Qed.
Example C109_ex_nothing : exists o', calibrate toy (mk_cargs (Leaf 3) (Some (Some 5)) None None None (FAll false) (FAll false) (FAll false) None None) start = (o', Ok tt) /\
  n_inputs toy (o_model o') = Leaf tt /\ snd (ask toy (QUncertainty (Leaf 7) None) o') = Ok (AVal (Some (Some 0))).
Proof. eexists. split; [vm_compute; reflexivity|]. split; vm_compute; reflexivity. Qed.

Example C109_ex_encoding : exists s : sobj nat, encoder (Lst [Leaf true; Dict [("k", Leaf false); ("z", Leaf false)]]) (Lst [Leaf true; Dict [("k", Leaf true); ("z", Leaf false)]]) = Ok s /\
  wf_tree (Lst [Leaf true; Dict [("k", Leaf false); ("z", Leaf false)]]) /\ wf_tree (Lst [Leaf true; Dict [("k", Leaf true); ("z", Leaf false)]]) /\
  s = Mixed (Lst [NoneT; Dict [("k", Leaf (OneHot NoneT NoneT)); ("z", NoneT)]]).
Proof. eexists. split; [vm_compute; reflexivity|]. split; [|split; [|reflexivity]]; repeat constructor; cbn; intuition discriminate. Qed.

Print Assumptions C109_uncertainty.
Print Assumptions C109_answers_partial.
Print Assumptions C109_nothing.
Print Assumptions C109_uncalibrated.
Print Assumptions C109_distance_off.
Print Assumptions C109_input_off_partial.
Print Assumptions C109_off_refuted.
Print Assumptions C109_off_stale_refuted.
Print Assumptions C109_encoding.
