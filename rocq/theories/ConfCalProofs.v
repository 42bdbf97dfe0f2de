(** What a calibration leaves in the object, and what is answered from it. *)
From Coq Require Import Bool.
From Verif Require Import Base BaseLemmas TreeUtil TreeSpec NonSeqSpec NonSeqProofs TrainArgs TrainArgsProofs Serial SerialSpec Scaler ScalerProofs Strata ScalerFile ConfState ConfStateSpec ConfStateProofs ConfStateMain ConfCalSpec.
Local Open Scope list_scope.
Local Open Scope nat_scope.

Lemma anyf_on (t : tree bool) : anyf (Some t) = true <-> some_on t.
Proof.
  unfold anyf, some_on. rewrite existsb_exists. rewrite <- leaves_has_leaf. split; [intros (b & H & ->); exact H|]. intros H. exists true. auto.
Qed.
Lemma anyf_off (t : tree bool) : anyf (Some t) = false <-> ~ some_on t.
Proof. rewrite <- anyf_on. destruct (anyf (Some t)); split; congruence. Qed.
Lemma on_truthy (t : tree bool) : anyf (Some t) = true -> truthy_flags (Some t) = true.
Proof. destruct t as [b| |[|? ?]|[|? ?]|[|? ?]]; cbn; try discriminate; try reflexivity. destruct b; [reflexivity|discriminate]. Qed.
Lemma fill_selects f s t : fill f s = Ok t -> selects f s t.
Proof.
  unfold fill, selects. destruct f as [b|t0].
  - intros H. destruct (jm_trel (fun _ : unit => Ok b) (fun x y => x = y) (fun (_ : unit) c => c = b) s) with (u := s) as (v & E & K).
    { intros. eexists. split; reflexivity. }
    { apply trel_refl. }
    rewrite E in H. injection H as <-. exact K.
  - destruct (TrainArgs.same_struct t0 s); [|discriminate]. intros H. injection H as <-. reflexivity.
Qed.

Section Proofs.
Context {N D V A : Type} (n : numerics N D V A).
Notation obj := (cobj N D V A).
Notation raw_par F o := (fun X (_ : option (tree D)) => n_spar n (o_model o) (f_par F) (Some (f_npar F)) X).
Notation raw_inp F G o := (fun X unc => n_sinp n (o_model o) (Some (g_iqr G)) (Some (f_ninp F)) (Some (f_cont F)) (f_inp F) X unc).
Notation raw_dist F G := (fun X (_ : option (tree D)) => let* P := place n F G X in n_sdist n (g_points G) (g_cut G) (Some (f_ndist F)) P).

(** The attributes in terms of the arguments. *)
Definition from_facts (F : facts) (o : obj) : Prop :=
  o_cont o = Some (f_cont F) /\ o_fpar o = Some (f_par F) /\ o_finp o = Some (f_inp F) /\ o_fdist o = Some (f_dist F) /\
  o_cpar o = Some (f_npar F) /\ o_cinp o = Some (f_ninp F) /\ o_cdist o = Some (f_ndist F).
Definition from_ground (G : @ground N V) (o : obj) : Prop :=
  o_iqr o = Some (g_iqr G) /\ o_range o = Some (g_range G) /\ o_enc o = Some (g_enc G) /\ o_kd o = Some (g_points G) /\ o_cutoff o = Some (g_cut G).
Definition size (a : cargs D V) (raw : tree D -> option (tree D) -> result V) (w : option V) (v : option V) : Prop :=
  exists c s, raw (a_X a) (a_Xunc a) = Ok c /\ n_norm n w c = Ok s /\ v = Some s.
Definition from_train (a : cargs D V) (F : facts) (o : obj) : Prop :=
  forall T, a_train a = Some T -> exists G, ground_of n (o_quantile o) F T G /\ from_ground G o /\
   (some_on (f_inp F) -> size a (raw_inp F G o) (a_Yunc a) (o_ninp o)) /\ (some_on (f_dist F) -> size a (raw_dist F G) None (o_ndist o)).
Definition from_bias (a : cargs D V) (F : facts) (o : obj) : Prop :=
  exists c, check_corrections (a_sbc a) (match a_sbc a with Some (CTree t) => TrainArgs.same_struct t (a_X a) | _ => true end) (f_cont F) = Ok c /\ o_sbc o = Some c /\
  match mode_of c with
  | MNone => True
  | MGlobal => exists Pc b, n_predict n (o_model o) (a_X a) = Ok Pc /\ n_global_fit n (a_X a) (a_Y a) Pc = Ok b /\ o_biases o = Some b
  | MStrata t => exists Pc u b, n_predict n (o_model o) (a_X a) = Ok Pc /\ n_strata n t (a_X a) = Ok u /\ n_strata_fit n u t (a_X a) (a_Y a) Pc = Ok b /\ o_biases o = Some b /\ o_strata o = Some u
  end.
Record derived (a : cargs D V) (F : facts) (o : obj) : Prop := mk_derived {
  v_facts : facts_of n (o_model o) a F; v_from : from_facts F o; v_tr : o_train o = a_train a;
  v_par : some_on (f_par F) -> size a (raw_par F o) (a_Yunc a) (o_npar o);
  v_train : from_train a F o; v_bias : from_bias a F o }.

(** ** Answers from the attributes *)
Lemma par_eq a F o X w : derived a F o -> some_on (f_par F) -> o_npar o = Some w ->
  parameter_sensitivity n o X true = let* s := (let* r := raw_par F o X None in n_div n r w) in Ok (Some s).
Proof.
  intros K On Ew. destruct K as [_ (E1 & E2 & E3 & E4 & E5 & E6 & E7) _ _ _ _]. unfold parameter_sensitivity. rewrite E2, E5, (on_truthy _ (proj2 (anyf_on _) On)), Ew. cbn [negb andb the rbind].
  destruct (n_spar n _ _ _ X); reflexivity.
Qed.
Lemma inp_eq a F G o X unc w : derived a F o -> from_ground G o -> some_on (f_inp F) -> o_ninp o = Some w ->
  input_sensitivity n o X unc true = let* s := (let* r := raw_inp F G o X unc in n_div n r w) in Ok (Some s).
Proof.
  intros K (G1 & _) On Ew. destruct K as [_ (E1 & E2 & E3 & E4 & E5 & E6 & E7) _ _ _ _]. unfold input_sensitivity. rewrite E3, E6, G1, E1, (on_truthy _ (proj2 (anyf_on _) On)), Ew. cbn [negb andb the rbind].
  destruct (n_sinp n _ _ _ _ _ X unc); reflexivity.
Qed.
Lemma dist_eq a F G o X T w : derived a F o -> from_ground G o -> o_train o = Some T -> some_on (f_dist F) -> o_ndist o = Some w ->
  distance_sensitivity n o X true = let* s := (let* r := raw_dist F G X None in n_div n r w) in Ok (Some s).
Proof.
  intros K (G1 & G2 & G3 & G4 & G5) Et On Ew. destruct K as [_ (E1 & E2 & E3 & E4 & E5 & E6 & E7) _ _ _ _]. unfold distance_sensitivity, prepare.
  rewrite E4, E7, G2, G3, G4, G5, Et, Ew, (proj2 (anyf_on _) On). cbn [negb andb the rbind]. unfold place. destruct (apply (n_kern n) false (g_enc G) X); [|reflexivity]. cbn [rbind].
  destruct (n_flat n _ _ _); [|reflexivity]. cbn [rbind]. destruct (n_sdist n _ _ _ _); reflexivity.
Qed.
Lemma plus_on a (on : Prop) add raw w z X unc u u' : on -> size a raw w (Some z) ->
  ((let* s := (let* s := (let* r := raw X unc in n_div n r z) in Ok (Some s)) in let* s := the TypeError s in add u s) = Ok u' <-> plus on add (term n a raw w X unc) u u').
Proof.
  intros On (c & z' & H1 & H2 & H3). injection H3 as <-. unfold plus, term. split.
  - intros H. destruct (raw X unc) as [r|] eqn:Er; [|discriminate]. cbn [rbind] in H. destruct (n_div n r z) as [s|] eqn:Ed; [|discriminate]. cbn [rbind the] in H.
    left. split; [exact On|]. exists s. split; [|exact H]. exists c, z, r. auto.
  - intros [(_ & s & (c' & z' & r & T1 & T2 & T3 & T4) & Ha)|(Off & _)]; [|destruct (Off On)].
    rewrite T1 in H1. injection H1 as ->. rewrite T2 in H2. injection H2 as ->. rewrite T3. cbn [rbind]. rewrite T4. cbn [rbind the]. exact Ha.
Qed.
Lemma plus_off (on : Prop) add t u u' : ~ on -> (Ok u = Ok u' <-> plus on add (t : V -> Prop) u u').
Proof. intros Off. unfold plus. split; [intros H; injection H as <-; right; auto|]. intros [(On & _)|(_ & ->)]; [destruct (Off On)|reflexivity]. Qed.

Lemma bind_ok {X Y} (r : result X) (f : X -> result Y) y : (let* x := r in f x) = Ok y <-> exists x, r = Ok x /\ f x = Ok y.
Proof. destruct r as [x|e]; cbn [rbind]; split; [intros H; exists x; auto|intros (x' & E & H); injection E as <-; exact H|discriminate|intros (x' & E & _); discriminate]. Qed.
Lemma ground_unique q F T G G' : ground_of n q F T G -> ground_of n q F T G' -> G = G'.
Proof.
  intros (A1 & A2 & (e & A3 & A4) & (P & A5 & A6) & A7) (B1 & B2 & (e' & B3 & B4) & (P' & B5 & B6) & B7). destruct G as [g1 g2 g3 g4 g5], G' as [h1 h2 h3 h4 h5]. cbn in *.
  rewrite A1 in B1. injection B1 as <-. rewrite A2 in B2. injection B2 as <-. rewrite A3 in B3. injection B3 as <-. rewrite A4 in B4. injection B4 as <-.
  unfold place in *. cbn in *. rewrite A5 in B5. injection B5 as <-. rewrite A6 in B6. injection B6 as <-. rewrite A7 in B7. injection B7 as <-. reflexivity.
Qed.
Lemma unc_answer a F o X unc u : derived a F o -> (uncertainty n o X unc = Ok u <-> heuristic n (o_model o) (o_quantile o) a F X unc u).
Proof.
  intros K. pose proof K as [Kf (E1 & E2 & E3 & E4 & E5 & E6 & E7) Kt Kp Kg _]. unfold uncertainty, heuristic. rewrite bind_ok. rewrite Kt.
  assert (P1 : forall u0 u1, (if anyf (o_fpar o) then let* s := parameter_sensitivity n o X true in let* s := the TypeError s in n_add n u0 s else Ok u0) = Ok u1 <->
    plus (some_on (f_par F)) (n_add n) (term n a (raw_par F o) (a_Yunc a) X unc) u0 u1).
  { intros u0 u1. rewrite E2. destruct (anyf (Some (f_par F))) eqn:Ea.
    - apply anyf_on in Ea. destruct (Kp Ea) as (c & z & S1 & S2 & S3). rewrite (par_eq a F o X z K Ea S3). apply (plus_on a (some_on (f_par F)) (n_add n) (raw_par F o)); [exact Ea|]. exists c, z. auto.
    - apply plus_off. apply anyf_off. exact Ea. }
  assert (P2 : forall T G, a_train a = Some T -> ground_of n (o_quantile o) F T G -> forall u0 u1, (if anyf (o_finp o) then let* s := input_sensitivity n o X unc true in let* s := the TypeError s in n_add n u0 s else Ok u0) = Ok u1 <->
    plus (some_on (f_inp F)) (n_add n) (term n a (raw_inp F G o) (a_Yunc a) X unc) u0 u1).
  { intros T G HT HG u0 u1. destruct (Kg T HT) as (G' & HG' & Hf & Hi & Hd). rewrite (ground_unique _ _ _ _ _ HG HG') in *. rewrite E3. destruct (anyf (Some (f_inp F))) eqn:Ea.
    - apply anyf_on in Ea. destruct (Hi Ea) as (c & z & S1 & S2 & S3). rewrite (inp_eq a F G' o X unc z K Hf Ea S3). apply (plus_on a (some_on (f_inp F)) (n_add n) (raw_inp F G' o)); [exact Ea|]. exists c, z. auto.
    - apply plus_off. apply anyf_off. exact Ea. }
  assert (P3 : forall T G, a_train a = Some T -> ground_of n (o_quantile o) F T G -> forall u0 u1, (if anyf (o_fdist o) then let* s := distance_sensitivity n o X true in let* s := the TypeError s in n_add_dist n u0 s else Ok u0) = Ok u1 <->
    plus (some_on (f_dist F)) (n_add_dist n) (term n a (raw_dist F G) None X unc) u0 u1).
  { intros T G HT HG u0 u1. destruct (Kg T HT) as (G' & HG' & Hf & Hi & Hd). rewrite (ground_unique _ _ _ _ _ HG HG') in *. rewrite E4. destruct (anyf (Some (f_dist F))) eqn:Ea.
    - apply anyf_on in Ea. destruct (Hd Ea) as (c & z & S1 & S2 & S3). rewrite (dist_eq a F G' o X T z K Hf) by (rewrite ?Kt; assumption). apply (plus_on a (some_on (f_dist F)) (n_add_dist n) (raw_dist F G')); [exact Ea|]. exists c, z. auto.
    - apply plus_off. apply anyf_off. exact Ea. }
  destruct (a_train a) as [T|] eqn:HT.
  - destruct (Kg T HT) as (G & HG & _). split.
    + intros ([] & H0 & H). split; [exact H0|]. apply bind_ok in H as (u0 & H1 & H). apply bind_ok in H as (u1 & H2 & H). apply bind_ok in H as (u2 & H3 & H).
      exists u0, u1. split; [exact H1|]. split; [apply P1; exact H2|]. exists G, u2. split; [exact HG|]. split; [apply (P2 T G eq_refl HG); exact H3|apply (P3 T G eq_refl HG); exact H].
    + intros (H0 & u0 & u1 & H1 & H2 & G' & u2 & HG' & H3 & H4). exists tt. split; [exact H0|]. apply bind_ok. exists u0. split; [exact H1|]. apply bind_ok. exists u1. split; [apply P1; exact H2|].
      apply bind_ok. exists u2. split; [apply (P2 T G' eq_refl HG'); exact H3|apply (P3 T G' eq_refl HG'); exact H4].
  - split.
    + intros ([] & H0 & H). split; [exact H0|]. apply bind_ok in H as (u0 & H1 & H). apply bind_ok in H as (u1 & H2 & H). injection H as <-. exists u0, u1. split; [exact H1|]. split; [apply P1; exact H2|reflexivity].
    + intros (H0 & u0 & u1 & H1 & H2 & ->). exists tt. split; [exact H0|]. apply bind_ok. exists u0. split; [exact H1|]. apply bind_ok. exists u1. split; [apply P1; exact H2|reflexivity].
Qed.
Lemma correct_answer a F o X P : derived a F o ->
  ((let* P0 := n_predict n (o_model o) X in correct n o X P0) = Ok P <-> corrected n (o_model o) a F X P).
Proof.
  intros K. pose proof K as [_ _ _ _ _ (c & C1 & C2 & C3)]. rewrite bind_ok. unfold correct, corrected. rewrite C2. destruct (mode_of c) as [| |t] eqn:M.
  - split.
    + intros (P0 & H1 & H2). injection H2 as <-. exists c, P0. rewrite M. auto.
    + intros (c' & P0 & H1 & H2 & H3). rewrite C1 in H1. injection H1 as <-. rewrite M in H3. subst P0. exists P. auto.
  - destruct C3 as (Pc & b & B1 & B2 & B3). rewrite B3. cbn [the rbind]. split.
    + intros (P0 & H1 & H2). exists c, P0. rewrite M. split; [exact C1|]. split; [exact H1|]. exists Pc, b. auto.
    + intros (c' & P0 & H1 & H2 & H3). rewrite C1 in H1. injection H1 as <-. rewrite M in H3. destruct H3 as (Pc' & b' & D1 & D2 & D3). exists P0. split; [exact H2|].
      rewrite B1 in D1. injection D1 as <-. rewrite B2 in D2. injection D2 as <-. exact D3.
  - destruct C3 as (Pc & v & b & B1 & B2 & B3 & B4 & B5). rewrite B4, B5. cbn [the rbind]. split.
    + intros (P0 & H1 & H2). exists c, P0. rewrite M. split; [exact C1|]. split; [exact H1|]. exists Pc, v, b. auto.
    + intros (c' & P0 & H1 & H2 & H3). rewrite C1 in H1. injection H1 as <-. rewrite M in H3. destruct H3 as (Pc' & v' & b' & D1 & D2 & D3 & D4). exists P0. split; [exact H2|].
      rewrite B1 in D1. injection D1 as <-. rewrite B2 in D2. injection D2 as <-. rewrite B3 in D3. injection D3 as <-. exact D4.
Qed.

(** ** The attributes after a calibration *)
Ltac run H := unfold bind, look, lift, store, ret in H; cbn [fst snd] in H.
Definition early (a : cargs D V) (F : facts) (o : obj) : Prop := facts_of n (o_model o) a F /\ from_facts F o /\ o_train o = a_train a /\ from_bias a F o.
Lemma early_ok a o o1 o2 o3 P : stage_arguments n a o = (o1, Ok tt) -> stage_bias n a o1 = (o2, Ok P) -> stage_counts n a o2 = (o3, Ok tt) ->
  (exists F, early a F o3) /\ o_model o3 = o_model o /\ o_quantile o3 = o_quantile o /\ (forall P0, P = Some P0 -> n_predict n (o_model o) (a_X a) = Ok P0).
Proof.
  intros H1 H2 H3. unfold stage_arguments in H1. run H1.
  destruct (n_checks n _ _); [|discriminate]. destruct (match a_cont a with Some _ => _ | None => _ end) as [cont|] eqn:Ec; [|discriminate].
  destruct (check_corrections _ _ _) as [c|] eqn:Es; [|discriminate]. destruct (fill (a_par a) _) as [fp|] eqn:Ep; [|discriminate]. destruct (fill (a_inp a) _) as [fi|] eqn:Ei; [|discriminate].
  destruct (fill (a_dist a) _) as [fd|] eqn:Ed; [|discriminate]. injection H1 as <-. cbn [set_cont set_sbc set_fpar set_finp o_model] in Ep, Ei, Ed.
  assert (HC : match a_cont a with Some t => cont = t | None => trel (fun _ c => c = true) (a_X a) cont end).
  { destruct (a_cont a) as [t|].
    - destruct (TrainArgs.same_struct t (a_X a)); [|discriminate]. injection Ec as <-. reflexivity.
    - destruct (jm_trel (fun _ : D => Ok true) (fun x y => x = y) (fun (_ : D) c => c = true) (a_X a)) with (u := a_X a) as (v & E & K).
      { intros. eexists. split; reflexivity. }
      { apply trel_refl. }
      rewrite E in Ec. injection Ec as <-. exact K. }
  assert (HB : exists z w, o2 = set_strata z (set_biases w (set_fdist (Some fd) (set_finp (Some fi) (set_fpar (Some fp) (set_sbc (Some c) (set_cont (Some cont) o)))))) /\
     (forall P0, P = Some P0 -> n_predict n (o_model o) (a_X a) = Ok P0) /\
     match mode_of c with
     | MNone => True
     | MGlobal => exists Pc b, n_predict n (o_model o) (a_X a) = Ok Pc /\ n_global_fit n (a_X a) (a_Y a) Pc = Ok b /\ w = Some b
     | MStrata t => exists Pc u b, n_predict n (o_model o) (a_X a) = Ok Pc /\ n_strata n t (a_X a) = Ok u /\ n_strata_fit n u t (a_X a) (a_Y a) Pc = Ok b /\ w = Some b /\ z = Some u
     end).
  { unfold stage_bias in H2. run H2. unfold mode_o in H2. cbn [set_fdist set_finp set_fpar set_sbc set_cont o_sbc] in H2. destruct (mode_of c) as [| |t].
    - injection H2 as <- <-. exists (o_strata o), (o_biases o). split; [destruct o; reflexivity|]. split; [discriminate|exact I].
    - run H2. cbn [set_fdist set_finp set_fpar set_sbc set_cont o_model] in H2. destruct (n_predict n (o_model o) _) as [Pc|] eqn:EP; [|discriminate]. destruct (n_global_fit n _ _ _) as [b|] eqn:Eb; [|discriminate]. injection H2 as <- <-.
      exists (o_strata o), (Some b). split; [destruct o; reflexivity|]. split; [intros P0 E0; injection E0 as <-; reflexivity|]. exists Pc, b. auto.
    - run H2. destruct (n_strata n _ _) as [u|] eqn:Eu; [|discriminate]. cbn [set_strata set_fdist set_finp set_fpar set_sbc set_cont o_model] in H2. destruct (n_predict n (o_model o) _) as [Pc|] eqn:EP; [|discriminate]. destruct (n_strata_fit n _ _ _ _ _) as [b|] eqn:Eb; [|discriminate]. injection H2 as <- <-.
      exists (Some u), (Some b). split; [destruct o; reflexivity|]. split; [intros P0 E0; injection E0 as <-; reflexivity|]. exists Pc, u, b. auto. }
  destruct HB as (z & w & -> & HP & HM). unfold stage_counts in H3. run H3. unfold conto, finpo, fparo, fdisto in H3.
  cbn [set_strata set_biases set_fdist set_finp set_fpar set_sbc set_cont set_train set_cinp set_cpar set_cdist o_model o_cont o_finp o_fpar o_fdist] in H3.
  destruct (n_count_inp n _ _ _) as [ci|] eqn:E1; [|discriminate]. destruct (n_count_par n _ _) as [cp|] eqn:E2; [|discriminate]. destruct (n_count_dist n _ _ _) as [cd|] eqn:E3; [|discriminate].
  injection H3 as <-. cbn [o_model o_quantile]. split; [|auto]. exists (mk_facts cont fp fi fd cp ci cd). split; [|split; [|split]].
  - unfold facts_of. cbn [f_cont f_par f_inp f_dist f_npar f_ninp f_ndist o_model]. repeat split; try assumption; apply fill_selects; assumption.
  - repeat split.
  - reflexivity.
  - exists c. split; [exact Es|]. split; [reflexivity|]. cbn [o_model o_biases o_strata]. exact HM.
Qed.
Definition grounded (a : cargs D V) (F : facts) (o : obj) : Prop :=
  forall T, a_train a = Some T -> exists G, ground_of n (o_quantile o) F T G /\ from_ground G o.
Lemma distance_ok a F o o' : from_facts F o -> stage_distance n a o = (o', Ok tt) ->
  (exists i r e k c, o' = set_cutoff c (set_kd k (set_enc e (set_range r (set_iqr i o))))) /\ grounded a F o'.
Proof.
  intros (E1 & E2 & E3 & E4 & _) H. unfold stage_distance in H. destruct (a_train a) as [T|] eqn:Et.
  - run H. unfold conto, finpo, fdisto, prepare in H. cbn [set_iqr set_range set_enc set_kd o_cont o_finp o_fdist o_enc o_range o_quantile] in H. rewrite E1, E3, E4 in H.
    destruct (n_iqr n _ _ _) as [i|] eqn:H1; [|discriminate]. destruct (n_range n _ _) as [r|] eqn:H2; [|discriminate]. destruct (encoder _ _) as [e0|] eqn:H3; [|discriminate]. destruct (n_fit n _ _) as [e|] eqn:H4; [|discriminate].
    cbn [the rbind] in H. destruct (let* E := _ in _) as [P|] eqn:H5; [|discriminate]. destruct (n_tree n _) as [k|] eqn:H6; [|discriminate]. destruct (n_cutoff n _ _) as [c|] eqn:H7; [|discriminate]. injection H as <-.
    split; [exists (Some i), (Some r), (Some e), (Some k), (Some c); destruct o; reflexivity|]. intros T' HT'. rewrite Et in HT'. injection HT' as <-. exists (mk_ground i r e k c). split; [|repeat split].
    split; [exact H1|]. split; [exact H2|]. split; [exists e0; auto|]. split; [|exact H7]. exists P. split; [exact H5|exact H6].
  - unfold ret in H. injection H as <-. split; [exists (o_iqr o), (o_range o), (o_enc o), (o_kd o), (o_cutoff o); destruct o; reflexivity|]. intros T' HT'. congruence.
Qed.
Lemma par_raw F o X : from_facts F o -> some_on (f_par F) -> parameter_sensitivity n o X false = let* r := raw_par F o X None in Ok (Some r).
Proof.
  intros (E1 & E2 & E3 & E4 & E5 & E6 & E7) On. unfold parameter_sensitivity. rewrite E2, E5, (on_truthy _ (proj2 (anyf_on _) On)). reflexivity.
Qed.
Lemma inp_raw F G o X unc : from_facts F o -> from_ground G o -> some_on (f_inp F) -> input_sensitivity n o X unc false = let* r := raw_inp F G o X unc in Ok (Some r).
Proof.
  intros (E1 & E2 & E3 & E4 & E5 & E6 & E7) (G1 & _) On. unfold input_sensitivity. rewrite E3, E6, G1, E1, (on_truthy _ (proj2 (anyf_on _) On)). reflexivity.
Qed.
Lemma dist_raw F G o X T : from_facts F o -> from_ground G o -> o_train o = Some T -> some_on (f_dist F) -> distance_sensitivity n o X false = let* r := raw_dist F G X None in Ok (Some r).
Proof.
  intros (E1 & E2 & E3 & E4 & E5 & E6 & E7) (G1 & G2 & G3 & G4 & G5) Et On. unfold distance_sensitivity, prepare.
  rewrite E4, E7, G2, G3, G4, G5, Et, (proj2 (anyf_on _) On). cbn [negb andb the rbind]. unfold place. destruct (apply (n_kern n) false (g_enc G) X); [|reflexivity]. cbn [rbind].
  destruct (n_flat n _ _ _); [|reflexivity]. cbn [rbind]. destruct (n_sdist n _ _ _ _); reflexivity.
Qed.
Lemma norms_ok a F o o' : early a F o -> grounded a F o -> stage_norms n a o = (o', Ok tt) -> derived a F o'.
Proof.
  intros (K1 & K2 & K3 & K4) KG H. unfold stage_norms in H. run H. pose proof K2 as (E1 & E2 & E3 & E4 & E5 & E6 & E7).
  assert (H1 : exists x, (if anyf (o_fpar o)
        then bind (look (fun o => parameter_sensitivity n o (a_X a) false)) (fun s => bind (lift (let* s := the TypeError s in n_norm n (a_Yunc a) s)) (fun w => store (set_npar (Some w))))
        else ret tt) o = (set_npar x o, Ok tt) /\ (some_on (f_par F) -> size a (raw_par F o) (a_Yunc a) x)).
  { rewrite E2 in *. destruct (anyf (Some (f_par F))) eqn:Ea.
    - apply anyf_on in Ea. run H. rewrite (par_raw F o _ K2 Ea) in H. unfold bind, look, lift, store, ret. rewrite (par_raw F o _ K2 Ea).
      destruct (n_spar n _ _ _ _) as [r|] eqn:Er; [|discriminate]. cbn [rbind the] in *. destruct (n_norm n _ r) as [w|] eqn:Ew; [|discriminate]. exists (Some w). split; [reflexivity|]. intros _. exists r, w. auto.
    - exists (o_npar o). split; [destruct o; reflexivity|]. intros On. apply anyf_off in Ea. destruct (Ea On). }
  destruct H1 as (x & H1 & HP). change (if anyf (o_fpar o) then _ else _) with (if anyf (o_fpar o)
        then bind (look (fun o => parameter_sensitivity n o (a_X a) false)) (fun s => bind (lift (let* s := the TypeError s in n_norm n (a_Yunc a) s)) (fun w => store (set_npar (Some w))))
        else ret tt) in H. rewrite H1 in H.
  set (o1 := set_npar x o) in *.
  assert (D0 : a_train a = None -> o' = o1 -> derived a F o').
  { intros Et ->. constructor; [exact K1|exact K2|exact K3|exact HP| |exact K4]. intros T HT. congruence. }
  destruct (a_train a) as [T|] eqn:Et; [|unfold ret in H; injection H as <-; exact (D0 eq_refl eq_refl)]. clear D0.
  destruct (KG T Et) as (G & HG & HF).
  assert (H2 : exists y, (if anyf (o_finp o1)
        then bind (look (fun o => input_sensitivity n o (a_X a) (a_Xunc a) false)) (fun s => bind (lift (let* s := the TypeError s in n_norm n (a_Yunc a) s)) (fun w => store (set_ninp (Some w))))
        else ret tt) o1 = (set_ninp y o1, Ok tt) /\ (some_on (f_inp F) -> size a (raw_inp F G o) (a_Yunc a) y)).
  { replace (o_finp o1) with (Some (f_inp F)) in * by (symmetry; exact E3). destruct (anyf (Some (f_inp F))) eqn:Ea.
    - apply anyf_on in Ea. run H. rewrite (inp_raw F G o1 _ _ K2 HF Ea) in H. unfold bind, look, lift, store, ret. rewrite (inp_raw F G o1 _ _ K2 HF Ea).
      destruct (n_sinp n _ _ _ _ _ _ _) as [r|] eqn:Er; [|discriminate]. cbn [rbind the] in *. destruct (n_norm n _ r) as [w|] eqn:Ew; [|discriminate]. exists (Some w). split; [reflexivity|]. intros _. exists r, w. auto.
    - exists (o_ninp o1). split; [destruct o; reflexivity|]. intros On. apply anyf_off in Ea. destruct (Ea On). }
  destruct H2 as (y & H2 & HI). run H. change (if anyf (o_finp o1) then _ else _) with (if anyf (o_finp o1)
        then bind (look (fun o => input_sensitivity n o (a_X a) (a_Xunc a) false)) (fun s => bind (lift (let* s := the TypeError s in n_norm n (a_Yunc a) s)) (fun w => store (set_ninp (Some w))))
        else ret tt) in H. rewrite H2 in H.
  set (o2 := set_ninp y o1) in *. destruct (distance_sensitivity n o2 (a_X a) false) as [s|] eqn:Es; [|discriminate].
  destruct (match s with Some _ => _ | None => _ end) as [z|] eqn:Ez; [|discriminate]. injection H as <-.
  constructor; [exact K1|exact K2|rewrite <- Et in K3; exact K3|exact HP| |exact K4].
  intros T' HT'. rewrite Et in HT'. injection HT' as <-. exists G. split; [exact HG|]. split; [exact HF|]. split; [exact HI|]. intros On.
  rewrite (dist_raw F G o2 _ T K2 HF K3 On) in Es. apply bind_ok in Es as (r & Er & Es). injection Es as <-. apply bind_ok in Ez as (w & Ew & Ez). injection Ez as <-. exists r, w. auto.
Qed.
Lemma scores_ok a P F o o' : derived a F o -> (forall P0, P = Some P0 -> n_predict n (o_model o) (a_X a) = Ok P0) -> stage_scores n a P o = (o', Ok tt) ->
  exists s, o' = set_scores (Some s) o /\ score n (o_model o) (o_quantile o) a F s.
Proof.
  intros K HP H. unfold stage_scores in H. run H. destruct (uncertainty n o _ _) as [u|] eqn:Eu; [|discriminate]. destruct (match P with Some _ => _ | None => _ end) as [P0|] eqn:EP; [|discriminate].
  destruct (correct n o _ _) as [P1|] eqn:Ec; [|discriminate]. destruct (n_scores n _ _ _ _) as [s|] eqn:Es; [|discriminate]. injection H as <-. exists s. split; [reflexivity|].
  exists P1, u. split; [|split; [apply unc_answer; assumption|exact Es]]. apply correct_answer; [exact K|].
  assert (E0 : n_predict n (o_model o) (a_X a) = Ok P0). { destruct P as [Q|]; [injection EP as ->; apply HP; reflexivity|exact EP]. }
  rewrite E0. exact Ec.
Qed.
Lemma derived_scores a F o v : derived a F o -> derived a F (set_scores v o).
Proof. intros [A1 A2 A3 A4 A5 A6]. constructor; assumption. Qed.
Theorem calibrate_derived a o o' : calibrate n a o = (o', Ok tt) ->
  exists F, derived a F o' /\ o_model o' = o_model o /\ o_quantile o' = o_quantile o /\ exists s, o_scores o' = Some s /\ score n (o_model o') (o_quantile o') a F s.
Proof.
  intros H. destruct (calibrate_stages n a o o' H) as (o1 & o2 & P & o3 & o4 & o5 & S1 & S2 & S3 & S4 & S5 & S6).
  destruct (early_ok a o o1 o2 o3 P S1 S2 S3) as ((F & K1 & K2 & K3 & K4) & M3 & Q3 & HP).
  destruct (distance_ok a F o3 o4 K2 S4) as ((i & r & e & k & c & E4) & KG).
  assert (M4 : o_model o4 = o_model o3) by (rewrite E4; reflexivity). assert (Q4 : o_quantile o4 = o_quantile o3) by (rewrite E4; reflexivity).
  assert (K : early a F o4) by (subst o4; exact (conj K1 (conj K2 (conj K3 K4)))).
  pose proof (norms_ok a F o4 o5 K KG S5) as D5.
  assert (M5 : o_model o5 = o_model o4 /\ o_quantile o5 = o_quantile o4).
  { clear -S5. unfold stage_norms in S5. run S5. destruct (anyf (o_fpar o4)); run S5.
    - destruct (parameter_sensitivity n _ _ _); [|discriminate]. destruct (let* s := _ in _); [|discriminate]. destruct (a_train a); [|injection S5 as <-; split; reflexivity].
      destruct (anyf _).
      + destruct (input_sensitivity n _ _ _ _); [|discriminate]. destruct (let* s := _ in _); [|discriminate]. destruct (distance_sensitivity n _ _ _) as [s|]; [|discriminate]. destruct (match s with Some _ => _ | None => _ end); [|discriminate]. injection S5 as <-. split; reflexivity.
      + destruct (distance_sensitivity n _ _ _) as [s|]; [|discriminate]. destruct (match s with Some _ => _ | None => _ end); [|discriminate]. injection S5 as <-. split; reflexivity.
    - destruct (a_train a); [|injection S5 as <-; split; reflexivity].
      destruct (anyf _).
      + destruct (input_sensitivity n _ _ _ _); [|discriminate]. destruct (let* s := _ in _); [|discriminate]. destruct (distance_sensitivity n _ _ _) as [s|]; [|discriminate]. destruct (match s with Some _ => _ | None => _ end); [|discriminate]. injection S5 as <-. split; reflexivity.
      + destruct (distance_sensitivity n _ _ _) as [s|]; [|discriminate]. destruct (match s with Some _ => _ | None => _ end); [|discriminate]. injection S5 as <-. split; reflexivity. }
  destruct M5 as (M5 & Q5). destruct (scores_ok a P F o5 o' D5) as (s & -> & HS).
  { intros P0 E0. rewrite M5, M4, M3. apply HP. exact E0. }
  { exact S6. }
  exists F. split; [apply derived_scores; exact D5|]. cbn [o_model o_quantile o_scores set_scores]. split; [congruence|]. split; [congruence|]. exists s. split; [reflexivity|exact HS].
Qed.
End Proofs.
