(** Properties C92, C93 and C94: conformal models as objects. *)
From Coq Require Import Bool.
From Verif Require Import Base BaseLemmas TreeUtil TreeSpec NonSeqSpec TrainArgs Modules ModulesSpec Serial SerialSpec SerialProofs Scaler ScalerProofs Strata ScalerFile ScalerFileSpec
  ConfState ConfStateSpec ConfStateProofs ConfStateMain Props_Serial.
Local Open Scope string_scope.
Local Open Scope list_scope.
Local Open Scope nat_scope.

Section Props.
Context {N D V A : Type} (n : numerics N D V A).
Notation obj := (cobj N D V A).

(** C92: whatever is asked of a copy, and in whatever order, the answers are
    those of the original. *)
Theorem C92_memory ofnat tower ready (o : obj) : fair n ofnat -> history n o -> good tower ready (o_model o) ->
  exists o', conf_copy n tower ready o = Ok o' /\ forall qs, asks n qs o' = asks n qs o.
Proof.
  intros F H G. destruct (deser_ok n ofnat F tower ready o (o_name o) (history_consistent n ofnat F o H) G) as (o' & E & K & Nm).
  exists o'. split.
  - unfold conf_copy. unfold conf_ser in *. destruct (save tower ready (o_model o)) as [d|]; [|discriminate]. cbn [rbind d_model d_enc d_rest] in *. exact E.
  - intros qs. apply (asks_alike n ofnat F); [right; symmetry; exact Nm|exact K].
Qed.
(** ... also through a file, but for the name. *)
Theorem C92_file ofnat tower ready (o : obj) : fair n ofnat -> history n o -> good tower ready (o_model o) ->
  exists o', conf_file n tower ready o = Ok o' /\ forall qs, Forall (@not_name D A) qs -> asks n qs o' = asks n qs o.
Proof.
  intros F H G. destruct (deser_ok n ofnat F tower ready o (filed (o_name o)) (history_consistent n ofnat F o H) G) as (o' & E & K & Nm).
  exists o'. split.
  - unfold conf_file. unfold conf_ser in *. destruct (save tower ready (o_model o)) as [d|]; [|discriminate]. cbn [rbind d_model d_enc d_rest] in *. exact E.
  - intros qs Q. apply (asks_alike n ofnat F); [left; exact Q|exact K].
Qed.

(** C93: a calibration that is refused because of the shapes or structures of the
    data changes nothing, *)
Theorem C93_shapes (o : obj) a e : n_checks n (o_model o) a = Err e -> calibrate n a o = (o, Err e).
Proof. intros E. unfold calibrate, stage_arguments, bind, look. rewrite E. reflexivity. Qed.
Theorem C93_mask (o : obj) a t : n_checks n (o_model o) a = Ok tt -> a_cont a = Some t -> TrainArgs.same_struct t (a_X a) = false -> calibrate n a o = (o, Err ValueError).
Proof. intros E Ec Es. unfold calibrate, stage_arguments, bind, look, lift. rewrite E, Ec, Es. reflexivity. Qed.
(** ... but one that is refused because of the structure of the flags for the
    parameters has already switched the bias correction, and without a bias no
    prediction is possible until a calibration succeeds. *)
Theorem C93_flags_break (o : obj) a t : n_checks n (o_model o) a = Ok tt -> a_cont a = None -> a_sbc a = Some (CFlag true) ->
  a_par a = FTree t -> TrainArgs.same_struct t (n_params n (o_model o)) = false -> o_biases o = None ->
  exists o', calibrate n a o = (o', Err ValueError) /\ forall X unc l, exists e, snd (ask n (QCall X unc l) o') = Err e.
Proof.
  intros E Ec Es Ep Ef Eb. destruct (jm_trel (fun _ : D => Ok true) (fun _ _ => True) (fun (_ : D) (_ : bool) => True) (a_X a)) with (u := a_X a) as (c & Ej & _).
  { intros. eexists. split; [reflexivity|exact I]. }
  { apply (trel_impl (fun x y => x = y)); auto. apply trel_refl. }
  eexists. split.
  - unfold calibrate, stage_arguments, bind, look, lift, store. rewrite E, Ec, Ej. rewrite Es. cbn [check_corrections set_cont set_sbc o_model]. rewrite Ep. unfold fill. rewrite Ef. reflexivity.
  - intros X unc l. rewrite ask_call. unfold parts. cbn [set_sbc set_cont o_model o_scores].
    destruct (negb (forallb _ _)); [eexists; reflexivity|]. destruct (negb _); [eexists; reflexivity|]. destruct (the _ _); [|eexists; reflexivity]. cbn [rbind].
    destruct (n_predict n _ _); [|eexists; reflexivity]. cbn [rbind]. unfold correct. cbn [set_sbc set_cont o_sbc mode_of o_biases]. rewrite Eb. eexists. reflexivity.
Qed.

(** C94: after a calibration, the scores, the uncertainties, the distances and
    the predictions with their intervals are those of a new object that is
    calibrated with the same arguments (which then succeeds as well), if no
    quantiles were asked for before. *)
Theorem C94_fresh a (o o' : obj) : calibrate n a o = (o', Ok tt) ->
  exists p', calibrate n a (conf_new (o_model o) (o_alpha o) (o_quantile o) (o_name o)) = (p', Ok tt) /\
    o_scores p' = o_scores o' /\
    (forall X unc, snd (ask n (QUncertainty X unc) p') = snd (ask n (QUncertainty X unc) o')) /\
    (forall X b, snd (ask n (QDistance X b) p') = snd (ask n (QDistance X b) o')) /\
    (o_qhats o = [] -> forall X unc l, snd (ask n (QCall X unc l) p') = snd (ask n (QCall X unc l) o')).
Proof.
  intros H. destruct (recalibrate n a o (conf_new (o_model o) (o_alpha o) (o_quantile o) (o_name o)) o' eq_refl eq_refl H) as (p' & E & K). exists p'. split; [exact E|].
  split; [symmetry; apply K|]. split; [|split].
  - intros X unc. cbn. rewrite (unc_ag n o' p') by apply K. reflexivity.
  - intros X b. cbn. rewrite (dist_ag n o' p'); [reflexivity|apply K|]. intros _ T. apply K. exact T.
  - intros EQ X unc l. pose proof (calibrate_keeps n a o) as (Q1 & Q2). pose proof (calibrate_keeps n a (conf_new (o_model o) (o_alpha o) (o_quantile o) (o_name o))) as (Q3 & Q4).
    rewrite H in Q1, Q2. rewrite E in Q3, Q4. cbn [fst conf_new o_alpha o_qhats] in *. apply call_ag; [exact K|congruence|congruence].
Qed.
(** Whether a calibration succeeds does not depend on the previous ones either. *)
Theorem C94_success a (o p : obj) : o_model o = o_model p -> o_quantile o = o_quantile p -> (snd (calibrate n a o) = Ok tt <-> snd (calibrate n a p) = Ok tt).
Proof.
  intros E1 E2. split; intros H.
  - destruct (calibrate n a o) as [o' r] eqn:E. cbn in H. subst r. destruct (recalibrate n a o p o' E1 E2 E) as (p' & -> & _). reflexivity.
  - destruct (calibrate n a p) as [p' r] eqn:E. cbn in H. subst r. destruct (recalibrate n a p o p' (eq_sym E1) (eq_sym E2) E) as (o' & -> & _). reflexivity.
Qed.

(** C44 for the whole object: once a level was asked for, its quantile never
    changes again, whatever calibrations follow. *)
Theorem C44_quantiles_stay (o o' : obj) a q : (forall b c, n_aeq n b c = true <-> b = c) ->
  snd (ask n (QQuantile (Some [a])) o) = Ok (AQuantiles [q]) -> later n (fst (ask n (QQuantile (Some [a])) o)) o' ->
  snd (ask n (QQuantile (Some [a])) o') = Ok (AQuantiles [q]).
Proof. intros EQ. exact (quantiles_stay n EQ o o' a q). Qed.
End Props.

(* ------------------------------------------------------------------ *)
(** Examples: one number for everything; None is a number that is not finite.
    The model predicts its input, the range of the training data is their number,
    and distances are differences of the scaled numbers. *)
Definition num1 (X : tree nat) : nat := match X with Leaf x => x | _ => 0 end.
Definition fin (v : option nat) : nat := match v with Some x => x | None => 0 end.
Definition target (X : tree nat) (Y : option (option nat)) : nat := match Y with Some y => fin y | None => num1 X end.
Definition toy : numerics nat nat (option nat) nat := {|
  n_checks := fun _ a => match a_X a with Leaf _ => Ok tt | _ => Err ValueError end;
  n_params := fun _ => Tup [Leaf tt; Leaf tt];
  n_inputs := fun _ => Leaf tt;
  n_predict := fun _ X => Ok (Some (num1 X));
  n_strata := fun _ X => Ok (Some (num1 X));
  n_strata_fit := fun _ _ X Y P => Ok (Some (target X Y - fin P));
  n_global_fit := fun X Y P => Ok (Some (target X Y - fin P));
  n_count_inp := fun _ _ _ => Ok 1;
  n_count_par := fun _ _ => Ok 2;
  n_count_dist := fun _ _ _ => Ok 1;
  n_iqr := fun T _ _ => Ok (Some (num1 T));
  n_range := fun T _ => Ok (Some (num1 T));
  n_fit := fun e T => match e with
                      | Mixed NoneT => Ok (Mixed NoneT)
                      | Mixed (Leaf _) => Ok (Mixed (Leaf (OneHot (Leaf (AArr (ScalerFile.mk_arr [1; 1] [num1 T]))) (shape_tuple [1]))))
                      | _ => Err ValueError
                      end;
  n_kern := fun c _ _ x _ => Ok x;
  n_flat := fun E r _ => Ok (if fin r =? 0 then None else Some (num1 E * 10 / fin r));
  n_tree := fun P => match P with Some x => Ok (Some x) | None => Err ValueError end;
  n_cutoff := fun k q => Ok (Some q);
  n_spar := fun _ _ c X => Ok (Some (num1 X));
  n_sinp := fun _ i _ _ _ X _ => match i with Some i => Ok (Some (num1 X + fin i)) | None => Err ValueError end;
  n_sdist := fun k _ _ P => Ok (Some (fin P - fin k + (fin k - fin P)));
  n_norm := fun _ s => Ok s;
  n_div := fun s w => if fin w =? 0 then Ok (Some 0) else Ok (Some (fin s / fin w));
  n_hchecks := fun _ _ _ => Ok tt;
  n_zeros := fun _ _ => Ok (Some 0);
  n_add := fun u s => Ok (Some (fin u + fin s));
  n_add_dist := fun u s => Ok (Some (fin u + fin s));
  n_bias_strata := fun P _ b _ _ => Ok (Some (fin P + fin b));
  n_bias_global := fun P b => Ok (Some (fin P + fin b));
  n_scores := fun X Y P u => Ok (Some (target X Y - fin P));
  n_ccheck := fun _ X => match X with Leaf _ => true | _ => false end;
  n_level := fun a => 1 <=? a;
  n_aeq := Nat.eqb;
  n_qhat := fun s a => Ok (Some (fin s * a));
  n_bounds := fun P q u => Ok (Some (fin P - fin q * fin u), Some (fin P + fin q * fin u));
  n_mname := fun _ => "net" |}.
Lemma toy_fair : fair toy (fun k => k).
Proof.
  split; [|split].
  - intros m m' _. repeat split.
  - intros e T e'. cbn. destruct e as [| | | |t]; try discriminate. destruct t; try discriminate; intros H; injection H as <-; (split; [|reflexivity]).
    + constructor; [constructor|]. intros s0 Hs. inversion Hs; subst. repeat constructor.
    + constructor; [constructor|]. intros s0 Hs. inversion Hs.
  - intros c inv ps ps' x vs vs' _ _. reflexivity.
Qed.
(** Calibration data 3 with target 5, training data T. *)
Definition args (T : option (tree nat)) (cont : bool) (sbc : option corrections) (par : flags) : cargs nat (option nat) :=
  mk_cargs (Leaf 3) (Some (Some 5)) None None T par (FAll true) (FAll true) (Some (Leaf cont)) sbc.
Definition start : cobj nat nat (option nat) nat := conf_new ex_model 1 1 (PStr "conf").
Definition calibrated (T : option (tree nat)) (cont : bool) := fst (calibrate toy (args T cont None (FAll true)) start).
Definition q1 : query := @QCall nat nat (Leaf 7) None None.
Example C92_ex cont : history toy (calibrated (Some (Leaf 4)) cont) /\ snd (ask toy q1 (calibrated (Some (Leaf 4)) cont)) = Ok (ACall (Some 7) [(Some 0, Some 17)]) /\
  forall tower ready, good tower ready (o_model (calibrated (Some (Leaf 4)) cont)).
Proof.
  split; [|split].
  - apply (h_calibrate toy start (args (Some (Leaf 4)) cont None (FAll true))); [apply h_new|]. destruct cont; vm_compute; reflexivity.
  - destruct cont; vm_compute; reflexivity.
  - intros tower ready. replace (o_model _) with ex_model by (destruct cont; vm_compute; reflexivity). apply C36_ex.
Qed.

(** The name of a loaded model is an array. *)
Definition C92_file_always : Prop := forall (o o' : cobj nat nat (option nat) nat) tower ready, history toy o -> good tower ready (o_model o) ->
  conf_file toy tower ready o = Ok o' -> forall qs, asks toy qs o' = asks toy qs o.
Theorem C92_name_refuted : exists (o : cobj nat nat (option nat) nat), history toy o /\ forall tower ready, good tower ready (o_model o) /\
  exists o', conf_file toy tower ready o = Ok o' /\ asks toy [QName] o = [Ok (AName (IsStr "conf"))] /\ asks toy [QName] o' = [Ok (AName (IsArray "conf"))].
Proof.
  exists start. split; [constructor|]. intros tower ready. assert (G : good tower ready (o_model start)) by apply C36_ex. split; [exact G|].
  destruct (deser_ok toy (fun k => k) toy_fair tower ready start (filed (o_name start)) (history_consistent toy _ toy_fair start (h_new toy ex_model 1 1 (PStr "conf"))) G) as (o' & E & K & Nm).
  exists o'. split; [unfold conf_file; unfold conf_ser in *; destruct (save tower ready (o_model start)) as [d|]; [exact E|discriminate]|]. split; [vm_compute; reflexivity|].
  cbn [asks ask]. unfold look, name. rewrite Nm. reflexivity.
Qed.
(** After a failed calibration the object may still answer, but its copy cannot
    be loaded: training data that do not vary were stored before they were found
    to be unusable. *)
Definition broken : cobj nat nat (option nat) nat := fst (calibrate toy (args (Some (Leaf 0)) true None (FAll true)) (calibrated (Some (Leaf 4)) true)).
Theorem C92_failed_calibration_refuted : exists (o : cobj nat nat (option nat) nat), any_history toy o /\
  (exists X r, snd (ask toy (QCall X None None) o) = Ok r) /\ forall tower ready, good tower ready (o_model o) /\ conf_copy toy tower ready o = Err ValueError.
Proof.
  exists broken. split; [|split].
  - apply g_calibrate. apply g_calibrate. apply g_new.
  - exists (Leaf 7). eexists. vm_compute. reflexivity.
  - intros tower ready. assert (G : good tower ready ex_model) by apply C36_ex. split; [exact G|].
    destruct (copies_model tower ready _ G) as (s & m' & Es & El & _). unfold conf_copy, conf_ser. change (o_model broken) with ex_model. rewrite Es. cbn [rbind]. unfold conf_deser. cbn [d_model]. rewrite El. reflexivity.
Qed.

(** C93 in general is false of the code: a refused calibration can make a working
    model unusable, *)
Definition C93_always : Prop := forall (o o' : cobj nat nat (option nat) nat) a e, history toy o -> calibrate toy a o = (o', Err e) ->
  forall q, snd (ask toy q o') = snd (ask toy q o).
Theorem C93_refuted : exists (o o' : cobj nat nat (option nat) nat) a e q r, history toy o /\ snd (ask toy q o) = Ok r /\
  calibrate toy a o = (o', Err e) /\ snd (ask toy q o') = Err ValueError.
Proof.
  exists (calibrated (Some (Leaf 4)) true). eexists. exists (args (Some (Leaf 4)) true (Some (CFlag true)) (FTree (Leaf true))). eexists. exists q1. eexists.
  split; [apply (C92_ex true)|]. split; [vm_compute; reflexivity|]. split; vm_compute; reflexivity.
Qed.
(** ... or change its predictions: new scales with the old k-d tree and scores. *)
Theorem C93_changes_refuted : exists (o o' : cobj nat nat (option nat) nat) a e q r r', history toy o /\ snd (ask toy q o) = Ok r /\
  calibrate toy a o = (o', Err e) /\ snd (ask toy q o') = Ok r' /\ r <> r'.
Proof.
  exists (calibrated (Some (Leaf 4)) true). eexists. exists (args (Some (Leaf 0)) true None (FAll true)). eexists. exists q1. eexists. eexists.
  split; [apply (C92_ex true)|]. split; [vm_compute; reflexivity|]. split; [vm_compute; reflexivity|]. split; [vm_compute; reflexivity|]. discriminate.
Qed.
Example C93_ex_shapes : exists e, n_checks toy (o_model start) (mk_cargs NoneT None None None None (FAll true) (FAll true) (FAll true) None None) = Err e.
Proof. eexists. vm_compute. reflexivity. Qed.
Example C93_ex_break : let a := mk_cargs (Leaf 3) (Some (Some 5)) None None None (FTree (Leaf true)) (FAll true) (FAll true) None (Some (CFlag true)) in
  n_checks toy (o_model (calibrated None true)) a = Ok tt /\ TrainArgs.same_struct (Leaf true) (n_params toy (o_model (calibrated None true))) = false /\ o_biases (calibrated None true) = None /\
  snd (ask toy q1 (calibrated None true)) = Ok (ACall (Some 7) [(Some 3, Some 11)]).
Proof. split; [|split; [|split]]; vm_compute; reflexivity. Qed.

(** C94: a recalibration without training data, after one with. *)
Definition again : cobj nat nat (option nat) nat := fst (calibrate toy (args None true None (FAll true)) (calibrated (Some (Leaf 4)) true)).
Example C94_ex : calibrate toy (args None true None (FAll true)) (calibrated (Some (Leaf 4)) true) = (again, Ok tt) /\ o_qhats (calibrated (Some (Leaf 4)) true) = [] /\
  snd (ask toy q1 again) = Ok (ACall (Some 7) [(Some 3, Some 11)]) /\ snd (ask toy q1 (calibrated (Some (Leaf 4)) true)) <> snd (ask toy q1 again).
Proof. split; [vm_compute; reflexivity|]. split; [vm_compute; reflexivity|]. split; [vm_compute; reflexivity|]. vm_compute. discriminate. Qed.
(** The quantile of level 2, first asked for after the first calibration (scores
    2), then after another level was asked for and a calibration with a target
    further away (scores 7). *)
Definition asked2 := fst (ask toy (@QQuantile nat nat (Some [2])) (calibrated None true)).
Definition further : cargs nat (option nat) := mk_cargs (Leaf 3) (Some (Some 10)) None None None (FAll true) (FAll true) (FAll true) (Some (Leaf true)) None.
Definition recalibrated := fst (calibrate toy further (fst (ask toy (QQuantile (Some [5])) asked2))).
Example C44_ex : snd (ask toy (@QQuantile nat nat (Some [2])) (calibrated None true)) = Ok (AQuantiles [Some 4]) /\ later toy asked2 recalibrated /\
  snd (calibrate toy further (fst (ask toy (QQuantile (Some [5])) asked2))) = Ok tt /\
  snd (ask toy (QQuantile (Some [2; 3])) recalibrated) = Ok (AQuantiles [Some 4; Some 21]).
Proof. split; [vm_compute; reflexivity|]. split; [|split; vm_compute; reflexivity]. apply l_calibrate. apply l_ask. apply l_here. Qed.
(** The method for the input sensitivity alone still uses the previous training
    data, where a new object raises an exception. *)
Definition C94_always : Prop := forall a (o o' p' : cobj nat nat (option nat) nat), history toy o -> o_qhats o = [] -> calibrate toy a o = (o', Ok tt) ->
  calibrate toy a (conf_new (o_model o) (o_alpha o) (o_quantile o) (o_name o)) = (p', Ok tt) -> forall q, snd (ask toy q p') = snd (ask toy q o').
Theorem C94_input_refuted : exists a (o o' p' : cobj nat nat (option nat) nat) X r, history toy o /\ o_qhats o = [] /\ calibrate toy a o = (o', Ok tt) /\
  calibrate toy a (conf_new (o_model o) (o_alpha o) (o_quantile o) (o_name o)) = (p', Ok tt) /\
  snd (ask toy (QInput X None true) o') = Ok r /\ snd (ask toy (QInput X None true) p') = Err ValueError.
Proof.
  exists (args None true None (FAll true)), (calibrated (Some (Leaf 4)) true), again. eexists. exists (Leaf 7). eexists.
  split; [apply (C92_ex true)|]. split; [vm_compute; reflexivity|]. split; [vm_compute; reflexivity|]. split; [vm_compute; reflexivity|]. split; vm_compute; reflexivity.
Qed.

Print Assumptions C92_memory.
Print Assumptions C92_file.
Print Assumptions C93_flags_break.
Print Assumptions C93_refuted.
Print Assumptions C44_quantiles_stay.
Print Assumptions C94_fresh.
Print Assumptions C94_success.
