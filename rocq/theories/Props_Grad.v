(** Properties of gradients: C86, C87. *)
From Coq Require Import Lia FunctionalExtensionality.
From Verif Require Import Base BaseLemmas TreeUtil TreeSpec NonSeq NonSeqSpec NonSeqProofs NonSeqShape Batch BatchSpec BatchProofs NdArray Grad GradSpec GradProofs.
From Verif Require TrainArgsProofs ConcatProofs.
Local Open Scope list_scope.

Lemma single_alone {S O V} (raw : tree (list S) -> tree (arr V) -> result (tree (list O) * tree (arr V))) st x y st' :
  callable_single raw st x = Ok (y, st') <-> exists Y, raw (only x) st = Ok (Y, st') /\ sample Y 0 = tmap Some y.
Proof.
  unfold callable_single. fold (only x). split.
  - intros H. apply rbind_ok in H as ([Y s] & HY & H). apply rbind_ok in H as (y0 & Hy & H). injection H as <- <-. exists Y. split; [exact HY|]. symmetry. apply sample_at_iff. exact Hy.
  - intros (Y & HY & HS). rewrite HY. cbn [rbind]. symmetry in HS. apply sample_at_iff in HS. unfold sample_at in HS. rewrite HS. reflexivity.
Qed.
Lemma value_alone {S O V} (raw : tree (list S) -> tree (arr V) -> result (tree (list O) * tree (arr V))) st :
  alone raw st (fun x => let* r := callable_single raw st x in Ok (fst r)).
Proof.
  intros x y. split.
  - intros H. apply rbind_ok in H as ([y' s] & HY & H). injection H as <-. apply single_alone in HY as (Y & H1 & H2). eauto.
  - intros (Y & s & H1 & H2). assert (E : callable_single raw st x = Ok (y, s)) by (apply single_alone; eauto). rewrite E. reflexivity.
Qed.
Lemma leafless {A} (t u : tree A) : ~ populated t -> layout u = layout t -> u = t.
Proof.
  intros N L. destruct (zip_exists u t L) as (w & -> & ->). apply tmap_ext. intros q Hq. exfalso. apply N. exists (snd q). apply has_leaf_tmap. eauto.
Qed.
Lemma populated_layout {A B} (t : tree A) (u : tree B) : layout t = layout u -> populated t -> populated u.
Proof.
  intros L [a H]. destruct (zip_exists t u L) as (w & -> & ->). apply has_leaf_tmap in H as (q & Hq & _). exists (snd q). apply has_leaf_tmap. eauto.
Qed.
Lemma layout_sample {A} (t : tree (list A)) i x : sample t i = tmap Some x -> layout x = layout t.
Proof. intros E. rewrite <- (layout_tmap Some x), <- E. unfold sample. apply layout_tmap. Qed.

(** * C86: gradients are computed sample by sample, whatever the batch size *)
Theorem C86_input_rows {S O J V} (raw : tree (list S) -> tree (arr V) -> result (tree (list O) * tree (arr V))) jac scalar_row st X (D : tree (list J)) st' F :
  of_values jac -> alone raw st F -> populated X -> grad_input raw jac scalar_row None false X st = Ok (D, st') ->
  exists n, uniform n X /\ uniform n D /\ forall i, i < n -> exists x d, sample X i = tmap Some x /\ jac F x = Ok d /\ sample D i = tmap Some d.
Proof.
  intros V0 A P H. unfold grad_input, autobatch in H. apply rbind_ok in H as (n0 & Hn0 & H). apply grad_inv in H as (n & rs & Hn & U & L & UD & _ & _ & N). exists n. split; [exact U|]. split; [exact UD|].
  intros i Hi. destruct (N i Hi) as (x & r & Hx & Hr & _ & HD). unfold grad_single in Hr. apply rbind_ok in Hr as (q & Hq & Hr). apply rbind_ok in Hr as (d & Hd & Hr). injection Hr as <-.
  exists x, d. split; [exact Hx|]. split; [|exact HD]. refine (V0 _ F x d _ Hd). intros x' y. etransitivity; [apply value_alone|symmetry; apply A].
Qed.
Theorem C86_input_batching {S O J V} (raw : tree (list S) -> tree (arr V) -> result (tree (list O) * tree (arr V))) (jac : (tree S -> result (tree O)) -> tree S -> result (tree J))
    scalar_row inl outl gl st n max avoid X :
  ~ populated st -> (forall x, layout x = inl -> exists Y, raw (only x) st = Ok (Y, st) /\ layout Y = outl /\ uniform 1 Y) -> derives jac inl outl gl ->
  layout X = inl -> populated X -> uniform n X -> 1 <= n -> max <> Some 0 -> (avoid = true -> forall x r, has_leaf X x -> In r x -> scalar_row r = false) ->
  grad_input raw jac scalar_row max avoid X st = grad_input raw jac scalar_row None false X st.
Proof.
  intros NP HR HJ HL P U Hn Hm Ha. assert (FS : first_size X = Ok n) by (apply populated_first; assumption).
  assert (E : grad_input raw jac scalar_row None false X st = grad_callable_inputs raw jac X st) by (unfold grad_input, autobatch; rewrite FS; reflexivity).
  rewrite E. unfold grad_input.
  assert (CS : forall x, layout x = inl -> exists y, callable_single raw st x = Ok (y, st) /\ layout y = outl).
  { intros x Lx. destruct (HR x Lx) as (Y & HY & LY & UY). destruct (sample_at_ok Y 1 0 UY ltac:(lia)) as [y Hy]. apply sample_at_iff in Hy. exists y. split; [apply single_alone; eauto|]. rewrite <- LY. exact (layout_sample Y 0 y (eq_sym Hy)). }
  assert (GS : forall x, layout x = inl -> exists d, grad_single raw jac st x = Ok (d, st) /\ layout d = gl).
  { intros x Lx. destruct (CS x Lx) as (y & Hy & _). destruct (HJ (fun x' => let* r := callable_single raw st x' in Ok (fst r))) with (x := x) as (d & Hd & Ld); [|exact Lx|].
    - intros x' Lx'. destruct (CS x' Lx') as (y' & Hy' & Ly'). exists y'. rewrite Hy'. auto.
    - exists d. split; [|exact Ld]. unfold grad_single. rewrite Hy. cbn [rbind]. rewrite Hd. reflexivity. }
  apply (autobatch_samplewise_at (grad_callable_inputs raw jac) scalar_row inl gl
    (fun so => match tmapA (fun o : option S => match o with Some a => Ok a | None => Err IndexError end) so with
               | Ok x => match grad_single raw jac st x with Ok r => tmap Some (fst r) | Err _ => NoneT end | Err _ => NoneT end) n max avoid X st); auto.
  assert (PL : forall X' : tree (list S), layout X' = inl -> populated X') by (intros X' L'; apply (populated_layout X X'); congruence).
  clear HL U Hn FS E Ha P X n. intros n X Hn HL U.
  assert (SL : forall i x, sample_at X i = Ok x -> layout x = inl). { intros i x Hx. apply sample_at_iff in Hx. rewrite <- HL. exact (layout_sample X i x (eq_sym Hx)). }
  assert (PX : populated X) by (apply PL; exact HL).
  destruct (grad_total raw jac n X st Hn PX U) with (gl := gl) (sl := tmap (@shp V) st) as (D & s' & HG & LD).
  - intros i x _ Hx. destruct (GS x (SL i x Hx)) as (d & Hd & _). eauto.
  - intros i x r _ Hx Hr. destruct (GS x (SL i x Hx)) as (d & Hd & Ld). rewrite Hd in Hr. injection Hr as <-. auto.
  - exists D. destruct (grad_inv raw jac X st D s' HG) as (n' & rs & Hn' & _ & L & UD & _ & (s & Hs & Ht) & N). assert (n' = n) by (rewrite (populated_first X n PX U) in Hn'; congruence). rewrite H in UD, N. clear H Hn'.
    assert (ST : s' = st).
    { apply leafless; [exact NP|]. rewrite (tmapA_layout _ _ _ Ht). destruct rs as [|r0 rs]; [discriminate Hs|]. destruct (together_sample _ _ Hs) as [_ Ss].
      specialize (Ss 0 (snd r0) eq_refl). rewrite <- (layout_sample s 0 (snd r0) Ss). destruct (N 0 ltac:(lia)) as (x & r & Hx & Hr & Er & _). cbn in Er. injection Er as <-.
      symmetry in Hx. apply sample_at_iff in Hx. destruct (GS x (SL 0 x Hx)) as (d & Hd & _). rewrite Hd in Hr. injection Hr as <-. reflexivity. }
    subst s'. split; [exact HG|]. split; [exact LD|]. split; [exact UD|]. intros i Hi. destruct (N i Hi) as (x & r & Hx & Hr & _ & HD). rewrite HD, Hx.
    assert (Q : tmapA (fun o : option S => match o with Some a => Ok a | None => Err IndexError end) (tmap Some x) = Ok x) by (apply tmapA_iff; rewrite tmap_tmap; reflexivity).
    rewrite Q, Hr. reflexivity.
Qed.

Theorem C86_params_batching {P S O J St} (raw : P -> tree (list S) -> St -> result (tree (list O) * St)) (jac : (P -> result (tree (list O))) -> P -> result (tree (list J)))
    scalar_row inl outl gl row (g : P -> St -> tree (option S) -> tree (option O)) p n max avoid X st :
  (forall p', samplewise (raw p') inl outl (g p')) -> by_rows jac outl gl row ->
  layout X = inl -> populated X -> uniform n X -> 1 <= n -> max <> Some 0 -> (avoid = true -> forall x r, has_leaf X x -> In r x -> scalar_row r = false) ->
  exists D, grad_params raw jac scalar_row max avoid p X st = Ok (D, st) /\ uniform n D /\
    forall i, i < n -> sample D i = row (fun p' => g p' st (sample X i)) p.
Proof.
  intros HS HJ HL HP U Hn Hm Ha. unfold grad_params.
  assert (Q : samplewise_at (grad_callable_params raw jac p) inl gl (fun so => row (fun p' => g p' st so) p) st).
  { intros k Y Hk LY UY. pose (F := fun p' => match raw p' Y st with Ok r => fst r | Err _ => NoneT end).
    assert (R : forall p', raw p' Y st = Ok (F p', st) /\ layout (F p') = outl /\ uniform k (F p') /\ forall i, i < k -> sample (F p') i = g p' st (sample Y i)).
    { intros p'. destruct (HS p' k st Y Hk LY UY) as (Z & HZ & H2). unfold F. rewrite HZ. auto. }
    destruct (HJ k F) with (p := p) as (D & HD & LD & UD & SD); [intros p'; destruct (R p') as (_ & ? & ? & _); auto|].
    exists D. split.
    - unfold grad_callable_params. rewrite (proj1 (R p)). cbn [rbind].
      replace (fun p' => let* r := raw p' Y st in Ok (fst r)) with (fun p' => Ok (F p')) by (apply functional_extensionality; intros p'; rewrite (proj1 (R p')); reflexivity).
      rewrite HD. reflexivity.
    - split; [exact LD|]. split; [exact UD|]. intros i Hi. rewrite (SD i Hi). f_equal. apply functional_extensionality. intros p'. apply (R p'). exact Hi. }
  rewrite (autobatch_samplewise_at (grad_callable_params raw jac p) scalar_row inl gl _ n max avoid X st Q HL (populated_first X n HP U) U Hm Ha).
  destruct (Q n X Hn HL U) as (D & HD & _ & UD & SD). exists D. auto.
Qed.

(** * C87: the state after a gradient *)
Theorem C87_params {P S O J St} (raw : P -> tree (list S) -> St -> result (tree (list O) * St)) (jac : (P -> result (tree (list O))) -> P -> result (tree (list J)))
    scalar_row p n X st D st' :
  populated X -> uniform n X -> grad_params raw jac scalar_row None false p X st = Ok (D, st') -> exists Y, raw p X st = Ok (Y, st').
Proof.
  intros HP U H. unfold grad_params, autobatch in H. rewrite (populated_first X n HP U) in H. cbn [rbind] in H. unfold grad_callable_params in H.
  apply rbind_ok in H as ([Y s] & HY & H). apply rbind_ok in H as (d & _ & H). injection H as <- <-. eauto.
Qed.
Theorem C87_params_batches {P S O J St} (raw : P -> tree (list S) -> St -> result (tree (list O) * St)) (jac : (P -> result (tree (list O))) -> P -> result (tree (list J)))
    scalar_row p n m avoid X st D st' :
  populated X -> uniform n X -> 1 <= m -> m < n -> (avoid = true -> forall x r, has_leaf X x -> In r x -> scalar_row r = false) ->
  grad_params raw jac scalar_row (Some m) avoid p X st = Ok (D, st') ->
  exists sizes outs, list_sum sizes = n /\ Forall (fun s => 1 <= s <= m) sizes /\ threaded (raw p) (slices 0 sizes X) st outs st'.
Proof.
  intros HP U H1 H2 Ha H. apply (autobatch_iff (grad_callable_params raw jac p) scalar_row n m avoid X st D st' (populated_first X n HP U) U H1 H2 Ha) in H as (outs & HT & _).
  exists (sizes_of n m avoid). enough (Q : exists outs', threaded (raw p) (slices 0 (sizes_of n m avoid) X) st outs' st').
  { destruct Q as [o Q]. exists o. split; [exact (sizes_of_sum n m avoid H1)|]. split; [exact (sizes_of_bounds n m avoid H1)|exact Q]. }
  revert HT. generalize (slices 0 (sizes_of n m avoid) X). intros xs HT. induction HT as [s|x xs s y s1 ys s2 Hf HT IH].
  - exists []. constructor.
  - destruct IH as [o IH]. unfold grad_callable_params in Hf. apply rbind_ok in Hf as ([Y s0] & HY & Hf). apply rbind_ok in Hf as (d & _ & Hf). injection Hf as <- <-. exists (Y :: o). econstructor; eassumption.
Qed.

(** every array in the state that [grad_input] returns has one axis more than the
    array that the forward pass of any of the samples gives: the number of samples *)
Theorem C87_input_axis {S O J V} (raw : tree (list S) -> tree (arr V) -> result (tree (list O) * tree (arr V))) (jac : (tree S -> result (tree O)) -> tree S -> result (tree J))
    scalar_row X st D st' ks a n :
  populated X -> uniform n X -> grad_input raw jac scalar_row None false X st = Ok (D, st') -> walk st' ks = Some (Leaf a) ->
  1 <= n /\ forall i, i < n -> exists x Y s b, sample X i = tmap Some x /\ raw (only x) st = Ok (Y, s) /\ walk s ks = Some (Leaf b) /\ shp a = n :: shp b.
Proof.
  intros HP U H W. unfold grad_input, autobatch in H. rewrite (populated_first X n HP U) in H. cbn [rbind] in H.
  destruct (grad_states raw jac X st D st' ks a H W) as (n' & Hn & N1 & N). rewrite (populated_first X n HP U) in Hn. injection Hn as <-. split; [exact N1|].
  intros i Hi. destruct (N i Hi) as (x & [y s] & b & Hx & Hc & Hw & Ha). apply single_alone in Hc as (Y & HY & _). exists x, Y, s, b. auto.
Qed.
(** hence it is not the state the gradient was taken at, if the model keeps its state *)
Theorem C87_input_never {S O J V} (raw : tree (list S) -> tree (arr V) -> result (tree (list O) * tree (arr V))) (jac : (tree S -> result (tree O)) -> tree S -> result (tree J))
    scalar_row X st D st' ks a n :
  populated X -> uniform n X -> (forall x Y s, raw (only x) st = Ok (Y, s) -> s = st) -> walk st' ks = Some (Leaf a) ->
  grad_input raw jac scalar_row None false X st = Ok (D, st') -> st' <> st.
Proof.
  intros HP U HK W H ->.
  destruct (C87_input_axis raw jac scalar_row X st D st ks a n HP U H W) as [N1 N]. destruct (N 0 ltac:(lia)) as (x & Y & s & b & _ & HR & Hw & Hs).
  apply HK in HR. subst s. rewrite W in Hw. injection Hw as <-. apply (f_equal (@length nat)) in Hs. cbn in Hs. lia.
Qed.

(** ** Examples *)
(** rows are numbers; one counter in the state; [jac] is a finite difference *)
Definition gx_raw (X : tree (list nat)) (st : tree (arr nat)) : result (tree (list nat) * tree (arr nat)) :=
  match st with
  | Leaf a => if list_eq_dec Nat.eq_dec (shp a) [] then Ok (tmap (map (fun r => r * r)) X, st) else Err TypeError
  | _ => Err TypeError
  end.
Definition gx_free (X : tree (list nat)) (st : tree (arr nat)) : result (tree (list nat) * tree (arr nat)) := Ok (tmap (map (fun r => r * r)) X, st).
Definition gx_jac (F : tree nat -> result (tree nat)) (x : tree nat) : result (tree nat) :=
  let* y := F x in let* y' := F (tmap S x) in
  match y, y' with Leaf a, Leaf b => Ok (Leaf (b - a)) | _, _ => Err TypeError end.
Definition gx_X : tree (list nat) := Leaf [1; 2; 5].
Definition gx_st : tree (arr nat) := Leaf (mk_arr [] [7]).
Example C86_ex_values : of_values gx_jac.
Proof.
  intros F G x d H. unfold gx_jac. intros E. apply rbind_ok in E as (y & Hy & E). apply rbind_ok in E as (y' & Hy' & E). apply H in Hy. apply H in Hy'. rewrite Hy, Hy'. exact E.
Qed.
Example C86_ex_derives : derives gx_jac (Leaf tt) (Leaf tt) (Leaf tt).
Proof.
  intros F HF x Hx. destruct (HF x Hx) as (y & Hy & Ly). destruct (HF (tmap S x)) as (y' & Hy' & Ly'); [rewrite layout_tmap; exact Hx|]. unfold gx_jac. rewrite Hy, Hy'. cbn [rbind].
  destruct y; try discriminate Ly. destruct y'; try discriminate Ly'. eexists. split; reflexivity.
Qed.
Example C86_ex_data : populated gx_X /\ uniform 3 gx_X.
Proof. split; [exists [1; 2; 5]; constructor|]. intros x Hx. inversion Hx. reflexivity. Qed.
(** derivatives 3, 5, 11 of the three samples, with an empty state in batches of any size *)
Example C86_ex_input : map (fun m => grad_input gx_free gx_jac (fun _ => false) m false gx_X NoneT) [None; Some 1; Some 2; Some 3] = repeat (Ok (Leaf [3; 5; 11], NoneT)) 4.
Proof. vm_compute. reflexivity. Qed.
Example C86_ex_free x : layout x = Leaf tt -> exists Y, gx_free (only x) NoneT = Ok (Y, NoneT) /\ layout Y = Leaf tt /\ uniform 1 Y.
Proof.
  intros L. destruct x; try discriminate L. eexists. split; [reflexivity|]. split; [reflexivity|]. intros y Hy. inversion Hy. reflexivity.
Qed.
Example C87_ex_empty : ~ populated (NoneT : tree (arr nat)).
Proof. intros [a H]. inversion H. Qed.
(** with a state the counter of shape () comes back with shape (3,) *)
Example C87_ex_input : grad_input gx_raw gx_jac (fun _ => false) None false gx_X gx_st = Ok (Leaf [3; 5; 11], Leaf (mk_arr [3] [7; 7; 7])).
Proof. vm_compute. reflexivity. Qed.
(** and with more than one batch the model is run on that state *)
Example C86_ex_batched : grad_input gx_raw gx_jac (fun _ => false) (Some 2) false gx_X gx_st = Err TypeError.
Proof. vm_compute. reflexivity. Qed.

Theorem C87_input_state_refuted :
  exists (raw : tree (list nat) -> tree (arr nat) -> result (tree (list nat) * tree (arr nat))) jac X st (D : tree (list nat)) st',
    of_values jac /\ (forall X Y s s', raw X s = Ok (Y, s') -> s' = s) /\ grad_input raw jac (fun _ => false) None false X st = Ok (D, st') /\ st' <> st.
Proof.
  exists gx_raw, gx_jac, gx_X, gx_st, (Leaf [3; 5; 11]), (Leaf (mk_arr [3] [7; 7; 7])). split; [exact C86_ex_values|]. split.
  - intros X Y s s' H. unfold gx_raw in H. destruct s; try discriminate. destruct (list_eq_dec Nat.eq_dec (shp a) []); [|discriminate]. injection H as _ <-. reflexivity.
  - split; [vm_compute; reflexivity|discriminate].
Qed.
(** a state of arrays: a gradient that exists without batches fails with batches *)
Theorem C86_input_state_refuted :
  exists (raw : tree (list nat) -> tree (arr nat) -> result (tree (list nat) * tree (arr nat))) jac X st (D : tree (list nat)) st',
    of_values jac /\ (forall X Y s s', raw X s = Ok (Y, s') -> s' = s) /\ (forall X, is_ok (raw X st) = true) /\ grad_input raw jac (fun _ => false) None false X st = Ok (D, st') /\
    grad_input raw jac (fun _ => false) (Some 2) false X st = Err TypeError.
Proof.
  exists gx_raw, gx_jac, gx_X, gx_st, (Leaf [3; 5; 11]), (Leaf (mk_arr [3] [7; 7; 7])). split; [exact C86_ex_values|]. split.
  - intros X Y s s' H. unfold gx_raw in H. destruct s; try discriminate. destruct (list_eq_dec Nat.eq_dec (shp a) []); [|discriminate]. injection H as _ <-. reflexivity.
  - split; [reflexivity|]. split; vm_compute; reflexivity.
Qed.

(** parameters: [y = p * r], and a model that counts its calls *)
Definition gp_raw (p : nat) (X : tree (list nat)) (st : nat) : result (tree (list nat) * nat) := Ok (tmap (map (fun r => p * p * r)) X, st).
Definition gp_count (p : nat) (X : tree (list nat)) (st : nat) : result (tree (list nat) * nat) := Ok (tmap (map (fun r => p * p * r)) X, S st).
Definition gp_jac (F : nat -> result (tree (list nat))) (p : nat) : result (tree (list nat)) :=
  let* y := F p in let* y' := F (S p) in
  match y, y' with Leaf a, Leaf b => Ok (Leaf (map (fun q => snd q - fst q) (combine a b))) | _, _ => Err TypeError end.
Definition gp_row (F : nat -> tree (option nat)) (p : nat) : tree (option nat) :=
  match F p, F (S p) with Leaf (Some a), Leaf (Some b) => Leaf (Some (b - a)) | _, _ => NoneT end.
Example C86_ex_rows : by_rows gp_jac (Leaf tt) (Leaf tt) gp_row.
Proof.
  intros n F HF p. unfold gp_jac, gp_row. cbn [rbind]. destruct (HF p) as [L U]. destruct (HF (S p)) as [L' U'].
  destruct (F p) as [a| | | |] eqn:E1; try discriminate L. destruct (F (S p)) as [b| | | |] eqn:E2; try discriminate L'.
  assert (La : length a = n) by (apply U; constructor). assert (Lb : length b = n) by (apply U'; constructor). eexists. split; [reflexivity|]. split; [reflexivity|]. split.
  - intros x Hx. inversion Hx. subst x. rewrite map_length, combine_length. lia.
  - intros i Hi. cbn. destruct (nth_error a i) as [u|] eqn:Ea; [|apply nth_error_None in Ea; lia]. destruct (nth_error b i) as [v|] eqn:Eb; [|apply nth_error_None in Eb; lia].
    rewrite nth_error_map. assert (Q : nth_error (combine a b) i = Some (u, v)).
    { clear - Ea Eb. revert b i Ea Eb. induction a as [|x a IH]; intros [|y b] [|i] Ea Eb; try discriminate; cbn in *; [congruence|auto]. }
    rewrite Q. reflexivity.
Qed.
Example C86_ex_samplewise p : samplewise (gp_raw p) (Leaf tt) (Leaf tt) (fun _ => tmap (option_map (fun r => p * p * r))).
Proof.
  intros n st X Hn HL Hu. eexists. split; [reflexivity|]. rewrite layout_tmap. split; [exact HL|]. split.
  - intros x Hx. apply has_leaf_tmap in Hx as (y & Hy & ->). rewrite map_length. apply Hu. exact Hy.
  - intros i Hi. unfold sample. rewrite !tmap_tmap. apply tmap_ext. intros x _. apply nth_error_map.
Qed.
Example C86_ex_params : map (fun m => grad_params gp_raw gp_jac (fun _ => false) m false 3 gx_X 0) [None; Some 1; Some 2; Some 3] = repeat (Ok (Leaf [7; 14; 35], 0)) 4.
Proof. vm_compute. reflexivity. Qed.
(** one call for the state of each batch, not one for each evaluation of the derivative *)
Example C87_ex_params : map (fun m => grad_params gp_count gp_jac (fun _ => false) m false 3 gx_X 4) [None; Some 1; Some 2] = [Ok (Leaf [7; 14; 35], 5); Ok (Leaf [7; 14; 35], 7); Ok (Leaf [7; 14; 35], 6)].
Proof. vm_compute. reflexivity. Qed.

Print Assumptions C86_input_rows. Print Assumptions C86_input_batching. Print Assumptions C86_params_batching.
Print Assumptions C87_params. Print Assumptions C87_params_batches. Print Assumptions C87_input_axis. Print Assumptions C87_input_never.
Print Assumptions C87_input_state_refuted. Print Assumptions C86_input_state_refuted.
