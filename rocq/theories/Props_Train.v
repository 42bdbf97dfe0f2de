(** Properties C25-C30: the training loop. *)
From Coq Require Import ZArith Permutation QArith.
From Verif Require Import Base BaseLemmas TreeUtil NonSeqSpec Batch BatchSpec Train TrainSpec TrainProofs TrainSteps TrainTotal.
Local Open Scope nat_scope.
Local Open Scope list_scope.

(** *** a small setting for the examples: numbers are integers or NaN; two
    parameters; the loss of a sample [x] with target [y] has derivative [x - y] *)
Definition num : Type := option Z.
Definition nlt (x y : num) : bool := match x, y with Some a, Some b => (a <? b)%Z | _, _ => false end.
Definition nle (x y : num) : bool := match x, y with Some a, Some b => (a <=? b)%Z | _, _ => false end.
Definition nsub (x y : num) : num := match x, y with Some a, Some b => Some (a - b)%Z | _, _ => None end.
Definition nadd (x y : num) : num := match x, y with Some a, Some b => Some (a + b)%Z | _, _ => None end.
Definition nnan (x : num) : bool := match x with Some _ => false | None => true end.
Lemma num_order : fl_order nnan nlt nle.
Proof.
  constructor.
  - intros [a|] [b|]; cbn; try discriminate; auto.
  - intros [a|] [b|]; cbn; try discriminate; auto.
  - intros [a|] [b|] [c|]; cbn; try discriminate. rewrite !Z.ltb_lt. lia.
  - intros [a|]; cbn; [apply Z.ltb_irrefl|reflexivity].
  - intros [a|] [b|] [c|]; cbn; try discriminate. rewrite !Z.ltb_lt. lia.
  - intros [a|] [b|]; cbn; try discriminate. intros _ _. rewrite Z.leb_antisym. reflexivity.
Qed.

Definition ex_data : dataset Z Z Z := (Leaf [1; 2; 3; 4; 5]%Z, Some (Leaf [2; 4; 6; 8; 10]%Z), None).
Definition ex_split (r : nat) : nat * nat := (S r, r).
(** rotation *)
Definition ex_perm (k n : nat) : list nat := map (fun i => (i + k) mod n) (seq 0 n).
Definition ex_rows (b : dataset Z Z Z) : list Z := match fst (fst b) with Leaf x => x | _ => [] end.
Definition ex_sum (b : dataset Z Z Z) : Z := fold_right Z.add 0%Z (ex_rows b).
Definition ex_dloss (epoch : nat) (b : dataset Z Z Z) (training : bool) (st : nat) (r : nat) (ps : list Z) : result ((nat -> Z) * nat) :=
  Ok (fun i => (ex_sum b * Z.of_nat (i - 6))%Z, S st).
(** distance of the first parameter from -40; NaN in the third epoch *)
Definition ex_vloss (epoch : nat) (b : dataset Z Z Z) (st : nat) (r : nat) (ps : list Z) : result num :=
  Ok (if epoch =? 2 then None else option_map (fun p => Z.abs (p + 40)) (nth_error ps 0)).
Definition ex_num (d : Z) (p : Z) (mv : unit) (i : nat) : Z * unit := ((p - d)%Z, mv).
Definition keep_cb {P Rng} (r : Rng) (e : nat) (ps : list P) : Rng * list P := (r, ps).
Definition ex_cf (patience : Z) (verbose : bool) (kill : nat -> bool) : settings :=
  mk_settings [true; false] 2 5 9 (Some 0%Z) patience (Some 0%Z) verbose kill (@keep_cb Z nat).
Definition ex_adams : list (ostate Z unit) := [mk_ostate 0%Z tt 0; mk_ostate 7%Z tt 0].
Definition ex_train cf upd : result (carry * nat * num * nat) :=
  train_loop upd ex_dloss ex_vloss ex_split ex_perm (Some 0%Z) nadd nsub (fun v _ => v) nlt nle cf ex_data ex_data 0 0 ex_adams 0 0.

(* ------------------------------------------------------------------ *)
(** C25: an epoch is one gradient step per slice of a reordering of the data. *)
Theorem C25_each_sample_once :
  forall S1 S2 S3 P G MV MSt Rng (update : G -> ostate P MV -> ostate P MV)
    (dloss : nat -> dataset S1 S2 S3 -> bool -> MSt -> Rng -> list P -> result ((nat -> G) * MSt))
    split2 (perm : Rng -> nat -> list nat) n flags bs D key epoch c,
  good_data n D -> Permutation (perm key n) (seq 0 n) -> 1 <= bs -> bs <= n ->
  exists sizes D', list_sum sizes = n /\ Forall (fun s => 1 <= s <= bs) sizes /\ reordered n D D' /\
    forall c', epoch_steps update dloss split2 perm flags bs D key epoch c = Ok c' <->
      steps (fun b s s' => train_step update dloss split2 flags epoch b s = Ok s') (dslices 0 sizes D') c c'.
Proof. exact @epoch_steps_spec. Qed.

Example C25_example :
  good_data 5 ex_data /\ Permutation (ex_perm 3 5) (seq 0 5) /\
  rmap (fun c => (map ox (fst (fst c)), snd (fst c), snd c))
    (epoch_steps (adam_update ex_num) ex_dloss ex_split ex_perm [true; false] 2 ex_data 3 0 (ex_adams, 0, 0)) = Ok ([-15; 7]%Z, 3, 3).
Proof.
  split; [|split].
  - cbn. split; [eexists; constructor|]. split; [intros x Hx; inversion Hx; reflexivity|]. split; [|discriminate].
    intros y E. injection E as <-. intros x Hx. inversion Hx. reflexivity.
  - vm_compute. apply (Permutation_app_comm [3; 4] [0; 1; 2]).
  - vm_compute. reflexivity.
Qed.
Print Assumptions C25_each_sample_once.

(* ------------------------------------------------------------------ *)
(** C26: what is returned is the first checkpoint with the smallest validation
    loss, among the initial model and all completed epochs. *)
Theorem C26_best_checkpoint :
  forall S1 S2 S3 P G MV MSt Rng F (update : G -> ostate P MV -> ostate P MV)
    (dloss : nat -> dataset S1 S2 S3 -> bool -> MSt -> Rng -> list P -> result ((nat -> G) * MSt))
    (vloss : nat -> dataset S1 S2 S3 -> MSt -> Rng -> list P -> result F)
    split2 perm fzero fadd fsub fdivn flt fle isnan, fl_order isnan flt fle ->
  forall cf D DV rng start adams st0 rng0 c' fe bv be,
  train_loop update dloss vloss split2 perm fzero fadd fsub fdivn flt fle cf D DV rng start adams st0 rng0 = Ok (c', fe, bv, be) ->
  exists mrng key v0 ks s',
    split2 rng0 = (mrng, key) /\
    batched_val_loss vloss perm fzero fadd fdivn (c_val_batch cf) DV (map ox adams) st0 mrng key start = Ok v0 /\
    history (epoch_rel update dloss vloss split2 perm fzero fadd fdivn cf D DV) start (rng, (adams, st0, mrng)) ks s' /\
    fe = start + length ks /\
    (exists i, first_min flt fle (v0 :: map snd ks) i /\
       nth_error (((adams, st0, mrng), v0) :: ks) i = Some (c', bv) /\ be = start + Nat.pred i) /\
    (isnan v0 = false -> fle bv v0 = true).
Proof.
  exact (fun S1 S2 S3 P G MV MSt Rng F u d v s p fz fa fs fd fl fe nn HO cf D DV rng start adams st0 rng0 c' fe' bv be H =>
    match train_spec u d v s p fz fa fs fd fl fe nn HO cf D DV rng start adams st0 rng0 c' fe' bv be H with
    | ex_intro _ mr (ex_intro _ key (ex_intro _ v0 (ex_intro _ ks (ex_intro _ s' (conj a (conj b (conj c (conj d (conj e (conj f _)))))))))) =>
        ex_intro _ mr (ex_intro _ key (ex_intro _ v0 (ex_intro _ ks (ex_intro _ s' (conj a (conj b (conj c (conj d (conj e f)))))))))
    end).
Qed.

(** Five epochs with losses 40, 25, 10, NaN, 20, 35: the second epoch is best. *)
Example C26_example :
  ex_train (ex_cf 3 false (fun _ => false)) (adam_update ex_num)
    = Ok (([mk_ostate (-30)%Z tt 1; mk_ostate 7%Z tt 0], 6, 7), 5, Some 10%Z, 1).
Proof. vm_compute. reflexivity. Qed.

(* ------------------------------------------------------------------ *)
(** C27: training stops at the first epoch boundary at which there is a reason to
    stop; an interrupt is a reason in verbose mode only. *)
Theorem C27_stops_exactly :
  forall S1 S2 S3 P G MV MSt Rng F (update : G -> ostate P MV -> ostate P MV)
    (dloss : nat -> dataset S1 S2 S3 -> bool -> MSt -> Rng -> list P -> result ((nat -> G) * MSt))
    (vloss : nat -> dataset S1 S2 S3 -> MSt -> Rng -> list P -> result F)
    split2 perm fzero fadd fsub fdivn flt fle isnan, fl_order isnan flt fle ->
  forall cf D DV rng start adams st0 rng0 c' fe bv be,
  train_loop update dloss vloss split2 perm fzero fadd fsub fdivn flt fle cf D DV rng start adams st0 rng0 = Ok (c', fe, bv, be) ->
  exists mrng key v0 ks s',
    split2 rng0 = (mrng, key) /\
    batched_val_loss vloss perm fzero fadd fdivn (c_val_batch cf) DV (map ox adams) st0 mrng key start = Ok v0 /\
    history (epoch_rel update dloss vloss split2 perm fzero fadd fdivn cf D DV) start (rng, (adams, st0, mrng)) ks s' /\
    fe = start + length ks /\
    let stop := must_stop flt fle fsub (fun e => c_verbose cf && c_kill cf e) (c_epochs cf) start (c_target cf) (c_delta cf)
                  (c_patience cf) v0 (map snd ks) in
    stop (length ks) /\ forall k, k < length ks -> ~ stop k.
Proof.
  exact (fun S1 S2 S3 P G MV MSt Rng F u d v s p fz fa fs fd fl fe nn HO cf D DV rng start adams st0 rng0 c' fe' bv be H =>
    match train_spec u d v s p fz fa fs fd fl fe nn HO cf D DV rng start adams st0 rng0 c' fe' bv be H with
    | ex_intro _ mr (ex_intro _ key (ex_intro _ v0 (ex_intro _ ks (ex_intro _ s' (conj a (conj b (conj c (conj d (conj e (conj f g)))))))))) =>
        ex_intro _ mr (ex_intro _ key (ex_intro _ v0 (ex_intro _ ks (ex_intro _ s' (conj a (conj b (conj c (conj d g))))))))
    end).
Qed.

(** Training always ends, with a result, on good data and with defined losses. *)
Theorem C27_terminates :
  forall S1 S2 S3 P G MV MSt Rng F (update : G -> ostate P MV -> ostate P MV)
    (dloss : nat -> dataset S1 S2 S3 -> bool -> MSt -> Rng -> list P -> result ((nat -> G) * MSt))
    (vloss : nat -> dataset S1 S2 S3 -> MSt -> Rng -> list P -> result F)
    split2 perm fzero fadd fsub fdivn flt fle,
  (forall e b t st r ps, exists x, dloss e b t st r ps = Ok x) ->
  (forall e b st r ps, exists x, vloss e b st r ps = Ok x) ->
  (forall k n, Permutation (perm k n) (seq 0 n)) ->
  forall cf n m D DV rng start adams st0 rng0,
  good_data n D -> good_data m DV -> 1 <= c_batch cf -> c_batch cf <= n -> 1 <= c_val_batch cf ->
  length (c_flags cf) = length adams ->
  (forall rng epoch (ps : list P), length (snd (c_callback cf rng epoch ps)) = length ps) -> In true (c_flags cf) ->
  exists r, train_loop update dloss vloss split2 perm fzero fadd fsub fdivn flt fle cf D DV rng start adams st0 rng0 = Ok r.
Proof. exact @train_ok. Qed.
(** If everything is frozen (or there are no parameters) training is refused, also
    with no epochs to run. *)
Theorem C27_nothing_to_train :
  forall S1 S2 S3 P G MV MSt Rng F (update : G -> ostate P MV -> ostate P MV)
    (dloss : nat -> dataset S1 S2 S3 -> bool -> MSt -> Rng -> list P -> result ((nat -> G) * MSt))
    (vloss : nat -> dataset S1 S2 S3 -> MSt -> Rng -> list P -> result F)
    split2 perm fzero fadd fsub fdivn flt fle,
  (forall e b st r ps, exists x, vloss e b st r ps = Ok x) ->
  (forall k n, Permutation (perm k n) (seq 0 n)) ->
  forall cf m D DV rng start adams st0 rng0,
  good_data m DV -> 1 <= c_val_batch cf -> ~ In true (c_flags cf) ->
  train_loop update dloss vloss split2 perm fzero fadd fsub fdivn flt fle cf D DV rng start adams st0 rng0 = Err ValueError.
Proof. exact @train_nothing. Qed.
Example C27_nothing_example : forall e,
  train_loop (adam_update ex_num) ex_dloss ex_vloss ex_split (fun _ n => seq 0 n) (Some 0%Z) nadd nsub (fun v _ => v) nlt nle
    (mk_settings [false; false] 2 5 e (Some 0%Z) 3%Z (Some 0%Z) false (fun _ => false) (@keep_cb Z nat)) ex_data ex_data 0 0 ex_adams 0 0 = Err ValueError.
Proof.
  intros e. apply (C27_nothing_to_train Z Z Z Z Z unit nat nat num) with (m := 5); [| |exact (proj1 C25_example)|cbn; lia|intros [H|[H|[]]]; discriminate].
  - intros. eexists. unfold ex_vloss. reflexivity.
  - intros k n. apply Permutation_refl.
Qed.

(** Patience 3 stops the example above after epochs 3, 4, 5 without improvement,
    patience 2 after two, an interrupt at once. *)
Example C27_example :
  rmap (fun r => snd (fst (fst r))) (ex_train (ex_cf 3 false (fun _ => false)) (adam_update ex_num)) = Ok 5 /\
  rmap (fun r => snd (fst (fst r))) (ex_train (ex_cf 2 false (fun _ => false)) (adam_update ex_num)) = Ok 4 /\
  rmap (fun r => snd (fst (fst r))) (ex_train (ex_cf 9 false (fun _ => false)) (adam_update ex_num)) = Ok 9 /\
  rmap (fun r => snd (fst (fst r))) (ex_train (ex_cf 3 true (fun e => 1 <=? e)) (adam_update ex_num)) = Ok 1.
Proof. vm_compute. auto. Qed.

(** Without verbosity an interrupt before the first epoch is not noticed. *)
Theorem C27_quiet_interrupt_refuted :
  exists cf : settings, (forall e, c_kill cf e = true) /\
    rmap (fun r => snd (fst (fst r))) (ex_train cf (adam_update ex_num)) = Ok 5.
Proof. exists (ex_cf 3 false (fun _ => true)). split; [reflexivity|vm_compute; reflexivity]. Qed.
Print Assumptions C27_stops_exactly.

(* ------------------------------------------------------------------ *)
(** C28: a frozen parameter is returned unchanged, with its optimizer state, if
    the user's callback leaves it alone. *)
Theorem C28_frozen_unchanged :
  forall S1 S2 S3 P G MV MSt Rng F (update : G -> ostate P MV -> ostate P MV)
    (dloss : nat -> dataset S1 S2 S3 -> bool -> MSt -> Rng -> list P -> result ((nat -> G) * MSt))
    (vloss : nat -> dataset S1 S2 S3 -> MSt -> Rng -> list P -> result F)
    split2 perm fzero fadd fsub fdivn flt fle isnan cf D DV rng start adams st0 rng0 c' fe bv be i,
  fl_order isnan flt fle ->
  (forall rng epoch (ps : list P) i, length (snd (c_callback cf rng epoch ps)) = length ps /\
     (nth_error (c_flags cf) i = Some false -> nth_error (snd (c_callback cf rng epoch ps)) i = nth_error ps i)) ->
  length (c_flags cf) = length adams -> nth_error (c_flags cf) i = Some false ->
  train_loop update dloss vloss split2 perm fzero fadd fsub fdivn flt fle cf D DV rng start adams st0 rng0 = Ok (c', fe, bv, be) ->
  nth_error (fst (fst c')) i = nth_error adams i.
Proof.
  exact (fun S1 S2 S3 P G MV MSt Rng F u d v s p fz fa fs fd => @train_frozen S1 S2 S3 P G MV MSt Rng F u d v s p fz fa fd fs).
Qed.

(** Each gradient step updates each trainable parameter with the derivative of
    the loss with respect to that parameter (parameter [i] is argument [7+i] of
    the loss function). *)
Theorem C28_own_gradient :
  forall S1 S2 S3 P G MV MSt Rng (update : G -> ostate P MV -> ostate P MV)
    (dloss : nat -> dataset S1 S2 S3 -> bool -> MSt -> Rng -> list P -> result ((nat -> G) * MSt))
    split2 flags epoch b adams st rng adams' st' rng',
  length flags = length adams ->
  train_step update dloss split2 flags epoch b (adams, st, rng) = Ok (adams', st', rng') ->
  exists rng1 g, split2 rng = (rng', rng1) /\ dloss epoch b true st rng1 (map ox adams) = Ok (g, st') /\
    length adams' = length adams /\
    forall i s, nth_error adams i = Some s ->
      (nth_error flags i = Some false -> nth_error adams' i = Some s) /\
      (nth_error flags i = Some true -> nth_error adams' i = Some (update (g (7 + i)) s)).
Proof. exact @train_step_spec. Qed.

Example C28_example :
  rmap (fun r => map ox (fst (fst r)))
    (train_step (adam_update ex_num) ex_dloss ex_split [true; false; true] 0 ex_data
       ([mk_ostate 0%Z tt 0; mk_ostate 7%Z tt 0; mk_ostate 100%Z tt 0], 0, 0)) = Ok [-15; 7; 55]%Z.
Proof. vm_compute. reflexivity. Qed.

(** A callback may overwrite a frozen parameter, and its value is returned. *)
Theorem C28_callback_refuted :
  exists cf : settings, nth_error (c_flags cf) 1 = Some false /\
    rmap (fun r => option_map ox (nth_error (fst (fst (fst (fst (fst r))))) 1)) (ex_train cf (adam_update ex_num)) <> Ok (option_map ox (nth_error ex_adams 1)).
Proof.
  exists (mk_settings [true; false] 2 5 9 (Some 0%Z) 3 (Some 0%Z) false (fun _ => false) (fun r e ps => (r, map (fun p => (p + 1)%Z) ps))).
  split; [reflexivity|vm_compute; discriminate].
Qed.
Print Assumptions C28_frozen_unchanged.

(* ------------------------------------------------------------------ *)
(** C29: the validation loss is the mean over all samples when the batch size
    divides the number of samples. *)
Theorem C29_divisible_partial :
  forall S1 S2 S3 P MSt Rng (vloss : nat -> dataset S1 S2 S3 -> MSt -> Rng -> list P -> result Q) (perm : Rng -> nat -> list nat)
    ell n bs D key ps st mrng epoch v,
  (forall k b w, 1 <= k -> good_data k b -> vloss epoch b st mrng ps = Ok w -> (w == mean_of ell (map (dsample b) (seq 0 k)))%Q) ->
  good_data n D -> Permutation (perm key n) (seq 0 n) -> 1 <= n -> 1 <= bs -> n mod bs = 0 ->
  batched_val_loss vloss perm 0%Q Qplus (fun v k => (v / inject_Z (Z.of_nat k))%Q) bs D ps st mrng key epoch = Ok v ->
  (v == mean_of ell (map (dsample D) (seq 0 n)))%Q.
Proof. exact @val_loss_mean. Qed.

Definition ex_ell (s : tree (option Z) * option (tree (option Z)) * option (tree (option Z))) : Q :=
  match fst (fst s) with Leaf (Some z) => inject_Z z | _ => 0%Q end.
Definition ex_mean (epoch : nat) (b : dataset Z Z Z) (st : unit) (r : nat) (ps : list Z) : result Q :=
  match fst (fst b) with
  | Leaf x => Ok (mean_of ex_ell (map (dsample b) (seq 0 (length x))))
  | _ => Err TypeError
  end.
Example C29_example_mean ps : forall k b w, 1 <= k -> good_data k b -> ex_mean 0 b tt 0 ps = Ok w ->
  (w == mean_of ex_ell (map (dsample b) (seq 0 k)))%Q.
Proof.
  intros k [[X Y] U] w Hk (_ & HX & _) H. unfold ex_mean in H. cbn [fst] in H.
  destruct X as [x| | | |]; try discriminate H. rewrite (HX x) in H by constructor.
  assert (Hw := f_equal (fun r => match r with Ok q => q | _ => 0%Q end) H). cbn beta iota in Hw. rewrite <- Hw. reflexivity.
Qed.

Example C29_example :
  match batched_val_loss ex_mean ex_perm 0%Q Qplus (fun v k => (v / inject_Z (Z.of_nat k))%Q) 2
    (Leaf [1; 2; 3; 10]%Z, None, None) [] tt 0 1 0 with Ok v => Qred v | Err _ => 0%Q end = 4%Q.
Proof. vm_compute. reflexivity. Qed.

(** Otherwise it need not be: 1, 2, 9 in batches of 2 gives (3/2 + 9)/2. *)
Theorem C29_refuted :
  exists (D : dataset Z Z Z) v,
    good_data 3 D /\
    batched_val_loss ex_mean ex_perm 0%Q Qplus (fun v k => (v / inject_Z (Z.of_nat k))%Q) 2 D [] tt 0 0 0 = Ok v /\
    ~ (v == mean_of ex_ell (map (dsample D) (seq 0 3)))%Q.
Proof.
  exists (Leaf [1; 2; 9]%Z, None, None). eexists. split; [|split; [vm_compute; reflexivity|vm_compute; discriminate]].
  cbn. split; [eexists; constructor|]. split; [intros x Hx; inversion Hx; reflexivity|]. split; discriminate.
Qed.
Print Assumptions C29_divisible_partial.

(* ------------------------------------------------------------------ *)
(** C30: with the real optimizer the counter of a trainable parameter at the end
    of the run is the number of completed epochs (plus its initial value), that
    of a frozen one is its initial value. *)
Theorem C30_real_counter :
  forall S1 S2 S3 P G MV MSt Rng F (num : G -> P -> MV -> nat -> P * MV)
    (dloss : nat -> dataset S1 S2 S3 -> bool -> MSt -> Rng -> list P -> result ((nat -> G) * MSt))
    (vloss : nat -> dataset S1 S2 S3 -> MSt -> Rng -> list P -> result F)
    split2 perm fzero fadd fdivn cf D DV i n e s ks s',
  (forall rng epoch (ps : list P), length (snd (c_callback cf rng epoch ps)) = length ps) ->
  num_rows D = Ok n -> nth_error (c_flags cf) i = Some true -> length (c_flags cf) = length (fst (fst (snd s))) ->
  history (epoch_rel (adam_update num) dloss vloss split2 perm fzero fadd fdivn cf D DV) e s ks s' ->
  option_map oi (nth_error (fst (fst (snd s'))) i) = option_map (fun x => oi x + length ks) (nth_error (fst (fst (snd s))) i).
Proof.
  intros S1 S2 S3 P G MV MSt Rng F nm dl vl sp pm fz fa fd cf D DV i n e s ks s' Hk Hn Hi Hl H.
  destruct (history_counter (adam_update nm) dl vl sp pm fz fa fd cf D DV i n 0 Hk Hn) with (2 := Hi) (3 := H) (4 := Hl) as [E _].
  - intros d [x mv j]. unfold adam_update. cbn. destruct (nm d x mv j). cbn. lia.
  - etransitivity; [exact E|]. rewrite Nat.mul_0_l, Nat.add_0_l, Nat.mul_1_r. reflexivity.
Qed.

(** The complex optimizer counts every batch and then the epoch. *)
Theorem C30_complex_counter :
  forall S1 S2 S3 P G MV MSt Rng F (num : G -> P -> MV -> nat -> P * MV)
    (dloss : nat -> dataset S1 S2 S3 -> bool -> MSt -> Rng -> list P -> result ((nat -> G) * MSt))
    (vloss : nat -> dataset S1 S2 S3 -> MSt -> Rng -> list P -> result F)
    split2 perm fzero fadd fdivn cf D DV i n e s ks s',
  (forall rng epoch (ps : list P), length (snd (c_callback cf rng epoch ps)) = length ps) ->
  num_rows D = Ok n -> nth_error (c_flags cf) i = Some true -> length (c_flags cf) = length (fst (fst (snd s))) ->
  history (epoch_rel (complex_adam_update num) dloss vloss split2 perm fzero fadd fdivn cf D DV) e s ks s' ->
  option_map oi (nth_error (fst (fst (snd s'))) i) =
  option_map (fun x => oi x + length ks * (n / c_batch cf + (if n mod c_batch cf =? 0 then 0 else 1) + 1)) (nth_error (fst (fst (snd s))) i).
Proof.
  intros S1 S2 S3 P G MV MSt Rng F nm dl vl sp pm fz fa fd cf D DV i n e s ks s' Hk Hn Hi Hl H.
  destruct (history_counter (complex_adam_update nm) dl vl sp pm fz fa fd cf D DV i n 1 Hk Hn) with (2 := Hi) (3 := H) (4 := Hl) as [E _].
  - intros d [x mv j]. unfold complex_adam_update. cbn. destruct (nm d x mv j). reflexivity.
  - etransitivity; [exact E|]. rewrite Nat.mul_1_l. reflexivity.
Qed.

(** so it does not count epochs: one epoch of three batches advances it by 4 *)
Theorem C30_complex_refuted :
  exists (cf : settings) s ks s',
    nth_error (c_flags cf) 0 = Some true /\ length ks = 1 /\
    history (epoch_rel (complex_adam_update ex_num) ex_dloss ex_vloss ex_split ex_perm (Some 0%Z) nadd (fun v _ => v) cf ex_data ex_data) 0 s ks s' /\
    option_map oi (nth_error (fst (fst (snd s))) 0) = Some 0 /\ option_map oi (nth_error (fst (fst (snd s'))) 0) = Some 4.
Proof.
  exists (ex_cf 3 false (fun _ => false)), (0, (ex_adams, 0, 0)). do 2 eexists. split; [reflexivity|]. split; [|split; [|split; [reflexivity|]]].
  2:{ econstructor; [|constructor]. eapply epoch_rel_intro; vm_compute; reflexivity. }
  - reflexivity.
  - reflexivity.
Qed.

(** The state returned for the best epoch [j] has the counter with which epoch
    [j] was computed, not the next one: after one epoch of training that
    improved, the returned counter is still 0, and resuming repeats step 0 of the
    schedule. *)
Theorem C30_resume_refuted :
  exists cf r, ex_train cf (adam_update ex_num) = Ok r /\
    let '(c', fe, _, be) := r in
    fe = 1 /\ be = 0 /\ map ox (fst (fst c')) <> map ox ex_adams /\
    option_map oi (nth_error (fst (fst c')) 0) = Some 0.
Proof.
  exists (mk_settings [true; false] 2 5 1 (Some 0%Z) 3 (Some 0%Z) false (fun _ => false) (@keep_cb Z nat)). eexists.
  split; [vm_compute; reflexivity|]. split; [reflexivity|]. split; [reflexivity|]. split; [discriminate|reflexivity].
Qed.

Example C30_example :
  exists ks s',
    history (epoch_rel (adam_update ex_num) ex_dloss ex_vloss ex_split ex_perm (Some 0%Z) nadd (fun v _ => v)
       (ex_cf 3 false (fun _ => false)) ex_data ex_data) 0 (0, (ex_adams, 0, 0)) ks s' /\
    length ks = 2 /\ map oi (fst (fst (snd s'))) = [2; 0].
Proof.
  do 2 eexists. split; [|split; [|]].
  - econstructor; [|econstructor; [|constructor]]; (eapply epoch_rel_intro; vm_compute; reflexivity).
  - reflexivity.
  - reflexivity.
Qed.
Print Assumptions C30_real_counter.
Print Assumptions C30_complex_counter.
