(** C100, C101: matrix modules from construction to use. *)
From Coq Require Import ZArith.
From Verif Require Import Base BaseLemmas TreeUtil NonSeqSpec Serial Modules ModulesProofs Composite MatMods MatModsSpec MatModsProofs.
Local Open Scope string_scope.
Local Open Scope list_scope.
Local Open Scope nat_scope.

(** * C100: a compiled matrix module runs and gives what it announces *)
(** Parameters of any kind may be offered to [set_params], before and after
    [compile]. *)
Theorem C100_hermitian_matrix (herm : arr -> bool) o t : reached herm anything KHerm o (Some t) -> runs KHerm o t.
Proof. apply herm_runs. Qed.
Theorem C100_tensor (herm : arr -> bool) o t : reached herm anything KTensor o (Some t) -> runs KTensor o t.
Proof. apply tensor_runs. Qed.
(** Missing: parameters that are not [consistent]; see the refutations. *)
Theorem C100_low_rank_partial (herm : arr -> bool) o t : reached herm (consistent herm) KLow o (Some t) -> runs KLow o t.
Proof. apply low_runs. auto. Qed.
Theorem C100_sums_partial (herm : arr -> bool) k o t : k = KExp \/ k = KTrans ->
  reached herm (consistent herm) k o (Some t) -> runs k o t.
Proof. intros S. apply sum_runs; auto. Qed.
Definition compiled_runs_always (k : mkind) : Prop :=
  forall herm o t, reached herm anything k o (Some t) -> runs k o t.

(** Matrices are Hermitian here; a drawn array has number 9. *)
Definition x_herm (a : arr) : bool := true.
Definition x_draw (s : list nat) : arr := mk_arr 9 s false.
Lemma x_draws : draws x_herm x_draw. Proof. intros s. split; reflexivity. Qed.

(** A module without parameters gets other hyper-parameters (3 x 3), is
    compiled for two features, gets parameters and is compiled again. *)
Example C100_herm_example :
  exists o, reached x_herm anything KHerm o (Some (Dict [("a", Leaf [2])])) /\
    call KHerm o (Dict [("a", Leaf [7; 2])]) = Ok (Dict [("a", Leaf [7; 3; 3])]) /\
    out_shape KHerm o (Dict [("a", Leaf [2])]) = Ok (Dict [("a", Leaf (Some [Some 3; Some 3]))]) /\
    attr o "Ms" = Ok (VArr (mk_arr 4 [3; 3; 3] false)).
Proof.
  set (t := Dict [("a", Leaf [2])]).
  assert (H0 : reached x_herm anything KHerm (ahm_obj None 1 false None 0 true) None).
  { apply re_new. apply (con_herm _ None 1 None 0 false). reflexivity. }
  assert (H1 : reached x_herm anything KHerm (ahm_obj (Some 3) 1 true None 0 true) None).
  { eapply re_hyp; [exact H0|apply (con_herm _ (Some 3) 1 None 0 true); reflexivity|reflexivity|reflexivity]. }
  assert (H2 : reached x_herm anything KHerm (ahm_obj (Some 3) 1 true (Some (mk_arr 9 [3; 3; 3] false)) 0 true) (Some t)).
  { eapply re_comp; [exact H1|exact x_draws|reflexivity]. }
  assert (H3 : reached x_herm anything KHerm (ahm_obj (Some 3) 1 true (Some (mk_arr 4 [3; 3; 3] false)) 0 true) (Some t)).
  { eapply (re_par _ _ _ _ _ (VArr (mk_arr 4 [3; 3; 3] false))); [exact H2|exact I|reflexivity]. }
  eexists. split; [eapply re_comp; [exact H3|exact x_draws|reflexivity]|]. repeat split.
Qed.
Example C100_tensor_example :
  exists o, reached x_herm anything KTensor o (Some (Leaf [2])) /\
    call KTensor o (Leaf [7; 2]) = Ok (Leaf [7; 4; 5; 6]) /\
    out_shape KTensor o (Leaf [2]) = Ok (Leaf (Some [Some 4; Some 5; Some 6])).
Proof.
  eexists. split; [eapply re_comp; [apply re_new, (con_tensor _ (Some [4; 5; 6]) None 0 false true); reflexivity|exact x_draws|reflexivity]|].
  split; reflexivity.
Qed.
Example C100_low_rank_example :
  exists o, reached x_herm (consistent x_herm) KLow o (Some (Leaf [2])) /\
    call KLow o (Leaf [7; 2]) = Ok (Leaf [7; 4; 4]) /\
    attr o "us" = Ok (VArr (mk_arr 6 [3; 4; 2] false)).
Proof.
  assert (H0 : reached x_herm (consistent x_herm) KLow (lr_obj (Some 4) (Some 2) 1 true None 0 true) None).
  { apply re_new. apply (con_low _ (Some 4) (Some 2) 1 0 true). reflexivity. }
  assert (H1 : reached x_herm (consistent x_herm) KLow
    (lr_obj (Some 4) (Some 2) 1 true (Some (mk_arr 5 [3; 2] true, mk_arr 6 [3; 4; 2] false)) 0 true) None).
  { eapply (re_par _ _ _ _ _ (VTup [VArr (mk_arr 5 [3; 2] true); VArr (mk_arr 6 [3; 4; 2] false)])); [exact H0|reflexivity|reflexivity]. }
  eexists. split; [eapply re_comp; [exact H1|exact x_draws|reflexivity]|]. split; reflexivity.
Qed.
Example C100_sums_example :
  exists o, reached x_herm (consistent x_herm) KExp o (Some (Leaf [4; 2])) /\
    call KExp o (Leaf [7; 4; 2]) = Ok (Leaf [7; 3]) /\
    attr o "Ds" = Ok (VArr (mk_arr 6 [3; 5; 4; 4] false)).
Proof.
  assert (H0 : reached x_herm (consistent x_herm) KExp (evs_obj (Some 5) (Some 3) None 0 true true) None).
  { apply re_new. apply (con_exp _ (Some 5) (Some 3) None 0 true). reflexivity. }
  assert (H1 : reached x_herm (consistent x_herm) KExp (evs_obj (Some 5) (Some 3) (Some (mk_arr 9 [3; 5; 4; 4] false)) 0 true true) (Some (Leaf [4; 2]))).
  { eapply re_comp; [exact H0|exact x_draws|reflexivity]. }
  eexists. split; [eapply (re_par _ _ _ _ _ (VArr (mk_arr 6 [3; 5; 4; 4] false))); [exact H1| |reflexivity]|].
  - intros _. exists (mk_arr 9 [3; 5; 4; 4] false). split; reflexivity.
  - split; reflexivity.
Qed.

(** [set_params] of a low rank module without parameters compares neither
    factor with the other, and [compile] only looks at the vectors: five
    weights and three vectors are accepted, the first call fails. *)
Theorem C100_low_rank_refuted :
  (exists o, reached x_herm anything KLow o (Some (Leaf [2])) /\
     attr o "ls" = Ok (VArr (mk_arr 5 [5; 2] true)) /\ attr o "us" = Ok (VArr (mk_arr 6 [3; 4; 2] false)) /\
     out_shape KLow o (Leaf [2]) = Ok (Leaf (Some [Some 4; Some 4])) /\
     call KLow o (Leaf [7; 2]) = Err TypeError) /\
  ~ compiled_runs_always KLow.
Proof.
  assert (W : exists o, reached x_herm anything KLow o (Some (Leaf [2])) /\
     attr o "ls" = Ok (VArr (mk_arr 5 [5; 2] true)) /\ attr o "us" = Ok (VArr (mk_arr 6 [3; 4; 2] false)) /\
     out_shape KLow o (Leaf [2]) = Ok (Leaf (Some [Some 4; Some 4])) /\
     call KLow o (Leaf [7; 2]) = Err TypeError).
  { assert (H0 : reached x_herm anything KLow (lr_obj (Some 4) (Some 2) 1 true None 0 true) None).
    { apply re_new. apply (con_low _ (Some 4) (Some 2) 1 0 true). reflexivity. }
    assert (H1 : reached x_herm anything KLow
      (lr_obj (Some 4) (Some 2) 1 true (Some (mk_arr 5 [5; 2] true, mk_arr 6 [3; 4; 2] false)) 0 true) None).
    { eapply (re_par _ _ _ _ _ (VTup [VArr (mk_arr 5 [5; 2] true); VArr (mk_arr 6 [3; 4; 2] false)])); [exact H0|exact I|reflexivity]. }
    eexists. split; [eapply re_comp; [exact H1|exact x_draws|reflexivity]|]. repeat split. }
  split; [exact W|]. intros A. destruct W as (o & H & _ & _ & _ & E). destruct (A _ _ _ H) as (s & _ & C).
  specialize (C 7). cbn [tmap] in C. rewrite E in C. discriminate.
Qed.
(** A compiled sum takes observables of any size. *)
Theorem C100_sum_refuted :
  (exists o, reached x_herm anything KExp o (Some (Leaf [4; 2])) /\
     attr o "Ds" = Ok (VArr (mk_arr 6 [3; 5; 2; 2] false)) /\
     out_shape KExp o (Leaf [4; 2]) = Err ValueError /\
     call KExp o (Leaf [7; 4; 2]) = Err TypeError) /\
  ~ compiled_runs_always KExp /\ ~ compiled_runs_always KTrans.
Proof.
  assert (W : forall k, k = KExp \/ k = KTrans -> exists o, reached x_herm anything k o (Some (Leaf [4; 2])) /\
     attr o "Ds" = Ok (VArr (mk_arr 6 [3; 5; 2; 2] false)) /\
     out_shape k o (Leaf [4; 2]) = Err ValueError /\
     call k o (Leaf [7; 4; 2]) = Err TypeError).
  { intros k Hk. assert (H0 : reached x_herm anything k (evs_obj (Some 5) (Some 3) None 0 true true) None).
    { apply re_new. destruct Hk as [-> | ->]; [apply (con_exp _ (Some 5) (Some 3) None 0 true)|apply (con_trans _ (Some 5) (Some 3) None 0 true)]; reflexivity. }
    assert (H1 : reached x_herm anything k (evs_obj (Some 5) (Some 3) (Some (mk_arr 9 [3; 5; 4; 4] false)) 0 true true) (Some (Leaf [4; 2]))).
    { eapply re_comp; [exact H0|exact x_draws|]. destruct Hk as [-> | ->]; reflexivity. }
    exists (evs_obj (Some 5) (Some 3) (Some (mk_arr 6 [3; 5; 2; 2] false)) 0 true true).
    split; [eapply (re_par _ _ _ _ _ (VArr (mk_arr 6 [3; 5; 2; 2] false))); [exact H1|exact I|]|];
    destruct Hk as [-> | ->]; repeat split. }
  split; [apply W; auto|]. split; intros A.
  - destruct (W KExp) as (o & H & _ & _ & E); [auto|]. destruct (A _ _ _ H) as (s & _ & C).
    specialize (C 7). cbn [tmap] in C. rewrite E in C. discriminate.
  - destruct (W KTrans) as (o & H & _ & _ & E); [auto|]. destruct (A _ _ _ H) as (s & _ & C).
    specialize (C 7). cbn [tmap] in C. rewrite E in C. discriminate.
Qed.

(** * C101: what the stored matrices satisfy *)
(** They pass the Hermiticity test, whatever was called. *)
Theorem C101_hermitian (herm : arr -> bool) o c m :
  reached herm anything KHerm o c -> get_par (mod_cls herm KHerm) o = Ok (VArr m) -> herm m = true.
Proof. intros H E. exact (herm_always herm _ o c m H E). Qed.
Theorem C101_observables_hermitian (herm : arr -> bool) k o c m : k = KExp \/ k = KTrans ->
  reached herm anything k o c -> get_par (mod_cls herm k) o = Ok (VArr m) -> herm m = true.
Proof.
  intros S H E. apply (hyper_sum_herm herm anything k o c m S H). destruct S as [-> | ->]; exact E.
Qed.
(** Compiling again, for whatever shape, changes nothing. *)
Theorem C101_recompiled k draw o t o' : ready k o = true -> compile k draw o t = Ok o' -> o' = o.
Proof. apply ready_kept. Qed.
(** After compiling, a module is ready, so that hyper-parameters are refused. *)
Theorem C101_frozen_settings (herm : arr -> bool) k o t h o' :
  reached herm anything k o (Some t) -> set_hyper (mod_cls herm k) o h <> Ok o'.
Proof. apply compiled_refuses. Qed.
(** A test that only array 4 and drawn arrays pass: array 5 is refused. *)
Definition x_herm2 (a : arr) : bool := Nat.eqb (a_id a) 4 || Nat.eqb (a_id a) 9.
Example C101_example :
  exists o, reached x_herm2 anything KHerm o (Some (Leaf [2])) /\
    set_par (mod_cls x_herm2 KHerm) o (VArr (mk_arr 5 [3; 3; 3] false)) = Err ValueError /\
    (exists o', set_par (mod_cls x_herm2 KHerm) o (VArr (mk_arr 4 [3; 3; 3] false)) = Ok o') /\
    ready KHerm o = true /\ compile KHerm x_draw o (Leaf [2]) = Ok o /\ compile KHerm x_draw o (Leaf [5]) = Err ValueError.
Proof.
  eexists. split.
  - eapply re_comp; [apply re_new, (con_herm _ (Some 3) 1 None 0 true); reflexivity| |reflexivity].
    intros s. instantiate (1 := x_draw). split; reflexivity.
  - split; [reflexivity|]. split; [eexists; reflexivity|]. repeat split.
Qed.

Print Assumptions C100_hermitian_matrix.
Print Assumptions C100_tensor.
Print Assumptions C100_low_rank_partial.
Print Assumptions C100_sums_partial.
Print Assumptions C100_low_rank_refuted.
Print Assumptions C100_sum_refuted.
Print Assumptions C101_hermitian.
Print Assumptions C101_observables_hermitian.
Print Assumptions C101_recompiled.
Print Assumptions C101_frozen_settings.
