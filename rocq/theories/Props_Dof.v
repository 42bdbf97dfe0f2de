(** C112: the number of trainable floats is the number of degrees of freedom. *)
From Coq Require Import Arith Lia Field QArith Qcanon.
From Verif Require Import Base Params Dof DofSpec DofProofs DofMain.
Local Open Scope list_scope.
Local Open Scope nat_scope.

Section Field.
Context {K : Type} (zero one : K) (add mul sub : K -> K -> K) (opp : K -> K) (div : K -> K -> K) (inv : K -> K) (eqb : K -> K -> bool).
Context (Fth : field_theory zero one add mul sub opp div inv (@eq K)).
Context (eqb_spec : forall a b, eqb a b = true <-> a = b).

(** The number of coordinates of a set of vectors is determined by the set. *)
Theorem C112_unique (S : list K -> Prop) k m : dof add mul S k -> dof add mul S m -> k = m.
Proof. exact (dof_unique zero one add mul sub opp div inv eqb Fth eqb_spec S k m). Qed.

Context (two : add one one <> zero).
Notation accepts k ps := (fun qs => set_params zero opp eqb k ps qs = Ok qs).

(** A module with parameters of the dtypes that [compile] draws. *)
Theorem C112_count_partial (k : kind) (ps : list (@carr K)) :
  set_params zero opp eqb k ps ps = Ok ps ->
  match k with
  | Herm _ | Sum _ _ => map c_cplx ps = [true]
  | Low _ _ => map c_cplx ps = [false; true]
  | _ => True
  end ->
  exists n, floats k (Some ps) = Some n /\ dof add mul (values zero (accepts k ps) ps) n.
Proof. intros Ha Hu. exact (module_dof zero one add mul sub opp div inv eqb Fth eqb_spec two k ps Ha Hu). Qed.
(** In particular one that was compiled without given parameters; the matrices
    that [compile] stores are accepted. *)
Theorem C112_compiled (k : kind) bias_term d (ps : list (@carr K)) :
  set_params zero opp eqb k ps ps = Ok ps -> map (fun a => (c_shape a, c_cplx a)) ps = drawn k bias_term d ->
  exists n, floats k (Some ps) = Some n /\ dof add mul (values zero (accepts k ps) ps) n.
Proof.
  intros Ha Hd. apply C112_count_partial; [exact Ha|].
  assert (map c_cplx ps = map snd (drawn k bias_term d)) as E by (rewrite <- Hd, map_map; reflexivity).
  destruct k; auto.
Qed.
(** The sum over the modules of a model. *)
Theorem C112_model (ms : list (kind * list (@carr K))) :
  Forall (fun m => set_params zero opp eqb (fst m) (snd m) (snd m) = Ok (snd m) /\ usual (fst m) (snd m)) ms ->
  exists n, total (map (fun m => floats (fst m) (Some (snd m))) ms) = Some n /\
            dof add mul (all_of (map (fun m => values zero (accepts (fst m) (snd m)) (snd m)) ms)) n.
Proof.
  induction 1 as [|[k ps] ms [Ha Hu] _ IH]; cbn [map total all_of fst snd] in *.
  - exists 0. split; [reflexivity|]. exact (dof_nil add mul).
  - destruct (module_dof zero one add mul sub opp div inv eqb Fth eqb_spec two k ps Ha Hu) as (n & -> & D). destruct IH as (m & -> & D').
    exists (n + m). split; [reflexivity|]. eapply dof_app; [exact zero|exact eqb_spec| |exact D|exact D']. intros s Hs. eapply values_length; eassumption.
Qed.
End Field.

Definition q_eqb (a b : Qc) : bool := if Qc_eq_dec a b then true else false.
Lemma q_eqb_spec a b : q_eqb a b = true <-> a = b.
Proof. unfold q_eqb. destruct (Qc_eq_dec a b); split; congruence. Qed.
Lemma q_two : Qcplus 1%Qc 1%Qc <> 0%Qc.
Proof. intros H. discriminate H. Qed.
Definition q0 : Qc := 0%Qc. Definition qi (n : Z) : Qc := Q2Qc (inject_Z n).
Notation q_set := (set_params q0 Qcopp q_eqb).

(** Two matrices with imaginary parts: eight numbers. *)
Definition two_matrices : @carr Qc :=
  mk_carr [2; 2; 2] true [(qi 1, q0); (qi 2, qi 3); (qi 2, qi (-3)); (qi 4, q0); (qi 5, q0); (q0, qi 1); (q0, qi (-1)); (qi 7, q0)].
Definition vectors : list (@carr Qc) :=
  [mk_carr [2; 1] false [(qi 1, q0); (qi 2, q0)]; mk_carr [2; 2; 1] true [(qi 1, qi 1); (qi 2, q0); (q0, qi 3); (q0, q0)]].
Example C112_ex : q_set (Herm 2) [two_matrices] [two_matrices] = Ok [two_matrices] /\ map (fun a => (c_shape a, c_cplx a)) [two_matrices] = drawn (Herm 2) true 1 /\
  floats (Herm 2) (Some [two_matrices]) = Some 8 /\
  q_set (Low 2 1) vectors vectors = Ok vectors /\ map (fun a => (c_shape a, c_cplx a)) vectors = drawn (Low 2 1) true 1 /\ floats (Low 2 1) (Some vectors) = Some 10 /\
  total (map (fun m => floats (fst m) (Some (snd m))) [(Herm 2, [two_matrices]); (Low 2 1, vectors)]) = Some 18.
Proof. vm_compute. repeat split. Qed.
(** Entries that are not Hermitian are not among them. *)
Example C112_ex_not : q_set (Herm 2) [two_matrices] [mk_carr [2; 2; 2] true (repeat (qi 1, qi 1) 8)] = Err ValueError.
Proof. vm_compute. reflexivity. Qed.

(** * With matrices of a real dtype the count is too large *)
Definition real_matrix : @carr Qc := mk_carr [1; 2; 2] false [(qi 1, q0); (qi 2, q0); (qi 2, q0); (qi 4, q0)].
Definition C112_count_always : Prop :=
  forall (k : kind) (ps : list (@carr Qc)), Forall (proper q0) ps -> q_set k ps ps = Ok ps ->
  exists n, floats k (Some ps) = Some n /\ dof Qcplus Qcmult (values q0 (fun qs => q_set k ps qs = Ok qs) ps) n.
Lemma real_symmetric (z : list (Qc * Qc)) : length z = 4 -> Forall (fun z => snd z = q0) z ->
  (all_close q_eqb z (adjoint q0 Qcopp 2 z) = true <-> exists a b c, z = [(a, q0); (b, q0); (b, q0); (c, q0)]).
Proof.
  intros L F. rewrite (all_close_iff q_eqb q_eqb_spec). destruct z as [|[a a'] [|[b b'] [|[c c'] [|[d d'] [|]]]]]; try discriminate.
  inversion F as [|? ? F1 G1]; subst. inversion G1 as [|? ? F2 G2]; subst. inversion G2 as [|? ? F3 G3]; subst. inversion G3 as [|? ? F4 G4]; subst. cbn in F1, F2, F3, F4. subst.
  assert (Qcopp q0 = q0) as Z by reflexivity. change (adjoint q0 Qcopp 2 [(a, q0); (b, q0); (c, q0); (d, q0)]) with [(a, Qcopp q0); (c, Qcopp q0); (b, Qcopp q0); (d, Qcopp q0)]. rewrite Z. split.
  - intros E. injection E as E _. subst. eauto.
  - intros (x & y & w & E). injection E as -> -> -> ->. reflexivity.
Qed.
Lemma real_dof : dof Qcplus Qcmult (values q0 (fun qs => q_set (Herm 2) [real_matrix] qs = Ok qs) [real_matrix]) 3.
Proof.
  exists (fun x => [nth 0 x q0; q0; nth 1 x q0; q0; nth 1 x q0; q0; nth 2 x q0; q0]), (fun s => [nth 0 s q0; nth 2 s q0; nth 6 s q0]). constructor.
  - intros [|a [|b [|c [|]]]] H; try discriminate. cbn [nth]. split; [|reflexivity].
    exists [mk_carr [1; 2; 2] false [(a, q0); (b, q0); (b, q0); (c, q0)]].
    assert (Forall (fun z : Qc * Qc => snd z = q0) [(a, q0); (b, q0); (b, q0); (c, q0)]) as F by (repeat constructor).
    split; [constructor; [split; reflexivity|constructor]|]. split; [constructor; [split; [reflexivity|intros _; exact F]|constructor]|]. split; [|reflexivity].
    cbn [set_params first nth_error c_shape c_data hd real_matrix]. change (shape_eqb [1; 2; 2] [1; 2; 2]) with true. cbn [negb].
    rewrite (proj2 (real_symmetric [(a, q0); (b, q0); (b, q0); (c, q0)] eq_refl F)) by eauto. reflexivity.
  - intros s (qs & H & Hp & Ha & ->). inversion H as [|? b ? ? [A1 A2] Hq]; subst. inversion Hq; subst. inversion Hp as [|? ? [B1 B2] _]; subst.
    rewrite A2 in B2. specialize (B2 eq_refl). rewrite A1 in B1. cbn in B1.
    cbn [set_params first nth_error] in Ha. rewrite A1 in Ha. change (shape_eqb (c_shape real_matrix) [hd 0 (c_shape real_matrix); 2; 2]) with true in Ha. cbn [negb] in Ha.
    destruct (all_close q_eqb (c_data b) _) eqn:E; [|discriminate]. apply (proj1 (real_symmetric _ B1 B2)) in E. destruct E as (x & y & w & E). cbn [flat_map]. rewrite E. cbn. auto.
  - intros [|a [|b [|c [|]]]] [|a' [|b' [|c' [|]]]] H1 H2; try discriminate. reflexivity.
  - intros c [|a [|b [|d [|]]]] H1; try discriminate. cbn. assert (Qcmult c q0 = q0) as -> by (unfold q0; ring). reflexivity.
Qed.
Theorem C112_real_refuted : ~ C112_count_always.
Proof.
  intros H. destruct (H (Herm 2) [real_matrix]) as (n & E & D).
  - constructor; [split; [reflexivity|]|constructor]. intros _. repeat constructor.
  - vm_compute. reflexivity.
  - injection E as <-. pose proof (C112_unique _ _ _ _ _ _ _ _ q_eqb Qcft q_eqb_spec _ _ _ D real_dof) as X. discriminate X.
Qed.
(** What is reported, and what it is. *)
Example C112_real_count : floats (Herm 2) (Some [real_matrix]) = Some 4 /\ floats (Low 1 1) (Some [mk_carr [1; 1] true [(qi 1, qi 1)]; mk_carr [1; 1; 1] true [(qi 1, qi 1)]]) = Some 3.
Proof. split; reflexivity. Qed.

Print Assumptions C112_unique.
Print Assumptions C112_count_partial.
Print Assumptions C112_compiled.
Print Assumptions C112_model.
Print Assumptions C112_real_refuted.
