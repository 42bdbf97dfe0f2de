(** C32, C58: the named loss functions. *)
From Coq Require Import Reals Lra.
From Verif Require Import Base TreeUtil TreeSpec NonSeqSpec NdArray Loss LossSpec LossProofs LossMain.
Local Open Scope string_scope.
Local Open Scope list_scope.

(** Each loss is the mean over all entries of its formula: the distance of
    prediction and target divided by the weight (uncertainty, relative size). *)
Theorem C32_value : forall (P Y U : data) s ps es, wf_tree P -> wf_tree Y -> alike P Y -> alike P U -> all_shape s P ->
  entries P Y U ps (map finite es) -> ps <> [] ->
  forall l, bare l P -> Forall (fun e => weight l (fst (fst e)) (snd (fst e)) (snd e) <> 0%R) es ->
  eval_loss l P Y U = Ok (Some (Rsum (map (fun e => formula l (fst (fst e)) (snd (fst e)) (snd e)) es) / INR (length es))%R).
Proof. exact loss_value. Qed.
Theorem C32_uncertainties_unused : forall l P Y U U', uses_unc l = false -> eval_loss l P Y U = eval_loss l P Y U'.
Proof. exact loss_no_unc. Qed.
(** zero on a perfect prediction *)
Theorem C32_perfect : forall l Y U s ps es, wf_tree Y -> alike Y Y -> alike Y U -> all_shape s Y ->
  entries Y Y U ps (map finite es) -> ps <> [] -> bare l Y ->
  Forall (fun e => weight l (fst (fst e)) (snd (fst e)) (snd e) <> 0%R) es ->
  eval_loss l Y Y U = Ok (Some 0%R).
Proof. exact loss_perfect. Qed.
(** never negative, whatever the arguments *)
Theorem C32_nonneg : forall l P Y U r, eval_loss l P Y U = Ok (Some r) -> (0 <= r)%R.
Proof. exact loss_nonneg. Qed.

(** *** names *)
Definition documented : list string :=
  ["mse"; "mae"; "mse_unc"; "mae_unc"; "mre"; "mre_unc"; "mrd"; "mrd_unc"; "mse_unsupervised"; "mae_unsupervised"; "mre_unsupervised"; "pseudo_huber"].
Theorem C32_known_names : forall pf name, In name documented -> is_ok (make_loss pf name) = true.
Proof. intros pf name H. repeat (destruct H as [<-|H]; [reflexivity|]). destruct H. Qed.
Theorem C32_unknown_names : forall pf name, ~ In name documented -> startswith name "pseudo_huber" = false ->
  make_loss pf name = Err ValueError.
Proof.
  intros pf name H Hs. unfold make_loss. rewrite Hs.
  repeat match goal with
  | |- context [ (name =? ?x) ] => destruct (String.eqb_spec name x) as [->|]; [exfalso; apply H; cbn; tauto|]
  end. reflexivity.
Qed.

(** what the names stand for *)
Definition meaning : list (string * loss) :=
  [("mse", Mse); ("mae", Mae); ("mse_unc", MseUnc); ("mae_unc", MaeUnc); ("mre", Mre); ("mre_unc", MreUnc); ("mrd", Mrd); ("mrd_unc", MrdUnc);
   ("mse_unsupervised", MseUns); ("mae_unsupervised", MaeUns); ("mre_unsupervised", MreUns); ("pseudo_huber", PseudoHuber 1%R)].
Theorem C32_names_mean : forall pf name l, In (name, l) meaning -> make_loss pf name = Ok l.
Proof. intros pf name l H. repeat (destruct H as [H|H]; [injection H as <- <-; reflexivity|]). destruct H. Qed.
(** ["pseudo_huber:d"] has the parameter [d] *)
Theorem C32_huber_parameter : forall pf d r, ~ In ":"%char (list_ascii_of_string d) -> pf d = Ok r -> make_loss pf ("pseudo_huber:" ++ d)%string = Ok (PseudoHuber r).
Proof.
  intros pf d r N E. unfold make_loss.
  assert (N' : BaseLemmas.no_sep ":"%char d = true).
  { clear E. induction d as [|c d IH]; [reflexivity|]. cbn [list_ascii_of_string In] in N. cbn. destruct (Ascii.eqb_spec c ":"%char) as [->|]; [exfalso; apply N; left; reflexivity|]. apply IH. tauto. }
  assert (ES : split ":"%char ("pseudo_huber:" ++ d)%string = ["pseudo_huber"; d]).
  { change ("pseudo_huber:" ++ d)%string with ("pseudo_huber" ++ String ":"%char d)%string. rewrite BaseLemmas.split_app_sep by reflexivity. rewrite (BaseLemmas.split_no_sep_id _ d N'). reflexivity. }
  rewrite ES. cbn. rewrite E. reflexivity.
Qed.

(** *** the structures and shapes that are accepted *)
Inductive skeleton {V W} : tree V -> tree W -> Prop :=
| sk_leaf a b : skeleton (Leaf a) (Leaf b)
| sk_none : skeleton NoneT NoneT
| sk_dict d e : length d = length e ->
    Forall (fun kx => exists y, dget e (fst kx) = Some y /\ skeleton (snd kx) y) d -> skeleton (Dict d) (Dict e)
| sk_lst l m : Forall2 skeleton l m -> skeleton (Lst l) (Lst m)
| sk_tup l m : Forall2 skeleton l m -> skeleton (Tup l) (Tup m).

Lemma tmap2_skeleton {V W X} (g : arr V -> arr W -> result (arr X)) (P : tree (arr V)) : forall Y Q, tmap2 g P Y = Ok Q -> skeleton P Y.
Proof.
  assert (HL : forall l, Forall (fun P => forall Y Q, tmap2 g P Y = Ok Q -> skeleton P Y) l ->
    forall m r, tmap2_list g l m = Ok r -> Forall2 skeleton l m).
  { induction 1 as [|P0 l HP _ IH]; intros [|y m] r H; try discriminate; [constructor|].
    cbn [tmap2_list] in H. apply BaseLemmas.rbind_ok in H as (z & H1 & H). apply BaseLemmas.rbind_ok in H as (r' & H2 & H). constructor; eauto. }
  induction P as [a| |d IH|l IH|l IH] using NonSeqProofs.tree_ind2; intros [b| |e|m|m] Q H; try discriminate.
  - constructor.
  - constructor.
  - rewrite tmap2_dct in H. destruct (Nat.eqb_spec (length d) (length e)) as [E|]; [|discriminate].
    apply BaseLemmas.rbind_ok in H as (r & H & _). constructor; [exact E|]. clear E. revert r H.
    induction d as [|[k x] d IHd]; intros r H; [constructor|]. inversion IH as [|? ? I1 I2]; subst. cbn [tmap2_dict] in H.
    destruct (dget e k) as [y|] eqn:Ek; [|discriminate]. apply BaseLemmas.rbind_ok in H as (z & H1 & H). apply BaseLemmas.rbind_ok in H as (r' & H2 & H).
    constructor; [cbn [fst snd]; exists y; split; [exact Ek|eapply I1; exact H1]|eapply IHd; eassumption].
  - rewrite tmap2_lst in H. apply BaseLemmas.rbind_ok in H as (r & H & _). constructor. eapply HL; eassumption.
  - rewrite tmap2_tup in H. apply BaseLemmas.rbind_ok in H as (r & H & _). constructor. eapply HL; eassumption.
Qed.
(** a prediction of another structure than the targets is rejected *)
Theorem C58_structure_partial : forall l P Y U r, eval_loss l P Y U = Ok r -> skeleton P Y.
Proof.
  intros l P Y U r H. destruct l; unfold eval_loss in H; apply BaseLemmas.rbind_ok in H as (e & H & _); eapply tmap2_skeleton; exact H.
Qed.

(** *** examples *)
Open Scope R_scope.
Definition c (x : R) : num := real x.
Definition vec (l : list R) : arr num := mk_arr [length l; 1%nat] (map c l).
Example mean_example : eval_loss MaeUnc (Lst [Leaf (vec [1; 5]); Leaf (vec [2; 2])]) (Lst [Leaf (vec [1; 3]); Leaf (vec [2; 8])])
    (Lst [Leaf (vec [1; 2]); Leaf (vec [1; 3])]) = Ok (Some (3 / 4)).
Proof.
  erewrite C32_value with (s := [2; 1]%nat) (ps := [([Idx 0], 0); ([Idx 0], 1); ([Idx 1], 0); ([Idx 1], 1)]%nat)
    (es := [((1, 0), (1, 0), (1, 0)); ((5, 0), (3, 0), (2, 0)); ((2, 0), (2, 0), (1, 0)); ((2, 0), (8, 0), (3, 0))]).
  - cbn [map formula Rsum fst snd length weight]. unfold dist, modulus. cbn [fst snd].
    replace ((1 - 1) ^ 2 + (0 - 0) ^ 2) with 0 by ring. replace ((5 - 3) ^ 2 + (0 - 0) ^ 2) with (2 ^ 2) by ring.
    replace ((2 - 2) ^ 2 + (0 - 0) ^ 2) with 0 by ring. replace ((2 - 8) ^ 2 + (0 - 0) ^ 2) with (6 ^ 2) by ring.
    replace (1 ^ 2 + 0 ^ 2) with (1 ^ 2) by ring. replace (2 ^ 2 + 0 ^ 2) with (2 ^ 2) by ring. replace (3 ^ 2 + 0 ^ 2) with (3 ^ 2) by ring.
    rewrite sqrt_0, !sqrt_pow2 by lra. do 2 f_equal. cbn [INR]. field.
  - repeat constructor.
  - repeat constructor.
  - repeat constructor.
  - repeat constructor.
  - intros a Ha. inversion Ha as [| |? t ? Hin Hl|]; subst. destruct Hin as [<-|[<-|[]]]; inversion Hl; reflexivity.
  - split; [|split].
    + repeat constructor; cbn; intros H; repeat (destruct H as [H|H]; [discriminate|]); exact H.
    + intros path i. split.
      * intros [E|[E|[E|[E|[]]]]]; injection E as <- <-; discriminate.
      * destruct path as [|[k|[|[|[|n]]]] [|[] ?]]; destruct i as [|[|[|i]]]; cbn; intros H; auto 10; exfalso; apply H; reflexivity.
    + repeat constructor.
  - discriminate.
  - exact I.
  - repeat constructor; cbn [fst snd weight]; unfold modulus; cbn [fst snd].
    all: repeat match goal with |- context [?a ^ 2 + 0 ^ 2] => replace (a ^ 2 + 0 ^ 2) with (a ^ 2) by ring end; rewrite sqrt_pow2 by lra; lra.
Qed.
Example unknown_example : forall pf, make_loss pf "rmse" = Err ValueError.
Proof. reflexivity. Qed.
Example perfect_example : eval_loss Mse (Leaf (vec [1; 2])) (Leaf (vec [1; 2])) NoneT = Ok (Some 0).
Proof.
  rewrite (C32_uncertainties_unused Mse _ _ NoneT (Leaf (vec [1; 2]))) by reflexivity.
  eapply C32_perfect with (s := [2; 1]%nat) (ps := [([], 0); ([], 1)]%nat) (es := [((1, 0), (1, 0), (1, 0)); ((2, 0), (2, 0), (2, 0))]).
  - constructor.
  - repeat constructor.
  - repeat constructor.
  - intros a Ha. inversion Ha; reflexivity.
  - split; [|split].
    + repeat constructor; cbn; intros H; repeat (destruct H as [H|H]; [discriminate|]); exact H.
    + intros path i. split.
      * intros [E|[E|[]]]; injection E as <- <-; discriminate.
      * destruct path as [|[] ?]; destruct i as [|[|[|i]]]; cbn; intros H; auto; exfalso; apply H; reflexivity.
    + repeat constructor.
  - discriminate.
  - exact I.
  - repeat constructor; cbn; lra.
Qed.

(** *** what is not true *)
(** a misspelt name is accepted *)
Theorem C32_misspelt_refuted : exists name, forall pf, ~ In name documented /\ make_loss pf name = Ok (PseudoHuber 1).
Proof. exists "pseudo_hubert". intros pf. split; [intros H; cbn in H; repeat (destruct H as [H|H]; [discriminate|]); exact H|reflexivity]. Qed.
(** the relative errors of a perfect prediction are not finite at the target -1e-4 *)
Theorem C32_relative_refuted : exists Y : data, eval_loss Mre Y Y Y = Ok None.
Proof.
  exists (Leaf (mk_arr [1%nat; 1%nat] [c (- eps)])). unfold eval_loss, tsub, scalar_add, tdiv. cbn -[eps Rplus Rminus Rmult Rdiv].
  unfold is_zero. cbn [fst snd]. destruct (Req_EM_T (- eps + eps) 0) as [_|H]; [|exfalso; apply H; ring].
  destruct (Req_EM_T (0 + 0) 0) as [_|H]; [|exfalso; apply H; ring]. reflexivity.
Qed.
(** the pseudo-Huber loss of any output that is not a bare array fails *)
Theorem C32_huber_tree_refuted : exists P : data, forall delta, eval_loss (PseudoHuber delta) P P P = Err TypeError.
Proof. exists (Lst [Leaf (vec [1; 2])]). reflexivity. Qed.
(** outputs of different shapes cannot be used with any loss *)
Theorem C32_mixed_shapes_refuted : exists P : data, eval_loss Mse P P P = Err TypeError /\ eval_loss Mae P P P = Err TypeError.
Proof. exists (Lst [Leaf (vec [1; 2]); Leaf (mk_arr [2; 2]%nat (map c [1; 2; 3; 4]))]). split; reflexivity. Qed.
(** predictions and targets of different shapes are not rejected: they are
    repeated, and the loss can even be zero *)
Theorem C58_refuted : exists P Y : arr num, shp P <> shp Y /\ wf_arr P /\ wf_arr Y /\ eval_loss Mae (Leaf P) (Leaf Y) NoneT = Ok (Some 0).
Proof.
  exists (vec [1; 1]), (mk_arr [2; 3]%nat (map c [1; 1; 1; 1; 1; 1])). split; [discriminate|]. split; [reflexivity|]. split; [reflexivity|].
  unfold eval_loss, tsub. cbn -[Rplus Rminus Rmult Rdiv cabs].
  assert (E : cabs (1 - 1, 0 - 0) = 0). { unfold cabs. cbn [fst snd]. replace ((1 - 1) * (1 - 1) + (0 - 0) * (0 - 0)) with 0 by ring. apply sqrt_0. }
  unfold tmean, checked. cbn -[Rplus Rminus Rmult Rdiv cabs]. rewrite E. do 2 f_equal. field.
Qed.

Print Assumptions C32_value.
Print Assumptions C32_perfect.
Print Assumptions C32_nonneg.
Print Assumptions C32_unknown_names.
Print Assumptions C58_structure_partial.
Print Assumptions C58_refuted.
