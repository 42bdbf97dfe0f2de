(** Which built-in modules accept their own parameters back. *)
From Coq Require Import ZArith Permutation.
From Verif Require Import Base BaseLemmas Modules ModulesSpec ModulesProofs Serial SerialSpec.
Local Open Scope string_scope.
Local Open Scope list_scope.
Local Open Scope nat_scope.

Lemma settled_none fr gh sh o : settled (mk_cls fr gh sh no_par ignore_par) o.
Proof. exists (VTup []). split; [reflexivity|]. intros o1 H. exists o1. split; auto. Qed.

Lemma attr_same o o1 k : same_obj o o1 -> attr o1 k = attr o k.
Proof. intros [H _]. unfold attr. rewrite H. reflexivity. Qed.
Lemma setattr_same o o1 k v : same_obj o o1 -> attr o k = Ok v -> same_obj o (setattr o1 k v).
Proof.
  intros [H1 H2] E. unfold attr in E. destruct (dget (attrs o) k) eqn:Ek; [|discriminate]. injection E as ->.
  split; [|exact H2]. intros k'. cbn. destruct (String.eqb_spec k k') as [<-|Hn].
  - rewrite dget_dset_same. exact Ek.
  - rewrite dget_dset_other by congruence. apply H1.
Qed.

Lemma settled_constant c sh mag real name t : settled constant_cls (constant_obj c sh mag real name t).
Proof. exists c. split; [reflexivity|]. intros o1 H. eexists; split; [reflexivity|]. apply setattr_same; auto. Qed.
Lemma settled_einsum str p dm mag real i t : settled einsum_cls (einsum_obj str p dm mag real i t).
Proof. exists p. split; [reflexivity|]. intros o1 H. eexists; split; [reflexivity|]. apply setattr_same; auto. Qed.
Lemma settled_matmul p osh po mag real sep str dm i t : settled matmul_cls (matmul_obj p osh po mag real sep str dm i t).
Proof. exists p. split; [reflexivity|]. intros o1 H. eexists; split; [reflexivity|]. apply setattr_same; auto. Qed.
Lemma settled_prelu chk single mag real a i t :
  (forall o, attr o "a" = Ok a -> chk o a = Ok tt) -> settled (prelu_cls chk) (prelu_obj single mag real a i t).
Proof.
  intros Hc. exists a. split; [reflexivity|]. intros o1 H. exists (setattr o1 "a" a). split; [|apply setattr_same; auto].
  cbn. rewrite (attr_same _ _ "a" H), (attr_same _ _ "input_shape" H). cbn. 
  destruct a; try reflexivity; destruct i; try reflexivity; rewrite Hc by (rewrite (attr_same _ _ "a" H); reflexivity); reflexivity.
Qed.

Section Herm.
Context (herm : arr -> bool).
Lemma settled_ahm o a : ahm_inv herm o -> attr o "Ms" = Ok (VArr a) -> settled (ahm_cls herm) o.
Proof.
  intros (n & sm & bt & Ms & mag & t & -> & HM) E. destruct Ms as [m|]; [|discriminate]. injection E as <-.
  destruct (HM m eq_refl) as (p & k & -> & Hs & Hh).
  exists (VArr m). split; [reflexivity|]. intros o1 H. exists (setattr o1 "Ms" (VArr m)). split; [|apply setattr_same; auto].
  cbn -[nat_of_v]. rewrite (attr_same _ _ "Ms" H), (attr_same _ _ "matrix_size" H). cbn -[nat_of_v].
  change (nat_of_v (VInt (Z.of_nat k))) with (nat_of_v (opt_nat (Some k))). rewrite nat_of_opt', Hs. cbn [hd].
  rewrite sle_refl, Hh. reflexivity.
Qed.
Lemma settled_at o a : at_inv o -> attr o "Ms" = Ok (VArr a) -> settled at_cls o.
Proof.
  intros (sh & bt & Ms & mag & real & t & -> & HM) E. destruct Ms as [m|]; [|discriminate]. injection E as <-.
  destruct (HM m eq_refl) as (p & l & -> & Hs).
  exists (VArr m). split; [reflexivity|]. intros o1 H. exists (setattr o1 "Ms" (VArr m)). split; [|apply setattr_same; auto].
  cbn -[int_list]. rewrite (attr_same _ _ "Ms" H), (attr_same _ _ "tensor_shape" H). cbn -[int_list].
  rewrite Hs, int_list_shape. cbn [hd]. rewrite sle_refl. reflexivity.
Qed.
Lemma settled_evs o a : evs_inv herm o -> attr o "Ds" = Ok (VArr a) -> settled (evs_cls herm) o.
Proof.
  intros (l & q & Ds & mag & ce & t & -> & HM) E. destruct Ds as [m|]; [|discriminate]. injection E as <-.
  destruct (HM m eq_refl) as (l' & q' & n & -> & -> & Hs & Hh).
  exists (VArr m). split; [reflexivity|]. intros o1 H. exists (setattr o1 "Ds" (VArr m)). split; [|apply setattr_same; auto].
  cbn -[nat_of_v]. rewrite (attr_same _ _ "output_size" H), (attr_same _ _ "num_observables" H). cbn -[nat_of_v].
  change (nat_of_v (VInt (Z.of_nat l'))) with (nat_of_v (opt_nat (Some l'))).
  change (nat_of_v (VInt (Z.of_nat q'))) with (nat_of_v (opt_nat (Some q'))). rewrite !nat_of_opt', Hs.
  rewrite sle_refl, Hh. reflexivity.
Qed.
End Herm.

(** Python dictionaries have distinct keys. *)
Inductive pwf : pv -> Prop :=
| pwf_list l : Forall pwf l -> pwf (VList l)
| pwf_tup l : Forall pwf l -> pwf (VTup l)
| pwf_dict d : NoDup (dkeys d) -> Forall (fun kv => pwf (snd kv)) d -> pwf (VDict d)
| pwf_other v : is_cont v = false -> pwf v.

Lemma same_struct_refl v : pwf v -> same_struct v v = true.
Proof.
  revert v. fix REC 2. intros v W. destruct W as [l F|l F|d N F|v Hv].
  - cbn. induction F as [|x l Hx F IH]; [reflexivity|]. rewrite (REC _ Hx). exact IH.
  - cbn. induction F as [|x l Hx F IH]; [reflexivity|]. rewrite (REC _ Hx). exact IH.
  - cbn. rewrite Nat.eqb_refl. cbn.
    assert (A : forall d', Forall (fun kv => pwf (snd kv)) d' -> (forall kv, In kv d' -> In kv d) ->
      forallb (fun kv : string * pv => match dget d (fst kv) with Some w => same_struct (snd kv) w | None => false end) d' = true).
    { intros d' F'. induction F' as [|[k x] d' Hx F' IH]; intros Hin; [reflexivity|]. cbn.
      rewrite (In_dget d k x N) by (apply Hin; left; reflexivity). cbn in Hx. rewrite (REC _ Hx). apply IH. intros kv Hkv. apply Hin; right; exact Hkv. }
    apply (A d F). auto.
  - destruct v; try reflexivity; discriminate Hv.
Qed.

Lemma settled_bias o : bias_inv o ->
  (forall b, attr o "bias" = Ok b -> pwf b) ->
  (attr o "bias" = Ok VNone -> attr o "scalar" = Ok (VBool false) /\ attr o "real" = Ok (VBool true)) ->
  settled bias_cls o.
Proof.
  intros (b & mag & real & scalar & t & -> & Hb) Hw Hn. specialize (Hw b eq_refl).
  exists b. split; [reflexivity|]. intros o1 H. exists (setattr o1 "bias" b). split; [|apply setattr_same; auto].
  cbn -[bias_check]. unfold bias_set_par. rewrite (attr_same _ _ "bias" H), (attr_same _ _ "scalar" H), (attr_same _ _ "real" H).
  cbn -[bias_check same_struct].
  destruct b eqn:Eb; try (rewrite same_struct_refl by exact Hw; cbn -[bias_check]; destruct Hb as [Hb|Hb]; [discriminate|]; rewrite Hb; reflexivity).
  destruct Hn as [E1 E2]; [reflexivity|]. cbn in E1, E2. injection E1 as ->. injection E2 as ->. reflexivity.
Qed.
