(** Facts about the check of the continuous features. *)
From Coq Require Import Reals Lia Permutation.
From Verif Require Import Base TreeUtil TreeSpec TreeProofs NonSeqSpec Serial SerialSpec Scaler ScalerProofs OneHot Conformal Strata StrataProofs ReshapeProofs ReshapeMain TrainArgsProofs ScalerTypedProofs Sanity SanitySpec.
Local Open Scope list_scope.

Lemma same_length {A} (D E : list A) : NoDup D -> NoDup E -> (forall r, In r D <-> In r E) -> length D = length E.
Proof. intros N M H. apply Nat.le_antisymm; apply NoDup_incl_length; auto; intros r I; apply H; exact I. Qed.
Lemma unique_different l d : different l d <-> d = length (unique_rows rops l).
Proof.
  split.
  - intros (D & N & H & <-). apply same_length; [exact N|apply unique_nodup|]. intros r. rewrite H, unique_in. reflexivity.
  - intros ->. exists (unique_rows rops l). split; [apply unique_nodup|]. split; [intros r; apply unique_in|reflexivity].
Qed.
Lemma different_perm {A} (l m : list A) d : Permutation l m -> different l d -> different m d.
Proof.
  intros P (D & N & H & L). exists D. split; [exact N|]. split; [|exact L]. intros r. rewrite H. split; apply Permutation_in; [exact P|apply Permutation_sym; exact P].
Qed.
Lemma looks_perm {A} (l m : list A) : Permutation l m -> looks_continuous l -> looks_continuous m.
Proof. intros P (d & D & B & C). exists d. split; [exact (different_perm _ _ _ P D)|]. rewrite <- (Permutation_length P). auto. Qed.
Lemma looks_nodup {A} (l : list A) : NoDup l -> 10 < length l -> looks_continuous l.
Proof. intros N L. exists (length l). split; [exists l; split; [exact N|]; split; [reflexivity|reflexivity]|]. lia. Qed.
Lemma looks_many {A} (l : list A) : looks_continuous l -> 10 < length l.
Proof.
  intros (d & (D & N & H & <-) & B & _). apply Nat.lt_le_trans with (length D); [exact B|]. apply NoDup_incl_length; [exact N|]. intros r I. apply H. exact I.
Qed.

(** one leaf *)
Lemma said_leaf x c : exists z, looks_as_said x c = Ok z /\ (z = true <-> (c = true <-> looks_continuous (o_rows x))).
Proof.
  unfold looks_as_said. cbv zeta. eexists. split; [reflexivity|]. set (u := length (unique_rows rops (o_rows x))).
  assert (K : looks_continuous (o_rows x) <-> ((10 <? u) && (length (o_rows x) <? 20 * u) = true)).
  { rewrite andb_true_iff, !Nat.ltb_lt. split.
    - intros (d & D & B & C). apply unique_different in D. fold u in D. subst d. auto.
    - intros [B C]. exists u. split; [apply unique_different; reflexivity|auto]. }
  destruct ((10 <? u) && (length (o_rows x) <? 20 * u)); destruct c; cbn [Bool.eqb]; rewrite K; split; intros H; try reflexivity; try discriminate; try tauto; try (split; intros; congruence).
Qed.

Lemma shuffled {A} (order : nat -> list nat) (l : list A) d : shuffles order -> Permutation l (map (fun i => nth i l d) (order (length l))).
Proof.
  intros H. rewrite (list_as_map d l) at 1. apply Permutation_map. apply H.
Qed.
Lemma map_id_in {A} (f : A -> A) l : (forall x, In x l -> f x = x) -> map f l = l.
Proof. intros H. rewrite (map_ext_in _ (fun x => x) l H). apply map_id. Qed.
Lemma sub_rows max_n max_k order x a s : shuffles order -> o_shape x = a :: s -> a <= max_k -> (forall r, In r (o_rows x) -> length r = features x) ->
  exists x' p, subsample max_n max_k order x = Ok x' /\ Permutation (o_rows x) p /\ o_rows x' = firstn max_n p.
Proof.
  intros O S A C. unfold subsample. rewrite S. cbv zeta. eexists. exists (map (fun i => nth i (o_rows x) []) (order (length (o_rows x)))). split; [reflexivity|].
  split; [apply shuffled; exact O|]. cbn [o_rows]. apply map_id_in. intros r I. apply firstn_all2.
  rewrite (C r); [unfold features; rewrite S; cbn [fold_right]; rewrite Nat.min_r by exact A; lia|].
  apply (Permutation_in r (Permutation_sym (shuffled order (o_rows x) [] O))). rewrite <- (firstn_skipn max_n). apply in_or_app. left. exact I.
Qed.

Section Main.
Variables (max_n max_k : nat) (order : nat -> list nat).

Lemma warns_tree (r : tree (bdata * bool)) X c cal (tr : option (tree bdata)) (Q : bdata * bool -> Prop) :
  match tr with Some t => t | None => cal end = X -> said r X c ->
  (forall p, has_leaf r p -> exists x', subsample max_n max_k order (fst p) = Ok x' /\ exists z, looks_as_said x' (snd p) = Ok z /\ (z = true <-> Q p)) ->
  exists b, warns max_n max_k order false cal tr c = Ok b /\ (b = false <-> forall p, has_leaf r p -> Q p).
Proof.
  intros E (W & TX & TC) H. unfold warns. rewrite E.
  destruct (jm_trel (subsample max_n max_k order) (fun p x => fst p = x) (fun p x' => subsample max_n max_k order (fst p) = Ok x') r) with (u := X) as (d & Ed & Td).
  { intros p x Hp <-. destruct (H p Hp) as (x' & S & _). eauto. } { exact TX. }
  rewrite Ed. cbn [rbind].
  destruct (jzip3 looks_as_said (fun p x' => subsample max_n max_k order (fst p) = Ok x') (fun p b => snd p = b) (fun p z => z = true <-> Q p) r W) with (u := d) (p := c) as (v & Ev & Tv).
  { intros p x' b Hp S <-. destruct (H p Hp) as (y & Sy & z & Z & K). rewrite S in Sy. injection Sy as <-. eauto. } { exact Td. } { exact TC. }
  rewrite Ev. cbn [rbind]. eexists. split; [reflexivity|]. rewrite negb_false_iff, forallb_forall. split.
  - intros F p Hp. destruct (trel_leafless _ _ _ _ Tv Hp) as (z & Hz & K). apply K. apply F. apply leaves_has_leaf. exact Hz.
  - intros F z Hz. apply leaves_has_leaf in Hz. destruct (trel_leafless _ _ _ _ (trel_flip _ _ _ Tv) Hz) as (p & Hp & K). apply K. auto.
Qed.
End Main.
