(** Exactly when the arguments of training are accepted. *)
From Coq Require Import ZArith.
From Verif Require Import Base BaseLemmas TreeUtil TreeSpec NonSeqSpec NonSeqProofs BatchSpec SerialSpec ScalerProofs ReshapeProofs ReshapeMain EinsumSpec EinsumProofs EinsumMain
  TrainArgs TrainArgsProofs TrainAcceptSpec.
Local Open Scope list_scope.

Section Accept.
Context {A : Type} (shape : A -> list nat).

Lemma list_eqb_spec l m : list_eqb l m = true <-> l = m.
Proof. unfold list_eqb. destruct (list_eq_dec Nat.eq_dec l m); split; congruence. Qed.
Lemma zip_all_pairs {B} (f : B -> B -> bool) (l : list (B * B)) : zip_all f (map fst l) (map snd l) = true <-> forall p, In p l -> f (fst p) (snd p) = true.
Proof.
  induction l as [|p l IH]; cbn [map zip_all]; [split; [intros _ q []|reflexivity]|]. rewrite andb_true_iff, IH. split.
  - intros [H1 H2] q [ <- | Hq]; auto.
  - intros H. split; [apply H; left; reflexivity|]. intros q Hq. apply H. right. exact Hq.
Qed.
Lemma forall2_map {X Y} (f : X -> Y) l m : Forall2 (fun x y => f x = y) l m -> m = map f l.
Proof. induction 1; cbn; congruence. Qed.
Lemma zip_trel (f : A -> A -> bool) t u : wf_tree t -> wf_tree u ->
  same_struct t u && zip_all f (leaves t) (leaves u) = true <-> trel (fun a b => f a b = true) t u.
Proof.
  intros W1 W2. assert (P : forall (R : A -> A -> Prop), trel R t u -> exists r : tree (A * A), trel (fun p x => fst p = x) r t /\ trel (fun p q => snd p = q /\ R (fst p) q) r u /\
    leaves t = map fst (leaves r) /\ leaves u = map snd (leaves r)).
  { intros R T. destruct (trel_pair R t u T) as (r & T1 & T2 & W). specialize (W W1). exists r. split; [exact T1|]. split; [exact T2|]. split.
    - apply forall2_map. exact (leaves_trel _ r W t T1).
    - apply forall2_map. apply (leaves_trel _ r W u). eapply trel_impl; [|exact T2]. cbn. intros p q [H _]. exact H. }
  rewrite andb_true_iff. split.
  - intros [S Z]. apply (struct_alike t W1) in S. destruct (P _ S) as (r & T1 & T2 & L1 & L2). rewrite L1, L2, zip_all_pairs in Z.
    eapply (trel_comp (fun x p => fst p = x /\ f (fst p) (snd p) = true) (fun p q => snd p = q) _ t r u).
    + cbn. intros x p q [ <- H] <-. exact H.
    + apply trel_flip. eapply trel_impl; [|apply (trel_leaf_prop (fun p x => fst p = x) (fun p => f (fst p) (snd p) = true) r t); [|exact T1]].
      * cbn. intros p x [H1 H2]. auto.
      * intros p Hp. apply Z. apply leaves_has_leaf. exact Hp.
    + eapply trel_impl; [|exact T2]. cbn. intros p q [H _]. exact H.
  - intros T. split.
    + apply alike_struct; [exact W2|]. eapply trel_impl; [|exact T]. auto.
    + destruct (P _ T) as (r & T1 & T2 & L1 & L2). rewrite L1, L2. apply zip_all_pairs. intros p Hp.
      assert (F : Forall2 (fun p q => snd p = q /\ f (fst p) q = true) (leaves r) (leaves u)).
      { apply leaves_trel; [|exact T2]. eapply trel_wf; [apply trel_flip; exact T1|exact W1]. }
      clear -F Hp. induction F as [|p0 q l m [E H] F IH]; [destruct Hp|]. destruct Hp as [ <- | Hp]; [subst q; exact H|auto].
Qed.
Lemma same_samples_iff t u : wf_tree t -> wf_tree u -> shapes_equal_1 shape t u = true <-> same_samples shape t u.
Proof.
  intros W1 W2. unfold shapes_equal_1. rewrite (zip_trel (fun a b => list_eqb (tl (shape a)) (tl (shape b))) t u W1 W2). unfold same_samples.
  split; apply trel_impl; intros x y; apply list_eqb_spec.
Qed.
Lemma shapes_equal_of n t u : wf_tree t -> wf_tree u -> tabular shape n t -> tabular shape n u -> same_samples shape t u -> shapes_equal shape t u = true.
Proof.
  intros W1 W2 T1 T2 S. unfold shapes_equal. apply (zip_trel (fun a b => list_eqb (shape a) (shape b)) t u W1 W2).
  assert (S1 : trel (fun a b => tl (shape a) = tl (shape b) /\ exists k r, shape a = n :: k :: r) t u) by (apply (trel_leaf_prop _ (fun a => exists k r, shape a = n :: k :: r)); assumption).
  apply trel_flip in S1. pose proof (trel_leaf_prop _ (fun b => exists k r, shape b = n :: k :: r) u t T2 S1) as S2. apply trel_flip in S2.
  eapply trel_impl; [|exact S2]. cbn. intros x y [[H (k & r & E)] (k' & r' & E')]. apply list_eqb_spec. rewrite E, E' in *. cbn in H. congruence.
Qed.
Lemma tabular_counts n t : tabular shape n t -> counts shape n t.
Proof. intros H x Hx. destruct (H x Hx) as (k & r & E). eauto. Qed.
Lemma one_count_iff ts : one_count shape ts = true <-> exists n, forall t, In t ts -> tabular shape n t.
Proof.
  split.
  - unfold one_count. intros H. destruct (concat (map leaves ts)) as [|a l] eqn:E.
    + exists 0. intros t Ht x Hx. exfalso. apply leaves_has_leaf in Hx.
      assert (Hin : In x (concat (map leaves ts))) by (apply in_concat; exists (leaves t); split; [apply in_map; exact Ht|exact Hx]).
      rewrite E in Hin. exact Hin.
    + exists (hd 0 (shape a)). intros t Ht x Hx. apply leaves_has_leaf in Hx.
      assert (Hin : In x (concat (map leaves ts))) by (apply in_concat; exists (leaves t); split; [apply in_map; exact Ht|exact Hx]).
      rewrite E in Hin. rewrite forallb_forall in H. specialize (H _ Hin). destruct (shape x) as [|m [|m' r]]; try discriminate H.
      apply Nat.eqb_eq in H. subst. eauto.
  - intros (n & H). unfold one_count. assert (Hl : forall x, In x (concat (map leaves ts)) -> exists k r, shape x = n :: k :: r).
    { intros x Hx. apply in_concat in Hx as (xs & Hin & Hx). apply in_map_iff in Hin as (t & <- & Ht). apply (H t Ht). apply leaves_has_leaf. exact Hx. }
    destruct (concat (map leaves ts)) as [|a l]; [reflexivity|]. apply forallb_forall. intros b Hb. destruct (Hl b Hb) as (k & r & Eb).
    destruct (Hl a (or_introl eq_refl)) as (k' & r' & Ea). rewrite Ea, Eb. cbn [hd]. apply Nat.eqb_refl.
Qed.
Lemma one_kind_iff t us : wf_tree t -> (forall u, In u us -> wf_tree u) -> one_kind shape (t :: us) = true <-> forall u, In u us -> same_samples shape t u.
Proof.
  intros W Ws. cbn [one_kind]. rewrite forallb_forall. split; intros H u Hu; apply (same_samples_iff t u W (Ws u Hu)); auto.
Qed.
Lemma kind_in t us u : wf_tree t -> (forall u, In u us -> wf_tree u) -> one_kind shape (t :: us) = true -> In u us -> same_samples shape t u.
Proof. intros W Ws K I. exact (proj1 (one_kind_iff t us W Ws) K u I). Qed.
Lemma struct_iff (t u : tree unit) : wf_tree t -> wf_tree u -> same_struct t u = true <-> alike t u.
Proof. intros W1 W2. split; [apply struct_alike; exact W1|apply alike_struct; exact W2]. Qed.
Lemma populated_trel {X Y} (R : X -> Y -> Prop) t u : wf_tree t -> trel R t u -> populated t -> populated u.
Proof.
  intros W T (x & Hx). pose proof (leaves_trel R t W u T) as F. apply leaves_has_leaf in Hx.
  destruct (leaves t) as [|a l]; [destruct Hx|]. inversion F as [|a' b l' m R0 F0 E1 E2]; subst. exists b. apply leaves_has_leaf. rewrite <- E2. left. reflexivity.
Qed.

Lemma opt_in {B} (o : option B) x : In x (opt_list o) <-> o = Some x.
Proof. destruct o; cbn; split; [intros [ <- | []]; reflexivity|intros H; injection H as <-; auto|intros []|discriminate]. Qed.
Lemma require_true b e : b = true -> require b e = Ok tt.
Proof. intros ->. reflexivity. Qed.
Lemma num_samples_of n t : counts shape n t -> populated t -> num_samples shape t = Ok n.
Proof.
  intros C (x & Hx). apply leaves_has_leaf in Hx. unfold num_samples. assert (HL : forall x, In x (leaves t) -> exists r, shape x = n :: r) by (intros z Hz; apply C, leaves_has_leaf, Hz).
  destruct (leaves t) as [|y l]; [destruct Hx|]. destruct (HL y (or_introl eq_refl)) as (r & Er). unfold dim0. rewrite Er. reflexivity.
Qed.
Lemma uniform_equal_pop t u b : uniform_equal_0 shape t u = Ok b -> b = true -> populated t /\ populated u.
Proof.
  unfold uniform_equal_0. intros H ->. apply rbind_ok in H as ([] & H1 & H); [|discriminate]. apply rbind_ok in H as ([] & H2 & H); [|discriminate].
  destruct (leaves t) as [|x l] eqn:E1; [discriminate|]. destruct (leaves u) as [|y k] eqn:E2; [discriminate|].
  split; [exists x|exists y]; apply leaves_has_leaf; [rewrite E1|rewrite E2]; left; reflexivity.
Qed.

Theorem accepted_when n m a : proper a -> acceptable shape n m a -> exists d, train_args shape a = Ok d /\
  d_X d = a_X a /\ d_Y d = a_Y a /\ d_Y_unc d = a_Y_unc a /\ batch_of n (a_batch a) (d_batch d) /\
  val_batch_of (match a_X_val a with Some _ => m | None => n end) (a_val_batch a) (d_val_batch d).
Proof.
  intros (WX & WF & WD & WP) [Sense [PX TX] HY HU HXV HYV HVU HP HA].
  assert (NY : a_Y a = None -> a_Y_unc a = None /\ a_Y_val a = None /\ a_Y_val_unc a = None).
  { intros E. destruct (a_Y_unc a) as [u|] eqn:E1; [exfalso; apply Sense; eapply sl_unc; eassumption|].
    destruct (a_Y_val a) as [yv|] eqn:E2; [exfalso; apply Sense; eapply sl_val_targets; eassumption|].
    destruct (a_Y_val_unc a) as [uv|] eqn:E3; [exfalso; apply Sense; eapply sl_val_unc; eassumption|]. auto. }
  assert (WY : forall y, a_Y a = Some y -> wf_tree y) by (intros y E; apply WD; rewrite E; cbn; auto).
  assert (WU : forall y, a_Y_unc a = Some y -> wf_tree y) by (intros y E; apply WD; rewrite E; cbn; auto).
  assert (WXV : forall y, a_X_val a = Some y -> wf_tree y) by (intros y E; apply WD; rewrite E; cbn; auto).
  assert (WYV : forall y, a_Y_val a = Some y -> wf_tree y) by (intros y E; apply WD; rewrite E; cbn; auto).
  assert (WVU : forall y, a_Y_val_unc a = Some y -> wf_tree y) by (intros y E; apply WD; rewrite E; cbn; auto 6).
  assert (AN : annotated shape a = true).
  { unfold annotated. rewrite !andb_true_iff. repeat split.
    - apply one_count_iff. exists n. intros t [ <- | Ht]; [exact TX|]. apply in_app_iff in Ht as [Ht|Ht]; apply opt_in in Ht.
      + apply (HY t Ht).
      + destruct (a_Y a) as [y|] eqn:E; [exact (proj2 (HU y t eq_refl Ht))|]. destruct (NY eq_refl) as (N1 & _). congruence.
    - apply one_count_iff. exists m. intros t Ht. apply in_app_iff in Ht as [Ht|Ht]; [apply opt_in in Ht; apply (HXV t Ht)|].
      apply in_app_iff in Ht as [Ht|Ht]; apply opt_in in Ht; destruct (a_Y a) as [y|] eqn:E.
      + exact (proj2 (HYV y t eq_refl Ht)).
      + destruct (NY eq_refl) as (_ & N1 & _). congruence.
      + exact (proj2 (HVU y t eq_refl Ht)).
      + destruct (NY eq_refl) as (_ & _ & N1). congruence.
    - apply (one_kind_iff _ _ WX); intros u Hu; apply opt_in in Hu; [apply WXV; exact Hu|apply HXV; exact Hu].
    - destruct (a_Y a) as [y|] eqn:E.
      + cbn [opt_list app]. apply one_kind_iff; [apply WY; reflexivity| |].
        * intros u Hu. rewrite !in_app_iff, !opt_in in Hu. destruct Hu as [Hu|[Hu|Hu]]; auto.
        * intros u Hu. rewrite !in_app_iff, !opt_in in Hu. destruct Hu as [Hu|[Hu|Hu]]; [apply (HU y u)|apply (HYV y u)|apply (HVU y u)]; auto.
      + destruct (NY eq_refl) as (-> & -> & ->). reflexivity. }
  unfold train_args. rewrite (require_true _ _ AN). cbn [rbind].
  rewrite (require_true (negb (a_resume a && negb (given (a_adam a))))).
  2:{ destruct (a_resume a) eqn:E1, (a_adam a) eqn:E2; cbn; try reflexivity. exfalso. apply Sense. apply sl_resume; assumption. }
  cbn [rbind]. rewrite (require_true (a_resume a || given (a_params a))).
  2:{ destruct (a_resume a) eqn:E1, (a_params a) eqn:E2; cbn; try reflexivity. exfalso. apply Sense. apply sl_start; assumption. }
  cbn [rbind]. rewrite (num_samples_of n) by (try apply tabular_counts; assumption). cbn [rbind].
  rewrite (require_true (negb (negb (given (a_Y a)) && given (a_Y_val a)))).
  2:{ destruct (a_Y a) as [y|] eqn:E1; [reflexivity|]. destruct (NY eq_refl) as (_ & -> & _). reflexivity. }
  cbn [rbind]. rewrite (require_true (negb (given (a_Y_unc a) && negb (given (a_Y a))))).
  2:{ destruct (a_Y a) as [y|] eqn:E1; [destruct (a_Y_unc a); reflexivity|]. destruct (NY eq_refl) as (-> & _). reflexivity. }
  cbn [rbind]. rewrite (require_true (negb (given (a_Y_val_unc a) && negb (given (a_Y_val a))))).
  2:{ destruct (a_Y_val a) as [y|] eqn:E1, (a_Y_val_unc a) as [u|] eqn:E2; cbn; try reflexivity. exfalso. apply Sense. eapply sl_val_unc; eassumption. }
  cbn [rbind]. rewrite (require_true (negb (given (a_Y_unc a) && given (a_Y_val a) && negb (given (a_Y_val_unc a))))).
  2:{ destruct (a_Y_unc a) as [u|] eqn:E1, (a_Y_val a) as [y|] eqn:E2, (a_Y_val_unc a) as [v|] eqn:E3; cbn; try reflexivity. exfalso. apply Sense. eapply sl_no_val_unc; eassumption. }
  cbn [rbind].
  set (V := match a_X_val a with
    | Some x => (x, a_Y_val a, if negb (given (a_Y_unc a)) && given (a_Y_val a) then None else a_Y_val_unc a)
    | None => (a_X a, a_Y a, a_Y_unc a)
    end). set (k := match a_X_val a with Some _ => m | None => n end).
  assert (HV : populated (fst (fst V)) /\ tabular shape k (fst (fst V)) /\ wf_tree (fst (fst V)) /\ same_samples shape (a_X a) (fst (fst V)) /\
    (forall y yv, a_Y a = Some y -> snd (fst V) = Some yv -> populated yv /\ tabular shape k yv /\ wf_tree yv /\ same_samples shape y yv) /\
    (forall y uv, a_Y a = Some y -> snd V = Some uv -> tabular shape k uv /\ wf_tree uv /\ same_samples shape y uv) /\
    (given (snd (fst V)) = given (a_Y a)) /\ (given (snd V) = true -> given (a_Y a) = true)).
  { assert (SR : forall t, same_samples shape t t) by (intros t; unfold same_samples; eapply trel_impl; [|apply trel_refl]; cbn; intros; congruence).
    subst V k. destruct (a_X_val a) as [x|] eqn:EX; cbn [fst snd].
    - destruct (HXV x eq_refl) as [Sx Tx]. split; [eapply populated_trel; [exact WX|exact Sx|exact PX]|]. split; [exact Tx|]. split; [apply WXV; reflexivity|]. split; [exact Sx|].
      split; [|split; [|split]].
      + intros y yv E1 E2. destruct (HYV y yv E1 E2) as [S1 T1]. destruct (HY y E1) as [P1 _]. split; [eapply populated_trel; [exact (WY y E1)|exact S1|exact P1]|]. auto.
      + intros y uv E1 E2. destruct (negb (given (a_Y_unc a)) && given (a_Y_val a)); [discriminate|]. destruct (HVU y uv E1 E2). auto.
      + destruct (a_Y a) as [y|] eqn:E1; [|destruct (NY eq_refl) as (_ & -> & _); reflexivity]. destruct (a_Y_val a) as [yv|] eqn:E2; [reflexivity|].
        exfalso. destruct (HY y eq_refl) as [(z & Hz) _]. apply Sense. apply (sl_no_val_targets a y z); auto. congruence.
      + destruct (a_Y a) as [y|] eqn:E1; [reflexivity|]. destruct (NY eq_refl) as (-> & -> & ->). cbn. congruence.
    - split; [exact PX|]. split; [exact TX|]. split; [exact WX|]. split; [apply SR|]. split; [|split; [|split]].
      + intros y yv E1 E2. assert (y = yv) by congruence. subst yv. destruct (HY y E1). split; [assumption|]. split; [assumption|]. split; [auto|apply SR].
      + intros y uv E1 E2. destruct (HU y uv E1 E2). auto.
      + reflexivity.
      + destruct (a_Y a) as [y|] eqn:E1; [reflexivity|]. destruct (NY eq_refl) as (-> & _). cbn. congruence. }
  destruct V as [[XV YV] UV]. cbn [fst snd] in HV. destruct HV as (PV & TV & WV & SV & YVs & UVs & GY & GU).
  destruct (a_Y a) as [y|] eqn:EY.
  - destruct YV as [yv|]; [|discriminate GY]. destruct (HY y eq_refl) as [PY TY]. destruct (YVs y yv eq_refl eq_refl) as (PYV & TYV & WYV' & SYV).
    rewrite (uniform_equal_ok shape n) by (try apply tabular_counts; assumption). cbn [rbind require].
    assert (R1 : (match a_Y_unc a with Some u => require (shapes_equal shape y u) ValueError | None => Ok tt end) = Ok tt).
    { destruct (a_Y_unc a) as [u|] eqn:EU; [|reflexivity]. destruct (HU y u eq_refl eq_refl). apply require_true. apply (shapes_equal_of n); auto. }
    rewrite R1. cbn [rbind]. rewrite (uniform_equal_ok shape k) by (try apply tabular_counts; assumption). cbn [rbind require].
    assert (R2 : (match UV with Some u => require (shapes_equal shape yv u) ValueError | None => Ok tt end) = Ok tt).
    { destruct UV as [uv|]; [|reflexivity]. destruct (UVs y uv eq_refl eq_refl) as (T1 & W1 & S1). apply require_true. apply (shapes_equal_of k); auto.
      unfold same_samples in *. eapply (trel_comp (fun b a0 => tl (shape a0) = tl (shape b))); [|apply trel_flip; exact SYV|exact S1]. cbn. intros. congruence. }
    rewrite R2. cbn [rbind or_none]. rewrite (require_true (shapes_equal_1 shape (a_X a) XV)) by (apply same_samples_iff; assumption). cbn [rbind].
    rewrite (require_true (shapes_equal_1 shape y yv)) by (apply same_samples_iff; auto). cbn [rbind].
    assert (R3 : (match a_params a with Some p => require (same_struct p (a_flags a)) ValueError | None => Ok tt end) = Ok tt).
    { destruct (a_params a) as [p|] eqn:EP; [|reflexivity]. apply require_true. apply struct_iff; [apply WP; cbn; auto|exact WF|auto]. }
    rewrite R3. cbn [rbind].
    assert (R4 : (match a_adam a with Some s => require (negb (a_resume a) || same_struct s (a_flags a)) ValueError | None => Ok tt end) = Ok tt).
    { destruct (a_adam a) as [s|] eqn:EA; [|reflexivity]. apply require_true. destruct (a_resume a) eqn:ER; [|reflexivity]. cbn [negb orb].
      apply struct_iff; [apply WP; cbn; auto|exact WF|auto]. }
    rewrite R4. cbn [rbind]. rewrite (num_samples_of k) by (try apply tabular_counts; assumption). cbn [rbind].
    eexists. split; [reflexivity|]. cbn [d_X d_Y d_Y_unc d_batch d_val_batch]. repeat split.
    + unfold batch_of. destruct (Z.ltb_spec (Z.of_nat n) (a_batch a)); lia.
    + unfold val_batch_of. destruct (Z.leb_spec (a_val_batch a) 0); [left; lia|right]. destruct (Z.ltb_spec (Z.of_nat k) (a_val_batch a)); lia.
  - destruct YV as [yv|]; [discriminate GY|]. destruct UV as [uv|]; [discriminate (GU eq_refl)|]. destruct (NY eq_refl) as (N1 & N2 & N3). rewrite N1.
    cbn [rbind]. rewrite (require_true (shapes_equal_1 shape (a_X a) XV)) by (apply same_samples_iff; assumption). cbn [rbind].
    assert (R3 : (match a_params a with Some p => require (same_struct p (a_flags a)) ValueError | None => Ok tt end) = Ok tt).
    { destruct (a_params a) as [p|] eqn:EP; [|reflexivity]. apply require_true. apply struct_iff; [apply WP; cbn; auto|exact WF|auto]. }
    rewrite R3. cbn [rbind].
    assert (R4 : (match a_adam a with Some s => require (negb (a_resume a) || same_struct s (a_flags a)) ValueError | None => Ok tt end) = Ok tt).
    { destruct (a_adam a) as [s|] eqn:EA; [|reflexivity]. apply require_true. destruct (a_resume a) eqn:ER; [|reflexivity]. cbn [negb orb].
      apply struct_iff; [apply WP; cbn; auto|exact WF|auto]. }
    rewrite R4. cbn [rbind]. rewrite (num_samples_of k) by (try apply tabular_counts; assumption). cbn [rbind].
    eexists. split; [reflexivity|]. cbn [d_X d_Y d_Y_unc d_batch d_val_batch]. repeat split.
    + unfold batch_of. destruct (Z.ltb_spec (Z.of_nat n) (a_batch a)); lia.
    + unfold val_batch_of. destruct (Z.leb_spec (a_val_batch a) 0); [left; lia|right]. destruct (Z.ltb_spec (Z.of_nat k) (a_val_batch a)); lia.
Qed.

Theorem accepted_only a d : proper a -> train_args shape a = Ok d -> exists n m, acceptable shape n m a.
Proof.
  intros (WX & WF & WD & WP) H. pose proof (train_args_accepted shape a d H) as (_ & _ & _ & _ & _ & Sense & _). unfold train_args in H.
  assert (WY : forall y, a_Y a = Some y -> wf_tree y) by (intros y E; apply WD; rewrite E; cbn; auto).
  apply rbind_ok in H as (? & H0 & H). apply require_ok in H0.
  apply rbind_ok in H as (? & H1 & H). apply rbind_ok in H as (? & H2 & H). apply rbind_ok in H as (n0 & H3 & H).
  apply rbind_ok in H as (? & H4 & H). apply rbind_ok in H as (? & H5 & H). apply rbind_ok in H as (? & H6 & H). apply rbind_ok in H as (? & H7 & H).
  set (V := match a_X_val a with
    | Some x => (x, a_Y_val a, if negb (given (a_Y_unc a)) && given (a_Y_val a) then None else a_Y_val_unc a)
    | None => (a_X a, a_Y a, a_Y_unc a)
    end) in H. destruct V as [[XV YV] UV] eqn:EV. subst V.
  apply rbind_ok in H as (? & H8 & H). apply rbind_ok in H as (? & H9 & H). apply rbind_ok in H as (? & H10 & H).
  apply rbind_ok in H as (? & H11 & H). apply rbind_ok in H as (? & H12 & H).
  apply rbind_ok in H as (? & H13 & H). apply rbind_ok in H as (? & H14 & H). apply rbind_ok in H as (? & H15 & _).
  unfold annotated in H0. rewrite !andb_true_iff in H0. destruct H0 as [[[C1 C2] K1] K2].
  apply one_count_iff in C1 as (n & C1). apply one_count_iff in C2 as (m & C2). exists n, m. constructor.
  - exact Sense.
  - split; [eapply num_samples_populated; exact H3|apply C1; left; reflexivity].
  - intros y E. rewrite E in H8. apply rbind_ok in H8 as (b & H8 & HB). apply require_ok in HB. split; [apply (uniform_equal_pop _ _ _ H8 HB)|].
    apply C1. right. rewrite E. left. reflexivity.
  - intros y u E1 E2. split; [|apply C1; right; apply in_app_iff; right; rewrite E2; left; reflexivity].
    rewrite E1 in K2. cbn [opt_list app] in K2. eapply (kind_in y); [apply WY; exact E1| |exact K2|rewrite !in_app_iff, !opt_in; auto].
    intros v Hv. rewrite !in_app_iff, !opt_in in Hv. apply WD. cbn. intuition.
  - intros xv E. split; [|apply C2; rewrite E; left; reflexivity]. apply (kind_in (a_X a) (opt_list (a_X_val a)) xv WX); [|exact K1|rewrite E; left; reflexivity].
    intros u Hu. apply opt_in in Hu. apply WD. cbn. intuition.
  - intros y yv E1 E2. split; [|apply C2; rewrite !in_app_iff, !opt_in; auto].
    rewrite E1 in K2. cbn [opt_list app] in K2. eapply (kind_in y); [apply WY; exact E1| |exact K2|rewrite !in_app_iff, !opt_in; auto].
    intros v Hv. rewrite !in_app_iff, !opt_in in Hv. apply WD. cbn. intuition.
  - intros y yv E1 E2. split; [|apply C2; rewrite !in_app_iff, !opt_in; auto].
    rewrite E1 in K2. cbn [opt_list app] in K2. eapply (kind_in y); [apply WY; exact E1| |exact K2|rewrite !in_app_iff, !opt_in; auto].
    intros v Hv. rewrite !in_app_iff, !opt_in in Hv. apply WD. cbn. intuition.
  - intros p E. rewrite E in H14. apply require_ok in H14. apply struct_iff in H14; [exact H14|apply WP; cbn; auto|exact WF].
  - intros s ER E. rewrite E, ER in H15. apply require_ok in H15. cbn [negb orb] in H15. apply struct_iff in H15; [exact H15|apply WP; cbn; auto|exact WF].
Qed.
End Accept.
