From Coq Require Import Permutation Sorted.
From Verif Require Import Base BaseLemmas TreeUtil TreeSpec NonSeqSpec NonSeqProofs Seq SerialSpec SeqProofs TrainArgs TrainArgsProofs NdArray OneHot OneHotProofs Einsum EinsumSpec EinsumProofs EinsumMain EinsumCompute.
Local Open Scope string_scope.
Local Open Scope list_scope.
Local Open Scope nat_scope.

(** all letters in alphabetical order *)
Definition letters_of (ins : list (list ascii)) : list ascii := isort ascii_leb (nodup ascii_dec (concat ins)).
Lemma letters_of_In c ins : In c (letters_of ins) <-> exists w, In w ins /\ In c w.
Proof. unfold letters_of. rewrite in_alphabetical, in_concat. reflexivity. Qed.
Definition summed_of (ins : list (list ascii)) (out : list ascii) : list ascii := filter (fun c => negb (mem_char c out)) (letters_of ins).
Lemma mem_char_false c l : mem_char c l = false <-> ~ In c l.
Proof. rewrite <- mem_char_In. destruct (mem_char c l); split; congruence. Qed.
Lemma summed_In c ins out : In c (summed_of ins out) <-> (exists w, In w ins /\ In c w) /\ ~ In c out.
Proof. unfold summed_of. rewrite filter_In, letters_of_In, negb_true_iff, mem_char_false. reflexivity. Qed.
Lemma summed_sorted ins out : StronglySorted (fun a b => nat_of_ascii a < nat_of_ascii b) (summed_of ins out).
Proof. apply sorted_filter, alphabetical. Qed.
Lemma strict_unique l : forall m, StronglySorted (fun a b => nat_of_ascii a < nat_of_ascii b) l -> StronglySorted (fun a b => nat_of_ascii a < nat_of_ascii b) m ->
  (forall c, In c l <-> In c m) -> l = m.
Proof.
  induction l as [|a l IH]; intros [|b m] Sl Sm H.
  - reflexivity.
  - exfalso. apply (H b). left. reflexivity.
  - exfalso. apply (H a). left. reflexivity.
  - inversion Sl as [|? ? Sl' Fl]; inversion Sm as [|? ? Sm' Fm]; subst. rewrite Forall_forall in Fl, Fm.
    assert (E : a = b).
    { destruct (proj1 (H a) (or_introl eq_refl)) as [E|Ha]; [congruence|]. destruct (proj2 (H b) (or_introl eq_refl)) as [E|Hb]; [congruence|].
      specialize (Fl b Hb). specialize (Fm a Ha). lia. }
    subst b. f_equal. apply IH; try assumption. intros c. split; intros Hc.
    + destruct (proj1 (H c) (or_intror Hc)) as [ <- |Hm]; [specialize (Fl a Hc); lia|exact Hm].
    + destruct (proj2 (H c) (or_intror Hc)) as [ <- |Hm]; [specialize (Fm a Hc); lia|exact Hm].
Qed.

Lemma nodup_length_eq (l : list ascii) : length (nodup ascii_dec l) = length l -> NoDup l.
Proof.
  induction l as [|c l IH]; intros H; [constructor|]. cbn in H. destruct (in_dec ascii_dec c l) as [Hc|Hc].
  - exfalso. assert (length (nodup ascii_dec l) <= length l).
    { apply NoDup_incl_length; [apply NoDup_nodup|]. intros x Hx. apply nodup_In in Hx. exact Hx. }
    cbn in H. lia.
  - constructor; [exact Hc|]. apply IH. cbn in H. lia.
Qed.
Lemma index_cons c i e x : index_in ((c, i) :: e) x = if Ascii.eqb x c then i else index_in e x.
Proof. unfold index_in. cbn. destruct (Ascii.eqb x c); reflexivity. Qed.
Lemma combine_app {A B} (l1 l2 : list A) (m1 m2 : list B) : length l1 = length m1 -> combine (l1 ++ l2) (m1 ++ m2) = combine l1 m1 ++ combine l2 m2.
Proof. revert m1. induction l1 as [|a l1 IH]; intros [|b m1] H; try discriminate; [reflexivity|]. cbn. f_equal. apply IH. cbn in H. lia. Qed.
Lemma index_combine out : forall idx c (f : ascii -> nat), valid (map f out) idx -> In c out -> index_in (combine out idx) c < f c.
Proof.
  induction out as [|a out IH]; intros idx c f Hv Hc; [destruct Hc|]. inversion Hv as [|i n idx' s Hi Hr]; subst. cbn [combine]. rewrite index_cons.
  destruct (Ascii.eqb_spec c a); [subst; exact Hi|]. apply IH; [exact Hr|]. destruct Hc as [Hc|Hc]; [congruence|exact Hc].
Qed.
Lemma map_index_valid f e w : (forall c, In c w -> index_in e c < f c) -> valid (map f w) (map (index_in e) w).
Proof. intros H. induction w as [|c w IH]; constructor; [apply H; left; reflexivity|]. apply IH. intros x Hx. apply H. right. exact Hx. Qed.

Section Batch.
Context {V : Type} (zero one : V) (add mul : V -> V -> V).
Notation sum_over := (sum_over zero add).
Notation entry := (entry zero).
Notation np_einsum := (np_einsum zero one add mul).

Definition term (ins : list (list ascii)) (ars : list (arr V)) (env : sizes) : V :=
  vprod one mul (map (fun p => entry (snd p) (map (index_in env) (fst p))) (combine ins ars)).

Lemma entry_mk s f idx : valid s idx -> entry (mk_arr s (map f (seq 0 (prod s)))) idx = f (ravel s idx).
Proof.
  intros H. unfold Einsum.entry. cbn [shp dat]. pose proof (ravel_bound s idx H) as B.
  rewrite nth_indep with (d' := f 0) by (rewrite map_length, seq_length; exact B).
  rewrite map_nth, seq_nth by exact B. reflexivity.
Qed.

(** what an accepted einsum computes *)
Theorem np_einsum_ok ins out ars r : np_einsum ins out ars = Ok r ->
  exists f, length ins = length ars /\ Forall (fun p => shp (snd p) = map f (fst p)) (combine ins ars) /\
    NoDup out /\ (forall c, In c out -> exists w, In w ins /\ In c w) /\
    shp r = map f out /\ wf_arr r /\
    forall idx, valid (map f out) idx ->
      entry r idx = sum_over (map (fun c => (c, f c)) (summed_of ins out)) (combine out idx) (term ins ars).
Proof.
  unfold Einsum.np_einsum. destruct (Nat.eqb_spec (length ins) (length ars)) as [HL|]; [|discriminate]. intros H.
  apply rbind_ok in H as (d & HD & H). fold (letters_of ins) in H. destruct (_ && _) eqn:HO in H; [|discriminate]. injection H as <-.
  apply andb_true_iff in HO as [HO1 HO2]. rewrite forallb_forall in HO1. apply Nat.eqb_eq, nodup_length_eq in HO2.
  apply bind_operands_ok in HD as (_ & HB & _). exists (index_in d). split; [exact HL|]. split; [|split; [exact HO2|split; [|split; [reflexivity|split]]]].
  - clear -HB HL. revert ars HL HB. induction ins as [|w ins IH]; intros [|a ars] HL HB; try discriminate; [constructor|].
    cbn in HB. inversion HB as [|? ? H1 H2]; subst. constructor; [exact (bound_map _ _ H1)|]. apply IH; [cbn in HL; lia|exact H2].
  - intros c Hc. apply letters_of_In, mem_char_In, HO1. exact Hc.
  - unfold wf_arr. cbn [dat shp]. rewrite map_length, seq_length. reflexivity.
  - intros idx Hv. rewrite entry_mk by exact Hv. cbv beta. rewrite unravel_ravel by exact Hv. reflexivity.
Qed.
(** and consistent operands are accepted *)
Theorem np_einsum_acc ins out ars f : length ins = length ars -> Forall (fun p => shp (snd p) = map f (fst p)) (combine ins ars) ->
  NoDup out -> (forall c, In c out -> exists w, In w ins /\ In c w) ->
  exists r, np_einsum ins out ars = Ok r /\ shp r = map f out /\ wf_arr r /\
    forall idx, valid (map f out) idx ->
      entry r idx = sum_over (map (fun c => (c, f c)) (summed_of ins out)) (combine out idx) (term ins ars).
Proof.
  intros HL HF HN HI. unfold Einsum.np_einsum. rewrite HL, Nat.eqb_refl.
  assert (F' : Forall (fun p => snd p = map f (fst p)) (combine ins (map shp ars))).
  { clear -HL HF. revert ars HL HF. induction ins as [|w ins IH]; intros [|a ars] HL HF; try discriminate; [constructor|].
    cbn in *. inversion HF; subst. constructor; [assumption|]. apply IH; [lia|assumption]. }
  destruct (bind_operands_acc f _ [] ltac:(intros c n H; discriminate) F') as (d & HD & Hd). rewrite HD. cbn [rbind].
  apply bind_operands_ok in HD as (_ & HB & _). fold (letters_of ins).
  assert (HO : forallb (fun c => mem_char c (letters_of ins)) out && (length (nodup ascii_dec out) =? length out) = true).
  { apply andb_true_iff. split; [|rewrite nodup_fixed_point by exact HN; apply Nat.eqb_refl].
    rewrite forallb_forall. intros c Hc. apply mem_char_In, letters_of_In, HI, Hc. }
  rewrite HO. 
  assert (Hf : forall c, (exists w, In w ins /\ In c w) -> index_in d c = f c).
  { intros c (w & Hw & Hc). rewrite Forall_forall in HB. assert (exists s, In (w, s) (combine ins (map shp ars))) as (s & Hs).
    { clear -HL Hw. revert ars HL. induction ins as [|x ins IH]; intros [|a ars] HL; try discriminate; [destruct Hw|].
      destruct Hw as [ -> |Hw]; [exists (shp a); left; reflexivity|]. destruct (IH Hw ars ltac:(cbn in HL; lia)) as (s & Hs). exists s. right. exact Hs. }
    specialize (HB _ Hs). unfold bound_by in HB. cbn [fst snd] in HB. clear -HB Hc Hd.
    induction HB as [|a n w s E F IH]; [destruct Hc|]. destruct Hc as [ <- |Hc]; [|apply IH; exact Hc].
    unfold index_in. rewrite E. apply Hd. exact E. }
  assert (Eo : map (index_in d) out = map f out) by (apply map_ext_in; intros c Hc; apply Hf, HI, Hc).
  eexists. split; [reflexivity|]. cbn [shp]. rewrite Eo. split; [reflexivity|]. split.
  - unfold wf_arr. cbn [dat shp]. rewrite map_length, seq_length. reflexivity.
  - intros idx Hv. rewrite entry_mk by exact Hv. cbv beta. rewrite unravel_ravel by exact Hv. fold (summed_of ins out).
    f_equal. apply map_ext_in. intros c Hc. f_equal. apply Hf. apply summed_In in Hc. tauto.
Qed.

(* ---- sums over environments ---- *)
Lemma vsum_ext (f g : nat -> V) l : (forall i, In i l -> f i = g i) -> vsum zero add (map f l) = vsum zero add (map g l).
Proof. intros H. f_equal. apply map_ext_in. exact H. Qed.
(** sums over environments that agree up to [b] *)
Definition agree (b : ascii) (beta : nat) (e1 e2 : sizes) : Prop := index_in e1 b = beta /\ forall c, c <> b -> index_in e1 c = index_in e2 c.
Lemma sum_over_agree b beta f (all : list ascii) body1 body2 ls : ~ In b ls ->
  (forall e1 e2, agree b beta e1 e2 -> (forall c, In c all -> index_in e2 c < f c) -> body1 e1 = body2 e2) ->
  forall e1 e2, agree b beta e1 e2 -> (forall c, In c all -> index_in e2 c < f c \/ In c ls) ->
  sum_over (map (fun c => (c, f c)) ls) e1 body1 = sum_over (map (fun c => (c, f c)) ls) e2 body2.
Proof.
  intros Hb Hbody. induction ls as [|c ls IH]; intros e1 e2 HA HC; cbn [map Einsum.sum_over].
  - apply Hbody; [exact HA|]. intros x Hx. destruct (HC x Hx) as [H|[]]. exact H.
  - apply vsum_ext. intros i Hi. apply in_seq in Hi. apply IH.
    + intros H. apply Hb. right. exact H.
    + destruct HA as [A1 A2]. split.
      * rewrite index_cons. destruct (Ascii.eqb_spec b c); [subst; exfalso; apply Hb; left; reflexivity|exact A1].
      * intros x Hx. rewrite !index_cons. destruct (Ascii.eqb x c); [reflexivity|apply A2; exact Hx].
    + intros x Hx. rewrite index_cons. destruct (Ascii.eqb_spec x c); [left; subst; lia|].
      destruct (HC x Hx) as [H|[H|H]]; [left; exact H|congruence|right; exact H].
Qed.

(** ** one sample of a batched array *)
Definition sample (beta : nat) (d x : arr V) : Prop :=
  (exists n, shp d = n :: shp x) /\ forall idx, valid (shp x) idx -> entry x idx = entry d (beta :: idx).

Lemma vprod_app l m : (forall x y z, mul x (mul y z) = mul (mul x y) z) -> (forall x, mul one x = x) ->
  vprod one mul (l ++ m) = mul (vprod one mul l) (vprod one mul m).
Proof. intros A U. induction l as [|x l IH]; cbn; [rewrite U; reflexivity|]. rewrite IH, A. reflexivity. Qed.

(** the batched einsum restricted to one sample *)
Theorem batch_samples L I out b ps ds r beta xs :
  length L = length ps -> I <> [] -> length I = length ds ->
  (forall w, In w (out :: L ++ I) -> ~ In b w) ->
  np_einsum (L ++ map (cons b) I) (b :: out) (ps ++ ds) = Ok r ->
  beta < hd 0 (shp r) -> Forall2 (sample beta) ds xs ->
  exists n a, np_einsum (L ++ I) out (ps ++ xs) = Ok a /\ shp r = n :: shp a /\ Forall (fun d => exists s, shp d = n :: s) ds /\
    forall idx, valid (shp a) idx -> entry r (beta :: idx) = entry a idx.
Proof.
  intros HL IN HI HB HR Hbeta HX. destruct (np_einsum_ok _ _ _ _ HR) as (f & _ & HF & HN & HO & HS & _ & HE).
  assert (EX : length ds = length xs) by (clear -HX; induction HX; cbn; congruence).
  inversion HN as [|? ? HbO HNo]; subst.
  rewrite combine_app in HF by exact HL. apply Forall_app in HF as [HFp HFd].
  assert (HFx : Forall (fun p => shp (snd p) = map f (fst p)) (combine I xs)).
  { clear -HFd HX HI. revert I HI HFd. induction HX as [|d x ds xs [(n & Hn) _] _ IH]; intros [|w I] HI HFd; try discriminate; [constructor|].
    cbn in HFd. inversion HFd as [|? ? H1 H2]; subst. cbn in H1. rewrite Hn in H1. injection H1 as _ H1. constructor; [exact H1|]. apply IH; [cbn in HI; lia|exact H2]. }
  destruct (np_einsum_acc (L ++ I) out (ps ++ xs) f) as (a & HA & SA & _ & EA).
  { rewrite !app_length. lia. }
  { rewrite combine_app by exact HL. apply Forall_app. split; assumption. }
  { exact HNo. }
  { intros c Hc. destruct (HO c (or_intror Hc)) as (w & Hw & Hcw). apply in_app_or in Hw as [Hw|Hw].
    - exists w. split; [apply in_or_app; left; exact Hw|exact Hcw].
    - apply in_map_iff in Hw as (w' & <- & Hw). exists w'. split; [apply in_or_app; right; exact Hw|].
      destruct Hcw as [ <- |Hcw]; [exfalso; exact (HbO Hc)|exact Hcw]. }
  exists (f b), a. split; [exact HA|]. split; [rewrite HS, SA; reflexivity|]. split.
  { clear -HFd HI. revert I HI HFd. induction ds as [|d ds IH]; intros [|w I] HI HFd; try discriminate; [constructor|].
    cbn in HFd. inversion HFd as [|? ? H1 H2]; subst. constructor; [exists (map f w); exact H1|]. apply (IH I); [cbn in HI; lia|exact H2]. }
  intros idx Hv. rewrite SA in Hv. rewrite HS in Hbeta. cbn in Hbeta.
  rewrite HE by (constructor; assumption). rewrite EA by exact Hv.
  assert (ES : summed_of (L ++ map (cons b) I) (b :: out) = summed_of (L ++ I) out).
  { apply strict_unique; [apply summed_sorted..|]. intros c. rewrite !summed_In. split.
    - intros [(w & Hw & Hc) HN'].
      assert (Hcb : c <> b) by (intros ->; apply HN'; left; reflexivity). split; [|intros H; apply HN'; right; exact H].
      apply in_app_or in Hw as [Hw|Hw]; [exists w; split; [apply in_or_app; left; exact Hw|exact Hc]|].
      apply in_map_iff in Hw as (w' & <- & Hw). exists w'. split; [apply in_or_app; right; exact Hw|]. destruct Hc as [Hc|Hc]; [congruence|exact Hc].
    - intros [(w & Hw & Hc) HN']. assert (Hcb : c <> b) by (intros ->; apply (HB w); [right; exact Hw|exact Hc]). split.
      + apply in_app_or in Hw as [Hw|Hw]; [exists w; split; [apply in_or_app; left; exact Hw|exact Hc]|].
        exists (b :: w). split; [apply in_or_app; right; apply in_map; exact Hw|right; exact Hc].
      + intros [H|H]; [congruence|exact (HN' H)]. }
  rewrite ES. apply sum_over_agree with (b := b) (beta := beta) (all := concat (L ++ I)).
  - intros H. apply summed_In in H as [(w & Hw & Hc) _]. apply (HB w); [right; exact Hw|exact Hc].
  - intros e1 e2 [A1 A2] HC. unfold term. f_equal. rewrite !combine_app by exact HL. rewrite !map_app. f_equal.
    + apply map_ext_in. intros [w p] Hp. cbn [fst snd]. f_equal. apply map_ext_in. intros c Hc. apply A2. intros ->.
      apply (HB w); [right; apply in_or_app; left; apply in_combine_l in Hp; exact Hp|exact Hc].
    + assert (HBI : forall w, In w I -> ~ In b w) by (intros w Hw; apply HB; right; apply in_or_app; right; exact Hw).
      assert (HCI : forall w c, In w I -> In c w -> index_in e2 c < f c).
      { intros w c Hw Hc. apply HC. apply in_concat. exists w. split; [apply in_or_app; right; exact Hw|exact Hc]. }
      clear -HX HI HBI HCI A1 A2 HFx. revert I HI HBI HCI HFx. induction HX as [|d x ds xs [_ Hx] _ IH]; intros [|w I] HI HBI HCI HFx; try discriminate; [reflexivity|].
      cbn [map combine fst snd]. pose proof (Forall_inv HFx) as H1. pose proof (Forall_inv_tail HFx) as H2. cbn [fst snd] in H1. f_equal.
      * rewrite Hx.
        -- rewrite A1. f_equal. f_equal. apply map_ext_in. intros c Hc. apply A2. intros ->. apply (HBI w); [left; reflexivity|exact Hc].
        -- rewrite H1. apply map_index_valid. intros c Hc. apply (HCI w); [left; reflexivity|exact Hc].
      * apply IH; [cbn in HI; lia|intros w' Hw; apply HBI; right; exact Hw|intros w' c Hw; apply HCI; right; exact Hw|exact H2].
  - split.
    + cbn [combine]. rewrite index_cons, Ascii.eqb_refl. reflexivity.
    + intros c Hc. cbn [combine]. rewrite index_cons. destruct (Ascii.eqb_spec c b); [congruence|reflexivity].
  - intros c Hc. apply in_concat in Hc. destruct (in_dec ascii_dec c out) as [Ho|Ho]; [left; apply index_combine; assumption|right].
    apply summed_In. split; [destruct Hc as (w & H1 & H2); eauto|exact Ho].
Qed.
End Batch.

Lemma solid_nonempty I : solid_first I -> I <> [].
Proof. intros HS ->. destruct HS as [HS|HS]; [discriminate|cbn in HS; congruence]. Qed.
Lemma chars_cons b I : map (fun s => b :: chars s) I = map (cons b) (map chars I).
Proof. rewrite map_map. reflexivity. Qed.
Lemma without_fresh b w : ~ In b w -> without b w = w.
Proof.
  intros H. unfold without. induction w as [|c w IH]; [reflexivity|]. cbn. destruct (Ascii.eqb_spec c b); [subst; exfalso; apply H; left; reflexivity|].
  cbn. f_equal. apply IH. intros Hc. apply H. right. exact Hc.
Qed.
Lemma without_cons b w : ~ In b w -> without b (b :: w) = w.
Proof. intros H. unfold without. cbn. rewrite Ascii.eqb_refl. cbn. apply (without_fresh b w H). Qed.
Lemma map_id_in {A} (f : A -> A) l : (forall x, In x l -> f x = x) -> map f l = l.
Proof. intros H. induction l as [|a l IH]; [reflexivity|]. cbn. rewrite H by (left; reflexivity). f_equal. apply IH. intros x Hx. apply H. right. exact Hx. Qed.
Lemma bound_size d w s c : bound_by d (w, s) -> forall f, s = map f w -> In c w -> size_of d c = Some (f c).
Proof.
  unfold bound_by. cbn. intros H f. induction H as [|a n w s E F IH]; intros Es Hc; [destruct Hc|]. cbn in Es. injection Es as -> Es.
  destruct Hc as [ <- |Hc]; [exact E|]. apply IH; assumption.
Qed.
Lemma keeps_bound d d' p : keeps d d' -> bound_by d p -> bound_by d' p.
Proof. intros K. unfold bound_by. apply F2_impl'. intros c n H. apply K, H. Qed.
Lemma out_sizes_map d f l s : (forall c, In c l -> size_of d c = Some (f c)) -> out_sizes d l = Ok s -> s = map f l.
Proof.
  revert s. induction l as [|c l IH]; intros s H E; cbn in E; [injection E as <-; reflexivity|]. rewrite H in E by (left; reflexivity). cbn in E.
  apply rbind_ok in E as (s' & E1 & E2). injection E2 as <-. cbn. f_equal. apply IH; [intros x Hx; apply H; right; exact Hx|exact E1].
Qed.
Lemma combine_bound {A} d (f : ascii -> nat) (g : A -> list nat) c : forall I (xs : list A) ss, length I = length ss -> map g xs = ss ->
  Forall (bound_by d) (combine I ss) -> Forall (fun p => g (snd p) = map f (fst p)) (combine I xs) ->
  (exists w, In w I /\ In c w) -> size_of d c = Some (f c).
Proof.
  induction I as [|w I IH]; intros [|x xs] [|s ss] HL Hm HB HF (v & Hv & Hc); try discriminate; [destruct Hv|].
  cbn in *. injection Hm as Hm1 Hm2. pose proof (Forall_inv HB) as B1. pose proof (Forall_inv HF) as F1. cbn in F1. destruct Hv as [ <- |Hv].
  - eapply bound_size; [exact B1| |exact Hc]. congruence.
  - apply (IH xs ss); [lia|exact Hm2|exact (Forall_inv_tail HB)|exact (Forall_inv_tail HF)|eauto].
Qed.
(* ---- the whole module ---- *)
Section Module.
Context {V : Type} (zero one : V) (add mul : V -> V -> V).
Notation np_einsum := (np_einsum zero one add mul).
Notation einsum_call := (einsum_call zero one add mul).
Notation entry := (entry zero).
Notation sample := (sample zero).


Theorem call_samples e p sh data r : wf_tree e -> wf_tree sh -> leaves sh <> [] -> einsum_call e p sh data = Ok r ->
  exists l i o L I O, notation sh e l i o /\ operands sh l i o L I O /\
    (solid_first I -> length I = length (leaves data) ->
     exists out n, output_of (leading L ++ I) O out /\ (exists s, shp r = n :: s) /\ Forall (fun d => exists s, shp d = n :: s) (leaves data) /\
       forall beta xs, beta < n -> Forall2 (sample beta) (leaves data) xs ->
       exists a, np_einsum (map chars (leading L ++ I)) (chars out) (par_list p ++ xs) = Ok a /\ shp r = n :: shp a /\
         forall idx, valid (shp a) idx -> entry r (beta :: idx) = entry a idx).
Proof.
  intros We Ws Hn H. unfold Einsum.einsum_call in H. apply rbind_ok in H as (c & HC & H). apply rbind_ok in H as ([ins out'] & HP & H).
  destruct (concrete_sound _ _ _ _ We Ws Hn HC) as (l & i & o & L & I & O & HN & HO & _ & _ & HS).
  exists l, i, o, L, I, O. split; [exact HN|]. split; [exact HO|]. intros Hs HL.
  destruct (HS Hs) as (b & out & Hb & Fb & Ho & -> & FW & _). rewrite parse_batched in HP; [|apply solid_nonempty; exact Hs|exact Hb|exact FW].
  injection HP as <- <-. cbn [fst snd] in H. rewrite chars_cons in H.
  destruct (np_einsum_ok _ _ _ _ _ _ _ _ H) as (f & HLen & HF & HN' & _ & Hr & _).
  assert (HLL : length (map chars (leading L)) = length (par_list p)).
  { rewrite !app_length, !map_length in HLen. rewrite map_length. lia. }
  exists out, (f b). split; [exact Ho|]. split; [exists (map f (chars out)); exact Hr|]. split.
  { rewrite (combine_app _ _ _ _ HLL) in HF. apply Forall_app in HF as [_ HF]. clear -HF HL. revert I HL HF.
    induction (leaves data) as [|d ds IH]; intros [|w I] HL HF; try discriminate; [constructor|]. cbn in HF.
    pose proof (Forall_inv HF) as H1. cbn in H1. constructor; [eexists; exact H1|]. apply (IH I); [cbn in HL; lia|exact (Forall_inv_tail HF)]. }
  intros beta xs Hbeta HX.
  destruct (batch_samples zero one add mul (map chars (leading L)) (map chars I) (chars out) b (par_list p) (leaves data) r beta xs) as (n & a & Ha & Sa & _ & Ea).
  - exact HLL.
  - intros E. apply (solid_nonempty I Hs). destruct I; [reflexivity|discriminate].
  - rewrite map_length. exact HL.
  - intros w Hw Hbw. rewrite <- map_app in Hw. change (chars out :: map chars (leading L ++ I)) with (map chars (out :: leading L ++ I)) in Hw.
    apply in_map_iff in Hw as (s & <- & Hs'). exact (Fb s Hs' Hbw).
  - exact H.
  - rewrite Hr. exact Hbeta.
  - exact HX.
  - exists a. rewrite map_app. split; [exact Ha|]. split; [|exact Ea]. rewrite Sa in Hr. cbn in Hr. injection Hr as -> Hr. exact Sa.
Qed.

(** every batched array has its samples *)
Lemma sample_exists (d : arr V) n s beta : shp d = n :: s -> exists x, shp x = s /\ wf_arr x /\ sample beta d x.
Proof.
  intros H. exists (mk_arr s (map (fun k => entry d (beta :: unravel s k)) (seq 0 (prod s)))). split; [reflexivity|]. split.
  - unfold wf_arr. cbn. rewrite map_length, seq_length. reflexivity.
  - split; [exists n; exact H|]. cbn [shp]. intros idx Hv. rewrite entry_mk by exact Hv. cbv beta. rewrite unravel_ravel by exact Hv. reflexivity.
Qed.


Lemma announced_core L I out b given p sh data d s r : leaves sh <> [] -> I <> [] -> letter b -> fresh b (out :: L ++ I) -> Forall word (out :: L ++ I) ->
  length I = length (leaves sh) ->
  dimension_map given p (batched L I out b) sh = Ok d -> out_sizes d (chars out) = Ok s ->
  np_einsum (map chars L ++ map (cons b) (map chars I)) (b :: chars out) (par_list p ++ leaves data) = Ok r ->
  Forall2 (fun t d => exists n, shp d = n :: t) (leaves sh) (leaves data) -> exists n, shp r = n :: s.
Proof.
  intros Hn IN Hb Fb FW HL Hd HS H HD. unfold dimension_map in Hd. rewrite parse_batched in Hd by assumption. cbn [rbind] in Hd.
  rewrite chars_cons in Hd.
  destruct (np_einsum_ok _ _ _ _ _ _ _ _ H) as (f & HLen & HF & HN' & HOI & Hr & _).
  exists (f b). rewrite Hr. cbn [map]. f_equal. symmetry. eapply out_sizes_map; [|exact HS].
  assert (HLD : length (leaves sh) = length (leaves data)) by (clear -HD; induction HD; cbn; congruence).
  assert (FrL : forall w, In w (map chars (L)) -> ~ In b w).
  { intros w Hw. apply in_map_iff in Hw as (x & <- & Hx). apply (Fb x). right. apply in_or_app. left. exact Hx. }
  assert (FrI : forall w, In w (map chars I) -> ~ In b w).
  { intros w Hw. apply in_map_iff in Hw as (x & <- & Hx). apply (Fb x). right. apply in_or_app. right. exact Hx. }
  assert (EW : map (without b) (map chars (L) ++ map (cons b) (map chars I)) = map chars (L) ++ map chars I).
  { rewrite map_app. f_equal; [apply map_id_in; intros w Hw; apply without_fresh, FrL, Hw|].
    rewrite map_map. apply map_id_in. intros w Hw. apply without_cons, FrI, Hw. }
  rewrite EW in Hd. clear EW.
  assert (Hn0 : length (leaves sh) <> 0) by (destruct (leaves sh); [congruence|discriminate]).
  assert (HLL : length (map chars (L)) = length (par_list p)).
  { rewrite !app_length, !map_length in HLen. rewrite map_length. lia. }
  assert (EA : all_but_last (length (leaves sh)) (map chars (L) ++ map chars I) = map chars (L)).
  { unfold all_but_last. destruct (Nat.eqb_spec (length (leaves sh)) 0); [congruence|]. rewrite app_length, (map_length _ I), HL.
    replace (length (map chars (L)) + length (leaves sh) - length (leaves sh)) with (length (map chars (L)) + 0) by lia.
    rewrite firstn_app_2. apply app_nil_r. }
  assert (EL : last_ones (length (leaves sh)) (map chars (L) ++ map chars I) = map chars I).
  { unfold last_ones. destruct (Nat.eqb_spec (length (leaves sh)) 0); [congruence|]. rewrite app_length, (map_length _ I), HL.
    rewrite skipn_app, skipn_all2 by lia. cbn [app].
    replace (length (map chars (L)) + length (leaves sh) - length (leaves sh) - length (map chars (L))) with 0 by lia. reflexivity. }
  rewrite EA, EL in Hd. apply rbind_ok in Hd as (d1 & H1 & Hd). apply rbind_ok in Hd as (d2 & H2 & Hd).
  destruct (forallb _ _) in Hd; [|discriminate]. injection Hd as ->.
  apply bind_operands_ok in H1 as (_ & B1 & _).
  rewrite (combine_app _ _ _ _ HLL) in HF. apply Forall_app in HF as [HFp HFd].
  assert (HFs : Forall (fun q => snd q = map f (fst q)) (combine (map chars I) (leaves sh))).
  { clear -HFd HD HL. revert I HL HFd. induction HD as [|t x ts xs (n & E) _ IH]; intros [|w I] HL HFd; try discriminate; [constructor|].
    cbn in HFd. pose proof (Forall_inv HFd) as F1. cbn in F1. rewrite E in F1. injection F1 as _ F1. constructor; [exact F1|].
    apply IH; [cbn in HL; lia|exact (Forall_inv_tail HFd)]. }
  assert (K2 : keeps d1 d).
  { destruct p as [|a|[|a l0]]; cbn in H2.
    - injection H2 as <-. intros x k E. exact E.
    - destruct (_ =? _) in H2; [|discriminate]. apply bind_operands_ok in H2. tauto.
    - destruct (_ =? _) in H2; [|discriminate]. injection H2 as <-. intros x k E. exact E.
    - discriminate. }
  intros x Hx. destruct (HOI x (or_intror Hx)) as (w & Hw & Hxw). apply in_app_or in Hw as [Hw|Hw].
  - destruct p as [|a|[|a l0]]; cbn [par_list] in *.
    + destruct (map chars (L)); [destruct Hw|discriminate].
    + destruct (_ =? _) in H2; [|discriminate]. apply bind_operands_ok in H2 as (_ & B2 & _).
      apply (combine_bound d f shp x (map chars (L)) [a] [shp a]); [rewrite HLL; reflexivity|reflexivity|exact B2|exact HFp|eauto].
    + destruct (map chars (L)); [destruct Hw|discriminate].
    + cbn in H2. discriminate.
  - apply K2. apply in_map_iff in Hw as (w' & <- & Hw).
    apply (combine_bound d1 f (fun t => t) x (map chars I) (leaves sh) (leaves sh)); [rewrite map_length; exact HL|apply map_id|exact B1|exact HFs|].
    exists w'. split; [exact Hw|]. destruct Hxw as [ <- |Hxw]; [|exact Hxw]. exfalso. inversion HN' as [|? ? Hno _]; subst. exact (Hno Hx).
Qed.

Theorem announced_shape e given p sh data s r : wf_tree e -> wf_tree sh -> leaves sh <> [] ->
  einsum_shape e given p sh = Ok s -> einsum_call e p sh data = Ok r ->
  Forall2 (fun t d => exists n, shp d = n :: t) (leaves sh) (leaves data) ->
  exists l i o L I O, notation sh e l i o /\ operands sh l i o L I O /\
    (solid_first I -> length I = length (leaves sh) -> exists n, shp r = n :: s).
Proof.
  intros We Ws Hn HS H HD. unfold einsum_shape in HS. unfold Einsum.einsum_call in H. apply rbind_ok in H as (c & HC & H). rewrite HC in HS.
  cbn [rbind] in HS. apply rbind_ok in HS as (d & Hd & HS).
  apply rbind_ok in H as ([ins out'] & HP & H). rewrite HP in HS. cbn [rbind snd fst] in *.
  destruct (concrete_sound _ _ _ _ We Ws Hn HC) as (l & i & o & L & I & O & HN & HO & _ & _ & HSo).
  exists l, i, o, L, I, O. split; [exact HN|]. split; [exact HO|]. intros Hs HL.
  destruct (HSo Hs) as (b & out & Hb & Fb & Ho & -> & FW & _). 
  rewrite parse_batched in HP; [|apply solid_nonempty; exact Hs|exact Hb|exact FW].
  injection HP as <- <-. rewrite chars_cons in H. cbn [tl] in HS.
  exact (announced_core (leading L) I out b given p sh data d s r Hn (solid_nonempty I Hs) Hb Fb FW HL Hd HS H HD).
Qed.
End Module.
