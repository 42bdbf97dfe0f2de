(** The value of every named loss function. *)
From Coq Require Import Reals Permutation Lra Psatz.
From Verif Require Import Base BaseLemmas TreeUtil TreeSpec NonSeqSpec NonSeqProofs MutableProofs NdArray BatchSpec TrainArgsProofs Loss LossSpec LossProofs.
Local Open Scope list_scope.
Local Open Scope R_scope.

(** ** complex numbers *)
Lemma cabs_modulus z : cabs z = modulus z.
Proof. unfold cabs, modulus. f_equal. ring. Qed.
Lemma sq_pos z : 0 <= fst z * fst z + snd z * snd z.
Proof. nra. Qed.
Lemma cabs_nonneg z : 0 <= cabs z.
Proof. apply sqrt_pos. Qed.
Definition cmul (a b : C) : C := (fst a * fst b - snd a * snd b, fst a * snd b + snd a * fst b).
Lemma cabs_mul a b : cabs (cmul a b) = cabs a * cabs b.
Proof.
  unfold cabs, cmul. cbn [fst snd]. rewrite <- sqrt_mult by apply sq_pos. f_equal. ring.
Qed.
Lemma is_zero_false z : cabs z <> 0 -> is_zero z = false.
Proof.
  intros H. unfold is_zero. destruct (Req_EM_T (fst z) 0) as [E1|]; [|reflexivity]. destruct (Req_EM_T (snd z) 0) as [E2|]; [|reflexivity].
  exfalso. apply H. unfold cabs. rewrite E1, E2. replace (0 * 0 + 0 * 0) with 0 by ring. apply sqrt_0.
Qed.
Lemma cabs_inv z : cabs z <> 0 -> cabs (cinv z) = / cabs z.
Proof.
  intros H. assert (Hd : fst z * fst z + snd z * snd z <> 0). { intros E. apply H. unfold cabs. rewrite E. apply sqrt_0. }
  pose proof (sq_pos z) as Hp. unfold cabs, cinv. cbn [fst snd]. set (d := fst z * fst z + snd z * snd z) in *.
  replace (fst z / d * (fst z / d) + - snd z / d * (- snd z / d)) with (/ d).
  - rewrite <- sqrt_inv. reflexivity.
  - replace (fst z / d * (fst z / d) + - snd z / d * (- snd z / d)) with (d / (d * d)) by (unfold d at 1; field; exact Hd). field. exact Hd.
Qed.
Lemma ndiv_some p d : cabs d <> 0 -> exists q, ndiv (Some p) (Some d) = Some q /\ cabs q = cabs p / cabs d.
Proof.
  intros H. unfold ndiv, ninv. rewrite (is_zero_false d H). exists (cmul p (cinv d)). split; [reflexivity|].
  rewrite cabs_mul, (cabs_inv d H). reflexivity.
Qed.
Lemma cabs_real r : cabs (r, 0) = Rabs r.
Proof. unfold cabs. cbn [fst snd]. replace (r * r + 0 * 0) with (Rsqr r) by (unfold Rsqr; ring). apply sqrt_Rsqr_abs. Qed.

(** ** trees *)
Lemma alike_leaf {V W} (P : tree (arr V)) : forall (Y : tree (arr W)) a, alike P Y -> has_leaf P a -> exists b, has_leaf Y b /\ shp a = shp b.
Proof.
  assert (HL : forall l, Forall (fun P => forall (Y : tree (arr W)) a, alike P Y -> has_leaf P a -> exists b, has_leaf Y b /\ shp a = shp b) l ->
    forall m : list (tree (arr W)), Forall2 alike (l : list (tree (arr V))) m -> forall t a, In t l -> has_leaf t a -> exists y b, In y m /\ has_leaf y b /\ shp a = shp b).
  { induction 1 as [|P0 l HP _ IH]; intros m H1 t a Ht Ha; inversion H1 as [|? y ? m' G1 G2]; subst; [destruct Ht|]. destruct Ht as [->|Ht].
    - destruct (HP _ _ G1 Ha) as (b & Hb & E). exists y, b. cbn. auto.
    - destruct (IH _ G2 _ _ Ht Ha) as (y' & b & Hy & Hb). exists y', b. cbn. tauto. }
  induction P as [a| |d IH|l IH|l IH] using tree_ind2; intros Y x HA HC; inversion HA as [? c Hc Hd Et| |? e' Hl HG|? m' HG|? m' HG]; subst;
    inversion HC as [|d' k t' x' Hin Hlf|l' t' x' Hin Hlf|l' t' x' Hin Hlf]; subst.
  - exists c. split; [constructor|exact Et].
  - rewrite Forall_forall in *. destruct (HG _ Hin) as (y & G1 & G2). destruct (IH _ Hin _ _ G2 Hlf) as (b & Hb & E).
    exists b. split; [econstructor; [apply dget_In; exact G1|exact Hb]|exact E].
  - destruct (HL l IH m' HG _ _ Hin Hlf) as (y & b & G1 & G2 & G3). exists b. split; [econstructor; eassumption|exact G3].
  - destruct (HL l IH m' HG _ _ Hin Hlf) as (y & b & G1 & G2 & G3). exists b. split; [econstructor; eassumption|exact G3].
Qed.

Lemma op2 (f : num -> num -> num) (P Y : data) : alike P Y ->
  exists Q, tmap2 (abin None None f) P Y = Ok Q /\ samest P Q /\
    forall path i, at_pos Q path i = lift2 f (at_pos P path i) (at_pos Y path i).
Proof.
  intros HA. destruct (alike_map2 f (abin None None f)) with (P := P) (Y := Y) as (Q & E1 & E2 & E3); [|exact HA|].
  - intros a b Ha Hb E. apply abin_same; assumption.
  - exists Q. auto.
Qed.
Lemma op1 (f : num -> num) (P : data) s : all_shape s P -> (forall a, has_leaf P a -> wf_arr a) ->
  exists Q, checked P (tmap1 (amap f) P) = Ok Q /\ samest P Q /\ forall path i, at_pos Q path i = option_map f (at_pos P path i).
Proof.
  intros HS HA. exists (tmap1 (amap f) P). unfold checked. rewrite (one_shape_ok s P HS). split; [reflexivity|].
  split; [apply samest_map; exact HA|]. apply at_pos_map.
Qed.
Lemma all_shape_samest {V W} s (P : tree (arr V)) (Q : tree (arr W)) : samest P Q -> all_shape s P -> all_shape s Q.
Proof. intros H HS c Hc. destruct (samest_leaf P Q c H Hc) as (a & Ha & E). rewrite E. apply HS, Ha. Qed.

(** the mean of a function of the entries of a tree *)
Lemma mean_of_entries (h : num -> option R) (Q : data) s ps es :
  wf_tree Q -> all_shape s Q -> NoDup ps -> (forall path i, In (path, i) ps <-> at_pos Q path i <> None) -> ps <> [] ->
  Forall2 (fun (pos : list step * nat) r => exists q, at_pos Q (fst pos) (snd pos) = Some q /\ h q = Some r) ps es ->
  tmean (tmap1 (amap h) Q) = Ok (Some (Rsum es / INR (length es))).
Proof.
  intros HW HS HN HI Hne HF. eapply tmean_spec with (ps := ps) (s := s).
  - apply wf_map. exact HW.
  - intros c Hc. apply has_leaf_map in Hc as (a & Ha & ->). apply HS, Ha.
  - exact HN.
  - intros path i. rewrite HI, at_pos_map. destruct (at_pos Q path i); cbn; split; congruence.
  - clear - HF. induction HF as [|pos r ps es (q & E1 & E2) _ IH]; constructor; [|exact IH]. rewrite at_pos_map, E1. cbn. rewrite E2. reflexivity.
  - exact Hne.
Qed.

Lemma samest_refl {V} (P : tree (arr V)) : (forall a, has_leaf P a -> wf_arr a) -> samest P P.
Proof.
  intros H. assert (E : tmap1 (amap (fun x : V => x)) P = P).
  { clear H. induction P as [[sa da]| |d IH|l IH|l IH] using tree_ind2; cbn [tmap1]; [unfold amap; cbn; rewrite map_id; reflexivity|reflexivity| | |]; f_equal.
    - rewrite <- map_id. apply map_ext_in. intros [k t] Hin. cbn [fst snd]. rewrite Forall_forall in IH. specialize (IH _ Hin). cbn [snd] in IH. rewrite IH. reflexivity.
    - rewrite <- map_id. apply map_ext_in. rewrite Forall_forall in IH. exact IH.
    - rewrite <- map_id. apply map_ext_in. rewrite Forall_forall in IH. exact IH. }
  pose proof (samest_map (fun x : V => x) P H) as G. rewrite E in G. exact G.
Qed.
Lemma samest_trans {V W X} (P : tree (arr V)) : forall (Q : tree (arr W)) (S : tree (arr X)), samest P Q -> samest Q S -> samest P S.
Proof.
  assert (HL : forall l, Forall (fun P => forall (Q : tree (arr W)) (S : tree (arr X)), samest P Q -> samest Q S -> samest P S) l ->
    forall (m : list (tree (arr W))) (u : list (tree (arr X))), Forall2 samest (l : list (tree (arr V))) m -> Forall2 samest m u -> Forall2 samest l u).
  { induction 1 as [|P0 l HP _ IH]; intros m u H1 H2; inversion H1; subst; inversion H2; subst; constructor; eauto. }
  induction P as [a| |d IH|l IH|l IH] using tree_ind2; intros Q S H1 H2; inversion H1 as [? b Ha Hb Es| |? e HF|? m HF|? m HF]; subst;
    inversion H2 as [? c Hc Hd Et| |? e' HG|? m' HG|? m' HG]; subst; constructor; eauto; try congruence.
  clear H1 H2. revert e' HG. induction HF as [|? ? ? ? [E1 E2] _ IHF]; intros e' HG; inversion HG as [|? ? ? ? [E3 E4] HG']; subst; constructor;
    inversion IH as [|? ? I1 I2]; subst; [split; [congruence|eapply I1; eassumption]|auto].
Qed.
Lemma samest_arr {V W} (P : tree (arr V)) : forall (Q : tree (arr W)) c, samest P Q -> has_leaf Q c -> wf_arr c.
Proof.
  assert (HL : forall l, Forall (fun P => forall (Q : tree (arr W)) c, samest P Q -> has_leaf Q c -> wf_arr c) l ->
    forall m : list (tree (arr W)), Forall2 samest (l : list (tree (arr V))) m -> forall t c, In t m -> has_leaf t c -> wf_arr c).
  { induction 1 as [|P0 l HP _ IH]; intros m H1 t a Ht Ha; inversion H1; subst; [destruct Ht|destruct Ht as [->|Ht]; eauto]. }
  induction P as [a| |d IH|l IH|l IH] using tree_ind2; intros Q c HS HC; inversion HS as [? b Ha Hb Es| |? e HF|? m HF|? m HF]; subst;
    inversion HC as [|d' k t' x' Hin Hlf|l' t' x' Hin Hlf|l' t' x' Hin Hlf]; subst; eauto.
  clear HS HC. induction HF as [|? ? ? ? [E1 E2] _ IHF]; [destruct Hin|]. inversion IH as [|? ? I1 I2]; subst. destruct Hin as [->|Hin]; [eapply I1; eassumption|auto].
Qed.
Lemma samest_pos {V W} path : forall (P : tree (arr V)) (Q : tree (arr W)) i, samest P Q -> at_pos P path i = None -> at_pos Q path i = None.
Proof.
  assert (HN : forall (l : list (tree (arr V))) (m : list (tree (arr W))) n, Forall2 samest l m ->
    match nth_error l n, nth_error m n with Some x, Some y => samest x y | None, None => True | _, _ => False end).
  { induction l as [|x l IH]; intros m [|n] H; inversion H; subst; cbn; auto. apply IH. assumption. }
  induction path as [|[k|n] q IH]; intros P Q i HS H; inversion HS as [a b Ha Hb Es| |d e HF|l m HF|l m HF]; subst; cbn [at_pos] in *; try reflexivity.
  - apply nth_error_None. apply nth_error_None in H. unfold wf_arr in *. rewrite Hb, <- Es, <- Ha. exact H.
  - clear HS. induction HF as [|[k1 x] [k2 y] d e [E1 E2] _ IHF]; [reflexivity|]. cbn [dget fst snd] in *. subst k2.
    destruct (String.eqb k k1); [eapply IH; eassumption|auto].
  - specialize (HN l m n HF). destruct (nth_error l n), (nth_error m n); try reflexivity; try contradiction. eapply IH; eassumption.
  - specialize (HN l m n HF). destruct (nth_error l n), (nth_error m n); try reflexivity; try contradiction. eapply IH; eassumption.
Qed.

Lemma alike_trans {V W X} (P : tree (arr V)) : forall (Q : tree (arr W)) (S : tree (arr X)), alike P Q -> alike Q S -> alike P S.
Proof.
  assert (HL : forall l, Forall (fun P => forall (Q : tree (arr W)) (S : tree (arr X)), alike P Q -> alike Q S -> alike P S) l ->
    forall (m : list (tree (arr W))) (u : list (tree (arr X))), Forall2 alike (l : list (tree (arr V))) m -> Forall2 alike m u -> Forall2 alike l u).
  { induction 1 as [|P0 l HP _ IH]; intros m u H1 H2; inversion H1; subst; inversion H2; subst; constructor; eauto. }
  induction P as [a| |d IH|l IH|l IH] using tree_ind2; intros Q S H1 H2; inversion H1 as [? b Ha Hb Es| |? e Hl HF|? m HF|? m HF]; subst;
    inversion H2 as [? c Hc Hd Et| |? e' Hl' HG|? m' HG|? m' HG]; subst; constructor; eauto; try congruence.
  rewrite Forall_forall in *. intros [k x] Hin. destruct (HF _ Hin) as (y & E1 & E2). cbn [fst snd] in *.
  destruct (HG _ (dget_In _ _ _ E1)) as (z & E3 & E4). cbn [fst snd] in *. exists z. split; [exact E3|]. eapply (IH _ Hin); eassumption.
Qed.
Lemma dist_sub p y : exists d, nsub (Some p) (Some y) = Some d /\ cabs d = dist p y.
Proof. eexists. split; [reflexivity|]. unfold cabs, dist. cbn [fst snd]. f_equal. ring. Qed.
Lemma habs x z : x = Some z -> option_map cabs x = Some (cabs z). Proof. intros ->. reflexivity. Qed.
Lemma hsqr x z : x = Some z -> option_map (fun z => cabs z * cabs z) x = Some (cabs z ^ 2).
Proof. intros ->. cbn. f_equal. ring. Qed.
Lemma shift_eps p y : exists d, nadd (Some y) (real eps) = Some d /\ cabs d = modulus (combo 0 p 1 y eps4).
Proof. eexists. split; [reflexivity|]. unfold cabs, modulus, combo, eps, eps4. cbn [fst snd]. f_equal. field. Qed.
Lemma double_eps p y : exists d, nadd (nmul (nadd (Some y) (Some p)) (real 2)) (real eps) = Some d /\ cabs d = modulus (combo 2 p 2 y eps4).
Proof. eexists. split; [reflexivity|]. unfold cabs, modulus, combo, eps, eps4. cbn [fst snd]. f_equal. field. Qed.
Lemma nmul_some a b : exists d, nmul (Some a) (Some b) = Some d /\ cabs d = cabs a * cabs b.
Proof. exists (cmul a b). split; [reflexivity|]. apply cabs_mul. Qed.

Section Value.
Variables (P Y U : data) (s : list nat) (ps : list (list step * nat)) (es : list (R * R * (R * R) * (R * R))).
Hypothesis HWP : wf_tree P.
Hypothesis HWY : wf_tree Y.
Hypothesis HPY : alike P Y.
Hypothesis HPU : alike P U.
Hypothesis HS : all_shape s P.
Hypothesis HE : entries P Y U ps (map finite es).
Hypothesis Hne : ps <> [].

(** a tree whose entries are given by a function of the entries of the three *)
Definition gives (f : num -> num -> num -> num) (Q : data) : Prop :=
  forall path i p y u, at_pos P path i = Some p -> at_pos Y path i = Some y -> at_pos U path i = Some u ->
    at_pos Q path i = Some (f p y u).

Lemma finish (h : num -> option R) f Q (rs : R * R * (R * R) * (R * R) -> R) : samest P Q -> gives f Q ->
  Forall (fun e => h (f (Some (fst (fst e))) (Some (snd (fst e))) (Some (snd e))) = Some (rs e)) es ->
  tmean (tmap1 (amap h) Q) = Ok (Some (Rsum (map rs es) / INR (length es))).
Proof.
  intros HQ HA HF. destruct HE as (HN & HI & H2).
  assert (HF2 : Forall2 (fun (pos : list step * nat) e => at_pos Q (fst pos) (snd pos) = Some (f (Some (fst (fst e))) (Some (snd (fst e))) (Some (snd e)))) ps es).
  { clear - H2 HA. revert H2. generalize es. induction ps as [|pos qs IH]; intros [|e l] H2; inversion H2 as [|? ? ? ? (E1 & E2 & E3) H3]; subst; constructor.
    - apply HA; assumption.
    - apply IH. exact H3. }
  rewrite <- (map_length rs es). eapply mean_of_entries with (s := s) (ps := ps).
  - eapply samest_wf; eassumption.
  - eapply all_shape_samest; eassumption.
  - exact HN.
  - intros path i. split; intros H.
    + assert (HX : Forall (fun pos : list step * nat => at_pos Q (fst pos) (snd pos) <> None) ps).
      { clear - HF2. induction HF2 as [|pos e l m H _ IH]; constructor; [rewrite H; discriminate|exact IH]. }
      rewrite Forall_forall in HX. apply (HX (path, i) H).
    + apply HI. intros E. apply H. eapply samest_pos; eassumption.
  - exact Hne.
  - clear - HF HF2. induction HF2 as [|pos e l m H _ IH]; cbn [map]; constructor; inversion HF; subst; [|apply IH; assumption].
    eexists. split; [exact H|assumption].
Qed.

Lemma step2 op (A B : data) f g (S0 : data) : samest S0 A -> alike S0 B -> gives f A -> gives g B ->
  exists Q, tmap2 (abin None None op) A B = Ok Q /\ samest S0 Q /\ gives (fun p y u => op (f p y u) (g p y u)) Q.
Proof.
  intros HA HB GA GB. destruct (op2 op A B) as (Q & E1 & E2 & E3); [eapply samest_alike_l; eassumption|].
  exists Q. split; [exact E1|]. split; [eapply samest_trans; eassumption|].
  intros path i p y u Ep Ey Eu. rewrite E3, (GA _ _ _ _ _ Ep Ey Eu), (GB _ _ _ _ _ Ep Ey Eu). reflexivity.
Qed.
Lemma step1 op (A : data) f (S0 : data) : samest S0 A -> all_shape s A -> gives f A ->
  exists Q, checked A (tmap1 (amap op) A) = Ok Q /\ samest S0 Q /\ all_shape s Q /\ gives (fun p y u => op (f p y u)) Q.
Proof.
  intros HA HSA GA. destruct (op1 op A s HSA) as (Q & E1 & E2 & E3); [intros a Ha; eapply samest_arr; eassumption|].
  exists Q. split; [exact E1|]. split; [eapply samest_trans; eassumption|]. split; [eapply all_shape_samest; eassumption|].
  intros path i p y u Ep Ey Eu. rewrite E3, (GA _ _ _ _ _ Ep Ey Eu). reflexivity.
Qed.
Lemma gives_P : gives (fun p _ _ => p) P. Proof. intros path i p y u H _ _. exact H. Qed.
Lemma gives_Y : gives (fun _ y _ => y) Y. Proof. intros path i p y u _ H _. exact H. Qed.
Lemma gives_U : gives (fun _ _ u => u) U. Proof. intros path i p y u _ _ H. exact H. Qed.
Lemma PP : samest P P. Proof. apply samest_refl. intros a Ha. eapply alike_arr; eassumption. Qed.
Lemma YP : alike Y P. Proof. apply alike_sym; assumption. Qed.
Lemma YY : samest Y Y. Proof. apply samest_refl. intros a Ha. eapply alike_arr; [apply YP|exact Ha]. Qed.
Lemma HSY : all_shape s Y.
Proof. intros a Ha. destruct (alike_leaf Y P a YP Ha) as (b & Hb & E). rewrite E. apply HS, Hb. Qed.


Theorem loss_value l : bare l P -> Forall (fun e => weight l (fst (fst e)) (snd (fst e)) (snd e) <> 0) es ->
  eval_loss l P Y U = Ok (Some (Rsum (map (fun e => formula l (fst (fst e)) (snd (fst e)) (snd e)) es) / INR (length es))).
Proof.
  intros HB HWt.
  destruct (step2 nsub P Y _ _ P PP HPY gives_P gives_Y) as (e & Ee & Se & Ge).
  assert (Hsq : forall q, tmean (tabs_sqr q) = tmean (tmap1 (amap (option_map (fun z => cabs z * cabs z))) q)) by reflexivity.
  destruct l as [| |delta| | | | | | | | |]; unfold eval_loss, tsub, tadd, tmul, tdiv, scalar_add, scalar_mul; rewrite Ee; cbn [rbind].
  - eapply finish; [exact Se|exact Ge|]. rewrite Forall_forall. intros [[p y] u] _. cbn [fst snd].
    destruct (dist_sub p y) as (d & -> & Ed). erewrite hsqr by reflexivity. unfold formula, weight. rewrite Ed. f_equal. field.
  - eapply finish; [exact Se|exact Ge|]. rewrite Forall_forall. intros [[p y] u] _. cbn [fst snd].
    destruct (dist_sub p y) as (d & -> & Ed). erewrite habs by reflexivity. unfold formula, weight. rewrite Ed. f_equal. field.
  - destruct HB as (a & EP). rewrite EP in Se. inversion Se as [? b Ha Hb Es| | | |]; subst.
    change (tmean (Leaf (amap (huber delta) b))) with (tmean (tmap1 (amap (huber delta)) (Leaf b))).
    eapply finish; [rewrite EP; exact Se|exact Ge|]. rewrite Forall_forall in *. intros [[p y] u] Hin. specialize (HWt _ Hin). cbn [fst snd] in *.
    destruct (dist_sub p y) as (d & -> & Ed). unfold weight in HWt. destruct (ndiv_some d (delta, 0)) as (q & Eq & Aq); [rewrite cabs_real; exact HWt|].
    unfold huber. replace (ndiv (Some d) (real delta)) with (Some q) by (symmetry; exact Eq). cbn [option_map]. unfold formula, weight. rewrite Aq, cabs_real, Ed. f_equal.
    f_equal; [ring|]. f_equal. f_equal. ring.
  - destruct (step2 ndiv e U _ _ P Se HPU Ge gives_U) as (q & Eq & Sq & Gq). rewrite Eq. cbn [rbind].
    eapply finish; [exact Sq|exact Gq|]. rewrite Forall_forall in *. intros [[p y] u] Hin. specialize (HWt _ Hin). cbn [fst snd] in *.
    destruct (dist_sub p y) as (d & -> & Ed). unfold weight in HWt. destruct (ndiv_some d u) as (z & -> & Az); [rewrite cabs_modulus; exact HWt|].
    erewrite hsqr by reflexivity. unfold formula, weight. rewrite Az, Ed, cabs_modulus. reflexivity.
  - destruct (step2 ndiv e U _ _ P Se HPU Ge gives_U) as (q & Eq & Sq & Gq). rewrite Eq. cbn [rbind].
    eapply finish; [exact Sq|exact Gq|]. rewrite Forall_forall in *. intros [[p y] u] Hin. specialize (HWt _ Hin). cbn [fst snd] in *.
    destruct (dist_sub p y) as (d & -> & Ed). unfold weight in HWt. destruct (ndiv_some d u) as (z & -> & Az); [rewrite cabs_modulus; exact HWt|].
    erewrite habs by reflexivity. unfold formula, weight. rewrite Az, Ed, cabs_modulus. reflexivity.
  - destruct (step1 (fun x => nadd x (real eps)) Y _ Y YY HSY gives_Y) as (t & Et & St & _ & Gt). rewrite Et. cbn [rbind].
    destruct (step2 ndiv e t _ _ P Se (samest_alike_r _ _ _ HPY St) Ge Gt) as (q & Eq & Sq & Gq). rewrite Eq. cbn [rbind].
    eapply finish; [exact Sq|exact Gq|]. rewrite Forall_forall in *. intros [[p y] u] Hin. specialize (HWt _ Hin). cbn [fst snd] in *.
    destruct (dist_sub p y) as (d & -> & Ed). destruct (shift_eps p y) as (w & -> & Ew). unfold weight in HWt.
    destruct (ndiv_some d w) as (z & -> & Az); [rewrite Ew; exact HWt|].
    erewrite habs by reflexivity. unfold formula, weight. rewrite Az, Ed, Ew. reflexivity.
  - destruct (step1 (fun x => nadd x (real eps)) Y _ Y YY HSY gives_Y) as (t & Et & St & _ & Gt). rewrite Et. cbn [rbind].
    destruct (step2 nmul t U _ _ Y St (alike_trans _ _ _ YP HPU) Gt gives_U) as (v & Ev & Sv & Gv). rewrite Ev. cbn [rbind].
    destruct (step2 ndiv e v _ _ P Se (samest_alike_r _ _ _ HPY Sv) Ge Gv) as (q & Eq & Sq & Gq). rewrite Eq. cbn [rbind].
    eapply finish; [exact Sq|exact Gq|]. rewrite Forall_forall in *. intros [[p y] u] Hin. specialize (HWt _ Hin). cbn [fst snd] in *.
    destruct (dist_sub p y) as (d & -> & Ed). destruct (shift_eps p y) as (w & -> & Ew). destruct (nmul_some w u) as (x & -> & Ex). unfold weight in HWt.
    rewrite cabs_modulus with (z := u) in Ex.
    destruct (ndiv_some d x) as (z & -> & Az); [rewrite Ex, Ew; exact HWt|].
    erewrite habs by reflexivity. unfold formula, weight. rewrite Az, Ed, Ex, Ew. reflexivity.
  - destruct (step2 nadd Y P _ _ Y YY YP gives_Y gives_P) as (t0 & Et0 & St0 & Gt0). rewrite Et0. cbn [rbind].
    destruct (step1 (fun x => nmul x (real 2)) t0 _ Y St0 (all_shape_samest _ _ _ St0 HSY) Gt0) as (t1 & Et1 & St1 & Ht1 & Gt1). rewrite Et1. cbn [rbind].
    destruct (step1 (fun x => nadd x (real eps)) t1 _ Y St1 Ht1 Gt1) as (t & Et & St & _ & Gt). rewrite Et. cbn [rbind].
    destruct (step2 ndiv e t _ _ P Se (samest_alike_r _ _ _ HPY St) Ge Gt) as (q & Eq & Sq & Gq). rewrite Eq. cbn [rbind].
    eapply finish; [exact Sq|exact Gq|]. rewrite Forall_forall in *. intros [[p y] u] Hin. specialize (HWt _ Hin). cbn [fst snd] in *.
    destruct (dist_sub p y) as (d & -> & Ed). destruct (double_eps p y) as (w & -> & Ew). unfold weight in HWt.
    destruct (ndiv_some d w) as (z & -> & Az); [rewrite Ew; exact HWt|].
    erewrite habs by reflexivity. unfold formula, weight. rewrite Az, Ed, Ew. reflexivity.
  - destruct (step2 nadd Y P _ _ Y YY YP gives_Y gives_P) as (t0 & Et0 & St0 & Gt0). rewrite Et0. cbn [rbind].
    destruct (step1 (fun x => nmul x (real 2)) t0 _ Y St0 (all_shape_samest _ _ _ St0 HSY) Gt0) as (t1 & Et1 & St1 & Ht1 & Gt1). rewrite Et1. cbn [rbind].
    destruct (step1 (fun x => nadd x (real eps)) t1 _ Y St1 Ht1 Gt1) as (t & Et & St & _ & Gt). rewrite Et. cbn [rbind].
    destruct (step2 nmul t U _ _ Y St (alike_trans _ _ _ YP HPU) Gt gives_U) as (v & Ev & Sv & Gv). rewrite Ev. cbn [rbind].
    destruct (step2 ndiv e v _ _ P Se (samest_alike_r _ _ _ HPY Sv) Ge Gv) as (q & Eq & Sq & Gq). rewrite Eq. cbn [rbind].
    eapply finish; [exact Sq|exact Gq|]. rewrite Forall_forall in *. intros [[p y] u] Hin. specialize (HWt _ Hin). cbn [fst snd] in *.
    destruct (dist_sub p y) as (d & -> & Ed). destruct (double_eps p y) as (w & -> & Ew). destruct (nmul_some w u) as (x & -> & Ex). unfold weight in HWt.
    rewrite cabs_modulus with (z := u) in Ex.
    destruct (ndiv_some d x) as (z & -> & Az); [rewrite Ex, Ew; exact HWt|].
    erewrite habs by reflexivity. unfold formula, weight. rewrite Az, Ed, Ex, Ew. reflexivity.
  - eapply finish; [exact Se|exact Ge|]. rewrite Forall_forall. intros [[p y] u] _. cbn [fst snd].
    destruct (dist_sub p y) as (d & -> & Ed). erewrite hsqr by reflexivity. unfold formula, weight. rewrite Ed. f_equal. field.
  - eapply finish; [exact Se|exact Ge|]. rewrite Forall_forall. intros [[p y] u] _. cbn [fst snd].
    destruct (dist_sub p y) as (d & -> & Ed). erewrite habs by reflexivity. unfold formula, weight. rewrite Ed. f_equal. field.
  - destruct (step1 (fun x => nadd x (real eps)) Y _ Y YY HSY gives_Y) as (t & Et & St & _ & Gt). rewrite Et. cbn [rbind].
    destruct (step2 ndiv e t _ _ P Se (samest_alike_r _ _ _ HPY St) Ge Gt) as (q & Eq & Sq & Gq). rewrite Eq. cbn [rbind].
    eapply finish; [exact Sq|exact Gq|]. rewrite Forall_forall in *. intros [[p y] u] Hin. specialize (HWt _ Hin). cbn [fst snd] in *.
    destruct (dist_sub p y) as (d & -> & Ed). destruct (shift_eps p y) as (w & -> & Ew). unfold weight in HWt.
    destruct (ndiv_some d w) as (z & -> & Az); [rewrite Ew; exact HWt|].
    erewrite habs by reflexivity. unfold formula, weight. rewrite Az, Ed, Ew. reflexivity.
Qed.
End Value.

(** functions without uncertainties do not look at them *)
Lemma loss_no_unc l P Y U U' : uses_unc l = false -> eval_loss l P Y U = eval_loss l P Y U'.
Proof. destruct l; cbn; try discriminate; reflexivity. Qed.

(** ** consequences *)
Lemma formula_nonneg l p y u : 0 <= formula l p y u.
Proof.
  assert (Hm : forall z, 0 <= modulus z) by (intros; apply sqrt_pos).
  assert (Hw : 0 <= weight l p y u).
  { destruct l; cbn [weight]; try apply Hm; try lra; try (apply Rmult_le_pos; apply Hm). apply Rabs_pos. }
  assert (Hd : 0 <= dist p y) by apply sqrt_pos.
  assert (Hr : 0 <= dist p y / weight l p y u).
  { destruct (Req_dec (weight l p y u) 0) as [E|E]; [rewrite E; unfold Rdiv; rewrite Rinv_0, Rmult_0_r; lra|].
    apply Rmult_le_pos; [exact Hd|]. left. apply Rinv_0_lt_compat. lra. }
  unfold formula. destruct l; try exact Hr; try apply pow2_ge_0.
  apply Rmult_le_pos; [apply pow2_ge_0|]. set (r := dist p y / weight (PseudoHuber delta) p y u) in *. pose proof (pow2_ge_0 r) as H2. assert (G : sqrt 1 <= sqrt (1 + r ^ 2)) by (apply sqrt_le_1; lra).
  rewrite sqrt_1 in G. lra.
Qed.
Lemma formula_same l p u : formula l p p u = 0.
Proof.
  unfold formula. assert (Hd : dist p p = 0) by (unfold dist; replace ((fst p - fst p) ^ 2 + (snd p - snd p) ^ 2) with 0 by ring; apply sqrt_0).
  rewrite Hd. unfold Rdiv. rewrite !Rmult_0_l. destruct l; try ring. replace (1 + 0 ^ 2) with 1 by ring. rewrite sqrt_1. ring.
Qed.
Lemma Rsum_zero {A} (f : A -> R) l : Forall (fun x => f x = 0) l -> Rsum (map f l) = 0.
Proof. induction 1 as [|x l H _ IH]; [reflexivity|]. cbn. rewrite H, IH. ring. Qed.
Lemma Rsum_nonneg l : Forall (fun x => 0 <= x) l -> 0 <= Rsum l.
Proof. induction 1 as [|x l H _ IH]; cbn; lra. Qed.

(** whatever the arguments, a finite loss is not negative *)
Lemma osum_nonneg l r : Forall (fun x => forall v, x = Some v -> 0 <= v) l -> osum l = Some r -> 0 <= r.
Proof.
  revert r. induction l as [|x l IH]; intros r HF H; cbn in H; [injection H as <-; lra|].
  inversion HF as [|? ? H1 H2]; subst. destruct x as [v|]; [|discriminate H]. destruct (osum l) as [w|]; [|discriminate H].
  cbn in H. injection H as <-. specialize (H1 v eq_refl). specialize (IH w H2 eq_refl). lra.
Qed.
Lemma tmean_nonneg (h : num -> option R) (Q : data) r : (forall x v, h x = Some v -> 0 <= v) ->
  tmean (tmap1 (amap h) Q) = Ok (Some r) -> 0 <= r.
Proof.
  intros Hh H. unfold tmean, checked in H. destruct (one_shape _); [|discriminate H]. fold (flat (tmap1 (amap h) Q)) in H.
  assert (HF : Forall (fun x => forall v, x = Some v -> 0 <= v) (flat (tmap1 (amap h) Q))).
  { rewrite Forall_forall. intros x Hx v ->. unfold flat in Hx. apply in_concat in Hx as (l & Hl & Hx). apply in_map_iff in Hl as (b & <- & Hb).
    apply leaves_has_leaf in Hb. apply has_leaf_map in Hb as (a & _ & ->). cbn [amap dat] in Hx. apply in_map_iff in Hx as (y & E & _). eapply Hh. exact E. }
  destruct (length (flat (tmap1 (amap h) Q))) as [|n] eqn:En; [discriminate H|]. destruct (osum _) as [w|] eqn:Ew; [|discriminate H].
  cbn [option_map] in H. injection H as <-. apply Rmult_le_pos; [eapply osum_nonneg; eassumption|]. left. apply Rinv_0_lt_compat. apply (lt_0_INR (S n)). lia.
Qed.
Theorem loss_nonneg l P Y U r : eval_loss l P Y U = Ok (Some r) -> 0 <= r.
Proof.
  assert (Habs : forall x v, option_map cabs x = Some v -> 0 <= v) by (intros [z|] v E; [injection E as <-; apply cabs_nonneg|discriminate]).
  assert (Hsqr : forall x v, option_map (fun z => cabs z * cabs z) x = Some v -> 0 <= v).
  { intros [z|] v E; [injection E as <-|discriminate]. pose proof (cabs_nonneg z). nra. }
  destruct l as [| |delta| | | | | | | | |]; unfold eval_loss; intros H; repeat (apply rbind_ok in H as (? & _ & H));
    try (eapply tmean_nonneg; [exact Habs|exact H]); try (eapply tmean_nonneg; [exact Hsqr|exact H]).
  match type of H with match ?t with _ => _ end = _ => destruct t; try discriminate H end.
  eapply (tmean_nonneg (huber delta) (Leaf a)); [|exact H]. intros x v. unfold huber. destruct (ndiv x (real delta)) as [z|]; [|discriminate].
  intros E. injection E as <-. apply Rmult_le_pos; [nra|]. pose proof (cabs_nonneg z). assert (G : sqrt 1 <= sqrt (1 + cabs z * cabs z)) by (apply sqrt_le_1; nra).
  rewrite sqrt_1 in G. lra.
Qed.

Theorem loss_perfect l Y U s ps es : wf_tree Y -> alike Y Y -> alike Y U -> all_shape s Y ->
  entries Y Y U ps (map finite es) -> ps <> [] -> bare l Y ->
  Forall (fun e => weight l (fst (fst e)) (snd (fst e)) (snd e) <> 0) es ->
  eval_loss l Y Y U = Ok (Some 0).
Proof.
  intros HW HYY HYU HS HE Hne HB HWt. rewrite (loss_value Y Y U s ps es HW HW HYY HYU HS HE Hne l HB HWt).
  rewrite Rsum_zero; [unfold Rdiv; rewrite Rmult_0_l; reflexivity|].
  destruct HE as (_ & _ & HF). rewrite Forall_forall. intros e He. assert (E : fst (fst e) = snd (fst e)).
  { clear - HF He. revert HF He. generalize ps. induction es as [|e0 es IH]; intros qs HF He; [destruct He|]. cbn [map] in HF.
    inversion HF as [|? ? ? ? (E1 & E2 & _) HF']; subst. destruct He as [->|He]; [|eapply IH; eassumption]. unfold finite in *. cbn [fst snd] in *. congruence. }
  rewrite <- E. apply formula_same.
Qed.
