(** Degrees of freedom of the parameters of the modules. *)
From Coq Require Import Arith Lia Field PeanoNat.
From Verif Require Import Base Dof DofSpec DofProofs.
Local Open Scope list_scope.
Local Open Scope nat_scope.

(** * Exchange of two axes *)
Lemma swap_eq n a i j : i < n -> j < n -> swap n ((a * n + i) * n + j) = (a * n + j) * n + i.
Proof.
  intros Hi Hj. assert (n <> 0) as Hn by lia. unfold swap.
  rewrite <- Nat.div_div by assumption.
  assert (((a * n + i) * n + j) / n = a * n + i) as E1 by (rewrite Nat.div_add_l, Nat.div_small by assumption; lia).
  assert (((a * n + i) * n + j) mod n = j) as E2 by (rewrite Nat.add_comm, Nat.mod_add, Nat.mod_small by assumption; lia).
  assert ((a * n + i) / n = a) as E3 by (rewrite Nat.div_add_l, Nat.div_small by assumption; lia).
  assert ((a * n + i) mod n = i) as E4 by (rewrite Nat.add_comm, Nat.mod_add, Nat.mod_small by assumption; lia).
  rewrite E1, E2, E3, E4. ring.
Qed.
Lemma split_index n P e : e < P * (n * n) -> exists a i j, e = (a * n + i) * n + j /\ a < P /\ i < n /\ j < n.
Proof.
  intros He. assert (n <> 0) as Hn by (intros ->; lia).
  exists (e / n / n), ((e / n) mod n), (e mod n).
  pose proof (Nat.div_mod e n Hn). pose proof (Nat.div_mod (e / n) n Hn).
  pose proof (Nat.mod_upper_bound e n Hn). pose proof (Nat.mod_upper_bound (e / n) n Hn).
  repeat split; try assumption; [nia|]. apply Nat.div_lt_upper_bound; [exact Hn|]. apply Nat.div_lt_upper_bound; [exact Hn|]. lia.
Qed.
Lemma swap_lt n P e : e < P * (n * n) -> swap n e < P * (n * n).
Proof. intros H. destruct (split_index n P e H) as (a & i & j & -> & Ha & Hi & Hj). rewrite swap_eq by assumption. nia. Qed.
Lemma swap_swap n P e : e < P * (n * n) -> swap n (swap n e) = e.
Proof. intros H. destruct (split_index n P e H) as (a & i & j & -> & Ha & Hi & Hj). now rewrite !swap_eq by assumption. Qed.

Lemma nth_map_seq {A} (F : nat -> A) N e d : e < N -> nth e (map F (seq 0 N)) d = F e.
Proof. intros H. rewrite (nth_indep _ d (F 0)) by (rewrite map_length, seq_length; exact H). rewrite map_nth, seq_nth by exact H. reflexivity. Qed.
Lemma shape_eqb_iff s t : shape_eqb s t = true <-> s = t.
Proof.
  revert t. induction s as [|m s IH]; intros [|n t]; cbn; try (split; congruence).
  rewrite Bool.andb_true_iff, Nat.eqb_eq, IH. split; [intros [-> ->]; reflexivity|intros E; injection E; auto].
Qed.

Section Field.
Context {K : Type} (zero one : K) (add mul sub : K -> K -> K) (opp : K -> K) (div : K -> K -> K) (inv : K -> K) (eqb : K -> K -> bool).
Context (Fth : field_theory zero one add mul sub opp div inv (@eq K)).
Context (eqb_spec : forall a b, eqb a b = true <-> a = b).
Context (two : add one one <> zero).
Add Field Kf : Fth.
Notation vadd := (vadd add). Notation vscale := (vscale mul).
Notation dof := (dof add mul).
Notation conj := (@conj K opp). Notation carr := (@carr K).

(** * Real and imaginary parts *)
Fixpoint unparts (s : list K) : list (K * K) := match s with a :: b :: s' => (a, b) :: unparts s' | _ => [] end.
Lemma unparts_parts (d : list (K * K)) : unparts (parts d) = d.
Proof. induction d as [|[a b] d IH]; [reflexivity|]. cbn. unfold parts in IH. now rewrite IH. Qed.
Lemma parts_unparts N : forall s : list K, length s = 2 * N -> parts (unparts s) = s /\ length (unparts s) = N.
Proof.
  induction N as [|N IH]; intros s H; [destruct s; [auto|discriminate]|].
  destruct s as [|a [|b s]]; try (cbn in H; lia). destruct (IH s) as [E1 E2]; [cbn in H; lia|]. cbn [unparts length]. unfold parts in *. cbn [flat_map fst snd app]. rewrite E1, E2. auto.
Qed.
Lemma parts_length (d : list (K * K)) : length (parts d) = 2 * length d.
Proof. induction d as [|[a b] d IH]; cbn; [reflexivity|]. unfold parts in IH. rewrite IH. lia. Qed.
Lemma nth_parts0 (d : list (K * K)) e : nth (2 * e) (parts d) zero = fst (nth e d (zero, zero)).
Proof. revert e. induction d as [|[a b] d IH]; intros [|e]; try reflexivity. replace (2 * S e) with (S (S (2 * e))) by lia. cbn -[Nat.mul]. apply IH. Qed.
Lemma nth_parts1 (d : list (K * K)) e : nth (S (2 * e)) (parts d) zero = snd (nth e d (zero, zero)).
Proof. revert e. induction d as [|[a b] d IH]; intros [|e]; try reflexivity. replace (2 * S e) with (S (S (2 * e))) by lia. cbn -[Nat.mul]. apply IH. Qed.
Lemma vadd_parts (F G H : nat -> K * K) l : (forall e, H e = (add (fst (F e)) (fst (G e)), add (snd (F e)) (snd (G e)))) ->
  parts (map H l) = vadd (parts (map F l)) (parts (map G l)).
Proof. intros E. induction l as [|e l IH]; [reflexivity|]. cbn. unfold parts in IH. rewrite IH, E. reflexivity. Qed.
Lemma vscale_parts c (F H : nat -> K * K) l : (forall e, H e = (mul c (fst (F e)), mul c (snd (F e)))) ->
  parts (map H l) = vscale c (parts (map F l)).
Proof. intros E. induction l as [|e l IH]; [reflexivity|]. cbn. unfold parts in IH. rewrite IH, E. reflexivity. Qed.

(** Free complex and real entries. *)
Lemma dof_complex N : dof (fun s => exists d, length d = N /\ s = parts d) (2 * N).
Proof.
  exists (fun x => x), (fun x => x). constructor; auto.
  - intros x Hx. destruct (parts_unparts N x Hx) as [E1 E2]. split; [eauto|reflexivity].
  - intros s (d & <- & ->). split; [apply parts_length|reflexivity].
Qed.
Lemma dof_real N : dof (fun s => exists d, length d = N /\ Forall (fun z => snd z = zero) d /\ s = parts d) N.
Proof.
  exists (fun x => parts (map (fun a => (a, zero)) x)), (fun s => map fst (unparts s)). constructor.
  - intros x Hx. split.
    + exists (map (fun a => (a, zero)) x). split; [now rewrite map_length|]. split; [|reflexivity].
      apply Forall_forall. intros z Hz. apply in_map_iff in Hz. destruct Hz as (a & <- & _). reflexivity.
    + rewrite unparts_parts, map_map. cbn. apply map_id.
  - intros s (d & <- & Hd & ->). rewrite unparts_parts. split; [apply map_length|]. f_equal.
    rewrite map_map. rewrite <- (map_id d) at 2. apply map_ext_in. intros [a b] Hz. rewrite Forall_forall in Hd. specialize (Hd _ Hz). cbn in *. congruence.
  - intros x y Hx Hy. assert (length x = length y) as L by congruence. clear Hx Hy. revert y L. induction x as [|a x IH]; intros [|b y] L; try discriminate; [reflexivity|].
    cbn. unfold parts in IH. rewrite IH by (cbn in L; lia). do 2 f_equal. ring.
  - intros c x _. induction x as [|a x IH]; [reflexivity|]. cbn. unfold parts in IH. unfold DofSpec.vscale in IH. rewrite IH. do 2 f_equal. ring.
Qed.

(** * Entries that are paired by conjugation *)
Section Paired.
Context (N : nat) (t : nat -> nat) (t_lt : forall e, e < N -> t e < N) (t_t : forall e, e < N -> t (t e) = e).
Definition paired (d : list (K * K)) : Prop := length d = N /\ forall e, e < N -> nth (t e) d (zero, zero) = conj (nth e d (zero, zero)).
Definition entry (x : list K) (e : nat) : K * K :=
  if e =? t e then (nth e x zero, zero)
  else if e <? t e then (nth e x zero, opp (nth (t e) x zero)) else (nth (t e) x zero, nth e x zero).
Definition coords (s : list K) : list K :=
  map (fun e => if e <=? t e then nth (2 * e) s zero else nth (S (2 * e)) s zero) (seq 0 N).
Lemma dof_paired : dof (fun s => exists d, paired d /\ s = parts d) N.
Proof.
  exists (fun x => parts (map (entry x) (seq 0 N))), coords. constructor.
  - intros x Hx. split.
    + exists (map (entry x) (seq 0 N)). split; [|reflexivity]. split; [now rewrite map_length, seq_length|].
      intros e He. rewrite !nth_map_seq by auto. unfold entry. rewrite (t_t e He).
      destruct (Nat.eqb_spec e (t e)) as [E|E].
      * rewrite <- E, Nat.eqb_refl. unfold Dof.conj. cbn. f_equal. ring.
      * destruct (Nat.eqb_spec (t e) e) as [E'|E']; [congruence|].
        destruct (Nat.ltb_spec e (t e)), (Nat.ltb_spec (t e) e); try lia; unfold Dof.conj; cbn; f_equal; ring.
    + apply (nth_ext _ _ zero zero); [unfold coords; rewrite map_length, seq_length; congruence|].
      unfold coords. rewrite map_length, seq_length. intros e He. rewrite (nth_map_seq _ N) by exact He.
      rewrite nth_parts0, nth_parts1, nth_map_seq by exact He. unfold entry.
      destruct (Nat.leb_spec e (t e)), (Nat.eqb_spec e (t e)), (Nat.ltb_spec e (t e)); try lia; reflexivity.
  - intros s (d & (Hd & P) & ->). split; [unfold coords; now rewrite map_length, seq_length|]. f_equal.
    apply (nth_ext _ _ (zero, zero) (zero, zero)); [rewrite map_length, seq_length; congruence|].
    rewrite map_length, seq_length. intros e He. rewrite nth_map_seq by exact He. unfold entry, coords.
    rewrite !(nth_map_seq _ N) by auto. rewrite (t_t e He). pose proof (P e He) as E. rewrite !nth_parts0, !nth_parts1.
    destruct (nth e d (zero, zero)) as [a b] eqn:Z. destruct (nth (t e) d (zero, zero)) as [a' b'] eqn:Z'. unfold Dof.conj in E. cbn [fst snd] in *. injection E as -> ->.
    destruct (Nat.eqb_spec e (t e)) as [E|E].
    + rewrite <- E, Z in Z'. injection Z' as Z'. destruct (Nat.leb_spec e (t e)); [|lia]. f_equal.
      assert (mul (add one one) b = zero) as Z2 by (transitivity (add b b); [ring|]; rewrite Z' at 1; ring).
      assert (b = mul (inv (add one one)) (mul (add one one) b)) as -> by (field; exact two). rewrite Z2. ring.
    + destruct (Nat.ltb_spec e (t e)), (Nat.leb_spec e (t e)), (Nat.leb_spec (t e) e); try lia; f_equal; ring.
  - intros x y Hx Hy. apply vadd_parts. intros e. unfold entry.
    destruct (Nat.eqb_spec e (t e)), (Nat.ltb_spec e (t e)); cbn; rewrite ?(nth_vadd zero one add mul sub opp div inv eqb Fth eqb_spec) by congruence; f_equal; ring.
  - intros c x Hx. apply vscale_parts. intros e. unfold entry.
    destruct (Nat.eqb_spec e (t e)), (Nat.ltb_spec e (t e)); cbn; rewrite ?(nth_vscale zero one add mul sub opp div inv Fth); f_equal; ring.
Qed.
End Paired.
Lemma dof_hermitian n P : dof (fun s => exists d, paired (P * (n * n)) (swap n) d /\ s = parts d) (P * (n * n)).
Proof. apply dof_paired; intros e He; [apply swap_lt, He|exact (swap_swap n P e He)]. Qed.
Lemma all_close_iff d e : all_close eqb d e = true <-> d = e.
Proof.
  revert e. induction d as [|z d IH]; intros [|w e]; cbn; try (split; congruence).
  unfold c_eqb. rewrite !Bool.andb_true_iff, IH, !eqb_spec. destruct z, w. cbn. split; [intros [[-> ->] ->]; reflexivity|intros E; injection E; auto].
Qed.
Lemma conj_conj z : conj (conj z) = z.
Proof. destruct z as [a b]. unfold Dof.conj. cbn. f_equal. ring. Qed.
Lemma hermitian_iff n P d : length d = P * (n * n) -> all_close eqb d (adjoint zero opp n d) = true <-> paired (P * (n * n)) (swap n) d.
Proof.
  intros L. rewrite all_close_iff. unfold adjoint, paired. rewrite L. split.
  - intros E. split; [reflexivity|]. intros e He. rewrite E at 2. rewrite nth_map_seq by exact He. now rewrite conj_conj.
  - intros (_ & H). apply (nth_ext _ _ (zero, zero) (zero, zero)); [now rewrite map_length, seq_length|].
    rewrite L. intros e He. rewrite nth_map_seq by exact He. rewrite H by exact He. now rewrite conj_conj.
Qed.

(** * The modules *)
Notation proper := (proper zero). Notation set_params := (set_params zero opp eqb).
Notation values := (values zero).
Definition free (a : carr) (s : list K) : Prop :=
  exists d, length d = size (c_shape a) /\ (c_cplx a = false -> Forall (fun z => snd z = zero) d) /\ s = parts d.
Lemma dof_free a : dof (free a) ((if c_cplx a then 2 else 1) * size (c_shape a)).
Proof.
  unfold free. destruct (c_cplx a).
  - eapply dof_ext; [|apply dof_complex]. intros s. split; intros (d & H); exists d; intuition congruence.
  - rewrite Nat.mul_1_l. eapply dof_ext; [|apply dof_real]. intros s. split; intros (d & H); exists d; intuition congruence.
Qed.
Lemma free_length a s : free a s -> length s = 2 * size (c_shape a).
Proof. intros (d & <- & _ & ->). apply parts_length. Qed.
Lemma values_free ps : forall s, all_of (map free ps) s <-> values (fun _ => True) ps s.
Proof.
  induction ps as [|a ps IH]; intros s; cbn [map all_of].
  - split; [intros ->; exists []; cbn; auto|intros (qs & H & _ & _ & ->); inversion H; reflexivity].
  - split.
    + intros (u & v & -> & (d & H1 & H2 & ->) & Hv). apply IH in Hv. destruct Hv as (qs & Q1 & Q2 & _ & ->).
      exists (mk_carr (c_shape a) (c_cplx a) d :: qs). split; [constructor; [split; reflexivity|exact Q1]|]. split; [constructor; [split; assumption|exact Q2]|]. auto.
    + intros (qs & H & Hp & _ & ->). inversion H as [|a' b ps' qs' [A1 A2] Hq]; subst. inversion Hp as [|b' qs'' [B1 B2] Hq2]; subst.
      exists (parts (c_data b)), (flat_map (fun a => parts (c_data a)) qs'). split; [reflexivity|]. split.
      * exists (c_data b). rewrite <- A1, <- A2. auto.
      * apply IH. exists qs'. auto.
Qed.
Lemma fold_sum {A} (f : A -> nat) l : forall s, fold_left (fun s a => s + f a) l s = s + list_sum (map f l).
Proof. induction l as [|a l IH]; intros s; cbn [fold_left]; [cbn; lia|]. rewrite IH. change (list_sum (map f (a :: l))) with (f a + list_sum (map f l)). lia. Qed.
Lemma dof_values_free ps : dof (values (fun _ => True) ps) (fold_left (fun s a => s + (if c_cplx a then 2 else 1) * size (c_shape a)) ps 0).
Proof.
  rewrite fold_sum. cbn [Nat.add]. eapply dof_ext; [apply values_free|].
  pose proof (dof_all zero add mul eqb eqb_spec (map (fun a => (free a, (if c_cplx a then 2 else 1) * size (c_shape a), 2 * size (c_shape a))) ps)) as H.
  rewrite !map_map in H. cbn [fst snd] in H. apply H. apply Forall_forall. intros e He. apply in_map_iff in He. destruct He as (a & <- & _). cbn [fst snd].
  split; [apply dof_free|apply free_length].
Qed.
Lemma dof_same (P : list carr -> Prop) ps k : (forall qs, Forall2 (@alike K) ps qs -> Forall proper qs -> P qs) -> dof (values (fun _ => True) ps) k -> dof (values P ps) k.
Proof.
  intros H D. eapply dof_ext; [|exact D]. intros s. split; intros (qs & A & B & C & E); exists qs; auto.
Qed.

(** The dtypes that [compile] draws; modules that count with basemodule.py may have any. *)
Definition usual (k : kind) (ps : list carr) : Prop :=
  match k with
  | Herm _ | Sum _ _ => map c_cplx ps = [true]
  | Low _ _ => map c_cplx ps = [false; true]
  | _ => True
  end.
Lemma values_hermitian (P : list carr -> Prop) a n M : c_cplx a = true -> size (c_shape a) = M * (n * n) ->
  (forall b, alike a b -> proper b -> P [b] <-> all_close eqb (c_data b) (adjoint zero opp n (c_data b)) = true) ->
  dof (values P [a]) (M * (n * n)).
Proof.
  intros Hc Hs HP. eapply dof_ext; [|apply (dof_hermitian n M)]. intros s. split.
  - intros (d & Hd & ->). exists [mk_carr (c_shape a) true d].
    assert (proper (mk_carr (c_shape a) true d)) as Hp by (split; [cbn; fold (size (c_shape a)); rewrite Hs; apply Hd|discriminate]).
    split; [constructor; [split; [reflexivity|now rewrite Hc]|constructor]|]. split; [constructor; [exact Hp|constructor]|]. split; [|cbn; now rewrite app_nil_r].
    apply HP; [split; [reflexivity|now rewrite Hc]|exact Hp|]. apply (hermitian_iff n M); [apply Hd|exact Hd].
  - intros (qs & H & Hp & Ha & ->). inversion H as [|a' b ps' qs' A Hq]; subst. inversion Hq; subst. inversion Hp as [|b' qs'' B Hq2]; subst.
    exists (c_data b). split; [|cbn; now rewrite app_nil_r]. apply (hermitian_iff n M); [|apply HP; auto].
    destruct B as [B _]. rewrite B. destruct A as [-> _]. exact Hs.
Qed.
Lemma module_dof k ps : set_params k ps ps = Ok ps -> usual k ps ->
  exists n, floats k (Some ps) = Some n /\ dof (values (fun qs => set_params k ps qs = Ok qs) ps) n.
Proof.
  intros Ha Hu. destruct k as [n|n r|sh re|q l|].
  - destruct ps as [|m [|? ?]]; try discriminate. cbn in Hu. injection Hu as Hu. cbn [Dof.set_params] in Ha. unfold first in Ha. cbn [nth_error] in Ha.
    destruct (shape_eqb _ _) eqn:Es; [|discriminate]. apply shape_eqb_iff in Es. cbn [floats].
    exists (size (c_shape m)). split; [reflexivity|]. set (p := hd 0 (c_shape m)) in *.
    assert (size (c_shape m) = p * (n * n)) as Hs by (rewrite Es; cbn; lia). rewrite Hs.
    apply values_hermitian; [exact Hu|exact Hs|]. intros b [B1 B2] _. cbn [Dof.set_params]. unfold first. cbn [nth_error]. fold p. rewrite B1, (proj2 (shape_eqb_iff _ _) Es). cbn [negb].
    destruct (all_close eqb (c_data b) _); cbn [negb]; split; intros ?; congruence || reflexivity.
  - destruct ps as [|a [|u [|? ?]]]; try discriminate. cbn in Hu. injection Hu as H1 H2. cbn [Dof.set_params] in Ha.
    destruct (shape_eqb (c_shape u) _) eqn:E1; [|discriminate]. destruct (shape_eqb (c_shape a) _) eqn:E2; [|discriminate].
    eexists. split; [reflexivity|]. pose proof (dof_values_free [a; u]) as D. cbn [fold_left] in D. rewrite H1, H2 in D.
    replace (2 * size (c_shape u) + size (c_shape a)) with (0 + 1 * size (c_shape a) + 2 * size (c_shape u)) by lia.
    revert D. apply dof_same. intros qs H Hp. inversion H as [|a' b ps' qs' [A1 A2] Hq]; subst. inversion Hq as [|u' v ps'' qs'' [B1 B2] Hq2]; subst. inversion Hq2; subst.
    cbn [Dof.set_params]. unfold first in *. cbn [nth_error] in *. now rewrite A1, B1, E1, E2.
  - destruct ps as [|a [|? ?]]; try discriminate. cbn [Dof.set_params] in Ha. destruct (shape_eqb (c_shape a) _) eqn:E1; [|discriminate].
    eexists. split; [reflexivity|]. eapply dof_same; [|apply dof_values_free]. intros qs H Hp. inversion H as [|a' b ps' qs' [A1 A2] Hq]; subst. inversion Hq; subst.
    cbn [Dof.set_params]. unfold first in *. cbn [nth_error] in *. now rewrite A1, E1.
  - destruct ps as [|m [|? ?]]; try discriminate. cbn in Hu. injection Hu as Hu. cbn [Dof.set_params] in Ha.
    destruct (c_shape m) as [|q' [|l' [|n [|n' [|? ?]]]]] eqn:Em; try discriminate.
    destruct (shape_eqb _ _) eqn:Es; [|discriminate]. apply shape_eqb_iff in Es. injection Es as -> -> ->. cbn [floats]. rewrite Em.
    exists (q * l * n * n). split; [reflexivity|]. replace (q * l * n * n) with ((q * l) * (n * n)) by lia.
    apply values_hermitian; [exact Hu|rewrite Em; cbn; lia|]. intros b [B1 B2] _. cbn [Dof.set_params]. rewrite B1, Em. rewrite (proj2 (shape_eqb_iff _ _) eq_refl). cbn [negb].
    destruct (all_close eqb (c_data b) _); cbn [negb]; split; intros ?; congruence || reflexivity.
  - eexists. split; [cbn [floats]; destruct ps as [|? [|? ?]]; reflexivity|]. eapply dof_same; [|apply dof_values_free]. intros qs H Hp. cbn [Dof.set_params].
    assert (forallb (fun p => shape_eqb (c_shape (fst p)) (c_shape (snd p))) (combine ps qs) && (length ps =? length qs) = true) as ->; [|reflexivity].
    clear -H. induction H as [|a b ps qs [A _] _ IH]; [reflexivity|]. cbn. rewrite A, (proj2 (shape_eqb_iff _ _) eq_refl). exact IH.
Qed.
Lemma values_length P ps s : values P ps s -> length s = list_sum (map (fun a => 2 * size (c_shape a)) ps).
Proof.
  intros (qs & H & Hp & _ & ->). revert Hp. induction H as [|a b ps qs [A _] _ IH]; intros Hp; [reflexivity|].
  inversion Hp as [|b' qs' [B _] Hp']; subst. cbn [flat_map map]. rewrite app_length, parts_length, IH by exact Hp'. rewrite B, A. reflexivity.
Qed.
End Field.
