(** Degrees of freedom: they are unique, and those of the parameters of the modules. *)
From Coq Require Import Arith Lia Field PeanoNat.
From Verif Require Import Base Dof DofSpec.
Local Open Scope list_scope.
Local Open Scope nat_scope.

Section Field.
Context {K : Type} (zero one : K) (add mul sub : K -> K -> K) (opp : K -> K) (div : K -> K -> K) (inv : K -> K) (eqb : K -> K -> bool).
Context (Fth : field_theory zero one add mul sub opp div inv (@eq K)).
Context (eqb_spec : forall a b, eqb a b = true <-> a = b).
Add Field Kf : Fth.
Notation vadd := (vadd add). Notation vscale := (vscale mul).
Notation dof := (dof add mul). Notation coordinates := (coordinates add mul).

Lemma K_dec (a b : K) : {a = b} + {a <> b}.
Proof.
  destruct (eqb a b) eqn:E; [left; now apply eqb_spec|right; intros ->].
  assert (eqb b b = true) as E' by now apply eqb_spec. congruence.
Qed.

(** * More unknowns than equations *)
Fixpoint dot (x y : list K) : K := match x, y with a :: x', b :: y' => add (mul a b) (dot x' y') | _, _ => zero end.
Lemma dot_zero x k : dot x (repeat zero k) = zero.
Proof. revert k. induction x as [|a x IH]; intros [|k]; cbn; auto. rewrite IH. ring. Qed.
Lemma dot_elim s r x c : length s = length x -> length r = length x ->
  dot (vadd s (vscale c r)) x = add (dot s x) (mul c (dot r x)).
Proof.
  revert s r. induction x as [|a x IH]; intros [|b s] [|d r] H1 H2; try discriminate; cbn; [ring|].
  change (map (mul c) r) with (vscale c r). rewrite IH by (cbn in *; lia). ring.
Qed.
Lemma vadd_length x y : length x = length y -> length (vadd x y) = length x.
Proof. revert y. induction x as [|a x IH]; intros [|b y] H; try discriminate; cbn; auto. Qed.
Lemma vscale_length c x : length (vscale c x) = length x.
Proof. apply map_length. Qed.
Lemma kernel k : forall A : list (list K), Forall (fun r => length r = k) A -> length A < k ->
  exists x, length x = k /\ x <> repeat zero k /\ Forall (fun r => dot r x = zero) A.
Proof.
  induction k as [|k IH]; intros A HA Hl; [lia|].
  destruct (Forall_Exists_dec (fun r => hd zero r = zero) (fun r => K_dec (hd zero r) zero) A) as [Hz|Hn].
  - exists (one :: repeat zero k). split; [cbn; now rewrite repeat_length|]. split.
    + cbn. intros E. injection E as E. exact (F_1_neq_0 Fth E).
    + rewrite Forall_forall in *. intros r Hr. specialize (HA r Hr). specialize (Hz r Hr).
      destruct r as [|a r]; [discriminate|]. cbn in *. subst. rewrite dot_zero. ring.
  - apply Exists_exists in Hn. destruct Hn as (r & Hr & Ha). apply in_split in Hr. destruct Hr as (A1 & A2 & ->).
    set (a := hd zero r) in *.
    pose (el := fun s => vadd (tl s) (vscale (opp (div (hd zero s) a)) (tl r))).
    assert (length r = S k) as Lr by (rewrite Forall_forall in HA; apply HA; apply in_elt).
    assert (forall s, In s (A1 ++ A2) -> length s = S k) as Ls
      by (intros s Hs; rewrite Forall_forall in HA; apply HA; apply in_app_iff in Hs; apply in_app_iff; cbn; tauto).
    destruct (IH (map el (A1 ++ A2))) as (x & Hx & Hne & Hdot).
    + apply Forall_forall. intros u Hu. apply in_map_iff in Hu. destruct Hu as (s & <- & Hs). specialize (Ls s Hs).
      unfold el. rewrite vadd_length; rewrite ?vscale_length; destruct s, r; cbn in *; lia.
    + rewrite map_length, app_length in *. cbn in Hl. lia.
    + exists (opp (div (dot (tl r) x) a) :: x). split; [cbn; lia|]. split; [cbn; intros E; injection E; auto|].
      assert (forall s, In s (A1 ++ A2) -> dot s (opp (div (dot (tl r) x) a) :: x) = zero) as D.
      { intros s Hs. rewrite Forall_forall in Hdot. pose proof (Hdot (el s) (in_map el _ _ Hs)) as E. specialize (Ls s Hs).
        unfold el in E. destruct s as [|b s]; [discriminate|]. cbn [tl hd dot length] in *.
        rewrite dot_elim in E by (destruct r; cbn in *; lia).
        transitivity (add (dot s x) (mul (opp (div b a)) (dot (tl r) x))); [field; exact Ha|exact E]. }
      apply Forall_app. split; [apply Forall_forall; intros s Hs; apply D; apply in_app_iff; auto|].
      constructor; [|apply Forall_forall; intros s Hs; apply D; apply in_app_iff; auto].
      unfold a in *. destruct r as [|b r]; [discriminate|]. cbn [tl hd dot] in *. field. exact Ha.
Qed.

(** * Linear maps *)
Fixpoint comb (m : nat) (x : list K) (B : list (list K)) : list K :=
  match x, B with
  | a :: x', b :: B' => vadd (vscale a b) (comb m x' B')
  | _, _ => repeat zero m
  end.
Lemma nth_vadd j x y : length x = length y -> nth j (vadd x y) zero = add (nth j x zero) (nth j y zero).
Proof. revert j y. induction x as [|a x IH]; intros j [|b y] H; try discriminate; destruct j; cbn; try ring. apply IH. cbn in H. lia. Qed.
Lemma nth_vscale c j x : nth j (vscale c x) zero = mul c (nth j x zero).
Proof. revert j. induction x as [|a x IH]; intros [|j]; cbn; auto; ring. Qed.
Lemma comb_length m x B : Forall (fun b => length b = m) B -> length (comb m x B) = m.
Proof.
  intros H. revert x. induction H as [|b B Hb _ IH]; intros [|a x]; cbn; auto using repeat_length.
  rewrite vadd_length; rewrite vscale_length; auto. rewrite IH. exact Hb.
Qed.
Lemma nth_comb m j x B : Forall (fun b => length b = m) B -> nth j (comb m x B) zero = dot (map (fun b => nth j b zero) B) x.
Proof.
  intros H. revert x. induction H as [|b B Hb HB IH]; intros [|a x]; cbn [comb map dot]; try (apply nth_repeat).
  rewrite nth_vadd, nth_vscale, IH; [ring|]. rewrite vscale_length, comb_length; auto.
Qed.
Lemma eq_nth (x y : list K) : length x = length y -> (forall j, j < length x -> nth j x zero = nth j y zero) -> x = y.
Proof. intros H1 H2. exact (nth_ext x y zero zero H1 H2). Qed.

Record lin (k m : nat) (f : list K -> list K) : Prop := {
  l_len : forall x, length x = k -> length (f x) = m;
  l_add : forall x y, length x = k -> length y = k -> f (vadd x y) = vadd (f x) (f y);
  l_mul : forall c x, length x = k -> f (vscale c x) = vscale c (f x) }.
Lemma vscale_zero x : vscale zero x = repeat zero (length x).
Proof. induction x; cbn; [reflexivity|]. f_equal; [ring|exact IHx]. Qed.
Lemma vscale_zeros c k : vscale c (repeat zero k) = repeat zero k.
Proof. induction k; cbn; f_equal; auto. ring. Qed.
Lemma vadd_zeros x : vadd (repeat zero (length x)) x = x.
Proof. induction x; cbn; f_equal; auto. ring. Qed.
Lemma lin_comb k : forall m f, lin k m f -> exists B, length B = k /\ Forall (fun b => length b = m) B /\ forall x, length x = k -> f x = comb m x B.
Proof.
  induction k as [|k IH]; intros m f L.
  - exists []. split; [reflexivity|]. split; [constructor|]. intros [|a x] H; [|discriminate]. cbn.
    rewrite <- (vscale_zero (f [])) || idtac. pose proof (l_mul _ _ _ L zero [] eq_refl) as E. cbn [DofSpec.vscale map] in E. rewrite E.
    rewrite vscale_zero, (l_len _ _ _ L) by reflexivity. reflexivity.
  - destruct (IH m (fun x => f (zero :: x))) as (B & HB & FB & E).
    + constructor.
      * intros x H. apply (l_len _ _ _ L). cbn. lia.
      * intros x y Hx Hy. rewrite <- (l_add _ _ _ L) by (cbn; lia). cbn. do 2 f_equal. ring.
      * intros c x H. rewrite <- (l_mul _ _ _ L) by (cbn; lia). cbn. do 2 f_equal. ring.
    + exists (f (one :: repeat zero k) :: B). split; [cbn; lia|]. split; [constructor; auto; apply (l_len _ _ _ L); cbn; now rewrite repeat_length|].
      intros [|a x] H; [discriminate|]. cbn in H. injection H as H. cbn [comb]. rewrite <- E by exact H.
      rewrite <- (l_mul _ _ _ L) by (cbn; now rewrite repeat_length).
      rewrite <- (l_add _ _ _ L) by (rewrite ?vscale_length; cbn; rewrite ?repeat_length; lia).
      f_equal. cbn. f_equal; [ring|]. fold (vscale a (repeat zero k)). rewrite vscale_zeros, <- H, vadd_zeros. reflexivity.
Qed.
Lemma lin_kernel k m f : lin k m f -> m < k -> exists x, length x = k /\ x <> repeat zero k /\ f x = repeat zero m.
Proof.
  intros L H. destruct (lin_comb k m f L) as (B & HB & FB & E).
  destruct (kernel k (map (fun j => map (fun b => nth j b zero) B) (seq 0 m))) as (x & Hx & Hn & D).
  - apply Forall_forall. intros r Hr. apply in_map_iff in Hr. destruct Hr as (j & <- & _). now rewrite map_length.
  - now rewrite map_length, seq_length.
  - exists x. split; [exact Hx|]. split; [exact Hn|]. rewrite E by exact Hx. apply eq_nth; rewrite comb_length, ?repeat_length by exact FB; [reflexivity|].
    intros j Hj. rewrite nth_comb, nth_repeat by exact FB. rewrite Forall_forall in D. apply D.
    apply (in_map (fun j => map (fun b => nth j b zero) B)). apply in_seq. lia.
Qed.

(** The number of coordinates is determined by the set. *)
Lemma dof_le S k m : dof S k -> dof S m -> k <= m.
Proof.
  intros (f & g & F) (f' & g' & F'). destruct (le_lt_dec k m) as [H|H]; [exact H|exfalso].
  assert (forall x, length x = k -> length (g' (f x)) = m /\ f' (g' (f x)) = f x) as G
    by (intros x Hx; apply (from_set _ _ _ _ _ _ F'); apply (to_set _ _ _ _ _ _ F x Hx)).
  assert (lin k m (fun x => g' (f x))) as L.
  { constructor.
    - intros x Hx. apply G, Hx.
    - intros x y Hx Hy. rewrite (sums _ _ _ _ _ _ F) by assumption. destruct (G x Hx) as [L1 E1]. destruct (G y Hy) as [L2 E2].
      rewrite <- E1, <- E2 at 1. rewrite <- (sums _ _ _ _ _ _ F') by assumption. apply (to_set _ _ _ _ _ _ F'). rewrite vadd_length; congruence.
    - intros c x Hx. rewrite (multiples _ _ _ _ _ _ F) by assumption. destruct (G x Hx) as [L1 E1].
      rewrite <- E1 at 1. rewrite <- (multiples _ _ _ _ _ _ F') by assumption. apply (to_set _ _ _ _ _ _ F'). rewrite vscale_length; exact L1. }
  destruct (lin_kernel k m _ L H) as (x & Hx & Hn & E).
  assert (length (repeat zero k) = k) as Lz by apply repeat_length.
  assert (g' (f (repeat zero k)) = repeat zero m) as E0.
  { assert (repeat zero k = vscale zero (repeat zero k)) as R by (symmetry; apply vscale_zeros).
    rewrite R. rewrite (l_mul _ _ _ L) by exact Lz. rewrite vscale_zero. now rewrite (l_len _ _ _ L) by exact Lz. }
  apply Hn. destruct (G x Hx) as [_ E1]. destruct (G _ Lz) as [_ E2]. destruct (to_set _ _ _ _ _ _ F x Hx) as [_ Ex].
  destruct (to_set _ _ _ _ _ _ F _ Lz) as [_ Ez]. rewrite <- Ex, <- Ez. f_equal. rewrite <- E1, <- E2, E, E0. reflexivity.
Qed.
Lemma dof_unique S k m : dof S k -> dof S m -> k = m.
Proof. intros A B. apply Nat.le_antisymm; eapply dof_le; eauto. Qed.
Lemma dof_ext (S T : list K -> Prop) k : (forall s, S s <-> T s) -> dof S k -> dof T k.
Proof.
  intros H (f & g & F). exists f, g. destruct F as [A B C D]. constructor; auto.
  - intros x Hx. rewrite <- H. auto.
  - intros s Hs. apply B, H, Hs.
Qed.

(** * Several sets *)
Lemma vadd_app a b c d : length a = length c -> vadd (a ++ b) (c ++ d) = vadd a c ++ vadd b d.
Proof. revert c. induction a as [|x a IH]; intros [|y c] H; try discriminate; cbn; f_equal; auto. Qed.
Lemma vadd_firstn n a b : firstn n (vadd a b) = vadd (firstn n a) (firstn n b).
Proof. revert a b. induction n as [|n IH]; intros [|x a] [|y b]; cbn; auto. now rewrite IH. Qed.
Lemma vadd_skipn n a b : length a = length b -> skipn n (vadd a b) = vadd (skipn n a) (skipn n b).
Proof. revert a b. induction n as [|n IH]; intros [|x a] [|y b] H; try discriminate; cbn; auto. Qed.
Lemma firstn_vscale n c a : firstn n (vscale c a) = vscale c (firstn n a).
Proof. apply firstn_map. Qed.
Lemma skipn_vscale n c a : skipn n (vscale c a) = vscale c (skipn n a).
Proof. apply skipn_map. Qed.
Lemma dof_app (S T : list K -> Prop) k m N : (forall s, S s -> length s = N) -> dof S k -> dof T m ->
  dof (fun s => exists a b, s = a ++ b /\ S a /\ T b) (k + m).
Proof.
  intros HN (f & g & F) (f' & g' & F').
  assert (forall x : list K, length x = k + m -> length (firstn k x) = k /\ length (skipn k x) = m) as Sp
    by (intros x Hx; rewrite firstn_length, skipn_length; lia).
  assert (forall x, length x = k -> length (f x) = N) as Lf by (intros x Hx; apply HN, (to_set _ _ _ _ _ _ F x Hx)).
  exists (fun x => f (firstn k x) ++ f' (skipn k x)), (fun s => g (firstn N s) ++ g' (skipn N s)).
  constructor.
  - intros x Hx. destruct (Sp x Hx) as [A B]. destruct (to_set _ _ _ _ _ _ F _ A) as [P1 P2]. destruct (to_set _ _ _ _ _ _ F' _ B) as [P3 P4]. split; [eauto|].
    pose proof (HN _ P1) as L. rewrite <- L at 1 2.
    rewrite firstn_app, skipn_app, Nat.sub_diag, firstn_all, skipn_all. cbn [firstn skipn app]. rewrite app_nil_r, P2, P4. apply firstn_skipn.
  - intros s (a & b & -> & Ha & Hb). rewrite <- (HN a Ha).
    rewrite firstn_app, skipn_app, Nat.sub_diag, firstn_all, skipn_all. cbn [firstn skipn app]. rewrite app_nil_r.
    destruct (from_set _ _ _ _ _ _ F a Ha) as [L1 E1]. destruct (from_set _ _ _ _ _ _ F' b Hb) as [L2 E2]. split; [rewrite app_length; lia|].
    rewrite <- L1. rewrite firstn_app, skipn_app, Nat.sub_diag, firstn_all, skipn_all. cbn [firstn skipn app]. rewrite app_nil_r. congruence.
  - intros x y Hx Hy. destruct (Sp x Hx), (Sp y Hy). rewrite vadd_firstn, vadd_skipn by lia.
    rewrite (sums _ _ _ _ _ _ F), (sums _ _ _ _ _ _ F') by assumption. rewrite vadd_app; [reflexivity|]. rewrite !Lf; auto.
  - intros c x Hx. destruct (Sp x Hx). rewrite firstn_vscale, skipn_vscale, (multiples _ _ _ _ _ _ F), (multiples _ _ _ _ _ _ F') by assumption.
    unfold DofSpec.vscale. now rewrite map_app.
Qed.
Lemma dof_nil : dof (fun s => s = []) 0.
Proof.
  exists (fun _ => []), (fun _ => []). constructor.
  - intros [|a x] H; [auto|discriminate].
  - intros s ->. auto.
  - reflexivity.
  - reflexivity.
Qed.
Lemma dof_all (l : list ((list K -> Prop) * nat * nat)) :
  Forall (fun e => dof (fst (fst e)) (snd (fst e)) /\ forall s, fst (fst e) s -> length s = snd e) l ->
  dof (all_of (map (fun e => fst (fst e)) l)) (list_sum (map (fun e => snd (fst e)) l)).
Proof.
  induction 1 as [|[[S k] N] l [D L] _ IH]; cbn [map all_of list_sum fst snd] in *; [apply dof_nil|].
  exact (dof_app S _ k _ N L D IH).
Qed.
End Field.
