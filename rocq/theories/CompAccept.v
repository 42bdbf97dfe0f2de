From Coq Require Import ZArith.
From Verif Require Import Base BaseLemmas TreeUtil Serial NonSeqSpec Modules Eigen Composite CompositeSpec CompositeProofs CompositeMain CompAcceptSpec.
Local Open Scope string_scope.
Local Open Scope list_scope.
Local Open Scope nat_scope.

Lemma str_list_eqb_iff s t : str_list_eqb s t = true <-> s = t.
Proof. unfold str_list_eqb. destruct (list_eq_dec Nat.eq_dec s t); split; congruence. Qed.

(** * Names of rules *)
Lemma lower_char_same c k : ~ (65 <= nat_of_ascii k <= 90) -> lower_char c = k <-> same_letter c k.
Proof.
  intros Hk. unfold lower_char, same_letter. cbv zeta. pose proof (nat_ascii_bounded c) as Hc.
  destruct (Nat.leb_spec 65 (nat_of_ascii c)) as [H1|H1]; [destruct (Nat.leb_spec (nat_of_ascii c) 90) as [H2|H2]|]; cbn [andb]; split.
  - intros <-. right. split; [lia|]. apply nat_ascii_embedding. lia.
  - intros [->|[_ E]]; [lia|]. rewrite <- E. apply ascii_nat_embedding.
  - auto.
  - intros [E|[E _]]; [exact E|lia].
  - auto.
  - intros [E|[E _]]; [exact E|lia].
Qed.
Lemma lower_any w : forall r, Forall (fun k => ~ (65 <= nat_of_ascii k <= 90)) (list_ascii_of_string r) -> lower w = r <-> any_case w r.
Proof.
  unfold any_case. induction w as [|c w IH]; intros [|k r] F; cbn [lower list_ascii_of_string] in *.
  - split; [constructor|reflexivity].
  - split; [discriminate|inversion 1].
  - split; [discriminate|inversion 1].
  - inversion F as [|? ? Hk Fr]; subst. split.
    + intros [= E1 E2]. constructor; [apply lower_char_same; assumption|apply IH; assumption].
    + inversion 1 as [|? ? ? ? E1 E2]; subst. f_equal; [apply lower_char_same; assumption|apply IH; assumption].
Qed.
Lemma eig_ok_iff k w : eig_ok k w = true <-> k <> Some 0 /\ rule_name w.
Proof.
  unfold eig_ok. rewrite andb_true_iff, existsb_exists. unfold rule_name.
  assert (F : forall r, In r ["sa"; "la"; "sm"; "lm"; "ea"; "em"; "ia"; "im"] -> Forall (fun k => ~ (65 <= nat_of_ascii k <= 90)) (list_ascii_of_string r)).
  { intros r Hr. repeat destruct Hr as [<-|Hr]; [..|destruct Hr]; repeat constructor; vm_compute; lia. }
  split; intros [H1 (r & Hr & H2)].
  - split; [destruct k as [[|k]|]; congruence|]. exists r. split; [exact Hr|]. apply lower_any; [apply F; exact Hr|]. apply String.eqb_eq. exact H2.
  - split; [destruct k as [[|k]|]; congruence|]. exists r. split; [exact Hr|]. apply String.eqb_eq, lower_any; [apply F; exact Hr|exact H2].
Qed.
Lemma rule_lm : rule_name "LM".
Proof. exists "lm". split; [cbn; tauto|]. apply lower_any; [repeat constructor; vm_compute; lia|reflexivity]. Qed.
Lemma rule_sa : rule_name "SA".
Proof. exists "sa". split; [cbn; tauto|]. apply lower_any; [repeat constructor; vm_compute; lia|reflexivity]. Qed.

Section Run.
Context (herm : arr -> bool).

(** * The modules one by one *)
Definition sm_of (s : option nat) := match s with Some x => x | None => 1 end.
(** Constructor, compile and shape of the matrix module. *)
Lemma mat_init_iff size sm Ms mag bias c : mat_init herm size sm Ms mag bias = Ok c <->
  exists n, c = CMat (ahm_obj n (sm_of sm) bias Ms mag true) /\
    match size with SInt k => n = Some k /\ 1 <= k | SNone => (Ms = None -> n = None) | SMods _ => False end /\
    (forall m, Ms = Some m -> herm m = true /\ exists a n', n = Some n' /\ a_shape m = [a; n'; n']).
Proof.
  unfold mat_init, ahm_init. split.
  - intros H. destruct size as [|k|l]; [| |discriminate]; apply rbind_ok in H as (o & H & E); injection E as <-.
    + destruct Ms as [m|]; [|injection H as <-; exists None; repeat split; congruence].
      destruct (a_shape m) as [|a [|b s]] eqn:Em; [discriminate..|]. destruct (negb (str_list_eqb _ _)) eqn:E1 in H; [discriminate|]. destruct (negb (herm m)) eqn:E2 in H; [discriminate|].
      injection H as <-. exists (Some b). split; [reflexivity|]. split; [discriminate|]. intros m' [= <-]. apply negb_false_iff in E1, E2. split; [exact E2|].
      exists a, b. split; [reflexivity|]. rewrite Em. apply str_list_eqb_iff in E1. exact E1.
    + destruct k as [|k]; [discriminate|]. destruct Ms as [m|]; [|injection H as <-; exists (Some (S k)); repeat split; try lia; congruence].
      destruct (a_shape m) as [|a [|b s]] eqn:Em; [discriminate..|]. destruct (negb (str_list_eqb _ _)) eqn:E1 in H; [discriminate|]. destruct (negb (herm m)) eqn:E2 in H; [discriminate|].
      injection H as <-. exists (Some (S k)). split; [reflexivity|]. split; [split; [reflexivity|lia]|]. intros m' [= <-]. apply negb_false_iff in E1, E2. split; [exact E2|].
      exists a, (S k). split; [reflexivity|]. rewrite Em. apply str_list_eqb_iff in E1. exact E1.
  - intros (n & -> & Hn & HM). destruct size as [|k|l]; [| |destruct Hn].
    + destruct Ms as [m|]; [|rewrite Hn by reflexivity; reflexivity]. destruct (HM m eq_refl) as (Hh & a & n' & -> & Em). rewrite Em, (proj2 (str_list_eqb_iff _ _) eq_refl), Hh. reflexivity.
    + destruct Hn as [-> Hk]. destruct k as [|k]; [lia|]. destruct Ms as [m|]; [|reflexivity]. destruct (HM m eq_refl) as (Hh & a & n' & [= <-] & Em). rewrite Em, (proj2 (str_list_eqb_iff _ _) eq_refl), Hh. reflexivity.
Qed.
Lemma mat_step draw n sm bias Ms mag s (H : forall m, Ms = Some m -> exists a n', n = Some n' /\ a_shape m = [a; n'; n']) :
  (exists c', compile_child draw (CMat (ahm_obj n sm bias Ms mag true)) (Leaf s) = Ok c' /\ exists t, out_of c' (Leaf s) = Ok t) <->
  exists d n', s = [d] /\ n = Some n' /\ forall m, Ms = Some m -> hd 0 (a_shape m) = if bias then S d else d.
Proof.
  cbn [compile_child single_leaf leaves]. split.
  - intros (c' & HC & t & HO). destruct s as [|d [|? ?]]; try discriminate. apply rbind_ok in HC as (o & HC & E). injection E as <-. pose proof HC as HC0. apply mat_compile in HC0 as (Ms' & -> & _).
    cbn -[nat_of_v] in HO. destruct n as [n'|]; [|discriminate]. exists d, n'. split; [reflexivity|]. split; [reflexivity|].
    intros m ->. unfold ahm_compile in HC. cbn -[nat_of_v Nat.eqb] in HC. destruct (Nat.eqb_spec (hd 0 (a_shape m)) (if bias then S d else d)); [assumption|discriminate].
  - intros (d & n' & -> & -> & HM). unfold ahm_compile. cbn -[nat_of_v Nat.eqb]. destruct Ms as [m|]; cbn -[nat_of_v Nat.eqb].
    + rewrite (HM m eq_refl), Nat.eqb_refl. cbn -[nat_of_v]. eexists. split; [reflexivity|]. cbn -[nat_of_v]. change (VInt (Z.of_nat n')) with (opt_nat (Some n')). rewrite nat_of_opt. cbn. eauto.
    + change (VInt (Z.of_nat n')) with (opt_nat (Some n')). rewrite nat_of_opt. cbn -[nat_of_v]. eexists. split; [reflexivity|]. cbn -[nat_of_v]. change (VInt (Z.of_nat n')) with (opt_nat (Some n')). rewrite nat_of_opt. cbn. eauto.
Qed.
Lemma mat_step_out draw n sm bias Ms mag s c' t : compile_child draw (CMat (ahm_obj (Some n) sm bias Ms mag true)) (Leaf s) = Ok c' -> out_of c' (Leaf s) = Ok t -> t = Leaf [n; n].
Proof.
  cbn [compile_child single_leaf leaves]. intros HC HO. destruct s as [|d [|? ?]]; try discriminate. apply rbind_ok in HC as (o & HC & E). injection E as <-. apply mat_compile in HC as (Ms' & -> & _).
  cbn -[nat_of_v] in HO. change (VInt (Z.of_nat n)) with (opt_nat (Some n)) in HO. rewrite nat_of_opt in HO. cbn in HO. injection HO as <-. reflexivity.
Qed.
Lemma validate_iff k n : validate k (Leaf [n; n]) = Ok tt <-> forall k', k = Some k' -> k' <= n.
Proof.
  unfold validate. cbn [leaves forallb valid_shape]. rewrite Nat.eqb_refl. cbn [andb]. destruct k as [k|].
  - destruct (Nat.leb_spec k n); cbn [andb]; split; try discriminate; [intros _ k' [= <-]; assumption|reflexivity|]. intros H'. specialize (H' k eq_refl). lia.
  - cbn. split; [discriminate|reflexivity].
Qed.
Definition kept_num (k : option nat) (n : nat) := match k with Some k => k | None => n end.
Lemma vec_shape k n : validate k (Leaf [n; n]) = Ok tt -> eigenvectors_shape k (Leaf [n; n]) = Ok (Leaf [n; kept_num k n]).
Proof. intros H. unfold eigenvectors_shape. rewrite H. reflexivity. Qed.
Lemma val_shape k n : validate k (Leaf [n; n]) = Ok tt -> eigenvalues_shape k (Leaf [n; n]) = Ok (Leaf [kept_num k n]).
Proof. intros H. unfold eigenvalues_shape. rewrite H. destruct k; reflexivity. Qed.
Lemma sum_init_iff a c : sum_init herm a = Ok c <->
  exists l q, c = CSum (o_expect a) (evs_obj l q (o_Ds a) (o_mag a) (o_centered a) true) /\
   match o_Ds a with
   | None => l = o_secondaries a /\ q = o_out a
   | Some m => herm m = true /\ exists q' l' n, l = Some l' /\ q = Some q' /\ a_shape m = [q'; l'; n; n] /\ (forall x, o_secondaries a = Some x -> x = l') /\ (forall x, o_out a = Some x -> x = q')
   end.
Proof.
  assert (P : forall o x, opt_is o x = true <-> forall y, o = Some y -> y = x).
  { intros [o|] x; cbn; [rewrite Nat.eqb_eq|]; split; try congruence; try discriminate; auto. }
  unfold sum_init, evs_init. split.
  - intros H. apply rbind_ok in H as (o & H & E). injection E as <-. destruct (o_Ds a) as [m|]; [|injection H as <-; eauto 6].
    destruct (a_shape m) as [|q' [|l' [|x [|y [|? ?]]]]] eqn:Em; try discriminate. destruct (Nat.eqb_spec x y) as [<-|]; [|discriminate]. cbn [negb] in H.
    destruct (negb (herm m)) eqn:E1 in H; [discriminate|]. destruct (negb (opt_is _ _)) eqn:E2 in H; [discriminate|]. destruct (negb (opt_is (o_out a) _)) eqn:E3 in H; [discriminate|].
    injection H as <-. apply negb_false_iff in E1, E2, E3. exists (Some l'), (Some q'). split; [reflexivity|]. split; [exact E1|]. exists q', l', x. rewrite P in E2, E3. auto 8.
  - intros (l & q & -> & H). destruct (o_Ds a) as [m|]; [|destruct H as [-> ->]; reflexivity]. destruct H as (Hh & q' & l' & n & -> & -> & Em & Hl & Hq).
    rewrite Em, Nat.eqb_refl, Hh. cbn [negb]. rewrite (proj2 (P _ _) Hl), (proj2 (P _ _) Hq). reflexivity.
Qed.
Lemma sum_step draw b l q Ds mag ce n k (H : forall m, Ds = Some m -> exists q' l' n', a_shape m = [q'; l'; n'; n']) :
  (exists c', compile_child draw (CSum b (evs_obj l q Ds mag ce true)) (Leaf [n; k]) = Ok c' /\ exists t, out_of c' (Leaf [n; k]) = Ok t) <->
  l <> None /\ q <> None /\ forall m, Ds = Some m -> exists q' l', a_shape m = [q'; l'; n; n].
Proof.
  cbn [compile_child single_leaf leaves]. split.
  - intros (c' & HC & t & HO). apply rbind_ok in HC as (o & HC & E). injection E as <-. pose proof HC as HC0. apply sum_compile in HC0 as (Ds' & l' & q' & -> & _ & -> & ->).
    split; [discriminate|]. split; [discriminate|]. intros m ->. destruct (H m eq_refl) as (q1 & l1 & n1 & Em). unfold evs_compile in HC. cbn -[nat_of_v Nat.eqb] in HC.
    change (VInt (Z.of_nat l')) with (opt_nat (Some l')) in HC. change (VInt (Z.of_nat q')) with (opt_nat (Some q')) in HC. rewrite !nat_of_opt, Em in HC. destruct (Nat.eqb_spec n1 n) as [En|]; [|discriminate]; exists q1, l1; rewrite Em, En; reflexivity.
  - intros (Hl & Hq & HD). destruct l as [l|]; [|congruence]. destruct q as [q|]; [|congruence]. unfold evs_compile. cbn -[nat_of_v Nat.eqb].
    change (VInt (Z.of_nat l)) with (opt_nat (Some l)). change (VInt (Z.of_nat q)) with (opt_nat (Some q)). rewrite !nat_of_opt. destruct Ds as [m|].
    + destruct (HD m eq_refl) as (q' & l' & Em). cbn -[nat_of_v Nat.eqb]. rewrite Em, Nat.eqb_refl. cbn -[nat_of_v]. eexists. split; [reflexivity|]. cbn -[nat_of_v]. change (VInt (Z.of_nat q)) with (opt_nat (Some q)). rewrite nat_of_opt. cbn. eauto.
    + cbn -[nat_of_v]. eexists. split; [reflexivity|]. cbn -[nat_of_v]. change (VInt (Z.of_nat q)) with (opt_nat (Some q)). rewrite nat_of_opt. cbn. eauto.
Qed.

(** * The whole pipeline *)
Definition runs (draw : nat -> list nat -> arr) (i : nat) (l : list child) (t : tree (list nat)) : Prop := exists r t', compile_mods draw i l t = (r, Ok t').
Lemma runs_nil draw i t : runs draw i [] t.
Proof. exists [], t. reflexivity. Qed.
Lemma runs_cons draw i c l t : runs draw i (c :: l) t <-> exists c' t', compile_child (draw i) c t = Ok c' /\ out_of c' t = Ok t' /\ runs draw (S i) l t'.
Proof.
  unfold runs. split.
  - intros (r & t' & H). apply compile_mods_ok in H as (c' & t1 & r' & K & O & H & ->). exists c', t1. eauto 6.
  - intros (c' & t1 & K & O & r & t' & H). rewrite compile_mods_cons, K, O, H. eauto.
Qed.
Lemma runs_bias draw i mag s : runs draw i [CBias (bias_obj VNone mag true false true)] (Leaf s).
Proof. apply runs_cons. cbn. do 2 eexists. split; [reflexivity|]. split; [reflexivity|]. apply runs_nil. Qed.
Lemma runs_mat draw i n sm bias Ms mag s l (H : forall m, Ms = Some m -> exists a n', n = Some n' /\ a_shape m = [a; n'; n']) :
  runs draw i (CMat (ahm_obj n sm bias Ms mag true) :: l) (Leaf s) <->
  exists d n', s = [d] /\ n = Some n' /\ (forall m, Ms = Some m -> a_shape m = [if bias then S d else d; n'; n']) /\ runs draw (S i) l (Leaf [n'; n']).
Proof.
  rewrite runs_cons. split.
  - intros (c' & t' & HC & HO & HR). destruct (proj1 (mat_step (draw i) n sm bias Ms mag s H)) as (d & n' & -> & -> & HM); [eauto|]. pose proof (mat_step_out _ _ _ _ _ _ _ _ _ HC HO) as ->.
    exists d, n'. repeat split; auto. intros m Hm. destruct (H m Hm) as (a & n1 & [= <-] & Em). specialize (HM m Hm). rewrite Em in *. cbn in HM. rewrite HM. reflexivity.
  - intros (d & n' & -> & -> & HM & HR). destruct (proj2 (mat_step (draw i) (Some n') sm bias Ms mag [d] H)) as (c' & HC & t & HO).
    { exists d, n'. repeat split. intros m Hm. rewrite (HM m Hm). reflexivity. }
    exists c', t. split; [exact HC|]. split; [exact HO|]. rewrite (mat_step_out _ _ _ _ _ _ _ _ _ HC HO). exact HR.
Qed.
Lemma runs_vec draw i k w n l : runs draw i (CVec k w :: l) (Leaf [n; n]) <-> (forall k', k = Some k' -> k' <= n) /\ runs draw (S i) l (Leaf [n; kept_num k n]).
Proof.
  rewrite runs_cons. split.
  - intros (c' & t' & HC & HO & HR). cbn [compile_child] in HC. apply rbind_ok in HC as ([] & HV & E). injection E as <-. cbn [out_of] in HO. rewrite (vec_shape _ _ HV) in HO. injection HO as <-. split; [apply validate_iff; exact HV|exact HR].
  - intros [HV HR]. apply validate_iff in HV. exists (CVec k w), (Leaf [n; kept_num k n]). cbn [compile_child out_of]. rewrite HV. split; [reflexivity|]. split; [apply vec_shape; exact HV|exact HR].
Qed.
Lemma runs_val draw i k w n l : runs draw i (CVal k w :: l) (Leaf [n; n]) <-> (forall k', k = Some k' -> k' <= n) /\ runs draw (S i) l (Leaf [kept_num k n]).
Proof.
  rewrite runs_cons. split.
  - intros (c' & t' & HC & HO & HR). cbn [compile_child] in HC. apply rbind_ok in HC as ([] & HV & E). injection E as <-. cbn [out_of] in HO. rewrite (val_shape _ _ HV) in HO. injection HO as <-. split; [apply validate_iff; exact HV|exact HR].
  - intros [HV HR]. apply validate_iff in HV. exists (CVal k w), (Leaf [kept_num k n]). cbn [compile_child out_of]. rewrite HV. split; [reflexivity|]. split; [apply val_shape; exact HV|exact HR].
Qed.
Lemma runs_sum draw i b l q Ds mag ce n k ls (H : forall m, Ds = Some m -> exists q' l' n', a_shape m = [q'; l'; n'; n']) (HR : forall s, runs draw (S i) ls (Leaf s)) :
  runs draw i (CSum b (evs_obj l q Ds mag ce true) :: ls) (Leaf [n; k]) <-> l <> None /\ q <> None /\ forall m, Ds = Some m -> exists q' l', a_shape m = [q'; l'; n; n].
Proof.
  rewrite runs_cons, <- (sum_step (draw i) b l q Ds mag ce n k H). split.
  - intros (c' & t' & HC & HO & _). eauto.
  - intros (c' & HC & t & HO). exists c', t. split; [exact HC|]. split; [exact HO|]. destruct (out_single c' [n; k] t) as [s ->]; [|exact HO|apply HR]. eapply known_child; [|exact HC]. cbn. eauto 8.
Qed.

(** What is built, and that it runs. *)
Lemma which_ok a : (forall w, o_which a = Some w -> rule_name w) <-> rule_name (which_of a).
Proof.
  unfold which_of. destruct (o_which a) as [w|].
  - split; [intros H; apply H; reflexivity|intros H w' [= <-]; exact H].
  - split; [intros _|intros _ w; discriminate]. destruct (o_smooth a) as [[|[|x]]|]; (apply rule_sa || apply rule_lm).
Qed.
Lemma accepts_eig a old draw s : has_size (AEig a) = true ->
  (exists l, build herm (AEig a) old = (l, Ok tt) /\ runs draw 0 l (Leaf s)) <-> exists d, s = [d] /\ suits herm (AEig a) d.
Proof.
  intros Hz. cbn [build]. split.
  - intros (l & HB & HR). destruct (let* m := _ in _) as [l'|] eqn:E in HB; [|discriminate]. injection HB as ->. apply rbind_ok in E as (c & Hm & E). apply rbind_ok in E as (v & Hv & E). injection E as <-.
    apply mat_init_iff in Hm as (n & -> & Hn & HM). unfold val_init in Hv. destruct (eig_ok (e_num a) (e_which a)) eqn:Ek; [|discriminate]. injection Hv as <-. apply eig_ok_iff in Ek as [Hk Hw].
    apply runs_mat in HR as (d & n' & -> & -> & HMs & HR); [|intros m Hm; destruct (HM m Hm) as [_ K]; exact K]. apply runs_val in HR as [HN _].
    exists d. split; [reflexivity|]. cbn [suits]. exists n'. split; [|split; [|split; [|exact Hw]]].
    + unfold size_fits. destruct (e_size a) as [|k|l'] eqn:Es; [cbn in Hz; rewrite Es in Hz; discriminate| |exact Hn]. destruct Hn as [[= ->] Hk1]. auto.
    + intros m Hm. split; [apply HMs; exact Hm|apply (HM m Hm)].
    + intros k' Ek'. specialize (HN k' Ek'). destruct k'; [congruence|lia].
  - intros (d & -> & n & Hs & HM & HC & Hw).
    assert (Hm : mat_init herm (e_size a) (e_smooth a) (e_Ms a) (e_mag a) (e_bias a) = Ok (CMat (ahm_obj (Some n) (sm_of (e_smooth a)) (e_bias a) (e_Ms a) (e_mag a) true))).
    { apply mat_init_iff. exists (Some n). split; [reflexivity|]. split; [|intros m Hm; destruct (HM m Hm) as [K1 K2]; eauto 6]. unfold size_fits in Hs. destruct (e_size a); [destruct Hs; discriminate| |exact Hs]. destruct Hs as [-> ?]. auto. }
    assert (Hv : val_init (e_num a) (e_which a) = Ok (CVal (e_num a) (lower (e_which a)))).
    { unfold val_init. rewrite (proj2 (eig_ok_iff _ _)); [reflexivity|]. split; [|exact Hw]. intros E. specialize (HC 0 E). lia. }
    rewrite Hm, Hv. cbn [rbind]. eexists. split; [reflexivity|]. apply runs_mat; [intros m Hm'; destruct (HM m Hm') as [K1 K2]; eauto 6|].
    exists d, n. split; [reflexivity|]. split; [reflexivity|]. split; [intros m Hm'; apply (HM m Hm')|]. apply runs_val. split; [|apply runs_nil]. intros k' E. apply (HC k' E).
Qed.
Lemma accepts_obs a old draw s :
  (exists l, build herm (AObs a) old = (l, Ok tt) /\ runs draw 0 l (Leaf s)) <-> exists d, s = [d] /\ suits herm (AObs a) d.
Proof.
  cbn [build]. assert (HB : forall i s, runs draw i (if o_bias a then [CBias (bias_obj VNone (o_mag a) true false true)] else []) (Leaf s)) by (intros; destruct (o_bias a); [apply runs_bias|apply runs_nil]). split.
  - intros (l & H & HR). destruct (let* m := _ in _) as [l'|] eqn:E in H; [|discriminate]. apply rbind_ok in E as (c & Hm & E). apply rbind_ok in E as (v & Hv & E). injection E as <-.
    destruct (sum_init herm a) as [su|] eqn:Esu; [|discriminate]. injection H as <-. cbn [app] in HR.
    apply mat_init_iff in Hm as (n & -> & Hn & HM). unfold vec_init in Hv. destruct (eig_ok (o_num a) (which_of a)) eqn:Ek; [|discriminate]. injection Hv as <-. apply eig_ok_iff in Ek as [Hk Hw].
    apply sum_init_iff in Esu as (l & q & -> & HD).
    apply runs_mat in HR as (d & n' & -> & -> & HMs & HR); [|intros m Hm; destruct (HM m Hm) as [_ K]; exact K]. apply runs_vec in HR as [HN HR].
    apply runs_sum in HR as (Hl & Hq & HDs); [| |intros; apply HB].
    2: { intros m Hm. rewrite Hm in HD. destruct HD as (_ & q' & l' & n & _ & _ & Em & _). eauto. }
    exists d. split; [reflexivity|]. cbn [suits]. exists n'. split; [|split; [|split; [|split; [apply which_ok; exact Hw|]]]].
    + unfold size_fits. destruct (o_size a) as [|k|l'] eqn:Es; [|destruct Hn as [[= ->] Hk1]; auto|exact Hn]. split; [reflexivity|]. intros E. specialize (Hn E). discriminate.
    + intros m Hm. split; [apply HMs; exact Hm|apply (HM m Hm)].
    + intros k' Ek'. specialize (HN k' Ek'). destruct k'; [congruence|lia].
    + unfold observables_fit. destruct (o_Ds a) as [m|]; [|destruct HD as [-> ->]; auto]. destruct HD as (Hh & q' & l' & n & -> & -> & Em & K1 & K2). split; [exact Hh|].
      destruct (HDs m eq_refl) as (q2 & l2 & Em2). rewrite Em in Em2. injection Em2 as <- <- <-. exists q', l'. auto.
  - intros (d & -> & n & Hs & HM & HC & Hw & HO).
    assert (Hm : mat_init herm (o_size a) (o_smooth a) (o_Ms a) (o_mag a) (o_affine_bias a) = Ok (CMat (ahm_obj (Some n) (sm_of (o_smooth a)) (o_affine_bias a) (o_Ms a) (o_mag a) true))).
    { apply mat_init_iff. exists (Some n). split; [reflexivity|]. split; [|intros m Hm; destruct (HM m Hm) as [K1 K2]; eauto 6]. unfold size_fits in Hs. destruct (o_size a); [| |exact Hs]; [destruct Hs as [_ Hs]; intros E; congruence|]. destruct Hs as [-> ?]. auto. }
    assert (Hv : vec_init (o_num a) (which_of a) = Ok (CVec (o_num a) (lower (which_of a)))).
    { unfold vec_init. rewrite (proj2 (eig_ok_iff _ _)); [reflexivity|]. split; [|apply which_ok; exact Hw]. intros E. specialize (HC 0 E). lia. }
    rewrite Hm, Hv. cbn [rbind].
    assert (Hsu : exists l q, sum_init herm a = Ok (CSum (o_expect a) (evs_obj l q (o_Ds a) (o_mag a) (o_centered a) true)) /\ l <> None /\ q <> None /\ forall m, o_Ds a = Some m -> exists q' l', a_shape m = [q'; l'; n; n]).
    { unfold observables_fit in HO. destruct (o_Ds a) as [m|] eqn:ED.
      - destruct HO as (Hh & q' & l' & Em & K1 & K2). exists (Some l'), (Some q'). split; [apply sum_init_iff; exists (Some l'), (Some q'); rewrite ED; split; [reflexivity|]; split; [exact Hh|]; exists q', l', n; auto 8|]. repeat split; try discriminate. intros m' [= <-]. eauto.
      - exists (o_secondaries a), (o_out a). destruct HO as [K1 K2]. split; [apply sum_init_iff; exists (o_secondaries a), (o_out a); rewrite ED; auto|]. repeat split; auto; discriminate. }
    destruct Hsu as (l & q & -> & Hl & Hq & HD). eexists. split; [reflexivity|]. cbn [app]. apply runs_mat; [intros m Hm'; destruct (HM m Hm') as [K1 K2]; eauto 6|].
    exists d, n. split; [reflexivity|]. split; [reflexivity|]. split; [intros m Hm'; apply (HM m Hm')|]. apply runs_vec. split; [intros k' E; apply (HC k' E)|].
    apply runs_sum; [intros m Hm'; destruct (HD m Hm') as (q' & l' & E); eauto|intros; apply HB|auto].
Qed.
Lemma accepts_build a old draw s : has_size a = true ->
  (exists l, build herm a old = (l, Ok tt) /\ runs draw 0 l (Leaf s)) <-> exists d, s = [d] /\ suits herm a d.
Proof. destruct a as [a|a]; intros Hz; [apply accepts_obs|apply accepts_eig; exact Hz]. Qed.
Lemma suits_size a d : suits herm a d -> has_size a = true.
Proof. destruct a as [a|a]; [reflexivity|]. intros (n & Hs & _). cbn. destruct (e_size a); [destruct Hs; discriminate|reflexivity..]. Qed.

(** * What was compiled before does not matter *)
Lemma child_fails draw draw' c s e : compile_child draw c (Leaf s) = Err e -> exists e', compile_child draw' c (Leaf s) = Err e'.
Proof.
  destruct c as [o|k w|k w|b o|o|n]; cbn [compile_child single_leaf leaves]; intros H; eauto.
  - destruct s as [|d [|? ?]]; eauto. unfold ahm_compile in *. destruct (attr o "bias_term") as [v1|]; [|cbn in *; eauto]. cbn [rbind] in *. destruct (attr o "Ms") as [v2|]; [|cbn in *; eauto]. cbn [rbind] in *.
    destruct (attr o "matrix_size") as [v3|]; [|cbn in *; eauto]. cbn [rbind] in *. destruct v2; try (destruct (nat_of_v v3); [discriminate H|cbn; eauto]; fail); destruct (_ =? _) in *; [discriminate H|cbn; eauto].
  - destruct s as [|n [|? [|? ?]]]; eauto. unfold evs_compile in *. destruct (attr o "num_observables") as [v1|]; [|cbn in *; eauto]. cbn [rbind] in *. destruct (attr o "output_size") as [v2|]; [|cbn in *; eauto]. cbn [rbind] in *.
    destruct (attr o "Ds") as [v3|]; [|cbn in *; eauto]. cbn [rbind] in *. destruct (nat_of_v v1); [|cbn; eauto]. destruct (nat_of_v v2); [|cbn; eauto]. destruct v3 as [| | | | | |a0| | | |]; try discriminate H.
    destruct (a_shape a0) as [|? [|? [|? [|? [|? ?]]]]]; cbn [rbind]; eauto.
  - unfold bias_compile in *. destruct (attr o "bias") as [v|]; [|cbn in *; eauto]. cbn [rbind jmapM] in *. destruct v; try discriminate;
    repeat match goal with |- context [if ?b then _ else _] => destruct b end; try discriminate; try (cbn; eauto; fail).
Qed.
Lemma mods_again_any draw draw' : obeys draw -> forall l i s r o,
  Forall known l -> compile_mods draw i l (Leaf s) = (r, o) -> compile_mods draw' i r (Leaf s) = (r, o).
Proof.
  intros Hd. induction l as [|c l IH]; intros i s r o Hk H; [injection H as <- <-; reflexivity|].
  inversion Hk as [|? ? Hc Hl]; subst. rewrite compile_mods_cons in H.
  destruct (compile_child (draw i) c (Leaf s)) as [c'|e] eqn:K.
  - pose proof (known_child _ _ _ _ Hc K) as Hc'.
    assert (K' : compile_child (draw' i) c' (Leaf s) = Ok c').
    { apply (child_again (draw i) c s c'); [apply Hd| | | |exact K]; intros; subst c; exact Hc. }
    destruct (out_of c' (Leaf s)) as [t1|e1] eqn:O.
    + destruct (out_single _ _ _ Hc' O) as [s' ->]. destruct (compile_mods draw (S i) l (Leaf s')) as [r1 o1] eqn:C. injection H as <- <-. rewrite compile_mods_cons, K', O, (IH _ _ _ _ Hl C). reflexivity.
    + injection H as <- <-. rewrite compile_mods_cons, K', O. reflexivity.
  - injection H as <- <-. destruct (child_fails _ (draw' i) _ _ _ K) as [e' K']. rewrite compile_mods_cons, K'. reflexivity.
Qed.
Lemma out_axis draw l r s t a old : build herm a old = (l, Ok tt) -> compile_mods draw 0 l (Leaf s) = (r, Ok t) -> no_axis t = false.
Proof.
  intros HB H. assert (HA : has_size a = true \/ has_size a = false) by (destruct (has_size a); auto).
  assert (HR : runs draw 0 l (Leaf s)) by (exists r, t; exact H).
  assert (G : exists s', t = Leaf s' /\ s' <> []); [|destruct G as ([|x s'] & -> & Hs); [congruence|reflexivity]].
  pose proof (build_made _ _ _ _ HB) as Hm. destruct Hm as [a n Ms lq q Ds last Hn HM Hl Hq HD Hlast|a n Ms Hn HM].
  - apply compile_mods_ok in H as (c1 & t1 & r1 & K1 & O1 & H & ->). assert (HK : known c1) by (eapply known_child; [|exact K1]; cbn; eauto 8). destruct (out_single _ _ _ HK O1) as [s1 ->].
    apply compile_mods_ok in H as (c2 & t2 & r2 & K2 & O2 & H & ->). assert (HK2 : known c2) by (eapply known_child; [|exact K2]; exact I). destruct (out_single _ _ _ HK2 O2) as [s2 ->].
    apply compile_mods_ok in H as (c3 & t3 & r3 & K3 & O3 & H & ->). cbn [compile_child single_leaf leaves] in K3. destruct s2 as [|x [|y [|? ?]]]; try discriminate. apply rbind_ok in K3 as (os & Eos & E3). injection E3 as <-.
    apply sum_compile in Eos as (Ds' & l' & q' & -> & _ & -> & ->). cbn -[nat_of_v] in O3. change (VInt (Z.of_nat q')) with (opt_nat (Some q')) in O3. rewrite nat_of_opt in O3. cbn in O3. injection O3 as <-.
    destruct Hlast as [Eb|v Eb].
    + injection H as <- <-. exists [q']. split; [reflexivity|discriminate].
    + apply compile_mods_ok in H as (c4 & t4 & r4 & K4 & O4 & H & ->). injection H as <- <-. cbn [compile_child] in K4. apply rbind_ok in K4 as (o4 & _ & E4). injection E4 as <-. injection O4 as <-. exists [q']. split; [reflexivity|discriminate].
  - apply compile_mods_ok in H as (c1 & t1 & r1 & K1 & O1 & H & ->). assert (HK : known c1) by (eapply known_child; [|exact K1]; cbn; eauto 8). destruct (out_single _ _ _ HK O1) as [s1 ->].
    apply compile_mods_ok in H as (c2 & t2 & r2 & K2 & O2 & H & ->). injection H as <- <-. cbn [compile_child] in K2. apply rbind_ok in K2 as (u & _ & E2). injection E2 as <-. cbn [out_of] in O2.
    unfold eigenvalues_shape in O2. apply rbind_ok in O2 as (u' & _ & O2). cbn [jmapM] in O2. destruct (e_num a) as [k|]; cbn [rbind] in O2; [injection O2 as <-; exists [k]; split; [reflexivity|discriminate]|].
    destruct s1 as [|x s1]; cbn in O2; [discriminate|]. injection O2 as <-. exists [x]. split; [reflexivity|discriminate].
Qed.
Definition traced (m : comp) : Prop := forall s, c_in m = Some (Leaf s) ->
  exists l draw o, obeys draw /\ build herm (c_args m) [] = (l, Ok tt) /\ compile_mods draw 0 l (Leaf s) = (c_mods m, o).
Lemma build_ok_old a old old' l : build herm a old = (l, Ok tt) -> build herm a old' = (l, Ok tt).
Proof. apply build_old. Qed.
Lemma seq_traced draw m t l : obeys draw -> build herm (c_args m) [] = (l, Ok tt) -> (c_mods m = l \/ exists s draw' o, t = Leaf s /\ obeys draw' /\ compile_mods draw' 0 l (Leaf s) = (c_mods m, o)) ->
  traced (fst (seq_compile draw m t)) /\ c_args (fst (seq_compile draw m t)) = c_args m.
Proof.
  intros Hd HB HM. unfold seq_compile. destruct (compile_mods draw 0 (c_mods m) t) as [r o] eqn:E.
  assert (G : forall s, t = Leaf s -> exists draw o', obeys draw /\ compile_mods draw 0 l (Leaf s) = (r, o')).
  { intros s ->. destruct HM as [<-|(s' & draw' & o' & [= <-] & Hd' & HC)]; [eauto|]. exists draw', o'. split; [exact Hd'|].
    rewrite (mods_again_any draw' draw Hd' l 0 s (c_mods m) o') in E; [|eapply made_known, build_made; exact HB|exact HC]. injection E as <- <-. exact HC. }
  destruct o as [t'|e]; cbn [fst]; (split; [|reflexivity]); intros s [= Es]; destruct (G s Es) as (dr & o' & H1 & H2); exists l, dr, o'; auto.
Qed.
Lemma leaf_same s t : shape_eqb t (Leaf s) = true -> t = Leaf s.
Proof. destruct t; try discriminate. unfold shape_eqb. cbn [tree_eqb]. intros H. apply str_list_eqb_iff in H. subst. reflexivity. Qed.
Lemma same_leaf s t : shape_eqb (Leaf s) t = true -> t = Leaf s.
Proof. destruct t; try discriminate. unfold shape_eqb. cbn [tree_eqb]. intros H. apply str_list_eqb_iff in H. subst. reflexivity. Qed.
Lemma seq_result draw m s l : has_size (c_args m) = true -> build herm (c_args m) [] = (l, Ok tt) -> (exists draw', obeys draw' /\ exists o, compile_mods draw' 0 l (Leaf s) = (c_mods m, o)) \/ c_mods m = l ->
  snd (seq_compile draw m (Leaf s)) = Ok tt <-> exists d, s = [d] /\ suits herm (c_args m) d.
Proof.
  intros Hz HB HM. unfold seq_compile.
  assert (G : forall draw, runs draw 0 l (Leaf s) <-> exists d, s = [d] /\ suits herm (c_args m) d).
  { intros dr. rewrite <- (accepts_build (c_args m) [] dr s Hz). split; [eauto|]. intros (l' & HB' & HR). congruence. }
  destruct (compile_mods draw 0 (c_mods m) (Leaf s)) as [r o] eqn:E.
  assert (K : exists dr, compile_mods dr 0 l (Leaf s) = (r, o)).
  { destruct HM as [(draw' & Hd' & o' & HC)|<-]; [|eauto]. exists draw'. rewrite (mods_again_any draw' draw Hd' l 0 s (c_mods m) o') in E; [|eapply made_known, build_made; exact HB|exact HC]. congruence. }
  destruct K as [dr K]. rewrite <- (G dr). unfold runs. rewrite K. destruct o as [t|e]; cbn [snd].
  - rewrite (out_axis _ _ _ _ _ _ _ HB K). split; eauto.
  - split; [discriminate|]. intros (? & ? & H). discriminate.
Qed.
Lemma step_traced draw m t : obeys draw -> traced m -> traced (fst (compile herm draw m t)) /\ c_args (fst (compile herm draw m t)) = c_args m.
Proof.
  intros Hd Ht. unfold compile. destruct (single_leaf t); [|auto]. destruct (has_size (c_args m)) eqn:Hz; cbn [negb]; [|auto].
  destruct (match c_in m with Some t' => shape_eqb t t' | None => false end) eqn:Ein.
  - destruct (c_in m) as [t'|] eqn:Ec; [|discriminate].
    destruct t' as [s| | | |].
    + pose proof (leaf_same _ _ Ein) as ->. destruct (Ht s Ec) as (l1 & dr & o & H1 & H2 & H3). apply (seq_traced _ _ _ l1 Hd H2). right. exists s, dr, o. auto.
    + unfold seq_compile. destruct (compile_mods draw 0 (c_mods m) t) as [r [t'|e]]; cbn [fst c_args]; (split; [|reflexivity]); intros s' [= ->]; discriminate.
    + unfold seq_compile. destruct (compile_mods draw 0 (c_mods m) t) as [r [t'|e]]; cbn [fst c_args]; (split; [|reflexivity]); intros s' [= ->]; discriminate.
    + unfold seq_compile. destruct (compile_mods draw 0 (c_mods m) t) as [r [t'|e]]; cbn [fst c_args]; (split; [|reflexivity]); intros s' [= ->]; discriminate.
    + unfold seq_compile. destruct (compile_mods draw 0 (c_mods m) t) as [r [t'|e]]; cbn [fst c_args]; (split; [|reflexivity]); intros s' [= ->]; discriminate.
  - destruct (build herm (c_args m) (c_mods m)) as [l1 [[]|e]] eqn:Eb.
    + apply (seq_traced draw (mk_comp (c_args m) l1 (c_in m) (c_out m)) t l1 Hd); [cbn [c_args]; eapply build_old; exact Eb|left; reflexivity].
    + cbn [fst c_args]. split; [|reflexivity]. intros s Hs. cbn [c_in] in Hs. destruct (Ht s Hs) as (l2 & dr & o & H1 & H2 & H3). apply (build_old _ _ _ _ (c_mods m)) in H2. congruence.
Qed.
Lemma compiles_traced h : forall m, Forall (fun dt => obeys (fst dt)) h -> traced m -> traced (compiles herm m h) /\ c_args (compiles herm m h) = c_args m.
Proof.
  induction h as [|[d t] h IH]; intros m F Ht; [auto|]. inversion F as [|? ? Hd Fh]; subst. unfold compiles in *. cbn [fold_left fst snd].
  destruct (step_traced d m t Hd Ht) as [H1 H2]. destruct (IH _ Fh H1) as [H3 H4]. split; [exact H3|congruence].
Qed.
Theorem accepted_iff a h draw s : Forall (fun dt => obeys (fst dt)) h ->
  snd (compile herm draw (compiles herm (new a) h) (Leaf s)) = Ok tt <-> exists d, s = [d] /\ suits herm a d.
Proof.
  intros F. destruct (compiles_traced h (new a) F) as [Ht Ha]; [intros s' E; discriminate|]. set (m := compiles herm (new a) h) in *. cbn [new c_args] in Ha. rewrite <- Ha. clearbody m. clear -Ht.
  unfold compile. cbn [single_leaf leaves]. destruct (has_size (c_args m)) eqn:Hz; cbn [negb].
  - destruct (match c_in m with Some t' => shape_eqb (Leaf s) t' | None => false end) eqn:Ein.
    + destruct (c_in m) as [t'|] eqn:Ec; [|discriminate]. apply same_leaf in Ein. subst t'. destruct (Ht s Ec) as (l1 & dr & o & H1 & H2 & H3). apply (seq_result draw m s l1 Hz H2). left. eauto.
    + destruct (build herm (c_args m) (c_mods m)) as [l1 [[]|e]] eqn:Eb.
      * apply (seq_result draw (mk_comp (c_args m) l1 (c_in m) (c_out m)) s l1 Hz); [eapply build_old; exact Eb|right; reflexivity].
      * cbn [snd]. split; [discriminate|]. intros H. apply (accepts_build (c_args m) (c_mods m) draw s Hz) in H as (l & H & _). congruence.
  - cbn [snd]. split; [discriminate|]. intros (d & _ & H). apply suits_size in H. congruence.
Qed.
End Run.
