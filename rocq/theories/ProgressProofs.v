From Coq Require Import QArith Qround Ascii Lqa.
From Verif Require Import Base BaseLemmas Progress ProgressSpec.
Local Open Scope list_scope.

(** * The terminal *)
Lemma skipn_add {A} b : forall a (x : list A), skipn a (skipn b x) = skipn (b + a) x.
Proof. induction b as [|b IH]; intros a x; [reflexivity|]. destruct x as [|y x]; [cbn; apply skipn_nil|apply IH]. Qed.
Lemma put_char t c : c <> cr -> c <> lf -> put t c = mk_term (t_above t) (firstn (t_pos t) (t_line t) ++ c :: skipn (S (t_pos t)) (t_line t)) (S (t_pos t)).
Proof. intros N1 N2. unfold put. destruct (Ascii.eqb_spec c cr); [contradiction|]. destruct (Ascii.eqb_spec c lf); [contradiction|reflexivity]. Qed.
Lemma plain_cons c w : plain (c :: w) <-> (c <> cr /\ c <> lf) /\ plain w.
Proof. unfold plain. cbn. split; [intros [A B]; split; [split|split]; auto|intros [[A B] [C D]]; split; intros [E|E]; auto]. Qed.
Lemma plain_app v w : plain v -> plain w -> plain (v ++ w).
Proof. intros [A B] [C D]. split; intros H; apply in_app_or in H as [H|H]; auto. Qed.
Lemma plain_rep c n : c <> cr -> c <> lf -> plain (repeat c n).
Proof. intros N1 N2. split; intros H; apply repeat_spec in H; congruence. Qed.
Lemma write_plain w : plain w -> forall t, (t_pos t <= List.length (t_line t))%nat ->
  write t w = mk_term (t_above t) (firstn (t_pos t) (t_line t) ++ w ++ skipn (t_pos t + List.length w) (t_line t)) (t_pos t + List.length w).
Proof.
  induction w as [|c w IH]; intros P t L.
  - cbn. rewrite Nat.add_0_r, firstn_skipn. destruct t; reflexivity.
  - apply plain_cons in P as [[P1 P2] P]. unfold write in *. cbn [fold_left]. rewrite (put_char t c P1 P2). destruct t as [ab l p]. cbn [t_above t_line t_pos] in *.
    assert (Lf : List.length (firstn p l) = p) by (apply firstn_length_le; exact L).
    rewrite (IH P); cbn [t_above t_line t_pos]; [|rewrite app_length; cbn; lia]. cbn [List.length]. f_equal; [|lia].
    replace (S p) with (List.length (firstn p l) + 1)%nat at 1 by lia. rewrite firstn_app_2. cbn [firstn]. rewrite <- app_assoc. cbn [app]. f_equal. f_equal. f_equal.
    rewrite skipn_app, Lf. replace (S p + List.length w - p)%nat with (S (List.length w)) by lia. rewrite skipn_all2 by lia. cbn [app]. rewrite skipn_cons.
    rewrite skipn_add. f_equal. lia.
Qed.

Lemma write_line w t : plain w -> write t (cr :: w) = mk_term (t_above t) (w ++ skipn (List.length w) (t_line t)) (List.length w).
Proof. intros P. unfold write. cbn [fold_left]. change (put t cr) with (mk_term (t_above t) (t_line t) 0). fold (write (mk_term (t_above t) (t_line t) 0) w). rewrite (write_plain w P); cbn; [reflexivity|lia]. Qed.
Lemma write_app t v w : write t (v ++ w) = write (write t v) w.
Proof. apply fold_left_app. Qed.

(** * Blank ends of lines *)
Definition blanks (w : text) : Prop := exists k, w = repeat blank k.
Lemma blanks_skip w n : blanks w -> blanks (skipn n w).
Proof. intros [k ->]. exists (k - n)%nat. revert n. induction k as [|k IH]; intros [|n]; cbn; try reflexivity. apply IH. Qed.
Lemma blanks_app v w : blanks v -> blanks w -> blanks (v ++ w).
Proof. intros [k ->] [l ->]. exists (k + l)%nat. rewrite repeat_app. reflexivity. Qed.
Lemma shows_nil l : shows l [] <-> blanks l.
Proof. reflexivity. Qed.
Lemma blanks_later l a b : (a <= b)%nat -> blanks (skipn a l) -> blanks (skipn b l).
Proof. intros L H. replace b with (a + (b - a))%nat by lia. rewrite <- skipn_add. apply blanks_skip. exact H. Qed.

Lemma pad_spec b disp b' d : pad b disp = (b', d) ->
  exists j, d = disp ++ repeat blank j /\ List.length d = b_longest b' /\ (b_longest b <= b_longest b')%nat /\
    b_total b' = b_total b /\ b_length b' = b_length b /\ b_last b' = b_last b /\ b_first b' = b_first b /\ b_start b' = b_start b /\ b_extra b' = b_extra b.
Proof.
  unfold pad. destruct (Nat.ltb_spec (List.length disp) (b_longest b)) as [L|L]; intros E; injection E as <- <-.
  - exists (b_longest b - List.length disp)%nat. rewrite app_length, repeat_length. repeat split; lia.
  - exists 0%nat. cbn. rewrite app_nil_r. repeat split; lia.
Qed.

Section Main.
Variable show : Z -> text.
Hypothesis show_plain : forall z, plain (show z).

(** The bar agrees with the indices of [reach], and the line is blank behind
    what the bar remembers. *)
Definition agrees (T : Q) (n : nat) (x : text) (m : nat) (since : option Q) (b : bar) : Prop :=
  (tiny < T)%Q /\ plain x /\ b_total b = T /\ b_length b = n /\ b_extra b = label x /\ b_last b = Z.of_nat m /\ b_first b = match since with Some _ => false | None => true end /\
  (forall t, since = Some t -> b_start b = Some t).
Definition fits (b : bar) (t : term) : Prop := blanks (skipn (b_longest b - 1) (t_line t)).
Lemma plain_str s : forallb (fun c => negb (Ascii.eqb c cr) && negb (Ascii.eqb c lf)) (of_str s) = true -> plain (of_str s).
Proof. intros H. rewrite forallb_forall in H. split; intros C; apply H in C; discriminate. Qed.
Lemma plain_label x : plain x -> plain (label x).
Proof. intros P. unfold label. destruct x; [exact P|]. apply plain_app; [exact P|apply plain_str; reflexivity]. Qed.
Lemma spaced_eq info : spaced info = match info with [] => [] | _ => info ++ of_str " " end.
Proof. destruct info; reflexivity. Qed.
Lemma plain_spaced info : plain info -> plain (match info with [] => [] | _ => info ++ of_str " " end).
Proof. intros P. destruct info; [exact P|]. apply plain_app; [exact P|apply plain_str; reflexivity]. Qed.
Lemma plain_picture x info n k z : plain x -> plain info -> plain (picture x info n k (show z)).
Proof.
  intros P1 P2. unfold picture. repeat apply plain_app; try (apply plain_str; reflexivity); try (apply plain_rep; discriminate); [apply plain_label; exact P1|apply plain_spaced; exact P2|apply show_plain].
Qed.
(** Writing a padded line shows it. *)
Lemma line_shown b b' d w t : pad b (cr :: w) = (b', d) -> plain w -> fits b t ->
  exists j, d = cr :: w ++ repeat blank j /\ shows (t_line (write t d)) w /\ t_above (write t d) = t_above t /\ fits b' (write t d) /\ List.length d = b_longest b' /\
    (t_pos (write t d) <= List.length (t_line (write t d)))%nat /\ blanks (skipn (List.length d - 1) (t_line t)).
Proof.
  intros E P F. apply pad_spec in E as (j & -> & L & LL & _). exists j. cbn [app]. split; [reflexivity|].
  assert (PW : plain (w ++ repeat blank j)) by (apply plain_app; [exact P|apply plain_rep; discriminate]).
  change ((cr :: w) ++ repeat blank j) with (cr :: (w ++ repeat blank j)) in *.
  rewrite (write_line _ t PW). cbn [t_line t_above t_pos]. cbn [List.length] in L |- *.
  assert (B : blanks (skipn (List.length (w ++ repeat blank j)) (t_line t))) by (eapply blanks_later; [|exact F]; lia).
  split; [|split; [reflexivity|split; [|split; [exact L|split; [rewrite !app_length; lia|]]]]].
  - destruct B as [k Bk]. rewrite Bk. exists (j + k)%nat. rewrite <- app_assoc, repeat_app. reflexivity.
  - unfold fits. cbn [t_line]. rewrite <- L. replace (S (List.length (w ++ repeat blank j)) - 1)%nat with (List.length (w ++ repeat blank j) + 0)%nat by lia. rewrite <- skipn_add, skipn_app, skipn_all, Nat.sub_diag. cbn. exact B.
  - replace (S (List.length (w ++ repeat blank j)) - 1)%nat with (List.length (w ++ repeat blank j)) by lia. exact B.
Qed.

(** * How many places are filled *)
Lemma trunc_floor q : (0 <= q)%Q -> trunc q = Qfloor q.
Proof. intros H. unfold trunc, Qfloor. destruct q as [a d]. cbn. unfold Qle in H. cbn in H. apply Z.quot_div_nonneg; lia. Qed.
Lemma filled_exact T n raw k : (tiny < T)%Q -> (0 <= raw)%Q -> filled raw T n k ->
  Z.min (trunc (raw / T * inject_Z (Z.of_nat n))) (Z.of_nat n) = Z.of_nat k.
Proof.
  intros HT HR (F1 & F2 & F3).
  assert (Q0 : (0 <= raw / T * inject_Z (Z.of_nat n))%Q).
  { assert (0 < T)%Q by (eapply Qlt_trans; [|exact HT]; reflexivity). apply Qmult_le_0_compat; [apply Qle_shift_div_l; [assumption|rewrite Qmult_0_l; exact HR]|]. unfold Qle. cbn. lia. }
  rewrite trunc_floor by exact Q0. set (q := (raw / T * inject_Z (Z.of_nat n))%Q) in *.
  assert (L1 : (Z.of_nat k <= Qfloor q)%Z) by (rewrite <- (Qfloor_Z (Z.of_nat k)); apply Qfloor_resp_le; exact F1).
  destruct (Nat.eq_dec k n) as [ -> |D]; [lia|]. assert (Kn : (k < n)%nat) by lia. specialize (F3 Kn).
  assert (L2 : (Qfloor q < Z.of_nat (S k))%Z).
  { rewrite Zlt_Qlt. eapply Qle_lt_trans; [apply Qfloor_le|exact F3]. }
  lia.
Qed.
Lemma filled_exists T n raw : (tiny < T)%Q -> (0 <= raw)%Q -> exists k, filled raw T n k.
Proof.
  intros HT HR.
  assert (Q0 : (0 <= raw / T * inject_Z (Z.of_nat n))%Q).
  { assert (0 < T)%Q by (eapply Qlt_trans; [|exact HT]; reflexivity). apply Qmult_le_0_compat; [apply Qle_shift_div_l; [assumption|rewrite Qmult_0_l; exact HR]|]. unfold Qle. cbn. lia. }
  set (q := (raw / T * inject_Z (Z.of_nat n))%Q) in *. assert (F0 : (0 <= Qfloor q)%Z) by (change 0%Z with (Qfloor 0); apply Qfloor_resp_le; exact Q0).
  exists (Nat.min n (Z.to_nat (Qfloor q))). unfold filled. fold q. split; [|split; [lia|]].
  - eapply Qle_trans; [|apply Qfloor_le]. rewrite <- Zle_Qle. lia.
  - intros L. eapply Qlt_le_trans; [apply Qlt_floor|]. rewrite <- Zle_Qle. lia.
Qed.
Lemma filled_unique T n raw k k' : (tiny < T)%Q -> (0 <= raw)%Q -> filled raw T n k -> filled raw T n k' -> k = k'.
Proof. intros HT HR F F'. pose proof (filled_exact T n raw k HT HR F). pose proof (filled_exact T n raw k' HT HR F'). lia. Qed.

Lemma not_tiny T : (tiny < T)%Q -> Qle_bool T tiny = false.
Proof. intros H. destruct (Qle_bool T tiny) eqn:E; [|reflexivity]. apply Qle_bool_iff in E. exfalso. exact (Qlt_not_le _ _ H E). Qed.

(** The seconds shown by [update]. *)
Definition left_over (since : option Q) (now raw T : Q) : Z :=
  let e := (now - match since with Some t => t | None => now end)%Q in
  trunc ((if Qle_bool (raw / T) tiny then 0 else e / (raw / T)) - e).
Lemma update_ok T n x m since b t now raw info k :
  agrees T n x m since b -> plain info -> (0 <= raw)%Q -> filled raw T n k -> (t_pos t <= List.length (t_line t))%nat ->
  let s := does show (b, t) (Update now raw info) in
  agrees T n x (Nat.max m k) (Some match since with Some t => t | None => now end) (fst s) /\
  (t_pos (snd s) <= List.length (t_line (snd s)))%nat /\
  (fits b t -> fits (fst s) (snd s)) /\
  ((k < m)%nat -> snd s = t) /\
  ((m <= k)%nat -> fits b t -> shows (t_line (snd s)) (picture x info n k (show (left_over since now raw T))) /\ t_above (snd s) = t_above t).
Proof.
  intros (HT & PX & E1 & E2 & E3 & E4 & E5 & E6) PI HR F PT. cbn zeta. unfold does, update. rewrite E1, (not_tiny T HT).
  set (st := if b_first b then now else match b_start b with Some t0 => t0 | None => now end).
  assert (Est : st = match since with Some t0 => t0 | None => now end).
  { unfold st. rewrite E5. destruct since as [t0|]; [rewrite (E6 t0 eq_refl); reflexivity|reflexivity]. }
  rewrite E2, (filled_exact T n raw k HT HR F). cbn [b_last b_length b_extra]. rewrite E4.
  destruct (Z.leb_spec (Z.of_nat m) (Z.of_nat k)) as [L|L].
  - rewrite E3. set (w := label x ++ spaced info ++ _). set (b1 := mk_bar _ _ _ _ _ _ _).
    assert (Ew : w = picture x info n k (show (left_over since now raw T))).
    { unfold w, picture. rewrite spaced_eq. f_equal. f_equal. unfold rep. rewrite Nat2Z.id. f_equal. f_equal. destruct F as (_ & F2 & _).
      replace (Z.to_nat (Z.of_nat n - Z.of_nat k)) with (n - k)%nat by lia. f_equal. f_equal. f_equal. unfold left_over. rewrite <- Est. reflexivity. }
    assert (PW : plain w) by (rewrite Ew; apply plain_picture; assumption).
    destruct (pad b1 (cr :: w)) as [b2 d] eqn:Ep. cbn [fst snd].
    assert (G : fits b t -> fits b1 t) by (intros G; exact G).
    pose proof (pad_spec _ _ _ _ Ep) as (j & Ed & _ & _ & A1 & A2 & A3 & A4 & A5 & A6).
    split; [|split; [|split; [|split]]].
    + replace (Nat.max m k) with k by lia. unfold agrees. cbn [b_total b_length b_extra b_last b_first b_start]. rewrite A1, A2, A4, A5, A6. unfold b1. cbn. rewrite ?E1, ?E3. repeat split; auto; try apply PX. intros t0 Et. injection Et as <-. rewrite Est. reflexivity.
    + subst d. cbn [app]. change ((cr :: w) ++ repeat blank j) with (cr :: (w ++ repeat blank j)). rewrite write_line by (apply plain_app; [exact PW|apply plain_rep; discriminate]). cbn [t_pos t_line]. rewrite !app_length. lia.
    + intros H. destruct (line_shown b1 b2 d w t Ep PW (G H)) as (j' & _ & _ & _ & Hf & _). exact Hf.
    + lia.
    + intros _ H. destruct (line_shown b1 b2 d w t Ep PW (G H)) as (j' & _ & Hs & Ha & _). rewrite <- Ew. auto.
  - cbn [fst snd]. split; [|split; [exact PT|split; [intros H; exact H|split; [reflexivity|lia]]]].
    replace (Nat.max m k) with m by lia. unfold agrees. cbn [b_total b_length b_extra b_last b_first b_start]. repeat split; auto; try apply PX. intros t0 Et. injection Et as <-. rewrite Est. reflexivity.
Qed.
Lemma finish_ok T n x m since b t now info nl cl :
  agrees T n x m since b -> plain info -> (t_pos t <= List.length (t_line t))%nat ->
  let s := does show (b, t) (End now info nl cl) in
  agrees T n x m since (fst s) /\ (t_pos (snd s) <= List.length (t_line (snd s)))%nat /\
  (fits b t -> fits (fst s) (snd s) /\ exists z l,
     shows l (if cl then [] else picture x info n n (show z)) /\
     if nl then t_above (snd s) = t_above t ++ [l] /\ t_line (snd s) = [] else t_above (snd s) = t_above t /\ t_line (snd s) = l).
Proof.
  intros (HT & PX & E1 & E2 & E3 & E4 & E5 & E6) PI PT. cbn zeta. unfold does, finish. rewrite E1, (not_tiny T HT).
  set (st := match b_start b with Some t0 => t0 | None => now end). cbn [b_length b_extra]. rewrite E2, E3.
  set (w := label x ++ spaced info ++ _). set (b1 := mk_bar _ _ _ _ _ _ _). set (z := trunc (now - st)) in *.
  assert (Ew : w = picture x info n n (show z)).
  { unfold w, picture. rewrite spaced_eq. f_equal. f_equal. unfold rep. rewrite Nat2Z.id, Nat.sub_diag. reflexivity. }
  assert (PW : plain w) by (rewrite Ew; apply plain_picture; assumption).
  destruct (pad b1 (cr :: w)) as [b2 d] eqn:Ep.
  pose proof (pad_spec _ _ _ _ Ep) as (j & Ed & Ld & LL & A1 & A2 & A3 & A4 & A5 & A6). cbn [fst snd].
  set (d' := if cl then cr :: repeat blank (List.length d - 1) ++ [cr] else d).
  assert (Ew1 : exists v, write t d' = mk_term (t_above t) (v ++ skipn (List.length v) (t_line t)) (if cl then 0 else List.length v)%nat /\ S (List.length v) = List.length d /\ (exists i, v = (if cl then [] else w) ++ repeat blank i)).
  { unfold d'. destruct cl.
    - exists (repeat blank (List.length d - 1)). rewrite repeat_length. split; [|split; [subst d; cbn; lia|exists (List.length d - 1)%nat; reflexivity]].
      change (cr :: repeat blank (List.length d - 1) ++ [cr]) with ((cr :: repeat blank (List.length d - 1)) ++ [cr]). rewrite write_app, (write_line (repeat blank (List.length d - 1)) t) by (apply plain_rep; discriminate).
      rewrite repeat_length. reflexivity.
    - exists (w ++ repeat blank j). subst d. change ((cr :: w) ++ repeat blank j) with (cr :: (w ++ repeat blank j)). rewrite write_line by (apply plain_app; [exact PW|apply plain_rep; discriminate]).
      split; [reflexivity|split; [reflexivity|exists j; reflexivity]]. }
  destruct Ew1 as (v & Ev & Lv & (i & Ei)).
  assert (HA : agrees T n x m since b2).
  { unfold agrees. rewrite A1, A2, A3, A4, A5, A6. unfold b1. cbn [b_total b_length b_extra b_last b_first b_start]. rewrite ?E1, ?E2, ?E3, ?E5. repeat split; auto; try apply PX.
    intros t0 Et. unfold st. rewrite (E6 t0 Et). reflexivity. }
  split; [exact HA|].
  assert (Wn : write t (if nl return list ascii then d' ++ [lf] else d') = if nl then mk_term (t_above t ++ [v ++ skipn (List.length v) (t_line t)]) [] 0 else write t d').
  { destruct nl; [|reflexivity]. rewrite write_app, Ev. reflexivity. }
  rewrite Wn. split.
  - destruct nl; [cbn; lia|]. rewrite Ev. cbn [t_pos t_line]. rewrite app_length. destruct cl; lia.
  - intros F. assert (B : blanks (skipn (List.length v) (t_line t))).
    { eapply blanks_later; [|exact F]. change (b_longest b) with (b_longest b1). lia. }
    split.
    + destruct nl; [unfold fits; cbn; rewrite skipn_nil; exists 0%nat; reflexivity|]. rewrite Ev. unfold fits. cbn [t_line]. rewrite <- Ld, <- Lv.
      replace (S (List.length v) - 1)%nat with (List.length v + 0)%nat by lia. rewrite <- skipn_add, skipn_app, skipn_all, Nat.sub_diag. cbn. exact B.
    + exists z, (v ++ skipn (List.length v) (t_line t)). split.
      * destruct B as [k Bk]. rewrite Bk, Ei. exists (i + k)%nat. rewrite <- app_assoc, repeat_app, Ew. destruct cl; reflexivity.
      * destruct nl; [split; reflexivity|]. rewrite Ev. split; reflexivity.
Qed.
Lemma start_agrees T n x m since b x' : agrees T n x m since b -> plain x' -> agrees T n x' 0 None (start x' b).
Proof.
  intros (HT & PX & E1 & E2 & E3 & E4 & E5 & E6) P. unfold agrees, start. cbn. repeat split; auto; try apply P; first [discriminate|destruct x'; reflexivity].
Qed.
Lemma start_fits x' b t : blanks (t_line t) -> fits (start x' b) t.
Proof. intros B. unfold fits, start. cbn. exact B. Qed.
Lemma reset_as now T' n' x' b t : does show (b, t) (Reset now T' n' x') =
  (let s := does show (mk_bar T' n' 0 true None 0 (b_extra b), t) (End now [] false true) in (start x' (fst s), snd s)).
Proof. unfold does, reset. destruct (finish show now [] false true _) as [b1 w]. reflexivity. Qed.
Lemma reach_ok tidy T n x m since s : reach show tidy T n x m since s ->
  agrees T n x m since (fst s) /\ (t_pos (snd s) <= List.length (t_line (snd s)))%nat /\ (tidy -> fits (fst s) (snd s)).
Proof.
  induction 1 as [T n x t HT PX B PT|T n x m since s now raw info k R IH PI HR F|T n x m since s now info nl cl R IH PI|T n x m since s x' R IH PX B|T n x m since s now T' n' x' R IH HT PX B].
  - split; [|split; [exact PT|intros _; apply start_fits; exact B]]. unfold agrees, new, start. cbn. repeat split; auto; try apply PX; first [discriminate|destruct x; reflexivity].
  - destruct s as [b t]. destruct IH as (A & P & FI). destruct (update_ok T n x m since b t now raw info k A PI HR F P) as (A' & P' & F' & _). repeat split; try apply A'; auto.
  - destruct s as [b t]. destruct IH as (A & P & FI). destruct (finish_ok T n x m since b t now info nl cl A PI P) as (A' & P' & F'). split; [exact A'|split; [exact P'|]]. intros HH. exact (proj1 (F' (FI HH))).
  - destruct s as [b t]. destruct IH as (A & P & FI). cbn [does fst snd] in *. split; [eapply start_agrees; eauto|split; [exact P|]]. intros HH. apply start_fits. exact (B HH).
  - destruct s as [b t]. destruct IH as (A & P & FI). rewrite reset_as. set (b0 := mk_bar T' n' 0 true None 0 (b_extra b)).
    assert (A0 : agrees T' n' x 0 None b0).
    { destruct A as (_ & PXx & _ & _ & E3 & _). unfold agrees, b0. cbn. repeat split; auto; try apply PXx; try discriminate. }
    destruct (finish_ok T' n' x 0 None b0 t now [] false true A0 ltac:(split; intros []) P) as (A1 & P1 & F1). cbn zeta. cbn [fst snd] in *. split; [eapply start_agrees; eauto|split; [exact P1|]].
    intros HH. assert (FB : fits b0 t) by (unfold fits, b0; cbn; exact (B HH)). destruct (F1 FB) as (_ & z & l & Hl & _ & El). apply start_fits. rewrite El. exact Hl.
Qed.
End Main.
