(** C107, C108: the progress bar. *)
From Coq Require Import QArith Qround Ascii Lqa Decimal DecimalString.
From Verif Require Import Base BaseLemmas Progress ProgressSpec ProgressProofs.
Local Open Scope list_scope.

(** [str] of an integer. *)
Definition show_int (z : Z) : text := of_str (NilZero.string_of_int (Z.to_int z)).
Lemma uint_digits u c : In c (of_str (NilEmpty.string_of_uint u)) -> In c (of_str "0123456789").
Proof. induction u; cbn; intros H; [contradiction|..]; (destruct H as [<-|H]; [cbn; tauto|apply IHu; exact H]). Qed.
Lemma uint_digits0 u c : In c (of_str (NilZero.string_of_uint u)) -> In c (of_str "0123456789").
Proof. destruct u; [cbn; tauto|..]; intros H; apply (uint_digits _ _ H). Qed.
Lemma show_int_plain z : plain (show_int z).
Proof.
  assert (A : forall c, In c (show_int z) -> In c (of_str "-0123456789")).
  { intros c H. unfold show_int in H. destruct (Z.to_int z) as [u|u]; cbn in H; [right; apply uint_digits0 in H; exact H|]. destruct H as [<-|H]; [left; reflexivity|right; apply uint_digits0 in H; exact H]. }
  split; intros H; apply A in H; cbn in H; repeat (destruct H as [H|H]; [discriminate|]); exact H.
Qed.
Lemma show_nonneg z : (0 <= z)%Z -> ~ In "-"%char (show_int z).
Proof.
  intros Hz H. unfold show_int in H. destruct z as [|p|p]; [cbn in H; destruct H as [H|[]]; discriminate| |lia].
  cbn [Z.to_int] in H. apply uint_digits0 in H. cbn in H. repeat (destruct H as [H|H]; [discriminate|]). exact H.
Qed.

(* ================================================================== *)
(** * C107: the line *)
(** An update that is not behind shows its own line, without any rest of earlier
    ones; one that is behind writes nothing. *)
Theorem C107_update_partial : forall show, (forall z, plain (show z)) -> forall T n x m since s now raw info k,
  reach show True T n x m since s -> plain info -> (0 <= raw)%Q -> filled raw T n k ->
  let s' := does show s (Update now raw info) in
  ((k < m)%nat -> snd s' = snd s) /\
  ((m <= k)%nat -> exists z, shows (t_line (snd s')) (picture x info n k (show z)) /\ t_above (snd s') = t_above (snd s)).
Proof.
  intros show SP T n x m since [b t] now raw info k R PI HR F. cbn zeta. destruct (reach_ok show SP True _ _ _ _ _ _ R) as (A & P & FI). cbn [fst snd] in *.
  destruct (update_ok show SP T n x m since b t now raw info k A PI HR F P) as (_ & _ & _ & U1 & U2). split; [exact U1|]. intros L. eexists. exact (U2 L (FI I)).
Qed.
(** [end] shows the full bar, or a blank line, and then perhaps starts a new line. *)
Theorem C107_end_partial : forall show, (forall z, plain (show z)) -> forall T n x m since s now info nl cl,
  reach show True T n x m since s -> plain info ->
  let t := snd s in let t' := snd (does show s (End now info nl cl)) in
  exists z l, shows l (if cl then [] else picture x info n n (show z)) /\
    if nl then t_above t' = t_above t ++ [l] /\ t_line t' = [] else t_above t' = t_above t /\ t_line t' = l.
Proof.
  intros show SP T n x m since [b t] now info nl cl R PI. cbn zeta. destruct (reach_ok show SP True _ _ _ _ _ _ R) as (A & P & FI). cbn [fst snd] in *.
  destruct (finish_ok show SP T n x m since b t now info nl cl A PI P) as (_ & _ & F). exact (proj2 (F (FI I))).
Qed.
(** Nothing is written if there is nothing to do. *)
Theorem C107_nothing : forall show T n x t l, (T <= tiny)%Q ->
  Forall (fun c => match c with Reset _ _ _ _ => False | _ => True end) l -> snd (runs show (new T n x, t) l) = t.
Proof.
  intros show T n x t l HT F. apply Qle_bool_iff in HT. assert (G : forall b, b_total b = T -> snd (runs show (b, t) l) = t); [|apply G; reflexivity].
  induction F as [|c l Hc F IH]; intros b E; [reflexivity|]. unfold runs in *. cbn [fold_left].
  destruct c as [x'|now raw info|now info nl cl|]; [| | |contradiction]; unfold does, update, finish; rewrite ?E, ?HT; cbn [write fold_left]; apply IH; auto.
Qed.
(** Starting the next bar in the same line, as [train] does for every epoch
    (training.py L683-705), the rest of the old line stays. *)
Definition line_always : Prop := forall show, (forall z, plain (show z)) -> forall T n x m since s now raw info k,
  reach show False T n x m since s -> plain info -> (0 <= raw)%Q -> filled raw T n k -> (m <= k)%nat ->
  exists secs, shows (t_line (snd (does show s (Update now raw info)))) (picture x info n k secs).
Lemma plain_of s : forallb (fun c => negb (Ascii.eqb c cr) && negb (Ascii.eqb c lf)) (of_str s) = true -> plain (of_str s).
Proof. apply plain_str. Qed.
Definition C107_epochs : bar * term :=
  runs show_int (new 2 4 [], clean) [Start (of_str "1/9"); Update 0 1 (of_str "2.5e-01"); End 10 (of_str "2.5e-01") false false; Start (of_str "2/9")].
Lemma filled_2_4 k : filled (inject_Z (Z.of_nat k)) 2 4 (2 * k) \/ (2 < k)%nat.
Proof.
  destruct k as [|[|[|k]]]; [left|left|left|right; lia]; (split; [discriminate|split; [cbn; lia|intros H; cbn in H; first [lia|reflexivity]]]).
Qed.
Lemma C107_epochs_reach : exists m since, reach show_int False 2 4 (of_str "2/9") m since C107_epochs.
Proof.
  exists 0%nat, None. unfold C107_epochs, runs. cbn [fold_left]. eapply r_start; [|apply plain_of; reflexivity|intros []]. eapply r_end; [|apply plain_of; reflexivity].
  eapply (r_update _ _ _ _ _ _ _ _ _ _ _ 2); [|apply plain_of; reflexivity|discriminate|destruct (filled_2_4 1) as [H|H]; [exact H|lia]].
  eapply r_start; [|apply plain_of; reflexivity|intros []]. apply r_new; [reflexivity|split; intros []|exists 0%nat; reflexivity|cbn; lia].
Qed.
Lemma shows_end l x info n k secs : shows l (picture x info n k secs) -> exists w, l = w ++ of_str "s)" \/ exists j w', l = w' ++ [blank] /\ j = 0%nat.
Proof.
  intros [j E]. unfold picture in E. rewrite !app_assoc in E. destruct j as [|j]; [cbn in E; rewrite app_nil_r in E; eexists; left; exact E|].
  exists []. right. exists 0%nat. eexists. split; [|reflexivity]. rewrite E. replace (S j) with (j + 1)%nat by lia. rewrite repeat_app. rewrite app_assoc. reflexivity.
Qed.
Lemma not_shown l a b x info n k secs : a <> "s"%char -> b <> blank -> ~ shows (l ++ [a; b]) (picture x info n k secs).
Proof.
  intros Na Nb H. apply shows_end in H as [w [H|(j & w' & H & _)]].
  - change [a; b] with ([a] ++ [b]) in H. change (of_str "s)") with (["s"%char] ++ [")"%char]) in H. rewrite !app_assoc in H. apply app_inj_tail in H as [H _]. apply app_inj_tail in H as [_ H]. congruence.
  - change [a; b] with ([a] ++ [b]) in H. rewrite app_assoc in H. apply app_inj_tail in H as [_ H]. congruence.
Qed.
Theorem C107_refuted : ~ line_always.
Proof.
  intros H. destruct C107_epochs_reach as (m & since & R). assert (m = 0%nat) as ->.
  { destruct (reach_ok show_int show_int_plain False _ _ _ _ _ _ R) as (A & _). destruct A as (_ & _ & _ & _ & _ & A & _). vm_compute in A. destruct m; [reflexivity|discriminate]. }
  destruct (H show_int show_int_plain _ _ _ _ _ _ (10 # 1) 0%Q (of_str "2.5e-01") 0%nat R) as [secs S]; [apply plain_of; reflexivity|discriminate|destruct (filled_2_4 0) as [F|F]; [exact F|lia]|lia|].
  revert S. match goal with |- shows ?L _ -> _ => replace L with (of_str "2/9 | 2.5e-01 [    ] (0s" ++ [")"%char; ")"%char]) by (vm_compute; reflexivity) end.
  apply not_shown; discriminate.
Qed.
(** Making a new bar in the middle of a line clears only as much of the line as a
    bar without further text covers (L38-44). *)
Definition C107_again : bar * term :=
  runs show_int (new 2 4 [], clean) [Update 0 1 (of_str "loss 0.25 best 0.125"); Reset 1 2 4 []].
Theorem C107_reset_refuted : exists m since k, reach show_int False 2 4 [] m since C107_again /\ filled 0 2 4 k /\ (m <= k)%nat /\
  t_line (snd (does show_int C107_again (Update (1 # 1) 0 []))) = of_str "[    ] (0s)est 0.125 [##  ] (0s)" /\
  forall secs, plain secs -> (List.length secs <= 10)%nat -> ~ shows (t_line (snd (does show_int C107_again (Update (1 # 1) 0 [])))) (picture [] [] 4 k secs).
Proof.
  exists 0%nat, None, 0%nat. split; [|split; [destruct (filled_2_4 0) as [F|F]; [exact F|lia]|split; [lia|split; [vm_compute; reflexivity|]]]].
  - unfold C107_again, runs. cbn [fold_left]. eapply r_reset; [|reflexivity|split; intros []|intros []].
    eapply (r_update _ _ _ _ _ _ _ _ _ _ _ 2); [|apply plain_of; reflexivity|discriminate|destruct (filled_2_4 1) as [H|H]; [exact H|lia]].
    apply r_new; [reflexivity|split; intros []|exists 0%nat; reflexivity|cbn; lia].
  - intros secs _ L [j E]. revert E. match goal with |- ?L = _ -> _ => replace L with (of_str "[    ] (0s)est 0.125 [##  ] (0s)") by (vm_compute; reflexivity) end. intros E.
    assert (N : nth 26 (of_str "[    ] (0s)est 0.125 [##  ] (0s)") blank = nth 26 (picture [] [] 4 0 secs ++ repeat blank j) blank) by (rewrite <- E; reflexivity).
    rewrite app_nth2 in N by (unfold picture; rewrite !app_length, !repeat_length; cbn; lia). rewrite nth_repeat in N. discriminate N.
Qed.
Example C107_example :
  exists m since, reach show_int True 2 4 (of_str "2/9") m since (runs show_int (new 2 4 [], clean) [Start (of_str "1/9"); Update 0 1 (of_str "0.25"); End 10 (of_str "0.125") true false; Start (of_str "2/9")]) /\
  let t := snd (runs show_int (new 2 4 [], clean) [Start (of_str "1/9"); Update 0 1 (of_str "0.25"); End 10 (of_str "0.125") true false; Start (of_str "2/9"); Update 10 1 []]) in
  t_above t = [of_str "1/9 | 0.125 [####] (10s)"] /\ t_line t = of_str "2/9 | [##  ] (0s)".
Proof.
  exists 0%nat, None. split; [|split; vm_compute; reflexivity]. unfold runs. cbn [fold_left]. eapply r_start; [|apply plain_of; reflexivity|intros _; exists 0%nat; vm_compute; reflexivity]. eapply r_end; [|apply plain_of; reflexivity].
  eapply (r_update _ _ _ _ _ _ _ _ _ _ _ 2); [|apply plain_of; reflexivity|discriminate|destruct (filled_2_4 1) as [H|H]; [exact H|lia]].
  eapply r_start; [|apply plain_of; reflexivity|intros _; exists 0%nat; reflexivity]. apply r_new; [reflexivity|split; intros []|exists 0%nat; reflexivity|cbn; lia].
Qed.
Print Assumptions C107_update_partial.
Print Assumptions C107_end_partial.
Print Assumptions C107_nothing.
Print Assumptions C107_refuted.
Print Assumptions C107_reset_refuted.

(* ================================================================== *)
(** * C108: progress and time *)
(** The bar never goes back: what an update changes on the screen shows at least
    as many filled places as any update since the last start. *)
Theorem C108_never_back : forall show, (forall z, plain (show z)) -> forall tidy T n x m since s now raw info k,
  reach show tidy T n x m since s -> plain info -> (0 <= raw)%Q -> filled raw T n k -> snd (does show s (Update now raw info)) <> snd s -> (m <= k)%nat.
Proof.
  intros show SP tidy T n x m since [b t] now raw info k R PI HR F C. destruct (reach_ok show SP tidy _ _ _ _ _ _ R) as (A & P & FI). cbn [fst snd] in *.
  destruct (update_ok show SP T n x m since b t now raw info k A PI HR F P) as (_ & _ & _ & U1 & _). destruct (Nat.le_gt_cases m k) as [L|L]; [exact L|]. exfalso. apply C, U1, L.
Qed.
(** The seconds shown are the time the rest takes at the same pace, rounded down. *)
Theorem C108_seconds_partial : forall show, (forall z, plain (show z)) -> forall T n x m t0 s now raw info k,
  reach show True T n x m (Some t0) s -> plain info -> filled raw T n k -> (m <= k)%nat -> (t0 <= now)%Q -> (tiny < raw / T)%Q -> (raw <= T)%Q ->
  exists z, shows (t_line (snd (does show s (Update now raw info)))) (picture x info n k (show z)) /\ (0 <= z)%Z /\
    (inject_Z z <= (now - t0) * (T - raw) / raw)%Q /\ ((now - t0) * (T - raw) / raw < inject_Z (z + 1))%Q.
Proof.
  intros show SP T n x m t0 [b t] now raw info k R PI F L HN HF HR. destruct (reach_ok show SP True _ _ _ _ _ _ R) as (A & P & FI). cbn [fst snd] in *.
  assert (HT : (0 < T)%Q) by (destruct A as (HT & _); eapply Qlt_trans; [|exact HT]; reflexivity).
  assert (Hr : (0 < raw)%Q).
  { assert (0 < raw / T)%Q by (eapply Qlt_trans; [|exact HF]; reflexivity). assert (E : (raw == raw / T * T)%Q) by (field; lra). rewrite E. apply Qmult_lt_0_compat; assumption. }
  destruct (update_ok show SP T n x m (Some t0) b t now raw info k A PI ltac:(lra) F P) as (_ & _ & _ & _ & U). destruct (U L (FI I)) as [S _]. eexists. split; [exact S|].
  unfold left_over. rewrite (not_tiny _ HF).
  assert (E : ((now - t0) / (raw / T) - (now - t0) == (now - t0) * (T - raw) / raw)%Q) by (field; split; lra).
  set (q := ((now - t0) / (raw / T) - (now - t0))%Q) in *.
  assert (Q0 : (0 <= q)%Q). { rewrite E. apply Qle_shift_div_l; [exact Hr|]. rewrite Qmult_0_l. apply Qmult_le_0_compat; lra. }
  assert (ET : trunc q = Qfloor q) by (unfold trunc, Qfloor; destruct q as [a d]; unfold Qle in Q0; cbn in Q0 |- *; apply Z.quot_div_nonneg; lia).
  rewrite ET. split; [change 0%Z with (Qfloor 0); apply Qfloor_resp_le; exact Q0|]. rewrite <- E. split; [apply Qfloor_le|]. apply Qlt_floor.
Qed.
(** Before there is any progress, the seconds shown are negative. *)
Definition seconds_always : Prop := forall T n x m since s now raw info k,
  reach show_int True T n x m since s -> plain info -> (0 <= raw)%Q -> (raw <= T)%Q -> filled raw T n k -> (m <= k)%nat ->
  (forall t0, since = Some t0 -> (t0 <= now)%Q) ->
  exists z, (0 <= z)%Z /\ shows (t_line (snd (does show_int s (Update now raw info)))) (picture x info n k (show_int z)).
Theorem C108_refuted : ~ seconds_always.
Proof.
  intros H.
  assert (R : reach show_int True 2 4 [] 0 (Some 0%Q) (does show_int (new 2 4 [], clean) (Update 0 0 []))).
  { apply (r_update _ _ _ _ _ 0 None _ 0 0 [] 0); [apply r_new; [reflexivity|split; intros []|exists 0%nat; reflexivity|cbn; lia]|split; intros []|discriminate|]. destruct (filled_2_4 0) as [F|F]; [exact F|lia]. }
  destruct (H 2%Q 4%nat [] 0%nat (Some 0%Q) _ (7 # 1) 0%Q [] 0%nat R) as (z & Hz & [j E]); [split; intros []|discriminate|discriminate|destruct (filled_2_4 0) as [F|F]; [exact F|lia]|lia|intros t0 Et; injection Et as <-; discriminate|].
  revert E. match goal with |- ?L = _ -> _ => replace L with (of_str "[    ] (-7s)") by (vm_compute; reflexivity) end. intros E.
  assert (I : In "-"%char (picture [] [] 4 0 (show_int z) ++ repeat blank j)) by (rewrite <- E; cbn; tauto).
  apply in_app_or in I as [I|I]; [|apply repeat_spec in I; discriminate]. unfold picture in I.
  repeat (apply in_app_or in I as [I|I]; [try (cbn in I; repeat (destruct I as [I|I]; [discriminate|]); exact I)|]).
  - exact (show_nonneg z Hz I).
  - cbn in I. repeat (destruct I as [I|I]; [discriminate|]). exact I.
Qed.
Example C108_example : exists s, s = does show_int (new 2 4 [], clean) (Update 0 1 []) /\ reach show_int True 2 4 [] 2 (Some 0%Q) s /\
  t_line (snd (does show_int s (Update 6 2 []))) = of_str "[####] (0s)" /\ t_line (snd (does show_int s (Update 6 1 []))) = of_str "[##  ] (6s)" /\
  snd (does show_int s (Update 6 0 [])) = snd s.
Proof.
  eexists. split; [reflexivity|]. split; [|repeat split; vm_compute; reflexivity].
  apply (r_update _ _ _ _ _ 0 None _ 0 1 [] 2); [apply r_new; [reflexivity|split; intros []|exists 0%nat; reflexivity|cbn; lia]|split; intros []|discriminate|]. destruct (filled_2_4 1) as [F|F]; [exact F|lia].
Qed.
Print Assumptions C108_never_back.
Print Assumptions C108_seconds_partial.
Print Assumptions C108_refuted.
