(** Lemmas on the training loop. *)
From Coq Require Import ZArith Permutation.
From Verif Require Import Base BaseLemmas TreeUtil TreeSpec NonSeqSpec NonSeqProofs Batch BatchSpec BatchProofs Train TrainSpec.
Local Open Scope list_scope.

Lemma running_app {F} (flt : F -> F -> bool) vs : forall b v,
  running flt b (vs ++ [v]) = if flt v (running flt b vs) then v else running flt b vs.
Proof. induction vs as [|w vs IH]; intros b v; cbn; [reflexivity|apply IH]. Qed.

Lemma history_snoc {C K} (R : nat -> C -> K -> C -> Prop) e c ks c1 k c2 :
  history R e c ks c1 -> R (e + length ks) c1 k c2 -> history R e c (ks ++ [k]) c2.
Proof.
  induction 1 as [e c|e c k0 c1 ks c3 H0 H IH]; cbn [length app].
  - rewrite Nat.add_0_r. intros H. econstructor; [exact H|constructor].
  - intros Hk. econstructor; [exact H0|]. apply IH. rewrite Nat.add_succ_r in Hk. exact Hk.
Qed.

Section Loop.
Context {S1 S2 S3 P G MV MSt Rng F : Type}.
Notation OS := (ostate P MV).
Context (update : G -> OS -> OS)
  (dloss : nat -> dataset S1 S2 S3 -> bool -> MSt -> Rng -> list P -> result ((nat -> G) * MSt))
  (vloss : nat -> dataset S1 S2 S3 -> MSt -> Rng -> list P -> result F)
  (split2 : Rng -> Rng * Rng) (perm : Rng -> nat -> list nat)
  (fzero : F) (fadd fsub : F -> F -> F) (fdivn : F -> nat -> F) (flt fle : F -> F -> bool).
Context (isnan : F -> bool) (HO : fl_order isnan flt fle).

(** one epoch: training and validation give the checkpoint, the callback and the
    counters give the state for the next epoch *)
Definition epoch_rel (cf : settings) (D DV : dataset S1 S2 S3) (e : nat) (s : Rng * carry)
    (k : carry * F) (s' : Rng * carry) : Prop :=
  exists rng1, epoch_work update dloss vloss split2 perm fzero fadd fdivn cf D DV (fst s) e (snd s) = Ok (rng1, fst k, snd k)
    /\ after_epoch cf rng1 e (fst k) = s'.

Lemma epoch_rel_intro cf D DV e rng c rng1 c1 v s' :
  epoch_work update dloss vloss split2 perm fzero fadd fdivn cf D DV rng e c = Ok (rng1, c1, v) ->
  after_epoch cf rng1 e c1 = s' -> epoch_rel cf D DV e (rng, c) (c1, v) s'.
Proof. intros H1 H2. exists rng1. auto. Qed.

Notation ckpt := (@carry P MV MSt Rng * F)%type.

Record Inv (cf : settings) (D DV : dataset S1 S2 S3) (start : nat) (s0 : Rng * carry) (v0 : F)
    (ks : list ckpt) (t : tstate) : Prop := {
  i_hist : history (epoch_rel cf D DV) start s0 ks (t_rng t, t_carry t);
  i_epoch : t_epoch t = start + length ks;
  i_best : t_best_val t = running flt v0 (map snd ks);
  i_min : exists i, first_min flt fle (v0 :: map snd ks) i /\
            nth_error ((snd s0, v0) :: ks) i = Some (t_best t, t_best_val t) /\ t_best_epoch t = start + Nat.pred i;
  i_nan : isnan v0 = false -> isnan (t_best_val t) = false;
  i_pat : exists p, t_patience t = (c_patience cf - Z.of_nat p)%Z /\ p <= length ks /\
            (forall j, length ks - p <= j -> j < length ks -> insufficient flt fle fsub (c_delta cf) v0 (map snd ks) j) /\
            (p = length ks \/ ~ insufficient flt fle fsub (c_delta cf) v0 (map snd ks) (length ks - p - 1)) }.

Lemma insufficient_app delta v0 vs ws j : j < length vs ->
  insufficient flt fle fsub delta v0 (vs ++ ws) j <-> insufficient flt fle fsub delta v0 vs j.
Proof.
  intros H. unfold insufficient. rewrite nth_error_app1 by exact H. rewrite firstn_app.
  replace (j - length vs) with 0 by lia. cbn [firstn]. rewrite app_nil_r. reflexivity.
Qed.

Definition interrupted (cf : settings) (e : nat) : bool := @c_verbose P Rng F cf && c_kill cf e.

Notation stop cf start v0 := (must_stop flt fle fsub (interrupted cf) (c_epochs cf) start (c_target cf) (c_delta cf) (c_patience cf) v0).

Lemma must_stop_app cf start v0 vs ws k : k <= length vs -> stop cf start v0 (vs ++ ws) k <-> stop cf start v0 vs k.
Proof.
  intros H. unfold must_stop. rewrite firstn_app. replace (k - length vs) with 0 by lia. cbn [firstn]. rewrite app_nil_r.
  split; (intros [E|[E|[E|(p & E1 & E2 & E3)]]]; [left; exact E|right; left; exact E|right; right; left; exact E|right; right; right]);
    exists p; (split; [exact E1|split; [exact E2|]]); intros j Hj1 Hj2; specialize (E3 j Hj1 Hj2).
  - exact (proj1 (insufficient_app _ v0 vs ws j ltac:(lia)) E3).
  - apply insufficient_app; [lia|exact E3].
Qed.

Lemma cond_stop cf D DV start s0 v0 ks t : Inv cf D DV start s0 v0 ks t ->
  epoch_cond flt cf t = false <-> stop cf start v0 (map snd ks) (length ks).
Proof.
  intros [_ He Hb _ _ (p & Hp & Hpk & Hins & Hsuf)]. unfold epoch_cond, must_stop.
  rewrite firstn_all2 by (rewrite map_length; lia). rewrite He, Hb. unfold interrupted.
  split.
  - intros H. rewrite !andb_false_iff in H. destruct H as [[[H|H]|H]|H].
    + left. destruct (c_verbose cf); [|discriminate H]. apply negb_false_iff in H. exact H.
    + right. left. apply Nat.ltb_ge in H. exact H.
    + right. right. left. exact H.
    + right. right. right. apply Z.ltb_ge in H. exists p. split; [lia|]. split; [exact Hpk|exact Hins].
  - intros H. rewrite !andb_false_iff. destruct H as [H|[H|[H|(q & H1 & H2 & H3)]]].
    + left. left. left. apply andb_true_iff in H as [-> H]. apply negb_false_iff. exact H.
    + left. left. right. apply Nat.ltb_ge. exact H.
    + left. right. exact H.
    + right. apply Z.ltb_ge. rewrite Hp. destruct (Z.leb_spec (c_patience cf) (Z.of_nat p)) as [Hle|Hgt]; [lia|exfalso].
      assert (Hlt : p < q) by lia. destruct Hsuf as [ -> |Hsuf]; [lia|]. apply Hsuf. apply H3; lia.
Qed.

Lemma le_refl' x : isnan x = false -> fle x x = true.
Proof. intros H. rewrite (le_not_lt _ _ _ HO) by assumption. rewrite (lt_irrefl _ _ _ HO). reflexivity. Qed.

Lemma body_inv cf D DV start s0 v0 ks t t' : Inv cf D DV start s0 v0 ks t -> epoch_cond flt cf t = true ->
  epoch_body update dloss vloss split2 perm fzero fadd fsub fdivn flt fle cf D DV t = Ok t' ->
  exists k, Inv cf D DV start s0 v0 (ks ++ [k]) t'.
Proof.
  intros [Hh He Hb (i & Hi1 & Hi2 & Hi3) Hn (p & Hp & Hpk & Hins & Hsuf)] Hcond H. unfold epoch_body in H.
  apply rbind_ok in H as ([[rng c] v] & Hw & H). exists (c, v).
  set (improved := fle v (fsub (t_best_val t) (c_delta cf))) in H.
  destruct (after_epoch cf rng (t_epoch t) c) as [rng' c'] eqn:Ha.
  assert (Ht' : t' = mk_t rng' (t_epoch t + 1) c' (if flt v (t_best_val t) then c else t_best t) v
                      (if flt v (t_best_val t) then v else t_best_val t)
                      (if flt v (t_best_val t) then t_epoch t else t_best_epoch t)
                      (if improved then c_patience cf else (t_patience t - 1)%Z)).
  { destruct (flt v (t_best_val t)); injection H as <-; reflexivity. }
  clear H. subst t'.
  assert (Hlen : length (ks ++ [(c, v)]) = Datatypes.S (length ks)) by (rewrite app_length; cbn; lia).
  assert (Hsnd : map snd (ks ++ [(c, v)]) = map snd ks ++ [v]) by (rewrite map_app; reflexivity).
  constructor; cbn [t_rng t_epoch t_carry t_best t_val t_best_val t_best_epoch t_patience].
  - eapply history_snoc; [exact Hh|]. exists rng. cbn [fst snd]. rewrite <- He. split; [exact Hw|exact Ha].
  - rewrite Hlen, He. lia.
  - rewrite Hsnd, running_app, <- Hb. reflexivity.
  - rewrite Hsnd. destruct Hi1 as (b & Hb1 & Hb2 & Hb3).
    assert (Eb : t_best_val t = b).
    { destruct i as [|i]; cbn in Hi2, Hb1; [congruence|]. rewrite nth_error_map, Hi2 in Hb1. cbn in Hb1. congruence. }
    rewrite <- Eb in *. clear Eb b.
    destruct (flt v (t_best_val t)) eqn:Elt.
    + exists (Datatypes.S (length ks)). split; [|split].
      * exists v. split; [|split].
        -- cbn. rewrite nth_error_app2 by (rewrite map_length; lia). rewrite map_length, Nat.sub_diag. reflexivity.
        -- intros w Hw'. rewrite app_comm_cons in Hw'. apply in_app_iff in Hw' as [Hw'|[<-|[]]]; [|apply (lt_irrefl _ _ _ HO)].
           destruct (flt w v) eqn:E; [|reflexivity]. rewrite <- (Hb2 w Hw'). symmetry. eapply (lt_trans _ _ _ HO); eassumption.
        -- intros j w Hj Hw'. rewrite app_comm_cons, nth_error_app1 in Hw' by (cbn [length]; rewrite map_length; exact Hj).
           destruct (fle w v) eqn:E; [|reflexivity].
           destruct (le_nan _ _ _ HO _ _ E) as [Nw Nv]. rewrite (le_not_lt _ _ _ HO) in E by assumption.
           destruct (lt_between _ _ _ HO v w (t_best_val t) Elt Nw) as [E2|E2].
           ++ rewrite E2 in E. discriminate E.
           ++ rewrite (Hb2 w) in E2 by (eapply nth_error_In; exact Hw'). discriminate E2.
      * cbn. rewrite nth_error_app2 by lia. rewrite Nat.sub_diag. reflexivity.
      * cbn. exact He.
    + assert (Hil : i < Datatypes.S (length ks)).
      { rewrite <- (map_length snd ks). change (i < length (v0 :: map snd ks)). apply nth_error_Some. rewrite Hb1. discriminate. }
      exists i. split; [|split].
      * exists (t_best_val t). split; [|split].
        -- rewrite app_comm_cons, nth_error_app1; [exact Hb1|]. cbn [length]. rewrite map_length. exact Hil.
        -- intros w Hw'. rewrite app_comm_cons in Hw'. apply in_app_iff in Hw' as [Hw'|[<-|[]]]; [apply Hb2; exact Hw'|exact Elt].
        -- intros j w Hj Hw'. rewrite app_comm_cons, nth_error_app1 in Hw' by (cbn [length]; rewrite map_length; lia). apply (Hb3 j w Hj Hw').
      * rewrite app_comm_cons, nth_error_app1 by (cbn [length]; exact Hil). exact Hi2.
      * exact Hi3.
  - intros Nv0. destruct (flt v (t_best_val t)) eqn:Elt; [apply (lt_nan _ _ _ HO _ _ Elt)|apply Hn; exact Nv0].
  - rewrite Hsnd, Hlen. pose proof (map_length snd ks) as Hml. unfold improved in *. clear improved.
    destruct (fle v (fsub (t_best_val t) (c_delta cf))) eqn:Eimp.
    + exists 0. split; [lia|]. split; [lia|]. split; [intros j Hj1 Hj2; lia|]. right.
      replace (Datatypes.S (length ks) - 0 - 1) with (length ks) by lia. intros (w & Hw1 & Hw2).
      rewrite nth_error_app2 in Hw1 by lia. rewrite Hml, Nat.sub_diag in Hw1. injection Hw1 as <-.
      rewrite firstn_app, firstn_all2, Hml, Nat.sub_diag in Hw2 by lia. cbn [firstn] in Hw2. rewrite app_nil_r, <- Hb in Hw2. congruence.
    + exists (Datatypes.S p). split; [lia|]. split; [lia|]. split.
      * intros j Hj1 Hj2. destruct (Nat.eq_dec j (length ks)) as [ -> |Hne].
        -- exists v. split; [rewrite nth_error_app2 by lia; rewrite Hml, Nat.sub_diag; reflexivity|].
           rewrite firstn_app, firstn_all2, Hml, Nat.sub_diag by lia. cbn [firstn]. rewrite app_nil_r, <- Hb. exact Eimp.
        -- apply insufficient_app; [lia|]. apply Hins; lia.
      * destruct Hsuf as [ -> |Hsuf]; [left; reflexivity|]. destruct (Nat.eq_dec p (length ks)) as [ -> |Hne]; [left; reflexivity|right].
        intros Hc. apply Hsuf. replace (Datatypes.S (length ks) - Datatypes.S p - 1) with (length ks - p - 1) in Hc by lia.
        refine (proj1 (insufficient_app _ v0 (map snd ks) [v] _ _) Hc). rewrite map_length. lia.
Qed.

Lemma loop_spec cf D DV start s0 v0 fuel : forall ks t t', Inv cf D DV start s0 v0 ks t ->
  epoch_loop update dloss vloss split2 perm fzero fadd fsub fdivn flt fle fuel cf D DV t = Ok t' ->
  exists ks', Inv cf D DV start s0 v0 (ks ++ ks') t' /\ stop cf start v0 (map snd (ks ++ ks')) (length (ks ++ ks')) /\
    forall k, length ks <= k -> k < length (ks ++ ks') -> ~ stop cf start v0 (map snd (ks ++ ks')) k.
Proof.
  induction fuel as [|fuel IH]; intros ks t t' HI H; cbn [epoch_loop] in H.
  - destruct (epoch_cond flt cf t) eqn:Ec; [discriminate H|]. injection H as <-. exists []. rewrite app_nil_r.
    split; [exact HI|]. split; [apply (cond_stop _ _ _ _ _ _ _ _ HI); exact Ec|]. intros k Hk1 Hk2. lia.
  - destruct (epoch_cond flt cf t) eqn:Ec.
    + apply rbind_ok in H as (t1 & Hb & H). destruct (body_inv _ _ _ _ _ _ _ _ _ HI Ec Hb) as (k1 & HI1).
      destruct (IH _ _ _ HI1 H) as (ks' & HI' & Hs & Hns). rewrite <- app_assoc in HI', Hs, Hns. cbn [app] in HI', Hs, Hns.
      exists (k1 :: ks'). split; [exact HI'|]. split; [exact Hs|]. intros k Hk1 Hk2.
      destruct (Nat.eq_dec k (length ks)) as [ -> |Hne].
      * rewrite map_app, must_stop_app by (rewrite map_length; lia). intros Hc. apply (cond_stop _ _ _ _ _ _ _ _ HI) in Hc. congruence.
      * apply Hns; [rewrite app_length; cbn; lia|exact Hk2].
    + injection H as <-. exists []. rewrite app_nil_r.
      split; [exact HI|]. split; [apply (cond_stop _ _ _ _ _ _ _ _ HI); exact Ec|]. intros k Hk1 Hk2. lia.
Qed.

(** the whole run *)
Theorem train_spec cf D DV rng start adams st0 rng0 c' fe bv be :
  train_loop update dloss vloss split2 perm fzero fadd fsub fdivn flt fle cf D DV rng start adams st0 rng0 = Ok (c', fe, bv, be) ->
  exists mrng key v0 ks s',
    split2 rng0 = (mrng, key) /\
    batched_val_loss vloss perm fzero fadd fdivn (c_val_batch cf) DV (map ox adams) st0 mrng key start = Ok v0 /\
    history (epoch_rel cf D DV) start (rng, (adams, st0, mrng)) ks s' /\
    fe = start + length ks /\
    (exists i, first_min flt fle (v0 :: map snd ks) i /\
       nth_error (((adams, st0, mrng), v0) :: ks) i = Some (c', bv) /\ be = start + Nat.pred i) /\
    (isnan v0 = false -> fle bv v0 = true) /\
    stop cf start v0 (map snd ks) (length ks) /\
    (forall k, k < length ks -> ~ stop cf start v0 (map snd ks) k).
Proof.
  intros H. unfold train_loop in H. destruct (split2 rng0) as [mrng key] eqn:Es.
  apply rbind_ok in H as (v0 & Hv & H). apply rbind_ok in H as (u & _ & H). apply rbind_ok in H as (t & Hl & H). injection H as <- <- <- <-.
  assert (HI : Inv cf D DV start (rng, (adams, st0, mrng)) v0 []
                 (mk_t rng start (adams, st0, mrng) (adams, st0, mrng) v0 v0 start (c_patience cf))).
  { constructor; cbn.
    - constructor.
    - lia.
    - reflexivity.
    - exists 0. split; [|split; [reflexivity|cbn; lia]]. exists v0. split; [reflexivity|]. split.
      + intros w [<-|[]]. apply (lt_irrefl _ _ _ HO).
      + intros j w Hj. lia.
    - auto.
    - exists 0. split; [lia|]. split; [lia|]. split; [intros; lia|]. left. reflexivity. }
  destruct (loop_spec _ _ _ _ _ _ _ _ _ _ HI Hl) as (ks & [Hh He Hb Hi Hn Hp] & Hs & Hns). cbn [app length] in *.
  exists mrng, key, v0, ks, (t_rng t, t_carry t). split; [reflexivity|]. split; [exact Hv|]. split; [exact Hh|]. split; [exact He|].
  split; [exact Hi|]. split; [|split; [exact Hs|intros k Hk; apply Hns; [lia|exact Hk]]].
  intros N0. specialize (Hn N0). destruct Hi as (i & (b & Hb1 & Hb2 & _) & Hi2 & _).
  assert (Eb : t_best_val t = b).
  { destruct i as [|i]; cbn in Hi2, Hb1; [congruence|]. rewrite nth_error_map, Hi2 in Hb1. cbn in Hb1. congruence. }
  rewrite (le_not_lt _ _ _ HO) by assumption. rewrite Eb, Hb2 by (left; reflexivity). reflexivity.
Qed.

(** the loop never runs out of fuel *)
Lemma loop_fuel cf D DV fuel : forall t, c_epochs cf <= t_epoch t + fuel ->
  epoch_loop update dloss vloss split2 perm fzero fadd fsub fdivn flt fle fuel cf D DV t <> Err OutOfFuel \/
  exists t', epoch_body update dloss vloss split2 perm fzero fadd fsub fdivn flt fle cf D DV t' = Err OutOfFuel.
Proof.
  induction fuel as [|fuel IH]; intros t Ht; cbn [epoch_loop].
  - destruct (epoch_cond flt cf t) eqn:Ec; [|left; discriminate]. unfold epoch_cond in Ec. rewrite !andb_true_iff in Ec.
    destruct Ec as [[[_ Ec] _] _]. apply Nat.ltb_lt in Ec. lia.
  - destruct (epoch_cond flt cf t) eqn:Ec; [|left; discriminate].
    destruct (epoch_body update dloss vloss split2 perm fzero fadd fsub fdivn flt fle cf D DV t) as [t1|e] eqn:Eb; cbn [rbind].
    + apply IH. unfold epoch_body in Eb. apply rbind_ok in Eb as ([[rng c] v] & Hw & H).
      destruct (flt v (t_best_val t)); destruct (after_epoch cf rng (t_epoch t) c) as [rng' c']; injection H as <-; cbn; lia.
    + destruct e; try (left; discriminate). right. exists t. exact Eb.
Qed.
End Loop.
