(** Property C125: interrupting a training. *)
From Coq Require Import Lia Arith.
From Verif Require Import Base Signals.
Local Open Scope list_scope.

(* ------------------------------------------------------------------ *)
(** ** What is wanted, without reference to killers *)

(** The epochs a training would have without any signal: up to the first one
    for which there is no reason to go on. *)
Definition full_length (epochs : nat) (more : nat -> bool) (n : nat) : Prop :=
  n <= epochs /\ (forall i, i < n -> more i = true) /\ (n = epochs \/ more n = false).
(** the first epoch in which signals arrive *)
Definition first_signal (arrive : nat -> list sig) (e : nat) : Prop :=
  arrive e <> [] /\ forall i, i < e -> arrive i = [].
(** a verbose training in the main thread that is traced without incident *)
Definition plain (t : training) : Prop :=
  g_verbose t = true /\ g_main_thread t = true /\ g_tracing t = [] /\ g_trace_error t = None.
(** a training that gets as far as creating a killer *)
Definition catches (a : action) : Prop :=
  match a with Train t => g_verbose t = true /\ g_main_thread t = true | Signal _ => False end.

(* ------------------------------------------------------------------ *)
(** ** Lemmas *)
Lemma asleep_all l b : exists b', deliver_all l (Some (mk_killer b false)) = (Some (mk_killer b' false), Swallowed) /\ (b' = true <-> b = true \/ l <> []).
Proof.
  revert b. induction l as [|s l IH]; intros b; cbn [deliver_all]; [exists b; split; [reflexivity|]; split; [now left|intros [H|H]; [exact H|now destruct H]]|].
  unfold deliver. cbn [kill_now active]. rewrite andb_false_r. destruct (IH true) as (b' & -> & H). exists b'. split; [reflexivity|].
  split; [intros _; right; discriminate|intros _; apply H; now left].
Qed.
Lemma loop_asleep_quiet more arrive fuel : forall d b, exists b' n, loop fuel false more arrive d (Some (mk_killer b false)) = (Some (mk_killer b' false), Done (d + n)) /\
  full_length fuel (fun i => more (d + i)) n.
Proof.
  induction fuel as [|fuel IH]; intros d b; cbn [loop].
  { exists b, 0. rewrite Nat.add_0_r. split; [reflexivity|]. split; [lia|]. split; [lia|now left]. }
  cbn [andb negb]. destruct (more d) eqn:M.
  - destruct (asleep_all (arrive d) b) as (b1 & -> & _). destruct (IH (S d) b1) as (b' & n & E & L1 & L2 & L3). exists b', (S n). rewrite E, <- Nat.add_succ_comm. split; [reflexivity|].
    split; [lia|]. split.
    + intros [|i] Hi; [now rewrite Nat.add_0_r|]. rewrite <- Nat.add_succ_comm. apply L2. lia.
    + destruct L3 as [L3|L3]; [left; lia|right]. now rewrite <- Nat.add_succ_comm.
  - exists b, 0. rewrite Nat.add_0_r. split; [reflexivity|]. split; [lia|]. split; [lia|right; now rewrite Nat.add_0_r].
Qed.
Lemma loop_killed fuel more arrive d : loop fuel true more arrive d (Some (mk_killer true false)) = (Some (mk_killer true false), Done d).
Proof. destruct fuel; reflexivity. Qed.
Lemma loop_verbose more arrive e n : forall fuel d, full_length fuel (fun i => more (d + i)) n -> (forall i, i < e -> arrive (d + i) = []) ->
  (arrive (d + e) <> [] /\ e < n -> loop fuel true more arrive d (Some (mk_killer false false)) = (Some (mk_killer true false), Done (d + S e))) /\
  (n <= e -> loop fuel true more arrive d (Some (mk_killer false false)) = (Some (mk_killer false false), Done (d + n))).
Proof.
  revert e. induction n as [|n IH]; intros e fuel d (L1 & L2 & L3) Z; (split; [intros [A L]|intros L]).
  - lia.
  - rewrite Nat.add_0_r in *. destruct fuel as [|fuel]; [reflexivity|]. cbn [loop kill_now andb negb]. destruct L3 as [L3|L3]; [discriminate L3|]. now rewrite L3.
  - destruct fuel as [|fuel]; [lia|]. cbn [loop kill_now andb negb]. pose proof (L2 0 ltac:(lia)) as M. cbv beta in M. rewrite Nat.add_0_r in M. rewrite M. destruct e as [|e].
    + rewrite Nat.add_0_r in A. destruct (asleep_all (arrive d) false) as (b' & -> & B). assert (b' = true) as -> by (apply B; now right). rewrite loop_killed. do 2 f_equal. lia.
    + pose proof (Z 0 ltac:(lia)) as Z0. rewrite Nat.add_0_r in Z0. rewrite Z0. cbn [deliver_all]. rewrite <- (Nat.add_succ_comm d (S e)). apply (IH e fuel (S d)).
      * split; [lia|]. split; [intros i Hi; specialize (L2 (S i)); cbv beta in L2; rewrite <- Nat.add_succ_comm in L2; apply L2; lia|]. destruct L3 as [L3|L3]; [left; lia|right; now rewrite <- Nat.add_succ_comm in L3].
      * intros i Hi. specialize (Z (S i)). rewrite <- Nat.add_succ_comm in Z. apply Z. lia.
      * split; [|lia]. now rewrite <- Nat.add_succ_comm in A.
  - destruct fuel as [|fuel]; [lia|]. cbn [loop kill_now andb negb]. pose proof (L2 0 ltac:(lia)) as M. cbv beta in M. rewrite Nat.add_0_r in M. rewrite M. destruct e as [|e]; [lia|].
    pose proof (Z 0 ltac:(lia)) as Z0. rewrite Nat.add_0_r in Z0. rewrite Z0. cbn [deliver_all]. rewrite <- Nat.add_succ_comm. apply (IH e fuel (S d)); [| |lia].
    + split; [lia|]. split; [intros i Hi; specialize (L2 (S i)); cbv beta in L2; rewrite <- Nat.add_succ_comm in L2; apply L2; lia|]. destruct L3 as [L3|L3]; [left; lia|right; now rewrite <- Nat.add_succ_comm in L3].
    + intros i Hi. specialize (Z (S i)). rewrite <- Nat.add_succ_comm in Z. apply Z. lia.
Qed.

(* ------------------------------------------------------------------ *)
(** ** In a verbose training *)

(** The first signal ends the training after the epoch it arrives in, however
    many more follow, and without any exception. *)
Theorem C125_first t h e n : plain t -> full_length (g_epochs t) (g_more t) n -> first_signal (g_arrive t) e -> e < n ->
  snd (train t h) = Done (S e).
Proof.
  intros (V & M & T & X) L [A Z] E. unfold train. rewrite V, M, T, X. cbn [andb negb deliver_all kill_now].
  rewrite (proj1 (loop_verbose (g_more t) (g_arrive t) e n (g_epochs t) 0 L Z)); [reflexivity|]. now split.
Qed.
(** A training that no signal reaches has all its epochs, whatever happened before. *)
Theorem C125_undisturbed t h n : plain t -> full_length (g_epochs t) (g_more t) n -> (forall i, i < n -> g_arrive t i = []) ->
  snd (train t h) = Done n.
Proof.
  intros (V & M & T & X) L Z. unfold train. rewrite V, M, T, X. cbn [andb negb deliver_all kill_now].
  now rewrite (proj2 (loop_verbose (g_more t) (g_arrive t) n n (g_epochs t) 0 L Z)).
Qed.

(** "if a second signal is received, exit immediately" (L105): two signals in
    the same epoch end a training with an exception. *)
Definition second_signal_always : Prop :=
  forall t h e, g_verbose t = true -> g_main_thread t = true -> g_trace_error t = None -> g_tracing t = [] ->
    first_signal (g_arrive t) e -> 2 <= length (g_arrive t e) -> (exists n, full_length (g_epochs t) (g_more t) n /\ e < n) ->
    exists s k, snd (train t h) = Stopped s k.
Theorem C125_second_refuted : ~ second_signal_always.
Proof.
  intros H. destruct (H (mk_training true true [] None 5 (fun _ => true) (fun i => if i =? 2 then [SigInt; SigInt; SigInt] else [])) None 2) as (s & k & E);
    [reflexivity|reflexivity|reflexivity|reflexivity| | | |].
  - split; [discriminate|]. intros i Hi. cbn [g_arrive]. destruct (Nat.eqb_spec i 2) as [->|_]; [lia|reflexivity].
  - cbn. lia.
  - exists 5. split; [|lia]. split; [cbn; lia|]. split; [reflexivity|now left].
  - vm_compute in E. discriminate E.
Qed.
(** Indeed no verbose training is ever interrupted at once once its loop runs. *)
Theorem C125_second_never t h s k : plain t -> snd (train t h) <> Stopped s k.
Proof.
  intros (V & M & T & X). unfold train. rewrite V, M, T, X. cbn [andb negb deliver_all kill_now]. generalize 0 as d. generalize false at 1 as b.
  induction (g_epochs t) as [|f IH]; intros b d; cbn [loop]; [discriminate|].
  destruct (negb _ && _); [|discriminate]. destruct (asleep_all (g_arrive t d) b) as (b' & -> & _). apply IH.
Qed.
(** While the function is traced the second signal does interrupt. *)
Theorem C125_second_tracing_partial t h s1 s2 l : g_verbose t = true -> g_main_thread t = true -> g_tracing t = s1 :: s2 :: l ->
  snd (train t h) = Stopped SigInt 0.
Proof. intros V M T. unfold train. now rewrite V, M, T. Qed.

Example C125_example :
  let t := mk_training true true [] None 5 (fun i => i <? 4) (fun i => if i =? 2 then [SigTerm; SigInt] else []) in
  plain t /\ full_length (g_epochs t) (g_more t) 4 /\ first_signal (g_arrive t) 2 /\ snd (train t None) = Done 3 /\
  snd (train (mk_training true true [SigInt; SigInt] None 5 (fun _ => true) (fun _ => [])) None) = Stopped SigInt 0.
Proof.
  cbv zeta. repeat apply conj; try reflexivity.
  - cbn. lia.
  - cbn [g_more]. intros i Hi. now apply Nat.ltb_lt.
  - now right.
  - discriminate.
  - intros i Hi. cbn [g_arrive]. destruct (Nat.eqb_spec i 2) as [->|_]; [lia|reflexivity].
Qed.

(* ------------------------------------------------------------------ *)
(** ** Outside of verbose trainings *)

(** Signals keep the meaning they have in Python exactly as long as no verbose
    training has been started in the main thread. *)
Lemma deliver_none s h : fst (deliver s h) = None <-> h = None.
Proof. destruct h as [[k a]|]; cbn; [|now split]. destruct (k && a); cbn; split; discriminate. Qed.
Lemma deliver_all_none l : forall h, fst (deliver_all l h) = None <-> h = None.
Proof.
  induction l as [|s l IH]; intros h; cbn [deliver_all]; [reflexivity|]. pose proof (deliver_none s h) as D. destruct (deliver s h) as [h' [|s']]; cbn [fst] in *; [|exact D].
  rewrite IH. exact D.
Qed.
Lemma loop_none v more arrive fuel : forall d h, fst (loop fuel v more arrive d h) = None <-> h = None.
Proof.
  induction fuel as [|fuel IH]; intros d h; cbn [loop]; [reflexivity|]. destruct (negb _ && _); [|reflexivity].
  pose proof (deliver_all_none (arrive d) h) as D. destruct (deliver_all (arrive d) h) as [h' [|s]]; cbn [fst] in *; [|exact D]. rewrite IH. exact D.
Qed.
Lemma act_none a h : act a h = None <-> h = None /\ ~ catches a.
Proof.
  destruct a as [t|s]; cbn [act catches]; [|rewrite deliver_none; tauto]. unfold train. destruct (g_verbose t), (g_main_thread t); cbn [andb negb]; try (cbn [fst]; split; [intros ->; split; [reflexivity|intros []; discriminate]|tauto]).
  - split; [|intros [_ H]; exfalso; apply H; now split]. intros H. exfalso.
    pose proof (deliver_all_none (g_tracing t) (Some (mk_killer false true))) as D. destruct (deliver_all (g_tracing t) (Some (mk_killer false true))) as [h2 [|s]]; cbn [fst] in *.
    + destruct (g_trace_error t); cbn [fst] in H; [apply D in H; discriminate|]. apply loop_none in H. destruct h2; [discriminate|]. discriminate (proj1 D eq_refl).
    + apply D in H. discriminate.
  - pose proof (deliver_all_none (g_tracing t) h) as D. destruct (deliver_all (g_tracing t) h) as [h2 [|s]]; cbn [fst] in *.
    + destruct (g_trace_error t); cbn [fst]; [|rewrite loop_none]; rewrite D; (split; [intros ->; split; [reflexivity|intros []; discriminate]|tauto]).
    + rewrite D. split; [intros ->; split; [reflexivity|intros []; discriminate]|tauto].
  - pose proof (deliver_all_none (g_tracing t) h) as D. destruct (deliver_all (g_tracing t) h) as [h2 [|s]]; cbn [fst] in *.
    + destruct (g_trace_error t); cbn [fst]; [|rewrite loop_none]; rewrite D; (split; [intros ->; split; [reflexivity|intros []; discriminate]|tauto]).
    + rewrite D. split; [intros ->; split; [reflexivity|intros []; discriminate]|tauto].
Qed.
Lemma history_none l : history l = None <-> Forall (fun a => ~ catches a) l.
Proof.
  unfold history. rewrite <- (rev_involutive l). induction (rev l) as [|a r IH]; cbn [rev]; [split; [constructor|reflexivity]|].
  rewrite fold_left_app. cbn [fold_left]. rewrite act_none, IH, Forall_app. split; intros [H1 H2]; (split; [exact H1|]).
  - constructor; [exact H2|constructor].
  - now inversion H2.
Qed.
Theorem C125_default_iff l : Forall (fun a => ~ catches a) l <-> forall s, deliver s (history l) = (None, Interrupted s).
Proof.
  rewrite <- history_none. split; [intros ->; reflexivity|]. intros H. specialize (H SigTerm). destruct (history l) as [[k a]|]; [|reflexivity].
  unfold deliver in H. destruct (_ && _); discriminate.
Qed.
(** Then a training that is not verbose is interrupted at once by a signal. *)
Theorem C125_quiet_partial l t e n s r : Forall (fun a => ~ catches a) l -> g_verbose t = false -> g_tracing t = [] -> g_trace_error t = None ->
  full_length (g_epochs t) (g_more t) n -> first_signal (g_arrive t) e -> e < n -> g_arrive t e = s :: r ->
  snd (train t (history l)) = Stopped s e.
Proof.
  intros H V T X L [_ Z] E A. apply history_none in H. rewrite H. unfold train. rewrite V, T, X. cbn [andb deliver_all].
  assert (G : forall m fuel d, d + m = e -> d + fuel = g_epochs t -> loop fuel false (g_more t) (g_arrive t) d None = (None, Stopped s e)).
  { destruct L as (L1 & L2 & _). induction m as [|m IH]; intros [|fuel] d Hm Hf; try lia; cbn [loop andb negb]; rewrite (L2 d ltac:(lia)).
    - rewrite Nat.add_0_r in Hm. subst d. now rewrite A.
    - rewrite (Z d ltac:(lia)). cbn [deliver_all]. apply IH; lia. }
  now rewrite (G e (g_epochs t) 0 eq_refl eq_refl).
Qed.

(** After a verbose training no signal has any effect any more ... *)
Lemma train_asleep t h : plain t -> exists b, fst (train t h) = Some (mk_killer b false).
Proof.
  intros (V & M & T & X). unfold train. rewrite V, M, T, X. cbn [andb negb deliver_all kill_now]. generalize 0 as d. generalize false at 1 as b.
  induction (g_epochs t) as [|f IH]; intros b d; cbn [loop]; [eexists; reflexivity|].
  destruct (negb _ && _); [|eexists; reflexivity]. destruct (asleep_all (g_arrive t d) b) as (b' & -> & _). apply IH.
Qed.
Theorem C125_after_never t h signals : plain t -> snd (deliver_all signals (fst (train t h))) = Swallowed.
Proof. intros P. destruct (train_asleep t h P) as [b ->]. destruct (asleep_all signals b) as (b' & -> & _). reflexivity. Qed.
(** ... and a later training that is not verbose runs to its end whatever signals arrive. *)
Theorem C125_later_quiet_never t h signals t' n : plain t -> g_verbose t' = false -> g_trace_error t' = None ->
  full_length (g_epochs t') (g_more t') n -> snd (train t' (fst (deliver_all signals (fst (train t h))))) = Done n.
Proof.
  intros P V X L. destruct (train_asleep t h P) as [b ->]. destruct (asleep_all signals b) as (b1 & -> & _). cbn [fst].
  unfold train. rewrite V, X. cbn [andb]. destruct (asleep_all (g_tracing t') b1) as (b2 & -> & _).
  destruct (loop_asleep_quiet (g_more t') (g_arrive t') (g_epochs t') 0 b2) as (b3 & m & -> & L'). cbn [snd]. f_equal. cbn [Nat.add] in *.
  destruct L as (A1 & A2 & A3), L' as (B1 & B2 & B3). destruct (Nat.lt_trichotomy m n) as [K|[K|K]]; [|exact K|]; exfalso.
  - specialize (A2 m K). destruct B3 as [B3|B3]; [lia|congruence].
  - specialize (B2 n K). destruct A3 as [A3|A3]; [lia|congruence].
Qed.
Definition after_training_always : Prop := forall t s, snd (train t None) = Done (g_epochs t) -> deliver s (fst (train t None)) = (None, Interrupted s).
Theorem C125_after_refuted : ~ after_training_always.
Proof. intros H. specialize (H (mk_training true true [] None 2 (fun _ => true) (fun _ => [])) SigInt eq_refl). vm_compute in H. discriminate H. Qed.

(** A verbose training cannot be started outside the main thread. *)
Definition any_thread_always : Prop := forall t h, g_tracing t = [] -> g_trace_error t = None -> (forall i, g_arrive t i = []) -> exists n, snd (train t h) = Done n.
Theorem C125_thread_refuted : ~ any_thread_always.
Proof. intros H. destruct (H (mk_training true false [] None 2 (fun _ => true) (fun _ => [])) None eq_refl eq_refl (fun _ => eq_refl)) as [n E]. discriminate E. Qed.

Example C125_history :
  let quiet := mk_training false true [] None 3 (fun _ => true) (fun i => if i =? 1 then [SigTerm] else []) in
  let loud := mk_training true true [] None 3 (fun _ => true) (fun _ => []) in
  snd (train quiet (history [Train quiet; Signal SigInt])) = Stopped SigTerm 1 /\
  snd (train quiet (history [Train loud; Signal SigInt])) = Done 3 /\
  plain loud /\ Forall (fun a => ~ catches a) [Train quiet; Signal SigInt] /\
  snd (train loud (history [Train loud; Signal SigInt; Signal SigInt])) = Done 3.
Proof.
  cbv zeta. repeat apply conj; try reflexivity. constructor; [intros [H _]; discriminate H|]. constructor; [intros H; exact H|constructor].
Qed.

Print Assumptions C125_first.
Print Assumptions C125_later_quiet_never.
Print Assumptions C125_default_iff.
